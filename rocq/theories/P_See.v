(** P_See.v — vertex insertion and the boundary and holes it is given: what is
    removed can be reached from the new vertex, and what cannot be reached is
    left alone. *)

From Coq Require Import List Bool ZArith Arith Lia Permutation.
From Verif Require Import Base Arith Geometry Elements Polyline Procedures Spec SpecZ P_Base P_Trn P_Poly P_Vertices ArithF Samples.
Import ListNotations.
Local Open Scope nat_scope.
Local Open Scope list_scope.

Section See.
  Context {A : Arith} (H : HashOrder).
  Notation vertex := (vertex A).
  Notation edge := (edge A).
  Notation triangle := (triangle A).
  Notation triangulation := (triangulation A).
  Notation polyline := (polyline A).
  Notation solve_state := (solve_state (A:=A)).
  Notation conflict_map := (conflict_map (A:=A)).
  Variables (bd : option polyline) (hs : list polyline).

  Lemma line_way : forall (t : triangle) v, may_insert_line t v = Ok (way t v).
  Proof. intros t v. unfold may_insert_line, way. destruct (is_ghost t); reflexivity. Qed.

  Lemma fold_last : forall X (f : X -> res bool) l a b, foldM (fun _ x => f x) a l = Ok b -> (l = [] /\ b = a) \/ exists x, In x l /\ f x = Ok b.
  Proof.
    intros X f l. induction l as [|x l IH]; intros a b E; cbn [foldM] in E.
    - left. split; [reflexivity|congruence].
    - apply bind_ok in E. destruct E as (s & Es & E). right. destruct (IH _ _ E) as [(-> & ->)|(y & Hy & Ey)]; [exists x|exists y]; cbn; auto.
  Qed.

  Lemma may_sees : forall n p (t : triangle) v m, may_insert_triangle H n p t v bd hs = Ok m ->
    (m = true -> sees_past_one n bd hs t v) /\ (sees_past_all n bd hs t v -> m = true).
  Proof.
    intros n p t v m E. unfold may_insert_triangle in E. rewrite line_way in E. cbn [bind] in E.
    apply bind_ok in E. destruct E as (i & Ei & E). apply bind_ok in E. destruct E as (o & Eo & E). injection E as <-.
    assert ((i = true -> in_bounds n bd t v) /\ (in_bounds n bd t v -> i = true)) as [I1 I2].
    { unfold inside_boundary in Ei. unfold in_bounds. destruct bd as [b|]; [|split; [trivial|intros _; congruence]].
      apply bind_ok in Ei. destruct Ei as (c & Ec & Ei). injection Ei as <-. split.
      - intros Q. destruct c as [[c k]|]; [|discriminate Q]. exists c, k. split; [exact Ec|]. intros ->. discriminate Q.
      - intros (c' & k & Ec' & Hc). rewrite Ec in Ec'. injection Ec' as ->. destruct c'; try reflexivity. congruence. }
    unfold outside_holes in Eo. pose proof (fold_last _ _ _ _ _ Eo) as Hl. pose proof (ho_perm H (2 :: p) _ hs) as P.
    assert (forall h b, (let! o := poly_continence n h (way t v) in Ok (match o with Some (c, _) => negb (cont_eqb c Inside) | None => false end)) = Ok b ->
      (b = true -> past_hole n h t v) /\ (past_hole n h t v -> b = true)) as Hh.
    { intros h b Eh. apply bind_ok in Eh. destruct Eh as (c & Ec & Eh). injection Eh as <-. split.
      - intros Q. destruct c as [[c k]|]; [|discriminate Q]. exists c, k. split; [exact Ec|]. intros ->. discriminate Q.
      - intros (c' & k & Ec' & Hc). rewrite Ec in Ec'. injection Ec' as ->. destruct c'; try reflexivity. congruence. }
    split.
    - intros Q. apply andb_true_iff in Q. destruct Q as [-> ->]. split; [auto|]. destruct Hl as [(E & _)|(h & Ih & Eh)].
      + left. destruct hs as [|h l]; [reflexivity|]. exfalso. pose proof (ho_perm H p _ (h :: l)) as P'. rewrite E in P'. apply Permutation_sym, Permutation_nil in P'. discriminate P'.
      + right. exists h. split; [apply (Permutation_in _ (Permutation_sym (ho_perm H p _ hs))); exact Ih|]. apply (Hh h true Eh). reflexivity.
    - intros (Hb & Ha). rewrite (I2 Hb). cbn [andb]. destruct Hl as [(_ & ->)|(h & Ih & Eh)]; [reflexivity|]. apply (Hh h o Eh). apply Ha.
      apply (Permutation_in _ (Permutation_sym (ho_perm H p _ hs))). exact Ih.
  Qed.

  (** *** Distribution *)
  Definition hit_from n (t : triangle) (v : vertex) : Prop := in_circle t v /\ sees_past_one n bd hs t v.
  Lemma split_sees : forall n (t : triangle) vs p conf rest, split_conflicts H n p t vs bd hs = Ok (conf, rest) ->
    (forall v, In v conf -> In v vs /\ hit_from n t v) /\ (forall v, In v rest -> In v vs /\ ~ (in_circle t v /\ sees_past_all n bd hs t v)).
  Proof.
    intros n t vs. induction vs as [|v vs IH]; intros p conf rest E; cbn [split_conflicts] in E.
    - injection E as <- <-. split; intros v [].
    - apply bind_ok in E. destruct E as (m & Em & E). apply bind_ok in E. destruct E as ([c r] & Es & E). destruct (IH _ _ _ Es) as [I1 I2].
      destruct (may_sees _ _ _ _ _ Em) as [M1 M2]. destruct (cont_eqb (encircles t v) Inside) eqn:C; [destruct m|]; cbn [andb] in E; injection E as <- <-.
      + split; [|intros w Hw; destruct (I2 w Hw); split; [right|]; assumption]. intros w [<-|Hw]; [|destruct (I1 w Hw); split; [right|]; assumption].
        split; [left; reflexivity|]. split; [unfold in_circle; destruct (encircles t v); try discriminate C; reflexivity|]. apply M1. reflexivity.
      + split; [intros w Hw; destruct (I1 w Hw); split; [right|]; assumption|]. intros w [<-|Hw]; [|destruct (I2 w Hw); split; [right|]; assumption].
        split; [left; reflexivity|]. intros (_ & Q). specialize (M2 Q). discriminate M2.
      + split; [intros w Hw; destruct (I1 w Hw); split; [right|]; assumption|]. intros w [<-|Hw]; [|destruct (I2 w Hw); split; [right|]; assumption].
        split; [left; reflexivity|]. intros (Q & _). unfold in_circle in Q. rewrite Q in C. discriminate C.
  Qed.

  (** *** What is removed *)
  Definition reached (req : list vertex) (t : triangle) : Prop :=
    exists v n, In v req /\ (in_circle t v \/ on_rim t v) /\ sees_past_one n bd hs t v.
  Definition seen_map (req : list vertex) (cm : conflict_map) : Prop :=
    forall t l, In (t, l) cm -> forall v, In v l -> In v req /\ exists n, hit_from n t v.
  Definition seen_state (req : list vertex) (s : solve_state) : Prop :=
    seen_map req (ss_cm s) /\ (forall v, In v (ss_rem s) -> In v req) /\ forall t, In t (ss_del s) -> reached req t.

  Lemma seen_mdel : forall req t cm, seen_map req cm -> seen_map req (mdel tdec t cm).
  Proof. intros req t cm Hm t' l Hi. apply (Hm t' l). apply mdel_In in Hi. apply Hi. Qed.
  Lemma seen_add : forall req t conf cm n, seen_map req cm -> (forall v, In v conf -> In v req /\ hit_from n t v) -> seen_map req (add_conflicts t conf cm).
  Proof.
    intros req t conf cm n Hm Hc t' l Hi v Hv. destruct (add_conflicts_In _ _ _ _ _ Hi) as [Hi'|(-> & _ & old & -> & Ho)]; [apply (Hm t' l Hi' v Hv)|].
    apply in_app_or in Hv. destruct Hv as [Hv|Hv].
    - destruct Ho as [-> | Ho]; [destruct Hv|apply (Hm t old Ho v Hv)].
    - destruct (Hc v Hv) as [Q1 Q2]. split; [exact Q1|exists n; exact Q2].
  Qed.
  Lemma conflicting_cases : forall (t : triangle) v, is_conflicting t v = true -> in_circle t v \/ on_rim t v.
  Proof.
    intros t v Q. unfold is_conflicting in Q. apply orb_true_iff in Q. destruct Q as [Q|Q].
    - left. unfold in_circle. destruct (encircles t v); try discriminate Q; reflexivity.
    - right. apply andb_true_iff in Q. exact Q.
  Qed.

  Lemma cavity_seen : forall req cs n p v pending s s', cavity_loop H n p cs bd hs v pending s = Ok s' -> In v req -> seen_state req s -> seen_state req s'.
  Proof.
    intros req cs n. induction n as [|n IH]; intros p v pending s s' E Hv Hs; [discriminate E|]. cbn [cavity_loop] in E. destruct pending as [|e pending]; [injection E as <-; exact Hs|].
    apply bind_ok in E. destruct E as (outer & Eo & E). apply bind_ok in E. destruct E as (m & Em & E). destruct Hs as (Hm & Hr & Hd).
    destruct (is_conflicting outer v && negb (is_constrained cs e) && m) eqn:C.
    - apply andb_true_iff in C. destruct C as [C ->]. apply andb_true_iff in C. destruct C as [C _]. apply (IH _ _ _ _ _ E Hv). split; [apply seen_mdel; exact Hm|]. cbn [ss_rem ss_del]. split.
      + intros w Hw. destruct (mget tdec outer (ss_cm s)) as [l|] eqn:G; [|apply Hr; exact Hw]. apply in_app_or in Hw. destruct Hw as [Hw|Hw]; [apply Hr; exact Hw|].
        apply mget_In in G. apply (Hm outer l G w Hw).
      + intros t Ht. apply hadd_In in Ht. destruct Ht as [-> | Ht]; [|apply Hd; exact Ht]. exists v, n. split; [exact Hv|]. split; [apply conflicting_cases; exact C|].
        apply (may_sees _ _ _ _ _ Em). reflexivity.
    - apply bind_ok in E. destruct E as ([cm' rem'] & Es & E). unfold distribute_conflicts in Es. apply bind_ok in Es. destruct Es as ([conf rest] & Es & Q). injection Q as <- <-.
      destruct (split_sees _ _ _ _ _ _ Es) as [S1 S2]. apply (IH _ _ _ _ _ E Hv). split; [|split; [|exact Hd]]; cbn [ss_cm ss_rem].
      + apply (seen_add req _ conf _ n Hm). intros w Hw. destruct (S1 w Hw) as [I1 I2]. split; [apply Hr; exact I1|exact I2].
      + intros w Hw. apply Hr. apply S2. exact Hw.
  Qed.
  Lemma solve_seen : forall req cs n p s s', solve_loop H n p cs bd hs s = Ok s' -> seen_state req s -> seen_state req s'.
  Proof.
    intros req cs n. induction n as [|n IH]; intros p s s' E Hs; [discriminate E|]. cbn [solve_loop] in E. destruct (ho H (1 :: p) _ (map fst (ss_cm s))) as [|t l]; [injection E as <-; exact Hs|].
    apply bind_ok in E. destruct E as (vs & Ev & E). apply bind_ok in E. destruct E as (v & Eh & E). apply bind_ok in E. destruct E as (s1 & Ec & E). apply (IH _ _ _ E).
    destruct (mget tdec t (ss_cm s)) as [vs'|] eqn:G; [|discriminate Ev]. cbn [unwrap] in Ev. injection Ev as ->. apply mget_In in G.
    destruct (hd_error (rev vs)) as [v'|] eqn:G'; [|discriminate Eh]. cbn [unwrap] in Eh. injection Eh as ->. apply hd_rev_last in G'.
    destruct Hs as (Hm & Hr & Hd). assert (In v vs) as Iv by (rewrite G'; apply in_or_app; right; left; reflexivity).
    destruct (Hm t vs G v Iv) as (Hq & k & Hc & Hk). apply (cavity_seen _ _ _ _ _ _ _ _ Ec Hq). split; [apply seen_mdel; exact Hm|]. cbn [ss_rem ss_del]. split.
    - intros w Hw. apply in_app_or in Hw. destruct Hw as [Hw|Hw]; [apply Hr; exact Hw|]. apply in_removelast in Hw. apply (Hm t vs G w Hw).
    - intros t' Ht. apply hadd_In in Ht. destruct Ht as [-> | Ht]; [|apply Hd; exact Ht]. exists v, k. split; [exact Hq|]. split; [left; exact Hc|exact Hk].
  Qed.
  Lemma distribute_seen : forall req n ts p cm vs cm' rest, distribute_all H n p ts cm vs bd hs = Ok (cm', rest) -> seen_map req cm -> (forall v, In v vs -> In v req) ->
    seen_map req cm' /\ forall v, In v rest -> In v req.
  Proof.
    intros req n ts. induction ts as [|t ts IH]; intros p cm vs cm' rest E Hm Hv; cbn [distribute_all] in E; [injection E as <- <-; split; assumption|].
    destruct vs as [|v vs]; [injection E as <- <-; split; assumption|]. apply bind_ok in E. destruct E as ([cm1 vs1] & E1 & E).
    unfold distribute_conflicts in E1. apply bind_ok in E1. destruct E1 as ([conf r] & Es & Q). injection Q as <- <-. destruct (split_sees _ _ _ _ _ _ Es) as [S1 S2].
    apply (IH _ _ _ _ _ E).
    - apply (seen_add req _ conf _ n Hm). intros w Hw. destruct (S1 w Hw) as [I1 I2]. split; [apply Hv; exact I1|exact I2].
    - intros w Hw. apply Hv. apply S2. exact Hw.
  Qed.

  Theorem removed_reached : forall n p (tr : triangulation) vs cs tr' inc del, vertices_include H n p tr vs cs bd hs = Ok (tr', inc, del) ->
    forall t, In t del -> exists v k, In v vs /\ (in_circle t v \/ on_rim t v) /\ sees_past_one k bd hs t v.
  Proof.
    intros n p tr vs cs tr' inc del E. unfold vertices_include in E. apply bind_ok in E. destruct E as ([cm rem] & Ed & E). apply bind_ok in E. destruct E as (s & Es & E). injection E as <- <- <-.
    destruct (distribute_seen vs _ _ _ _ _ _ _ Ed) as [D1 D2]; [intros t l []|intros v Hv; apply filter_In in Hv; apply Hv|]. unfold solve_conflicts in Es.
    apply (solve_seen vs _ _ _ _ _ Es). split; [exact D1|]. split; [exact D2|intros t []].
  Qed.

  (** *** What sees nothing changes nothing *)
  Lemma distribute_blind : forall n ts p vs cm' rest, distribute_all H n p ts [] vs bd hs = Ok (cm', rest) -> (forall t v, In t ts -> In v vs -> ~ hit_from n t v) -> cm' = [].
  Proof.
    intros n ts. induction ts as [|t ts IH]; intros p vs cm' rest E Hb; cbn [distribute_all] in E; [injection E as <- <-; reflexivity|].
    destruct vs as [|v vs]; [injection E as <- <-; reflexivity|]. apply bind_ok in E. destruct E as ([cm1 vs1] & E1 & E).
    unfold distribute_conflicts in E1. apply bind_ok in E1. destruct E1 as ([conf r] & Es & Q). injection Q as <- <-. destruct (split_sees _ _ _ _ _ _ Es) as [S1 S2].
    destruct conf as [|w conf].
    - cbn [add_conflicts] in E. apply (IH _ _ _ _ E). intros t' v' Ht Hv. apply Hb; [right; exact Ht|]. apply S2. exact Hv.
    - exfalso. destruct (S1 w (or_introl eq_refl)) as [I1 I2]. apply (Hb t w (or_introl eq_refl) I1 I2).
  Qed.
  Theorem blind_changes_nothing : forall n p (tr : triangulation) vs cs tr' inc del, vertices_include H n p tr vs cs bd hs = Ok (tr', inc, del) ->
    (forall t v, In t (tris tr) -> In v vs -> ~ (in_circle t v /\ sees_past_one n bd hs t v)) -> tr' = tr /\ inc = [] /\ del = [].
  Proof.
    intros n p tr vs cs tr' inc del E Hb. unfold vertices_include in E. apply bind_ok in E. destruct E as ([cm rem] & Ed & E). apply bind_ok in E. destruct E as (s & Es & E). injection E as <- <- <-.
    rewrite (distribute_blind _ _ _ _ _ _ Ed) in Es.
    - unfold solve_conflicts in Es. destruct n as [|n]; [discriminate Es|]. cbn [solve_loop ss_cm map] in Es. rewrite ho_nil in Es. injection Es as <-. repeat split.
    - intros t v Ht Hv. apply filter_In in Hv. apply Hb; [|apply Hv]. apply ho_In in Ht. exact Ht.
  Qed.

  (** *** A vertex by itself goes in as soon as it sees one triangle of its own *)
  Lemma distribute_one : forall n ts p v cm' rest, distribute_all H n p ts [] [v] bd hs = Ok (cm', rest) ->
    (exists t, In t ts /\ in_circle t v /\ sees_past_all n bd hs t v) -> rest = [].
  Proof.
    intros n ts. induction ts as [|t ts IH]; intros p v cm' rest E (t0 & Ht & Hc & Ha); [destruct Ht|]. cbn [distribute_all] in E. apply bind_ok in E. destruct E as ([cm1 vs1] & E1 & E).
    unfold distribute_conflicts in E1. apply bind_ok in E1. destruct E1 as ([conf r] & Es & Q). injection Q as <- <-. destruct (split_sees _ _ _ _ _ _ Es) as [S1 S2].
    pose proof (proj1 (split_conflicts_spec H _ _ _ _ _ _ _ _ Es)) as P. destruct conf as [|w conf].
    - cbn [app] in P. apply Permutation_length_1_inv in P. subst r. cbn [add_conflicts] in E. apply (IH _ _ _ _ E). destruct Ht as [<-|Ht].
      + exfalso. apply (S2 v (or_introl eq_refl)). split; assumption.
      + exists t0. repeat split; try assumption; apply Ha.
    - assert (r = []) as -> by (pose proof (Permutation_length P) as L; cbn in L; rewrite app_length in L; destruct r; [reflexivity|cbn in L; lia]).
      destruct ts; cbn [distribute_all] in E; injection E as _ <-; reflexivity.
  Qed.

  Definition lone_state (v : vertex) (s : solve_state) : Prop := accounted [] [v] s /\ ss_rem s = [].
  Definition lone_cavity (v : vertex) (w : vertex) (pending : list edge) (s : solve_state) : Prop := acc_cavity [v] w pending s /\ ss_rem s = [].
  Lemma lone_empty : forall v w (s : solve_state), accounted [w] [v] s -> listed (ss_cm s) = [].
  Proof.
    intros v w s (_ & done & P & _). apply Permutation_length in P. cbn [length app] in P. rewrite !app_length in P. destruct (listed (ss_cm s)); [reflexivity|cbn in P; lia].
  Qed.
  Lemma lone_remove : forall v cs, step_remove cs (lone_cavity v).
  Proof.
    intros v cs w e pending s outer (Ha & Hr) Ho Hc Hn. split; [apply (acc_remove cs [v] w e pending s outer Ha Ho Hc Hn)|]. cbn [ss_rem]. destruct (mget tdec outer (ss_cm s)) as [l|] eqn:G; [|exact Hr].
    rewrite Hr. cbn [app]. pose proof (lone_empty _ _ _ (proj1 Ha)) as L. apply mget_In in G. destruct l as [|x l]; [reflexivity|]. exfalso.
    assert (In x (listed (ss_cm s))) as I by (apply (listed_In _ _ _ _ G); left; reflexivity). rewrite L in I. destruct I.
  Qed.
  Lemma lone_include : forall v, step_include H bd hs (lone_cavity v).
  Proof.
    intros v n p w e pending s outer conf rest (Ha & Hr) Ho Hs. split; [apply (acc_include H bd hs [v] n p w e pending s outer conf rest Ha Ho Hs)|]. cbn [ss_rem].
    rewrite Hr in Hs. cbn [split_conflicts] in Hs. injection Hs as _ <-. reflexivity.
  Qed.
  Lemma lone_start : forall v, step_start (lone_cavity v) (lone_state v).
  Proof.
    intros v t vs w s (Ha & Hr) G Hh. split; [apply (acc_start [v] t vs w s Ha G Hh)|]. cbn [ss_rem]. rewrite Hr. cbn [app]. pose proof (hd_rev_last _ _ Hh) as El.
    destruct Ha as (Hf & done & P & _). rewrite (listed_mdel _ _ _ (proj1 Hf) G) in P. apply Permutation_length in P. rewrite El in P. cbn [length app] in P. rewrite !app_length in P. cbn [length] in P.
    destruct (removelast vs); [reflexivity|cbn in P; lia].
  Qed.
  Theorem alone_inserted : forall n p (tr : triangulation) v cs tr' inc del, vertices_include H n p tr [v] cs bd hs = Ok (tr', inc, del) -> ~ In v (trn_vertices tr) ->
    (exists t, In t (tris tr) /\ in_circle t v /\ sees_past_all n bd hs t v) -> exists t, In t inc /\ corner_of v t.
  Proof.
    intros n p tr v cs tr' inc del E Hn (t0 & Ht0 & Hc & Ha). unfold vertices_include in E. apply bind_ok in E. destruct E as ([cm rem] & Ed & E). apply bind_ok in E. destruct E as (s & Es & E). injection E as <- <- <-.
    assert (filter (fun v => negb (hmem vdec v (trn_vertices tr))) [v] = [v]) as Ef.
    { cbn [filter]. destruct (hmem vdec v (trn_vertices tr)) eqn:Q; [apply hmem_In in Q; contradiction|reflexivity]. }
    rewrite Ef in Ed. assert (rem = []) as ->.
    { apply (distribute_one _ _ _ _ _ _ Ed). exists t0. split; [apply ho_In; exact Ht0|]. split; assumption. }
    destruct (distribute_all_spec H _ _ _ _ _ _ _ _ _ Ed (fair_nil (A:=A))) as (Hf & P & _). cbn [listed flat_map app] in P. unfold solve_conflicts in Es.
    assert (lone_state v (SS tr cm [] [] [])) as H0.
    { split; [|reflexivity]. split; [exact Hf|]. exists []. cbn. split; [exact P|]. split; [intros w []|intros t []]. }
    destruct (solve_loop_inv H cs bd hs (lone_cavity v) (lone_state v) (lone_remove v cs) (lone_include v) (lone_start v) (fun w s0 HI => conj (acc_end [v] w s0 (proj1 HI)) (proj2 HI)) _ _ _ _ Es H0)
      as [((_ & done & P' & Hd & _) & Hr) Hcm].
    rewrite Hr, Hcm in P'. cbn in P'. rewrite app_nil_r in P'. apply Permutation_length_1_inv in P'. subst done. apply Hd. left. reflexivity.
  Qed.

  (** With at most one hole this is exact. *)
  Lemma distribute_some : forall n ts p vs cm' rest, distribute_all H n p ts [] vs bd hs = Ok (cm', rest) -> cm' = [] \/ exists t v, In t ts /\ In v vs /\ hit_from n t v.
  Proof.
    intros n ts. induction ts as [|t ts IH]; intros p vs cm' rest E; cbn [distribute_all] in E; [injection E as <- <-; left; reflexivity|].
    destruct vs as [|v vs]; [injection E as <- <-; left; reflexivity|]. apply bind_ok in E. destruct E as ([cm1 vs1] & E1 & E).
    unfold distribute_conflicts in E1. apply bind_ok in E1. destruct E1 as ([conf r] & Es & Q). injection Q as <- <-. destruct (split_sees _ _ _ _ _ _ Es) as [S1 S2].
    destruct conf as [|w conf].
    - cbn [add_conflicts] in E. destruct (IH _ _ _ _ E) as [->|(t' & v' & Ht & Hv & Hh)]; [left; reflexivity|]. right. exists t', v'. split; [right; exact Ht|]. split; [apply S2; exact Hv|exact Hh].
    - right. destruct (S1 w (or_introl eq_refl)) as [I1 I2]. exists t, w. split; [left; reflexivity|]. split; assumption.
  Qed.
  Theorem alone_iff : forall n p (tr : triangulation) v cs tr' inc del, vertices_include H n p tr [v] cs bd hs = Ok (tr', inc, del) -> ~ In v (trn_vertices tr) -> length hs <= 1 ->
    ((exists t, In t inc /\ corner_of v t) <-> exists t, In t (tris tr) /\ in_circle t v /\ sees_past_all n bd hs t v).
  Proof.
    intros n p tr v cs tr' inc del E Hn L. split.
    - intros (t & Ht & _). unfold vertices_include in E. apply bind_ok in E. destruct E as ([cm rem] & Ed & E). apply bind_ok in E. destruct E as (s & Es & E). injection E as <- <- <-.
      destruct (distribute_some _ _ _ _ _ _ Ed) as [->|(t1 & w & Ht1 & Hw & Hc & Hb & Ho)].
      + exfalso. unfold solve_conflicts in Es. destruct n as [|n]; [discriminate Es|]. cbn [solve_loop ss_cm map] in Es. rewrite ho_nil in Es. injection Es as <-. destruct Ht.
      + apply filter_In in Hw. destruct Hw as [[<-|[]] _]. exists t1. split; [apply ho_In in Ht1; exact Ht1|]. split; [exact Hc|]. split; [exact Hb|].
        intros h Hh. destruct Ho as [-> |(h' & Hh' & Q)]; [destruct Hh|]. destruct hs as [|h1 [|h2 l]]; [destruct Hh| |cbn in L; lia]. destruct Hh as [<-|[]]. destruct Hh' as [<-|[]]. exact Q.
    - intros Q. apply (alone_inserted n p tr v cs tr' inc del E Hn Q).
  Qed.
End See.

(** ** A triangle in a square, with and without a hole around the new vertex *)
Section Check.
  Context {A : Arith}.
  Variables (tr : triangulation A) (v : vertex A) (b : polyline A) (h : polyline A).
  Definition check_see : bool :=
    negb (hmem vdec v (trn_vertices tr)) &&
    (okb (vertices_include ho_id 60 [] tr [v] [] (Some b) []) (fun r => negb (Nat.eqb (length (snd (fst r))) 0)) &&
     okb (vertices_include ho_id 60 [] tr [v] [] (Some b) [h]) (fun r => Nat.eqb (length (snd (fst r))) 0)).
  Lemma check_see_ok : check_see = true ->
    ~ In v (trn_vertices tr) /\
    (exists tr' inc del, vertices_include ho_id 60 [] tr [v] [] (Some b) [] = Ok (tr', inc, del) /\ inc <> []) /\
    (exists tr' inc del, vertices_include ho_id 60 [] tr [v] [] (Some b) [h] = Ok (tr', inc, del) /\ inc = []).
  Proof.
    unfold check_see. rewrite !andb_true_iff. intros (C1 & C2 & C3). split.
    - intros I. apply (hmem_In vdec) in I. rewrite I in C1. discriminate C1.
    - split.
      + apply okb_ok in C2. destruct C2 as ([[tr' inc] del] & E & C). exists tr', inc, del. split; [exact E|]. cbn [fst snd] in C. intros ->. discriminate C.
      + apply okb_ok in C3. destruct C3 as ([[tr' inc] del] & E & C). exists tr', inc, del. split; [exact E|]. cbn [fst snd] in C. destruct inc; [reflexivity|discriminate C].
  Qed.
End Check.
Local Open Scope Z_scope.
Definition see_mesh : triangulation ArithF := from_initial_segment (pt 0 0) (pt 4 0).
Definition see_square : polyline ArithF := Poly [pt (-9) (-9); pt 9 (-9); pt 9 9; pt (-9) 9] false.
Definition see_hole : polyline ArithF := Poly [pt (-5) (-5); pt 6 (-5); pt 6 6; pt (-5) 6] false.
Definition see_vertex : vertex ArithF := pt 2 1.
Lemma see_checked : check_see see_mesh see_vertex see_square see_hole = true.
Proof. vm_compute. reflexivity. Qed.
