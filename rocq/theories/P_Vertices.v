(** P_Vertices.v — loop invariants of vertex insertion (vertices.rs), for every
    arithmetic and every hash order. *)

From Coq Require Import List Bool Arith Lia Permutation.
From Verif Require Import Base Arith Geometry Elements Polyline Procedures Spec P_Base P_Trn P_Poly.
Import ListNotations.

Section Vertices.
  Context {A : Arith} (H : HashOrder).
  Notation vertex := (vertex A).
  Notation edge := (edge A).
  Notation triangle := (triangle A).
  Notation triangulation := (triangulation A).
  Notation polyline := (polyline A).
  Notation solve_state := (solve_state (A:=A)).
  Notation conflict_map := (conflict_map (A:=A)).

  (** ** A generic induction principle for the two loops *)
  Section Principle.
    Variables (cs : list edge) (bd : option polyline) (hs : list polyline).
    (** [I v pending s] holds inside the cavity of [v], [J s] between cavities. *)
    Variables (I : vertex -> list edge -> solve_state -> Prop) (J : solve_state -> Prop).

    Definition step_remove : Prop := forall v e pending s outer,
      I v (e :: pending) s -> adj_get (opposite e) (ss_tr s) = Some outer ->
      is_conflicting outer v = true -> is_constrained cs e = false ->
      I v (next_cavities outer (opposite e) pending)
        (SS (rem_tri outer (ss_tr s)) (mdel tdec outer (ss_cm s))
            (match mget tdec outer (ss_cm s) with Some vs => ss_rem s ++ vs | None => ss_rem s end)
            (ss_inc s) (hadd tdec outer (ss_del s))).

    Definition step_include : Prop := forall fuel p v e pending s outer conf rest,
      I v (e :: pending) s -> adj_get (opposite e) (ss_tr s) = Some outer ->
      split_conflicts H fuel p (new_triangle e v) (ss_rem s) bd hs = Ok (conf, rest) ->
      I v pending
        (SS (incl_tri (new_triangle e v) (ss_tr s)) (add_conflicts (new_triangle e v) conf (ss_cm s)) rest
            (hadd tdec (new_triangle e v) (ss_inc s)) (ss_del s)).

    Definition step_start : Prop := forall t vs v s,
      J s -> mget tdec t (ss_cm s) = Some vs -> hd_error (rev vs) = Some v ->
      I v [te3 t; te2 t; te1 t]
        (SS (rem_tri t (ss_tr s)) (mdel tdec t (ss_cm s)) (ss_rem s ++ removelast vs)
            (ss_inc s) (hadd tdec t (ss_del s))).

    Lemma cavity_loop_inv : step_remove -> step_include ->
      forall fuel p v pending s s',
      cavity_loop H fuel p cs bd hs v pending s = Ok s' -> I v pending s -> I v [] s'.
    Proof.
      intros Hr Hi. induction fuel as [|fuel IH]; intros p v pending s s' Hc HI; [discriminate|].
      cbn [cavity_loop] in Hc. destruct pending as [|e pending]; [injection Hc as <-; exact HI|].
      apply bind_ok in Hc. destruct Hc as (outer & Ho & Hc). apply unwrap_ok in Ho.
      apply bind_ok in Hc. destruct Hc as (may & Hm & Hc).
      destruct (is_conflicting outer v && negb (is_constrained cs e) && may) eqn:Hb.
      - apply andb_true_iff in Hb. destruct Hb as [Hb _]. apply andb_true_iff in Hb. destruct Hb as [Hb1 Hb2].
        apply negb_true_iff in Hb2. refine (IH _ _ _ _ _ Hc _). apply Hr; assumption.
      - apply bind_ok in Hc. destruct Hc as ([cm' rem'] & Hd & Hc). unfold distribute_conflicts in Hd.
        apply bind_ok in Hd. destruct Hd as ([conf rest] & Hs & Hd). injection Hd as <- <-.
        refine (IH _ _ _ _ _ Hc _). eapply Hi; eassumption.
    Qed.

    Lemma solve_loop_inv : step_remove -> step_include -> step_start -> (forall v s, I v [] s -> J s) ->
      forall fuel p s s',
      solve_loop H fuel p cs bd hs s = Ok s' -> J s -> J s' /\ ss_cm s' = [].
    Proof.
      intros Hr Hi Hs He. induction fuel as [|fuel IH]; intros p s s' Hc HJ; [discriminate|].
      cbn [solve_loop] in Hc. destruct (ho H (1 :: p) _ (map fst (ss_cm s))) as [|t l] eqn:Hk.
      - injection Hc as <-. split; [exact HJ|]. apply ho_nil_inv in Hk. destruct (ss_cm s); [reflexivity|discriminate].
      - apply bind_ok in Hc. destruct Hc as (vs & Hv & Hc). apply unwrap_ok in Hv.
        apply bind_ok in Hc. destruct Hc as (v & Hl & Hc). apply unwrap_ok in Hl.
        apply bind_ok in Hc. destruct Hc as (s1 & Hcl & Hc).
        refine (IH _ _ _ Hc _). apply (He v). refine (cavity_loop_inv Hr Hi _ _ _ _ _ _ Hcl _).
        apply Hs; assumption.
    Qed.
  End Principle.

  (** ** Distribution of conflicts *)
  Lemma split_conflicts_spec : forall fuel p (t : triangle) vs bd hs conf rest,
    split_conflicts H fuel p t vs bd hs = Ok (conf, rest) ->
    Permutation vs (conf ++ rest) /\ (forall v, In v conf -> encircles t v = Inside).
  Proof.
    intros fuel p t vs. revert p. induction vs as [|v vs IH]; intros p bd hs conf rest Hs; cbn [split_conflicts] in Hs.
    - injection Hs as <- <-. split; [constructor|intros v []].
    - apply bind_ok in Hs. destruct Hs as (may & Hm & Hs). apply bind_ok in Hs. destruct Hs as ([c r] & Hr & Hs).
      destruct (IH _ _ _ _ _ Hr) as [Hp Hc].
      destruct (cont_eqb (encircles t v) Inside && may) eqn:Hb; injection Hs as <- <-.
      + split; [cbn; constructor; exact Hp|]. intros w [<-|Hw]; [|auto].
        destruct (encircles t v); [reflexivity|discriminate|discriminate].
      + split; [|exact Hc]. apply Permutation_cons_app, Hp.
  Qed.


  Lemma mdel_not_key : forall (cm : conflict_map) t, ~ In t (map fst cm) -> mdel tdec t cm = cm.
  Proof.
    induction cm as [|[t' l] cm IH]; intros t Ht; [reflexivity|]. cbn in *.
    destruct (tdec t t') as [->|Hn]; [exfalso; auto|]. f_equal. apply IH. auto.
  Qed.

  Lemma listed_mdel : forall (cm : conflict_map) t l, NoDup (map fst cm) -> mget tdec t cm = Some l ->
    Permutation (listed cm) (l ++ listed (mdel tdec t cm)).
  Proof.
    induction cm as [|[t' l'] cm IH]; intros t l Hn Hg; [discriminate|]. cbn in *. unfold listed in *; cbn.
    inversion Hn as [|? ? Hk Hn']; subst. destruct (tdec t t') as [->|Hne]; cbn.
    - injection Hg as ->. pose proof (mdel_not_key cm t' Hk) as E. unfold mdel in E. rewrite E. apply Permutation_refl.
    - specialize (IH _ _ Hn' Hg). unfold mdel in IH. rewrite IH. rewrite !app_assoc. apply Permutation_app_tail, Permutation_app_comm.
  Qed.

  Lemma listed_add : forall t conf (cm : conflict_map), NoDup (map fst cm) ->
    Permutation (listed (add_conflicts t conf cm)) (listed cm ++ conf).
  Proof.
    intros t conf cm Hn. unfold add_conflicts. destruct conf as [|c conf]; [rewrite app_nil_r; apply Permutation_refl|].
    destruct (mget tdec t cm) as [old|] eqn:Hg.
    - unfold mset, listed; cbn. rewrite (listed_mdel cm t old Hn Hg). unfold listed.
      rewrite <- !app_assoc. apply Permutation_app_head. apply Permutation_app_comm.
    - unfold mset. rewrite mdel_not_key by (apply mget_None in Hg; exact Hg). unfold listed; cbn.
      apply (Permutation_app_comm (c :: conf)).
  Qed.

  Lemma add_conflicts_NoDup : forall (t : triangle) conf cm, NoDup (map fst cm) -> NoDup (map fst (add_conflicts t conf cm)).
  Proof.
    intros t conf cm Hn. unfold add_conflicts. destruct conf; [exact Hn|].
    destruct (mget tdec t cm); apply mset_NoDup, Hn.
  Qed.

  Lemma add_conflicts_In : forall (t : triangle) conf cm t' l, In (t', l) (add_conflicts t conf cm) ->
    In (t', l) cm \/
    (t' = t /\ conf <> [] /\ exists old, l = old ++ conf /\ (old = [] \/ In (t, old) cm)).
  Proof.
    intros t conf cm t' l Hi. unfold add_conflicts in Hi. destruct conf as [|c conf]; [auto|].
    destruct (mget tdec t cm) as [old|] eqn:Hg; apply mset_In in Hi; (destruct Hi as [Hi|[Hi _]]; [|auto]).
    - injection Hi as -> ->. right. split; [reflexivity|]. split; [discriminate|].
      exists old. split; [reflexivity|]. right. apply mget_In in Hg. exact Hg.
    - injection Hi as -> ->. right. split; [reflexivity|]. split; [discriminate|]. exists []. auto.
  Qed.

  (** A conflict map is in order when each triangle has one entry and each
      listed vertex is inside the circumcircle of its triangle. *)
  Lemma fair_nil : fair (A:=A) [].
  Proof. split; [constructor|intros t l []]. Qed.

  Lemma fair_add : forall (t : triangle) conf cm, fair cm -> (forall v, In v conf -> encircles t v = Inside) ->
    fair (add_conflicts t conf cm).
  Proof.
    intros t conf cm [Hn Hf] Hc. split; [apply add_conflicts_NoDup, Hn|].
    intros t' l Hi. apply add_conflicts_In in Hi. destruct Hi as [Hi|(-> & Hne & old & -> & Ho)]; [apply Hf, Hi|].
    split.
    - intros E. apply app_eq_nil in E. destruct E. contradiction.
    - intros v Hv. apply in_app_or in Hv. destruct Hv as [Hv|Hv]; [|auto].
      destruct Ho as [-> | Ho]; [destruct Hv|]. apply (Hf _ _ Ho), Hv.
  Qed.

  Lemma fair_mdel : forall t (cm : conflict_map), fair cm -> fair (mdel tdec t cm).
  Proof.
    intros t cm [Hn Hf]. split; [apply mdel_NoDup, Hn|]. intros t' l Hi. apply mdel_In in Hi. apply Hf, Hi.
  Qed.

  Lemma distribute_all_spec : forall fuel (ts : list triangle) p cm vs bd hs cm' rest,
    distribute_all H fuel p ts cm vs bd hs = Ok (cm', rest) -> fair cm ->
    fair cm' /\ Permutation (listed cm ++ vs) (listed cm' ++ rest) /\
    (forall t, In t (map fst cm') -> In t (map fst cm) \/ In t ts).
  Proof.
    intros fuel ts. induction ts as [|t ts IH]; intros p cm vs bd hs cm' rest Hd Hf; cbn [distribute_all] in Hd.
    - injection Hd as <- <-. split; [exact Hf|]. split; [apply Permutation_refl|auto].
    - destruct vs as [|v vs]; [injection Hd as <- <-; split; [exact Hf|]; split; [apply Permutation_refl|auto]|].
      apply bind_ok in Hd. destruct Hd as ([cm1 vs1] & Hd1 & Hd). unfold distribute_conflicts in Hd1.
      apply bind_ok in Hd1. destruct Hd1 as ([conf r] & Hs & E). injection E as <- <-.
      destruct (split_conflicts_spec _ _ _ _ _ _ _ _ Hs) as [Hp Hc].
      destruct (IH _ _ _ _ _ _ _ Hd (fair_add _ _ _ Hf Hc)) as (Hf' & Hp' & Hk).
      split; [exact Hf'|]. split.
      + rewrite Hp, <- Hp', (listed_add _ _ _ (proj1 Hf)), <- app_assoc. apply Permutation_refl.
      + intros t' Ht'. destruct (Hk _ Ht') as [Hi|Hi]; [|auto with datatypes].
        apply in_map_iff in Hi. destruct Hi as ([t'' l] & Ef & Hi). cbn in Ef. subst t''.
        apply add_conflicts_In in Hi. destruct Hi as [Hi|(-> & _)]; [|auto with datatypes].
        left. apply in_map_iff. exists (t', l). auto.
  Qed.

  Lemma flood_distribute_spec : forall fuel p (tr : triangulation) vis pen cm vs bd hs cm' rest,
    flood_distribute H fuel p tr vis pen cm vs bd hs = Ok (cm', rest) -> fair cm ->
    fair cm' /\ Permutation (listed cm ++ vs) (listed cm' ++ rest).
  Proof.
    induction fuel as [|fuel IH]; intros p tr vis pen cm vs bd hs cm' rest Hd Hf; [discriminate|].
    cbn [flood_distribute] in Hd. destruct pen as [|t pen]; [injection Hd as <- <-; split; [exact Hf|apply Permutation_refl]|].
    destruct vs as [|v vs]; [injection Hd as <- <-; split; [exact Hf|apply Permutation_refl]|].
    destruct (visit_neighbours tr (outer_edges t) vis pen) as [vis' pen'].
    apply bind_ok in Hd. destruct Hd as ([cm1 vs1] & Hd1 & Hd). unfold distribute_conflicts in Hd1.
    apply bind_ok in Hd1. destruct Hd1 as ([conf r] & Hs & E). injection E as <- <-.
    destruct (split_conflicts_spec _ _ _ _ _ _ _ _ Hs) as [Hp Hc].
    destruct (IH _ _ _ _ _ _ _ _ _ _ Hd (fair_add _ _ _ Hf Hc)) as (Hf' & Hp').
    split; [exact Hf'|]. rewrite Hp, <- Hp', (listed_add _ _ _ (proj1 Hf)), <- app_assoc. apply Permutation_refl.
  Qed.

  (** ** C31 *)
  Lemma include_present : forall fuel p (tr : triangulation) vs cs bd hs,
    0 < fuel -> (forall v, In v vs -> In v (trn_vertices tr)) ->
    vertices_include H fuel p tr vs cs bd hs = Ok (tr, [], []).
  Proof.
    intros fuel p tr vs cs bd hs Hf Hv. unfold vertices_include.
    assert (E : filter (fun v => negb (hmem vdec v (trn_vertices tr))) vs = []).
    { clear -Hv. induction vs as [|v vs IH]; [reflexivity|]. cbn.
      rewrite (proj2 (hmem_In vdec v (trn_vertices tr)) (Hv v (or_introl eq_refl))). cbn. apply IH.
      intros w Hw. apply Hv. right. exact Hw. }
    rewrite E. clear E.
    assert (E : forall q ts, distribute_all H fuel q ts [] [] bd hs = Ok ([], [])) by (intros q [|t ts]; reflexivity).
    rewrite E. cbn [bind]. unfold solve_conflicts. destruct fuel as [|fuel]; [lia|].
    cbn [solve_loop ss_cm map]. rewrite ho_nil. reflexivity.
  Qed.

  (** ** C30, C32: the whole run *)
  Lemma new_triangle_side : forall (e : edge) v, side_of e (new_triangle e v).
  Proof.
    intros [a b] v. unfold new_triangle, ev1, ev2; cbn. destruct (vghost a); [constructor|]. destruct (vghost b); constructor.
  Qed.
  Lemma new_triangle_corner : forall (e : edge) v, corner_of v (new_triangle e v).
  Proof.
    intros [a b] v. unfold new_triangle, ev1, ev2; cbn. destruct (vghost a); [constructor|]. destruct (vghost b); constructor.
  Qed.
  Lemma new_triangle_corners : forall (e : edge) v w, corner_of w (new_triangle e v) -> w = fst e \/ w = snd e \/ w = v.
  Proof.
    intros [a b] v w. unfold new_triangle, ev1, ev2; cbn.
    destruct (vghost a); [|destruct (vghost b)]; intros Hc; inversion Hc; subst; auto.
  Qed.

  (** Edges pushed by [next_cavities] are sides of the triangle. *)
  Lemma next_cavities_In : forall (t : triangle) e pending x, In x (next_cavities t e pending) -> side_of x t \/ In x pending.
  Proof.
    intros [a b c] e pending x. unfold next_cavities, te1, te2, te3; cbn.
    destruct (eeqb e (a, b)); [|destruct (eeqb e (b, c))]; cbn; intros [<-|[<-|Hx]];
      first [right; exact Hx | left; constructor].
  Qed.
  Lemma next_cavities_pending : forall (t : triangle) e pending x, In x pending -> In x (next_cavities t e pending).
  Proof.
    intros t e pending x Hx. unfold next_cavities. destruct (eeqb e (te1 t)); [|destruct (eeqb e (te2 t))];
      right; right; exact Hx.
  Qed.

  Lemma hd_rev_last : forall (vs : list vertex) v, hd_error (rev vs) = Some v -> vs = removelast vs ++ [v].
  Proof.
    intros vs v Hh. destruct (rev vs) as [|w l] eqn:E; [discriminate|]. injection Hh as ->.
    assert (E' : vs = rev l ++ [v]). { rewrite <- (rev_involutive vs), E. reflexivity. }
    rewrite E' at 1. rewrite E'. rewrite removelast_last. reflexivity.
  Qed.

  Lemma in_removelast : forall (vs : list vertex) w, In w (removelast vs) -> In w vs.
  Proof.
    induction vs as [|a vs IH]; intros w Hw; [exact Hw|]. cbn in Hw. destruct vs as [|b vs]; [destruct Hw|].
    destruct Hw as [<-|Hw]; [left; reflexivity|right; apply IH; exact Hw].
  Qed.

  Section Run.
    Variables (tr0 : triangulation) (req : list vertex) (cs : list edge) (bd : option polyline) (hs : list polyline).
    Hypothesis Hsound : adj_sound tr0.

    (** Every corner seen is an old corner or a requested vertex. *)
    Local Notation known := (Spec.known tr0 req).
    Definition known_edge (e : edge) : Prop := known (fst e) /\ known (snd e).
    Definition known_tri (t : triangle) : Prop := forall w, corner_of w t -> known w.

    Lemma known_tri_side : forall t e, known_tri t -> side_of e t -> known_edge e.
    Proof.
      intros t e Ht He. split; apply Ht; [apply side_corner1|apply side_corner2]; exact He.
    Qed.
    Lemma known_new : forall e v, known_edge e -> known v -> known_tri (new_triangle e v).
    Proof.
      intros e v [H1 H2] Hv w Hw. apply new_triangle_corners in Hw. destruct Hw as [-> | [-> | ->]]; assumption.
    Qed.

    Definition known_state (s : solve_state) : Prop :=
      adj_sound (ss_tr s) /\ (forall t, In t (tris (ss_tr s)) -> known_tri t) /\
      (forall t l, In (t, l) (ss_cm s) -> known_tri t /\ forall w, In w l -> In w req) /\
      (forall w, In w (ss_rem s) -> In w req) /\
      (forall t, In t (ss_inc s) -> known_tri t) /\ (forall t, In t (ss_del s) -> known_tri t).
    Definition known_cavity (v : vertex) (pending : list edge) (s : solve_state) : Prop :=
      In v req /\ (forall e, In e pending -> known_edge e) /\ known_state s.

    Lemma known_remove : step_remove cs known_cavity.
    Proof.
      intros v e pending s outer (Hv & Hp & Hs & Ht & Hc & Hr & Hi & Hd) Ho Hx Hn.
      destruct (Hs _ _ Ho) as [Hin _]. split; [exact Hv|]. split.
      { intros x Hx'. apply next_cavities_In in Hx'. destruct Hx' as [Hx'|Hx'].
        - apply (known_tri_side outer); auto.
        - apply Hp. right. exact Hx'. }
      split; [apply adj_sound_rem, Hs|]. cbn.
      split; [intros t Hin'; apply rem_tri_In in Hin'; apply Ht, Hin'|].
      split; [intros t l Hin'; apply mdel_In in Hin'; apply Hc, Hin'|].
      split; [|split; [exact Hi|]].
      - intros w Hw. destruct (mget tdec outer (ss_cm s)) as [vs|] eqn:Hg; [|auto].
        apply in_app_or in Hw. destruct Hw as [Hw|Hw]; [auto|]. apply mget_In in Hg. apply (proj2 (Hc _ _ Hg)), Hw.
      - intros t Hin'. apply hadd_In in Hin'. destruct Hin' as [->|Hin']; auto.
    Qed.

    Lemma known_include : step_include bd hs known_cavity.
    Proof.
      intros fuel p v e pending s outer conf rest (Hv & Hp & Hs & Ht & Hc & Hr & Hi & Hd) Ho Hsp.
      destruct (split_conflicts_spec _ _ _ _ _ _ _ _ Hsp) as [Hperm _].
      assert (Hk : known_tri (new_triangle e v)).
      { apply known_new; [apply Hp; left; reflexivity|right; exact Hv]. }
      split; [exact Hv|]. split; [intros x Hx; apply Hp; right; exact Hx|].
      split; [apply adj_sound_incl, Hs|]. cbn. split.
      { intros t Hin. apply incl_tri_In in Hin. destruct Hin as [->|Hin]; auto. }
      split.
      { intros t l Hin. apply add_conflicts_In in Hin. destruct Hin as [Hin|(-> & _ & old & -> & Hold)]; [apply Hc, Hin|].
        split; [exact Hk|]. intros w Hw. apply in_app_or in Hw. destruct Hw as [Hw|Hw].
        - destruct Hold as [-> | Hold]; [destruct Hw|]. apply (proj2 (Hc _ _ Hold)), Hw.
        - apply Hr. apply (Permutation_in _ (Permutation_sym Hperm)). apply in_or_app. auto. }
      split.
      { intros w Hw. apply Hr. apply (Permutation_in _ (Permutation_sym Hperm)). apply in_or_app. auto. }
      split; [|exact Hd]. intros t Hin. apply hadd_In in Hin. destruct Hin as [->|Hin]; auto.
    Qed.

    Lemma known_start : step_start known_cavity known_state.
    Proof.
      intros t vs v s (Hs & Ht & Hc & Hr & Hi & Hd) Hg Hh. apply mget_In in Hg. destruct (Hc _ _ Hg) as [Hkt Hvs].
      pose proof (hd_rev_last _ _ Hh) as El.
      split; [apply Hvs; rewrite El; apply in_or_app; right; left; reflexivity|]. split.
      { intros e He. apply (known_tri_side t); [exact Hkt|]. apply side_of_cases.
        destruct He as [<-|[<-|[<-|[]]]]; auto. }
      split; [apply adj_sound_rem, Hs|]. cbn. split; [intros t' Hin; apply rem_tri_In in Hin; apply Ht, Hin|].
      split; [intros t' l Hin; apply mdel_In in Hin; apply Hc, Hin|]. split.
      { intros w Hw. apply in_app_or in Hw. destruct Hw as [Hw|Hw]; [auto|]. apply Hvs, in_removelast, Hw. }
      split; [exact Hi|]. intros t' Hin. apply hadd_In in Hin. destruct Hin as [->|Hin]; auto.
    Qed.

    (** Accounting of the requested vertices and of the changed triangles. *)
    Definition accounted (todo : list vertex) (new : list vertex) (s : solve_state) : Prop :=
      fair (ss_cm s) /\
      exists done, Permutation new (todo ++ done ++ listed (ss_cm s) ++ ss_rem s) /\
        (forall v, In v done -> exists t, In t (ss_inc s) /\ corner_of v t) /\
        (forall t, In t (ss_inc s) -> exists v, In v (todo ++ done) /\ corner_of v t).
    Definition acc_cavity (new : list vertex) (v : vertex) (pending : list edge) (s : solve_state) : Prop :=
      accounted [v] new s /\ (pending <> [] \/ exists t, In t (ss_inc s) /\ corner_of v t).

    Lemma next_cavities_nonempty : forall (t : triangle) e pending, next_cavities t e pending <> [].
    Proof.
      intros t e pending. unfold next_cavities. destruct (eeqb e (te1 t)); [|destruct (eeqb e (te2 t))]; discriminate.
    Qed.

    Lemma acc_remove : forall new, step_remove cs (acc_cavity new).
    Proof.
      intros new v e pending s outer ((Hf & done & Hp & Hd & Hi) & _) Ho _ _. split; [|left; apply next_cavities_nonempty].
      split; [apply fair_mdel, Hf|]. exists done. cbn [ss_cm ss_rem ss_inc] in *. split; [|split; assumption].
      rewrite Hp. do 2 apply Permutation_app_head. destruct (mget tdec outer (ss_cm s)) as [vs|] eqn:Hg.
      - rewrite (listed_mdel _ _ _ (proj1 Hf) Hg).
        rewrite (Permutation_app_comm vs), <- app_assoc. apply Permutation_app_head, Permutation_app_comm.
      - rewrite mdel_not_key; [apply Permutation_refl|]. apply mget_None in Hg. exact Hg.
    Qed.

    Lemma acc_include : forall new, step_include bd hs (acc_cavity new).
    Proof.
      intros new fuel p v e pending s outer conf rest ((Hf & done & Hp & Hd & Hi) & _) Ho Hs.
      destruct (split_conflicts_spec _ _ _ _ _ _ _ _ Hs) as [Hperm Hc]. split.
      2:{ right. exists (new_triangle e v). split; [apply hadd_In; auto|apply new_triangle_corner]. }
      split; [apply fair_add; assumption|]. exists done. cbn [ss_cm ss_rem ss_inc] in *. split; [|split].
      - rewrite Hp. do 2 apply Permutation_app_head.
        rewrite (listed_add _ _ _ (proj1 Hf)), <- app_assoc. apply Permutation_app_head, Hperm.
      - intros w Hw. destruct (Hd w Hw) as (t & Ht & Hc'). exists t. split; [apply hadd_In; auto|exact Hc'].
      - intros t Ht. apply hadd_In in Ht. destruct Ht as [-> | Ht]; [|auto].
        exists v. split; [left; reflexivity|apply new_triangle_corner].
    Qed.

    Lemma acc_start : forall new, step_start (acc_cavity new) (accounted [] new).
    Proof.
      intros new t vs v s (Hf & done & Hp & Hd & Hi) Hg Hh. pose proof (hd_rev_last _ _ Hh) as El.
      split; [|left; discriminate]. split; [apply fair_mdel, Hf|]. exists done. cbn [ss_cm ss_rem ss_inc] in *.
      split; [|split; [exact Hd|]].
      - rewrite Hp. cbn [app]. rewrite (listed_mdel _ _ _ (proj1 Hf) Hg). rewrite El at 1.
        rewrite <- !app_assoc. cbn [app].
        rewrite (Permutation_app_comm (removelast vs)). cbn [app]. symmetry.
        rewrite <- app_assoc. apply Permutation_cons_app. apply Permutation_refl.
      - intros t' Ht'. destruct (Hi t' Ht') as (w & Hw & Hc). exists w. split; [right; exact Hw|exact Hc].
    Qed.

    Lemma acc_end : forall new v s, acc_cavity new v [] s -> accounted [] new s.
    Proof.
      intros new v s ((Hf & done & Hp & Hd & Hi) & [Hn|Hv]); [congruence|]. split; [exact Hf|].
      exists (v :: done). cbn [app] in *. split; [exact Hp|]. split; [|exact Hi].
      intros w [<-|Hw]; auto.
    Qed.

    (** What the two returned sets mean. *)
    Definition reported (s : solve_state) : Prop :=
      adj_sound (ss_tr s) /\
      (forall t, In t (map fst (ss_cm s)) -> In t (tris (ss_tr s))) /\
      (forall t, In t (tris (ss_tr s)) -> In t (tris tr0) \/ In t (ss_inc s)) /\
      (forall t, In t (tris tr0) \/ In t (ss_inc s) -> In t (tris (ss_tr s)) \/ In t (ss_del s)) /\
      (forall t, In t (ss_del s) -> In t (tris tr0) \/ In t (ss_inc s)).

    Lemma reported_remove : step_remove cs (fun _ _ => reported).
    Proof.
      intros v e pending s outer (Hs & Hk & H1 & H2 & H3) Ho _ _.
      destruct (Hs _ _ Ho) as [Hin _]. split; [apply adj_sound_rem, Hs|]. cbn.
      split.
      { intros t Ht. apply mdel_keys in Ht. apply rem_tri_In. split; [apply Hk|]; apply Ht. }
      split; [intros t Ht; apply rem_tri_In in Ht; apply H1, Ht|]. split.
      - intros t Ht. rewrite rem_tri_In, hadd_In. destruct (tdec t outer) as [->|Hn]; [auto|].
        destruct (H2 t Ht); auto.
      - intros t Ht. apply hadd_In in Ht. destruct Ht as [-> | Ht]; auto.
    Qed.

    Lemma reported_include : step_include bd hs (fun _ _ => reported).
    Proof.
      intros fuel p v e pending s outer conf rest (Hs & Hk & H1 & H2 & H3) Ho _.
      split; [apply adj_sound_incl, Hs|]. cbn. split.
      { intros t Ht. rewrite incl_tri_In. apply in_map_iff in Ht. destruct Ht as ([t' l] & Ef & Hi). cbn in Ef. subst t'.
        apply add_conflicts_In in Hi. destruct Hi as [Hi|(-> & _)]; [|auto].
        right. apply Hk. apply in_map_iff. exists (t, l). auto. }
      split; [|split].
      - intros t Ht. rewrite hadd_In. apply incl_tri_In in Ht. destruct Ht as [-> | Ht]; [auto|].
        destruct (H1 t Ht); auto.
      - intros t Ht. rewrite incl_tri_In. rewrite hadd_In in Ht.
        destruct (tdec t (new_triangle e v)) as [->|Hn]; [auto|].
        destruct (H2 t); [destruct Ht as [Ht|[Ht|Ht]]; [auto|contradiction|auto]|auto|auto].
      - intros t Ht. rewrite hadd_In. destruct (H3 t Ht); auto.
    Qed.

    Lemma reported_start : step_start (fun _ _ => reported) reported.
    Proof.
      intros t vs v s (Hs & Hk & H1 & H2 & H3) Hg _. apply mget_Some_key in Hg.
      split; [apply adj_sound_rem, Hs|]. cbn. split.
      { intros t' Ht. apply mdel_keys in Ht. apply rem_tri_In. split; [apply Hk|]; apply Ht. }
      split; [intros t' Ht; apply rem_tri_In in Ht; apply H1, Ht|]. split.
      - intros t' Ht. rewrite rem_tri_In, hadd_In. destruct (tdec t' t) as [->|Hn]; [auto|].
        destruct (H2 t' Ht); auto.
      - intros t' Ht. apply hadd_In in Ht. destruct Ht as [-> | Ht]; auto.
    Qed.

    (** C29: constrained sides survive. *)
    Definition separated_known : Prop := forall u w, known u -> known w -> veqb u w = true -> u = w.
    Local Notation constrained := (Spec.constrained cs).

    Lemma is_constrained_iff : forall e, is_constrained cs e = true <-> constrained e.
    Proof.
      intros e. unfold is_constrained, Spec.constrained. rewrite orb_true_iff, !hmem_In, opposite_flip. intuition.
    Qed.
    Lemma constrained_flip : forall e, constrained (flip e) <-> constrained e.
    Proof. intros e. unfold Spec.constrained. rewrite flip_flip. intuition. Qed.

    Lemma eeqb_known : separated_known -> forall e e', known_edge e -> known_edge e' -> eeqb e e' = true -> e = e'.
    Proof.
      intros Hsep [a b] [c d] [Ha Hb] [Hc Hd] He. unfold eeqb, ev1, ev2 in He. cbn in *.
      apply andb_true_iff in He. destruct He as [E1 E2]. f_equal; apply Hsep; assumption.
    Qed.

    Lemma eeqb_refl : forall e : edge, eeqb e e = true.
    Proof. intros [a b]. unfold eeqb. rewrite !veqb_refl. reflexivity. Qed.

    (** The two other sides of a triangle are pushed. *)
    Lemma next_cavities_exact : separated_known -> forall t e pending x,
      known_tri t -> side_of e t -> side_of x t -> x <> e -> In x (next_cavities t e pending).
    Proof.
      intros Hsep t e pending x Hk He Hx Hn.
      assert (Hke : known_edge e) by (apply (known_tri_side t); assumption).
      assert (Hk1 : known_edge (te1 t)) by (apply (known_tri_side t); [assumption|apply side_of_cases; auto]).
      assert (Hk2 : known_edge (te2 t)) by (apply (known_tri_side t); [assumption|apply side_of_cases; auto]).
      apply side_of_cases in He. apply side_of_cases in Hx. unfold next_cavities.
      destruct (eeqb e (te1 t)) eqn:E1.
      { apply eeqb_known in E1; auto. subst e. destruct Hx as [->|[->| ->]]; [contradiction|right; left; reflexivity|left; reflexivity]. }
      destruct (eeqb e (te2 t)) eqn:E2.
      { apply eeqb_known in E2; auto. subst e. destruct Hx as [->|[->| ->]]; [right; left; reflexivity|contradiction|left; reflexivity]. }
      destruct He as [->|[->| ->]].
      - rewrite eeqb_refl in E1. discriminate.
      - rewrite eeqb_refl in E2. discriminate.
      - destruct Hx as [->|[->| ->]]; [right; left; reflexivity|left; reflexivity|contradiction].
    Qed.

    Definition kept (c : edge) (pending : list edge) (s : solve_state) : Prop :=
      (exists t, In t (tris (ss_tr s)) /\ side_of c t) \/ In c pending.

    Lemma kept_remove : separated_known -> forall c, constrained c ->
      step_remove cs (fun v pending s => known_cavity v pending s /\ kept c pending s).
    Proof.
      intros Hsep c Hc v e pending s outer [HK Hk] Ho Hx Hn. split; [apply known_remove; assumption|].
      destruct HK as (Hv & Hp & Hs & Ht & Hrest). destruct (Hs _ _ Ho) as [Hin Hside]. unfold kept in *. cbn in *.
      assert (Hce : c <> opposite e).
      { intros ->. rewrite opposite_flip in Hc. apply (proj1 (constrained_flip e)) in Hc. apply is_constrained_iff in Hc. rewrite Hc in Hn. discriminate Hn. }
      destruct Hk as [(t & Htin & Hts)|Hk].
      - destruct (tdec t outer) as [->|Hne].
        + right. apply next_cavities_exact; auto.
        + left. exists t. split; [apply rem_tri_In; auto|exact Hts].
      - destruct Hk as [<-|Hk].
        + exfalso. apply (proj2 (is_constrained_iff e)) in Hc. congruence.
        + right. apply next_cavities_pending, Hk.
    Qed.

    Lemma kept_include : forall c, step_include bd hs (fun v pending s => known_cavity v pending s /\ kept c pending s).
    Proof.
      intros c fuel p v e pending s outer conf rest [HK Hk] Ho Hsp.
      split; [apply (known_include fuel p v e pending s outer conf rest HK Ho Hsp)|]. unfold kept in *. cbn.
      destruct Hk as [(t & Htin & Hts)|[<-|Hk]]; [| |auto].
      - left. exists t. split; [apply incl_tri_In; auto|exact Hts].
      - left. exists (new_triangle e v). split; [apply incl_tri_In; auto|apply new_triangle_side].
    Qed.

    Lemma kept_start : forall c,
      step_start (fun v pending s => known_cavity v pending s /\ kept c pending s)
                 (fun s => known_state s /\ kept c [] s).
    Proof.
      intros c t vs v s [HK Hk] Hg Hh. split; [apply (known_start t vs v s HK Hg Hh)|]. unfold kept in *; cbn.
      destruct Hk as [(t' & Hin & Hs)|[]]. destruct (tdec t' t) as [->|Hn].
      - right. apply side_of_cases in Hs. destruct Hs as [->|[->| ->]]; auto.
      - left. exists t'. split; [apply rem_tri_In; auto|exact Hs].
    Qed.

    (** The triangles removed for one vertex are reached from the first one
        through unconstrained sides. *)
    Local Notation carved := (Spec.carved cs).

    Definition carved_state (s : solve_state) : Prop :=
      known_state s /\ fair (ss_cm s) /\ forall t, In t (ss_del s) -> exists v, In v req /\ carved v t.
    Definition carved_cavity (v : vertex) (pending : list edge) (s : solve_state) : Prop :=
      known_cavity v pending s /\ fair (ss_cm s) /\ (forall t, In t (ss_del s) -> exists v, In v req /\ carved v t) /\
      forall e, In e pending -> exists t, carved v t /\ side_of e t.

    Lemma carved_remove : step_remove cs carved_cavity.
    Proof.
      intros v e pending s outer (HK & Hf & Hd & Hp) Ho Hx Hn.
      assert (Hco : carved v outer).
      { destruct (Hp e (or_introl eq_refl)) as (t & Ht & Hs). destruct HK as (_ & _ & Hsd & _).
        destruct (Hsd _ _ Ho) as [_ Hso]. rewrite opposite_flip in Hso. apply (carved_next cs v t outer e); auto.
        intros Hc. apply is_constrained_iff in Hc. congruence. }
      split; [apply known_remove; assumption|]. split; [apply fair_mdel, Hf|]. cbn. split.
      - intros t Ht. apply hadd_In in Ht. destruct Ht as [-> | Ht]; [|auto]. exists v. split; [exact (proj1 HK)|exact Hco].
      - intros x Hx'. apply next_cavities_In in Hx'. destruct Hx' as [Hx'|Hx']; [exists outer; auto|].
        apply Hp. right. exact Hx'.
    Qed.

    Lemma carved_include : step_include bd hs carved_cavity.
    Proof.
      intros fuel p v e pending s outer conf rest (HK & Hf & Hd & Hp) Ho Hsp.
      split; [apply (known_include fuel p v e pending s outer conf rest HK Ho Hsp)|].
      split; [apply fair_add; [exact Hf|apply (split_conflicts_spec _ _ _ _ _ _ _ _ Hsp)]|]. split; [exact Hd|].
      intros x Hx. apply Hp. right. exact Hx.
    Qed.

    Lemma carved_start : step_start carved_cavity carved_state.
    Proof.
      intros t vs v s (HK & Hf & Hd) Hg Hh. pose proof (hd_rev_last _ _ Hh) as El. apply mget_In in Hg as Hg'.
      assert (Hct : carved v t).
      { apply carved_first. apply (proj2 Hf t vs Hg'). rewrite El. apply in_or_app. right. left. reflexivity. }
      pose proof (known_start t vs v s HK Hg Hh) as HKc. split; [exact HKc|].
      split; [apply fair_mdel, Hf|]. cbn. split.
      - intros t' Ht'. apply hadd_In in Ht'. destruct Ht' as [-> | Ht']; [|auto]. exists v. split; [exact (proj1 HKc)|exact Hct].
      - intros e He. exists t. split; [exact Hct|]. apply side_of_cases. destruct He as [<-|[<-|[<-|[]]]]; auto.
    Qed.
  End Run.

  (** ** The whole of [vertices_include] *)
  Lemma include_inv : forall fuel p (tr : triangulation) vs cs bd hs tr' inc del,
    vertices_include H fuel p tr vs cs bd hs = Ok (tr', inc, del) ->
    exists fuel' p' cm rem s,
      solve_loop H fuel' p' cs bd hs (SS tr cm rem [] []) = Ok s /\
      tr' = ss_tr s /\ inc = ss_inc s /\ del = ss_del s /\
      fair cm /\ Permutation (filter (fun v => negb (hmem vdec v (trn_vertices tr))) vs) (listed cm ++ rem) /\
      forall t, In t (map fst cm) -> In t (tris tr).
  Proof.
    intros fuel p tr vs cs bd hs tr' inc del Hi. unfold vertices_include in Hi.
    apply bind_ok in Hi. destruct Hi as ([cm rem] & Hd & Hi).
    apply bind_ok in Hi. destruct Hi as (s & Hs & E). injection E as <- <- <-.
    destruct (distribute_all_spec _ _ _ _ _ _ _ _ _ Hd fair_nil) as (Hf & Hp & Hk). cbn [listed flat_map app] in Hp.
    exists fuel, (3 :: p), cm, rem, s. unfold solve_conflicts in Hs.
    split; [exact Hs|]. split; [reflexivity|]. split; [reflexivity|]. split; [reflexivity|]. split; [exact Hf|].
    split; [exact Hp|]. intros t Ht. destruct (Hk t Ht) as [[]|Ht']. apply ho_In in Ht'. exact Ht'.
  Qed.

  Lemma listed_In : forall (cm : conflict_map) t l v, In (t, l) cm -> In v l -> In v (listed cm).
  Proof. intros cm t l v Hi Hv. unfold listed. apply in_flat_map. exists (t, l). auto. Qed.

  Lemma known_initial : forall (tr : triangulation) vs (cm : conflict_map) rem, adj_sound tr ->
    Permutation (filter (fun v => negb (hmem vdec v (trn_vertices tr))) vs) (listed cm ++ rem) ->
    (forall t, In t (map fst cm) -> In t (tris tr)) ->
    known_state tr vs (SS tr cm rem [] []).
  Proof.
    intros tr vs cm rem Hs Hp Hk.
    assert (Ht : forall t, In t (tris tr) -> known_tri tr vs t).
    { intros t Ht w Hw. left. exists t. auto. }
    assert (Hv : forall v, In v (listed cm ++ rem) -> In v vs).
    { intros v Hv. apply (Permutation_in _ (Permutation_sym Hp)) in Hv. apply filter_In in Hv. apply Hv. }
    split; [exact Hs|]. cbn. split; [exact Ht|]. split.
    - intros t l Hi. split.
      + apply Ht, Hk. apply in_map_iff. exists (t, l). auto.
      + intros w Hw. apply Hv. apply in_or_app. left. apply (listed_In _ _ _ _ Hi Hw).
    - split; [intros w Hw; apply Hv, in_or_app; auto|]. split; intros t [].
  Qed.

  (** C30 *)
  Lemma include_corners : forall fuel p (tr : triangulation) vs cs bd hs tr' inc del,
    adj_sound tr -> vertices_include H fuel p tr vs cs bd hs = Ok (tr', inc, del) ->
    forall t w, In t (tris tr') -> corner_of w t ->
    (exists t0, In t0 (tris tr) /\ corner_of w t0) \/ In w vs.
  Proof.
    intros fuel p tr vs cs bd hs tr' inc del Hs Hi t w Ht Hw.
    destruct (include_inv _ _ _ _ _ _ _ _ _ _ Hi) as (fuel' & p' & cm & rem & s & Hl & -> & _ & _ & Hf & Hp & Hk).
    destruct (solve_loop_inv cs bd hs (known_cavity tr vs) (known_state tr vs)
      (known_remove tr vs cs) (known_include tr vs bd hs) (known_start tr vs) (fun v s0 HI => proj2 (proj2 HI))
      _ _ _ _ Hl (known_initial _ _ _ _ Hs Hp Hk)) as [HJ _].
    apply (proj1 (proj2 HJ) t Ht w Hw).
  Qed.

  (** C32, whole run *)
  Lemma include_accounts : forall fuel p (tr : triangulation) vs cs bd hs tr' inc del,
    vertices_include H fuel p tr vs cs bd hs = Ok (tr', inc, del) ->
    exists inserted dropped,
      Permutation (filter (fun v => negb (hmem vdec v (trn_vertices tr))) vs) (inserted ++ dropped) /\
      (forall v, In v inserted -> exists t, In t inc /\ corner_of v t) /\
      (forall t, In t inc -> exists v, In v inserted /\ corner_of v t).
  Proof.
    intros fuel p tr vs cs bd hs tr' inc del Hi.
    destruct (include_inv _ _ _ _ _ _ _ _ _ _ Hi) as (fuel' & p' & cm & rem & s & Hl & _ & -> & _ & Hf & Hp & Hk).
    set (new := filter (fun v => negb (hmem vdec v (trn_vertices tr))) vs) in *.
    assert (H0 : accounted [] new (SS tr cm rem [] [])).
    { split; [exact Hf|]. exists []. cbn. split; [exact Hp|]. split; [intros v []|intros t []]. }
    destruct (solve_loop_inv cs bd hs (acc_cavity new) (accounted [] new)
      (acc_remove cs new) (acc_include bd hs new) (acc_start new) (acc_end new)
      _ _ _ _ Hl H0) as [(_ & done & Hp' & Hd & Hi') Hcm].
    rewrite Hcm in Hp'. exists done, (ss_rem s). cbn in Hp'. split; [exact Hp'|]. split; assumption.
  Qed.

  (** C66 *)
  Lemma include_reported : forall fuel p (tr : triangulation) vs cs bd hs tr' inc del,
    adj_sound tr -> vertices_include H fuel p tr vs cs bd hs = Ok (tr', inc, del) ->
    adj_sound tr' /\
    (forall t, In t (tris tr') -> In t (tris tr) \/ In t inc) /\
    (forall t, In t (tris tr) \/ In t inc -> In t (tris tr') \/ In t del) /\
    (forall t, In t del -> In t (tris tr) \/ In t inc).
  Proof.
    intros fuel p tr vs cs bd hs tr' inc del Hs Hi.
    destruct (include_inv _ _ _ _ _ _ _ _ _ _ Hi) as (fuel' & p' & cm & rem & s & Hl & -> & -> & -> & Hf & Hp & Hk).
    assert (H0 : reported tr (SS tr cm rem [] [])).
    { split; [exact Hs|]. cbn. split; [exact Hk|]. split; [auto|]. split; [intros t [Ht|[]]; auto|intros t []]. }
    destruct (solve_loop_inv cs bd hs (fun _ _ => reported tr) (reported tr)
      (reported_remove tr cs) (reported_include tr bd hs) (reported_start tr) (fun _ _ HI => HI)
      _ _ _ _ Hl H0) as [(H1 & _ & H2 & H3 & H4) _]. auto.
  Qed.

  (** C29 *)
  Lemma include_constrained : forall fuel p (tr : triangulation) vs cs bd hs tr' inc del,
    adj_sound tr ->
    (forall u w, known tr vs u -> known tr vs w -> veqb u w = true -> u = w) ->
    vertices_include H fuel p tr vs cs bd hs = Ok (tr', inc, del) ->
    (forall c, constrained cs c -> (exists t, In t (tris tr) /\ side_of c t) ->
       exists t, In t (tris tr') /\ side_of c t) /\
    (forall t, In t del -> exists v, In v vs /\ carved cs v t).
  Proof.
    intros fuel p tr vs cs bd hs tr' inc del Hs Hsep Hi.
    destruct (include_inv _ _ _ _ _ _ _ _ _ _ Hi) as (fuel' & p' & cm & rem & s & Hl & -> & _ & -> & Hf & Hp & Hk).
    pose proof (known_initial _ _ _ _ Hs Hp Hk) as HK. split.
    - intros c Hc He.
      assert (H0 : known_state tr vs (SS tr cm rem [] []) /\ kept c [] (SS tr cm rem [] [])) by (split; [exact HK|left; exact He]).
      destruct (solve_loop_inv cs bd hs (fun v pending s0 => known_cavity tr vs v pending s0 /\ kept c pending s0)
        (fun s0 => known_state tr vs s0 /\ kept c [] s0)
        (kept_remove tr vs cs Hsep c Hc) (kept_include tr vs bd hs c) (kept_start tr vs c)
        (fun v s0 HI => conj (proj2 (proj2 (proj1 HI))) (proj2 HI))
        _ _ _ _ Hl H0) as [[_ [Hres|[]]] _]. exact Hres.
    - assert (H0 : carved_state tr vs cs (SS tr cm rem [] [])) by (split; [exact HK|split; [exact Hf|intros t []]]).
      destruct (solve_loop_inv cs bd hs (carved_cavity tr vs cs) (carved_state tr vs cs)
        (carved_remove tr vs cs) (carved_include tr vs cs bd hs) (carved_start tr vs cs)
        (fun v s0 HI => conj (proj2 (proj2 (proj1 HI))) (conj (proj1 (proj2 HI)) (proj1 (proj2 (proj2 HI)))))
        _ _ _ _ Hl H0) as [(_ & _ & Hd) _]. exact Hd.
  Qed.
End Vertices.
