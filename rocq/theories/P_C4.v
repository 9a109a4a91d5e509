(** P_C4.v — whole batches of vertices put in a constrained Delaunay mesh. *)

From Coq Require Import Reals List ZArith Lra Lia Psatz Bool Permutation.
From Verif Require Import Base Arith Geometry Elements Polyline Procedures Triangulator ArithR Spec SpecR SpecD SpecP SpecC
  P_Base P_Trn P_Fuel P_Vertices P_Cavity P_Zone P_R1 P_R2 P_R5 P_R6 P_RX P_D1 P_D2 P_D3 P_D4 P_D5 P_Fill P_Region P_Region2 P_C1 P_C2 P_C3.
Import ListNotations.
Local Open Scope R_scope.

(** ** Hits and zones *)
Lemma cd_points : forall S K (tr : mesh), constrained_delaunay S K tr -> (forall w, In w S -> vghost w = false) -> forall w, In w (trn_vertices tr) <-> In w S.
Proof.
  intros S K tr HC Hp w. rewrite trn_vertices_In. split.
  - intros [Hg (t & Ht & Hc)]. destruct (cd_shape _ _ _ HC t Ht) as [(a & b & c & -> & Ha & Hb & Hcs & _)|(a & b & -> & Ha & Hb & _)];
      inversion Hc; subst; try assumption. discriminate.
  - intros Hw. split; [apply Hp, Hw|]. destruct (cd_used _ _ _ HC w Hw) as (t & [Ht _] & Hc). exists t. auto.
Qed.
Lemma inside_zhit : forall S K (tr : mesh) v t, constrained_delaunay S K tr -> resolved (v :: S) -> solid_in tr t -> encircles t v = Inside -> zhit S tr v t.
Proof.
  intros S K tr v t HC HR [Ht G] He. destruct (cd_shape _ _ _ HC t Ht) as [(a & b & c & -> & Ha & Hb & Hc & Hp)|(a & b & -> & _)].
  - apply (conf_zhit S tr v HR _ a b c); auto; [left; reflexivity|]. unfold is_conflicting. rewrite He. reflexivity.
  - unfold is_ghost in G. cbn in G. rewrite !orb_true_r in G. discriminate.
Qed.
Lemma inside_circle : forall S K (tr : mesh) v a b c, constrained_delaunay S K tr -> resolved (v :: S) -> solid_in tr (Tri a b c) ->
  (encircles (Tri a b c) v = Inside <-> forall o, d2 o a = d2 o b -> d2 o a = d2 o c -> d2 o v < d2 o a).
Proof.
  intros S K tr v a b c HC HR [Ht G]. destruct (cd_shape _ _ _ HC _ Ht) as [(x & y & z & E & Ha & Hb & Hc & Hp)|(x & y & E & _)].
  2:{ injection E as -> -> ->. unfold is_ghost in G. cbn in G. rewrite !orb_true_r in G. discriminate. }
  injection E as <- <- <-. unfold encircles. rewrite G. cbn [tv1 tv2 tv3].
  rewrite (inside_I S v HR a b c Ha Hb Hc).
  destruct (circumcenter_spec a b c) as [_ Hcc]. destruct Hcc as (o & _ & _ & H1 & H2 & _); [lra|]. split.
  - intros Hi o' E1 E2. pose proof (incircle_power a b c v o' E1 E2) as Hp'. apply Rnot_le_lt. intros L. assert (Q := mpn (D a b c) (d2 o' a - d2 o' v)). lra.
  - intros Ho. specialize (Ho o H1 H2). pose proof (incircle_power a b c v o H1 H2) as Hp'. assert (Q := spp (D a b c) (d2 o a - d2 o v)). lra.
Qed.

(** ** The state *)
Definition admits (H : HashOrder) (bd : option (polyline ArithR)) hs (t : tri) (w : pnt) : Prop :=
  exists fuel p, may_insert_triangle H fuel p t w bd hs = Ok true.

Lemma split_admits : forall (H : HashOrder) fuel (t : tri) bd hs vs p conf rest, split_conflicts H fuel p t vs bd hs = Ok (conf, rest) ->
  forall w, In w conf -> admits H bd hs t w.
Proof.
  intros H fuel t bd hs vs. induction vs as [|v vs IH]; intros p conf rest Hs w Hw; cbn [split_conflicts] in Hs; [injection Hs as <- <-; destruct Hw|].
  apply bind_ok in Hs. destruct Hs as (may & Hm & Hs). apply bind_ok in Hs. destruct Hs as ([c r] & Hr & Hs).
  destruct (cont_eqb (encircles t v) Inside && may) eqn:Hb; injection Hs as <- <-; [|apply (IH _ _ _ Hr w Hw)].
  destruct Hw as [<-|Hw]; [|apply (IH _ _ _ Hr w Hw)]. apply andb_true_iff in Hb. destruct Hb as [_ ->]. exists fuel, (1%nat :: p). exact Hm.
Qed.

Section Batch.
  Variables (H : HashOrder) (K : list (edge ArithR)) (bd : option (polyline ArithR)) (hs : list (polyline ArithR)).
  Notation adm := (admits H bd hs).
  Definition heldc (L : list pnt) (s : state) : Prop :=
    held L s /\ forall t vs w, In (t, vs) (ss_cm s) -> In w vs -> adm t w.

  Lemma heldc_remove : forall L, step_remove K (fun _ _ => heldc L).
  Proof.
    intros L v e pending s outer ((Hf & Hp & Ha & Hk) & Hd) Ho _ _. cbn [ss_cm ss_rem ss_tr] in *. split.
    - split; [apply fair_mdel, Hf|]. cbn [ss_cm ss_rem ss_tr] in *. split; [|split].
      + rewrite Hp. destruct (mget tdec outer (ss_cm s)) as [vs|] eqn:Hg.
        * rewrite (listed_mdel _ _ _ (proj1 Hf) Hg). rewrite (Permutation_app_comm vs), <- app_assoc. apply Permutation_app_head, Permutation_app_comm.
        * rewrite mdel_not_key; [apply Permutation_refl|]. apply mget_None in Hg. exact Hg.
      + apply adj_sound_rem, Ha.
      + intros t Ht. apply mdel_keys in Ht. apply rem_tri_In. split; [apply Hk|]; apply Ht.
    - intros t vs w Hi. apply mdel_In in Hi. apply Hd, Hi.
  Qed.
  Lemma heldc_include : forall L, step_include H bd hs (fun _ _ => heldc L).
  Proof.
    intros L fuel p v e pending s outer conf rest ((Hf & Hp & Ha & Hk) & Hd) Ho Hs.
    destruct (split_conflicts_spec _ _ _ _ _ _ _ _ _ Hs) as [Hperm Hc]. cbn [ss_cm ss_rem ss_tr] in *. split.
    - split; [apply fair_add; assumption|]. cbn [ss_cm ss_rem ss_tr] in *. split; [|split].
      + rewrite Hp. rewrite (listed_add _ _ _ (proj1 Hf)), <- app_assoc. apply Permutation_app_head, Hperm.
      + apply adj_sound_incl, Ha.
      + intros t Ht. rewrite incl_tri_In. apply in_map_iff in Ht. destruct Ht as ([t' l] & Ef & Hi). cbn in Ef. subst t'.
        apply add_conflicts_In in Hi. destruct Hi as [Hi|(-> & _)]; [|auto].
        right. apply Hk. apply in_map_iff. exists (t, l). auto.
    - intros t vs w Hi Hw. apply add_conflicts_In in Hi. destruct Hi as [Hi|(-> & _ & old & -> & Hold)]; [apply (Hd t vs w Hi Hw)|].
      apply in_app_or in Hw. destruct Hw as [Hw|Hw]; [|apply (split_admits _ _ _ _ _ _ _ _ _ Hs w Hw)].
      destruct Hold as [-> |Hold]; [destruct Hw|]. apply (Hd _ _ w Hold Hw).
  Qed.
  Lemma heldc_start : forall t vs v (s : state) L, heldc L s -> mget tdec t (ss_cm s) = Some vs -> hd_error (rev vs) = Some v ->
    exists L', Permutation L (v :: L') /\ heldc L' (SS (rem_tri t (ss_tr s)) (mdel tdec t (ss_cm s)) (ss_rem s ++ removelast vs) (ss_inc s) (hadd tdec t (ss_del s))).
  Proof.
    intros t vs v s L [Hh Hd] Hg Hv. destruct (held_start t vs v s L Hh Hg Hv) as (L' & Hp & Hh'). exists L'. split; [exact Hp|]. split; [exact Hh'|].
    cbn [ss_cm]. intros t' vs' w Hi. apply mdel_In in Hi. apply Hd, Hi.
  Qed.

  (** ** What the loop relies on *)
  Variables (fmin : nat) (pool : pnt -> Prop) (P : list pnt -> mesh -> Prop).
  Hypothesis Hoff : forall w, pool w -> forall a b, barred K a b -> ~ strictly_between a b w.
  Hypothesis Hmay : forall S tr w u fuel p, constrained_delaunay S K tr -> P S tr -> pool w -> ~ In w S -> resolved (w :: S) -> In u (tris tr) -> (fmin <= fuel)%nat ->
    exists m, may_insert_triangle H fuel p u w bd hs = Ok m /\ (zone S K tr w u -> m = true).
  Hypothesis Hadm : forall S tr w u, constrained_delaunay S K tr -> P S tr -> pool w -> ~ In w S -> resolved (w :: S) -> In u (tris tr) ->
    encircles u w = Inside -> adm u w -> zone S K tr w u.
  Hypothesis Hsplit : forall S tr v fuel p a b vs, constrained_delaunay S K tr -> P S tr -> pool v -> ~ In v S ->
    (fmin <= fuel)%nat -> In a S -> In b S -> 0 < D a b v -> (forall w, In w vs -> pool w /\ ~ In w S /\ w <> v) ->
    exists conf rest, split_conflicts H fuel p (Tri a b v) vs bd hs = Ok (conf, rest).
  Hypothesis HP : forall S tr w tr', constrained_delaunay S K tr -> P S tr -> pool w -> ~ In w S -> constrained_delaunay (w :: S) K tr' ->
    (forall q, in_region tr q <-> in_region tr' q) ->
    (forall x, In x (tris tr') <-> (In x (tris tr) /\ ~ zone S K tr w x) \/ exists a b, outline tr (zone S K tr w) (a, b) /\ x = Tri a b w) -> P (w :: S) tr'.

  Lemma solve_constrained : forall n L S (s : state) p, (length L <= n)%nat -> heldc L s -> constrained_delaunay S K (ss_tr s) -> P S (ss_tr s) ->
    resolved (L ++ S) -> NoDup L -> (forall w, In w L -> pool w /\ ~ In w S) ->
    exists n0 s' done, (forall fuel, (n0 <= fuel)%nat -> solve_loop H fuel p K bd hs s = Ok s') /\
      constrained_delaunay (done ++ S) K (ss_tr s') /\ P (done ++ S) (ss_tr s') /\ Permutation L (done ++ ss_rem s') /\
      (forall q, in_region (ss_tr s) q <-> in_region (ss_tr s') q) /\
      (ss_cm s <> [] -> done <> []).
  Proof.
    induction n as [|n IH]; intros L S s p Hn Hh HC HPs HR Hnd Hpool.
    - exists 1%nat, s, []. assert (L = []) by (destruct L; [reflexivity|cbn in Hn; lia]). subst L. destruct Hh as [(Hf & Hp & _ & _) _].
      apply Permutation_nil in Hp. apply app_eq_nil in Hp. destruct Hp as [Hl Hr]. rewrite Hr. cbn [app].
      assert (Ecm : ss_cm s = []).
      { destruct (ss_cm s) as [|[t l] cm] eqn:Ec; [reflexivity|]. exfalso. destruct (proj2 Hf t l (or_introl eq_refl)) as [Hne _]. cbn in Hl. apply app_eq_nil in Hl. apply Hne, Hl. }
      split; [|split; [exact HC|split; [exact HPs|split; [apply Permutation_refl|split; [intros q; reflexivity|intros n; contradiction]]]]].
      intros fuel Hfu. destruct fuel; [lia|]. cbn [solve_loop]. rewrite Ecm. rewrite ho_nil. reflexivity.
    - destruct (ho H (1%nat :: p) _ (map fst (ss_cm s))) as [|t ts] eqn:Hk.
      { exists 1%nat, s, []. destruct Hh as [(Hf & Hp & _ & _) _]. cbn [app]. split; [|split; [exact HC|split; [exact HPs|split; [|split; [intros q; reflexivity|]]]]].
        - intros fuel Hfu. destruct fuel; [lia|]. cbn [solve_loop]. rewrite Hk. reflexivity.
        - apply ho_nil_inv in Hk. destruct (ss_cm s); [exact Hp|discriminate].
        - apply ho_nil_inv in Hk. destruct (ss_cm s); [contradiction|discriminate]. }
      assert (Ht : In t (map fst (ss_cm s))) by (apply (ho_In H (1%nat :: p)); rewrite Hk; left; reflexivity).
      destruct (mget tdec t (ss_cm s)) as [vs|] eqn:Hg; [|apply mget_None in Hg; contradiction].
      pose proof (mget_In _ _ _ _ Hg) as Hin. pose proof Hh as [(Hf & Hp & Ha & Hkeys) Hd]. destruct (proj2 Hf t vs Hin) as [Hne Hins].
      destruct (hd_error (rev vs)) as [v|] eqn:Hv.
      2:{ exfalso. apply Hne. destruct (rev vs) eqn:Er; [|discriminate]. rewrite <- (rev_involutive vs), Er. reflexivity. }
      assert (Hvl : In v vs) by (rewrite (hd_rev_last _ _ Hv); apply in_or_app; right; left; reflexivity).
      pose proof (Hins v Hvl) as He. pose proof (Hd t vs v Hin Hvl) as Had. assert (Htr : In t (tris (ss_tr s))) by (apply Hkeys, Ht).
      destruct (heldc_start t vs v s L Hh Hg Hv) as (L' & HpL & Hh').
      assert (HvL : In v L) by (apply (Permutation_in _ (Permutation_sym HpL)); left; reflexivity).
      assert (HL' : forall w, In w L' -> In w L) by (intros w Hw; apply (Permutation_in _ (Permutation_sym HpL)); right; exact Hw).
      assert (Hnd' : NoDup (v :: L')) by (apply (Permutation_NoDup HpL Hnd)).
      assert (HRS : resolved (v :: S)).
      { apply (resolved_incl (L ++ S)); [exact HR|]. intros w [<-|Hw]; apply in_or_app; auto. }
      destruct (Hpool v HvL) as [Pv HvS].
      pose proof (Hadm S (ss_tr s) v t HC HPs Pv HvS HRS Htr He Had) as Hz.
      set (rest := fun w => pool w /\ ~ In w S /\ w <> v).
      assert (Hpl : forall w, In w L' -> rest w).
      { intros w Hw. destruct (Hpool w (HL' w Hw)). split; [assumption|]. split; [assumption|]. intros ->. inversion Hnd'. contradiction. }
      set (s0 := SS (rem_tri t (ss_tr s)) (mdel tdec t (ss_cm s)) (ss_rem s ++ removelast vs) (ss_inc s) (hadd tdec t (ss_del s))) in *.
      assert (Hl0 : forall w, In w (listed (ss_cm s0) ++ ss_rem s0) -> rest w).
      { intros w Hw. apply Hpl. destruct Hh' as [(_ & Hp' & _) _]. apply (Permutation_in _ (Permutation_sym Hp')), Hw. }
      destruct (insert_constrained S K (ss_tr s) v HC HRS HvS (Hoff v Pv) H bd hs fmin rest) with (t := t) (s := s0)
        (fuel := (3 + 2 * length (tris (ss_tr s)) + fmin)%nat) (p := (2%nat :: p)) as (s1 & Hs1 & HC1 & Hreg1 & Hx1); auto.
      { intros fuel' p' a b vs' Hfu Ha' Hb' HD Hvs. apply (Hsplit S (ss_tr s)); auto. }
      { intros w Hw. apply Hl0, in_or_app. right. exact Hw. }
      { intros t' vs' w Hi Hw. apply Hl0, in_or_app. left. apply in_flat_map. exists (t', vs'). auto. }
      { lia. }
      assert (Hh1 : heldc L' s1) by exact (cavity_loop_inv H K bd hs (fun _ _ => heldc L') (heldc_remove L') (heldc_include L') _ _ _ _ _ _ Hs1 Hh').
      assert (HP1 : P (v :: S) (ss_tr s1)) by (apply (HP S (ss_tr s)); auto).
      destruct (IH L' (v :: S) s1 (0%nat :: p)) as (n0 & s' & done & Hrun & HC' & HP' & Hp' & Hreg & _); auto.
      { apply Permutation_length in HpL. cbn in HpL. lia. }
      { apply (resolved_incl (L ++ S)); [exact HR|]. intros w Hw. apply in_or_app. apply in_app_or in Hw. destruct Hw as [Hw|[<-|Hw]]; auto. }
      { inversion Hnd'. assumption. }
      { intros w Hw. destruct (Hpl w Hw) as (R1 & R2 & R3). split; [exact R1|]. intros [E|E]; [congruence|contradiction]. }
      exists (1 + n0 + (3 + 2 * length (tris (ss_tr s)) + fmin))%nat, s', (done ++ [v]). split; [|split; [|split; [|split; [|split]]]].
      + intros fuel Hfu. destruct fuel as [|fuel]; [lia|]. cbn [solve_loop]. rewrite Hk, Hg. cbn [unwrap bind]. rewrite Hv. cbn [unwrap bind]. fold s0.
        assert (Hc : cavity_loop H fuel (2%nat :: p) K bd hs v [te3 t; te2 t; te1 t] s0 = Ok s1).
        { refine (rle_ok _ _ _ _ _ Hs1). apply cavity_loop_mono. lia. }
        rewrite Hc. cbn [bind]. apply Hrun. lia.
      + rewrite <- app_assoc. exact HC'.
      + rewrite <- app_assoc. exact HP'.
      + rewrite HpL, Hp'. rewrite <- app_assoc. apply Permutation_middle.
      + intros q. rewrite Hreg1. apply Hreg.
      + intros _ E. destruct done; discriminate.
  Qed.

  Lemma split_total : forall fuel (t : tri) vs p, (forall w p, In w vs -> exists m, may_insert_triangle H fuel p t w bd hs = Ok m) ->
    exists conf rest, split_conflicts H fuel p t vs bd hs = Ok (conf, rest) /\
      forall w, In w rest -> encircles t w = Inside -> exists p', may_insert_triangle H fuel p' t w bd hs = Ok false.
  Proof.
    intros fuel t vs. induction vs as [|v vs IH]; intros p Hm; cbn [split_conflicts]; [exists [], []; split; [reflexivity|intros w []]|].
    destruct (Hm v (1%nat :: p) (or_introl eq_refl)) as (m & Em). rewrite Em. cbn [bind].
    destruct (IH (0%nat :: p)) as (conf & rest & -> & Hr); [intros w p' Hw; apply Hm; right; exact Hw|]. cbn [bind].
    destruct (cont_eqb (encircles t v) Inside && m) eqn:Eb; do 2 eexists; (split; [reflexivity|]); [exact Hr|].
    intros w [<-|Hw] He; [|apply Hr; assumption]. rewrite He in Eb. cbn in Eb. subst m. exists (1%nat :: p). exact Em.
  Qed.
  Lemma distribute_total : forall fuel (ts : list tri) p cm vs, (forall t w p, In t ts -> In w vs -> exists m, may_insert_triangle H fuel p t w bd hs = Ok m) ->
    exists cm' rest, distribute_all H fuel p ts cm vs bd hs = Ok (cm', rest) /\
      forall w t, In w rest -> In t ts -> encircles t w = Inside -> exists p', may_insert_triangle H fuel p' t w bd hs = Ok false.
  Proof.
    intros fuel ts. induction ts as [|t ts IH]; intros p cm vs Hm; [cbn; exists cm, vs; split; [reflexivity|intros w t _ []]|].
    cbn [distribute_all]. destruct vs as [|v vs]; [exists cm, []; split; [reflexivity|intros w t' []]|].
    unfold distribute_conflicts. destruct (split_total fuel t (v :: vs) (1%nat :: p)) as (conf & rest & Es & Er).
    { intros w p' Hw. apply Hm; [left; reflexivity|exact Hw]. }
    rewrite Es. cbn [bind]. destruct (split_conflicts_spec _ _ _ _ _ _ _ _ _ Es) as [Hperm _].
    assert (Hin : forall w, In w rest -> In w (v :: vs)) by (intros w Hw; apply (Permutation_in _ (Permutation_sym Hperm)), in_or_app; right; exact Hw).
    destruct (IH (0%nat :: p) (add_conflicts t conf cm) rest) as (cm' & rest' & Hd & Hw).
    { intros t' w p' Ht' Hw. apply Hm; [right; exact Ht'|apply Hin, Hw]. }
    exists cm', rest'. split; [exact Hd|]. pose proof (distribute_all_incl _ _ _ _ _ _ _ _ _ _ Hd) as Hi.
    intros w t' Hw' [<-|Ht'] He; [apply Er; [apply Hi, Hw'|exact He]|apply Hw; assumption].
  Qed.
  Lemma distribute_adm : forall fuel (ts : list tri) p cm vs cm' rest, distribute_all H fuel p ts cm vs bd hs = Ok (cm', rest) ->
    (forall t l w, In (t, l) cm -> In w l -> adm t w) -> forall t l w, In (t, l) cm' -> In w l -> adm t w.
  Proof.
    intros fuel ts. induction ts as [|t ts IH]; intros p cm vs cm' rest Hd Ha; cbn [distribute_all] in Hd; [injection Hd as <- <-; exact Ha|].
    destruct vs as [|v vs]; [injection Hd as <- <-; exact Ha|].
    apply bind_ok in Hd. destruct Hd as ([cm1 vs1] & Hd1 & Hd). unfold distribute_conflicts in Hd1.
    apply bind_ok in Hd1. destruct Hd1 as ([conf r] & Hs & E). injection E as <- <-. apply (IH _ _ _ _ _ Hd).
    intros t' l w Hi Hw. apply add_conflicts_In in Hi. destruct Hi as [Hi|(-> & _ & old & -> & Hold)]; [apply (Ha t' l w Hi Hw)|].
    apply in_app_or in Hw. destruct Hw as [Hw|Hw]; [|apply (split_admits _ _ _ _ _ _ _ _ _ Hs w Hw)].
    destruct Hold as [-> |Hold]; [destruct Hw|]. apply (Ha _ _ w Hold Hw).
  Qed.

  Lemma include_constrained : forall p S (tr : mesh) vs, constrained_delaunay S K tr -> P S tr -> resolved (vs ++ S) -> NoDup vs -> (forall w, In w vs -> pool w) ->
    exists n0 tr' inc del ins dropped,
      (forall fuel, (n0 <= fuel)%nat -> vertices_include H fuel p tr vs K bd hs = Ok (tr', inc, del)) /\
      constrained_delaunay (ins ++ S) K tr' /\ P (ins ++ S) tr' /\
      Permutation (filter (fun v => negb (hmem vdec v (trn_vertices tr))) vs) (ins ++ dropped) /\
      (forall q, in_region tr q <-> in_region tr' q) /\
      ((exists t w, In w vs /\ ~ In w S /\ encircles t w = Inside /\ zone S K tr w t) -> ins <> []).
  Proof.
    intros p S tr vs HC HPs HR Hnd Hpool. set (new := filter (fun v => negb (hmem vdec v (trn_vertices tr))) vs).
    assert (HRS : forall w, In w S -> vghost w = false) by (intros w Hw; apply (rs_plain _ HR), in_or_app; auto).
    assert (Hnew : forall w, In w new <-> In w vs /\ ~ In w S).
    { intros w. unfold new. rewrite filter_In, negb_true_iff. rewrite <- (cd_points S K tr HC HRS w). pose proof (hmem_In vdec w (trn_vertices tr)) as Hm. destruct (hmem vdec w (trn_vertices tr)); intuition congruence. }
    assert (Hrw : forall w, In w vs -> resolved (w :: S)).
    { intros w Hw. apply (resolved_incl (vs ++ S)); [exact HR|]. intros x [<-|Hx]; apply in_or_app; auto. }
    destruct (distribute_total fmin (ho H (1%nat :: p) _ (tris tr)) (2%nat :: p) [] new) as (cm & rem & Hd & Hout).
    { intros t w p' Ht Hw. apply ho_In in Ht. apply Hnew in Hw. destruct Hw as [Hw Hs].
      destruct (Hmay S tr w t fmin p' HC HPs (Hpool w Hw) Hs (Hrw w Hw) Ht (Nat.le_refl _)) as (m & Em & _). exists m. exact Em. }
    destruct (distribute_all_spec H _ _ _ _ _ _ _ _ _ Hd fair_nil) as (Hf & Hp & Hk). cbn [listed flat_map app] in Hp.
    destruct (solve_constrained (length new) new S (SS tr cm rem [] []) (3%nat :: p)) as (n0 & s' & done & Hrun & HC' & HP' & Hp' & Hreg & Hne); auto.
    - split.
      + split; [exact Hf|]. cbn [ss_cm ss_rem ss_tr]. split; [exact Hp|]. split; [exact (cd_sound _ _ _ HC)|].
        intros t Ht. destruct (Hk t Ht) as [[]|Ht']. apply ho_In in Ht'. exact Ht'.
      + cbn [ss_cm]. apply (distribute_adm _ _ _ _ _ _ _ Hd). intros t l w [].
    - apply (resolved_incl (vs ++ S)); [exact HR|]. intros w Hw. apply in_or_app. apply in_app_or in Hw. destruct Hw as [Hw|Hw]; [|auto]. apply Hnew in Hw. tauto.
    - apply NoDup_filter, Hnd.
    - intros w Hw. apply Hnew in Hw. split; [apply Hpool|]; apply Hw.
    - exists (fmin + n0)%nat, (ss_tr s'), (ss_inc s'), (ss_del s'), done, (ss_rem s').
      split; [|split; [exact HC'|split; [exact HP'|split; [exact Hp'|split; [exact Hreg|]]]]].
      2:{ intros (t & w & Hw & Hs & He & Hz). apply Hne. cbn [ss_cm]. intros ->. cbn in Hp.
          assert (Hwn : In w new) by (apply Hnew; auto). assert (Ht : In t (tris tr)) by (apply (zone_in S K tr w), Hz).
          destruct (Hout w t) as (p' & Ep); [apply (Permutation_in _ Hp), Hwn|apply ho_In; exact Ht|exact He|].
          destruct (Hmay S tr w t fmin p' HC HPs (Hpool w Hw) Hs (Hrw w Hw) Ht (Nat.le_refl _)) as (m & Em & Hm). rewrite (Hm Hz), Ep in Em. discriminate. }
      intros fuel Hfu. unfold vertices_include. fold new.
      assert (Hd' : distribute_all H fuel (2%nat :: p) (ho H (1%nat :: p) _ (tris tr)) [] new bd hs = Ok (cm, rem)).
      { refine (rle_ok _ _ _ _ _ Hd). apply distribute_all_mono. lia. }
      rewrite Hd'. cbn [bind]. unfold solve_conflicts. rewrite (Hrun fuel ltac:(lia)). reflexivity.
  Qed.
End Batch.

(** ** One vertex, with no boundary to look at *)
Lemma none_split : forall (H : HashOrder) fuel p (t : tri) vs, exists conf rest, split_conflicts H fuel p t vs None [] = Ok (conf, rest).
Proof. intros H fuel p t vs. destruct (split_free H fuel t vs p) as (conf & rest & E & _). eauto. Qed.

Lemma unscreened_zone : forall S K (tr : mesh) v, constrained_delaunay S K tr -> resolved (v :: S) -> unscreened K tr v ->
  forall t, In t (tris tr) -> encircles t v = Inside -> zone S K tr v t.
Proof.
  intros S K tr v HC HR Hu t Ht He. destruct (Hu t Ht He) as (a & b & c & q & -> & Gc & Hq & Hs).
  assert (Hz : zhit S tr v (Tri a b c)).
  { apply (inside_zhit S K); auto. split; [exact Ht|]. destruct (cd_shape _ _ _ HC _ Ht) as [(x & y & z & E & Hx & Hy & Hz & _)|(x & y & E & _)]; injection E as -> -> ->; [|discriminate].
    unfold is_ghost. cbn [tv1 tv2 tv3]. rewrite !(rs_plain _ HR) by (right; assumption). reflexivity. }
  apply (zone_start S K tr v HC HR) with (n := Datatypes.S (crank S tr v (Tri a b c))) (a := a) (b := b) (c := c) (q := q); auto. left. reflexivity.
Qed.

Lemma region_hit : forall S K (tr : mesh) v, constrained_delaunay S K tr -> resolved (v :: S) -> ~ In v S -> in_region tr v ->
  exists a b c, solid_in tr (Tri a b c) /\ encircles (Tri a b c) v = Inside /\ in_triangle a b c v.
Proof.
  intros S K tr v HC HR Hv (a & b & c & Ht & Hi). exists a, b, c. split; [exact Ht|]. split; [|exact Hi].
  destruct Ht as [Ht G]. destruct (cd_shape _ _ _ HC _ Ht) as [(x & y & z & E & Hx & Hy & Hz & Hp)|(x & y & E & _)]; injection E as -> -> ->.
  - unfold encircles. rewrite G. cbn [tv1 tv2 tv3]. apply (inside_I S v HR x y z); auto.
    assert (Na : forall w, In w S -> ~ coincide v w) by (intros w Hw Hc; apply Hv; rewrite (rs_apart _ HR v w); auto; [left; reflexivity|right; exact Hw|destruct Hc as [E1 E2]; unfold close; rewrite E1, E2; pose proof eps_pos; split; lra]).
    apply closed_circle; auto.
  - unfold is_ghost in G. cbn in G. rewrite !orb_true_r in G. discriminate.
Qed.

Lemma one_vertex : forall (H : HashOrder) p S K (tr : mesh) v, constrained_delaunay S K tr -> resolved (v :: S) -> ~ In v S ->
  (forall a b, barred K a b -> ~ strictly_between a b v) -> in_region tr v -> unscreened K tr v ->
  exists n0 tr' inc del, (forall fuel, (n0 <= fuel)%nat -> vertices_include H fuel p tr [v] K None [] = Ok (tr', inc, del)) /\
    constrained_delaunay (v :: S) K tr' /\ (forall q, in_region tr q <-> in_region tr' q) /\
    (forall t, In t (tris tr) -> (In t (tris tr') <-> encircles t v <> Inside)) /\
    (forall t, In t (tris tr') -> In t (tris tr) \/ corner_of v t).
Proof.
  intros H p S K tr v HC HR Hv Hoff Hin Hu. pose proof (unscreened_zone S K tr v HC HR Hu) as Hz.
  assert (Hzi : forall t, zone S K tr v t -> encircles t v = Inside).
  { intros t Ht. pose proof (zone_hit S K tr v t Ht) as Hh. pose proof Hh as [Hi _]. apply (zhit_conf S tr v HR) in Hh. unfold is_conflicting in Hh.
    destruct (encircles t v) eqn:E; [reflexivity| |]; exfalso; cbn in Hh;
      (destruct (zhit_solid_in S K tr v HC HR t (zone_hit S K tr v t Ht)) as [_ G]; rewrite G in Hh; discriminate). }
  set (P := fun S' tr' => (S' = S /\ tr' = tr) \/ (S' = v :: S /\ (forall x, In x (tris tr') <-> (In x (tris tr) /\ ~ zone S K tr v x) \/ exists a b, outline tr (zone S K tr v) (a, b) /\ x = Tri a b v))).
  assert (Same : forall S' tr', P S' tr' -> ~ In v S' -> S' = S /\ tr' = tr) by (intros S' tr' [E|[-> _]] Hn; [exact E|exfalso; apply Hn; left; reflexivity]).
  destruct (include_constrained H K None [] 0 (fun w => w = v) P) with (p := p) (S := S) (tr := tr) (vs := [v]) as (n0 & tr' & inc & del & ins & dropped & Hrun & HC' & HP' & Hperm & Hreg & Hne).
  - intros w ->. exact Hoff.
  - intros S' tr' w u fuel p' _ _ _ _ _ _ _. exists true. split; [apply may_insert_free|reflexivity].
  - intros S' tr' w u HC1 HP1 -> Hn _ Hu1 He _. destruct (Same S' tr' HP1 Hn) as [-> ->]. apply Hz; assumption.
  - intros S' tr' w fuel p' a b vs _ _ _ _ _ _ _ _ _. apply none_split.
  - intros S' tr' w tr1 _ HP1 -> Hn _ _ Hx. destruct (Same S' tr' HP1 Hn) as [-> ->]. right. split; [reflexivity|exact Hx].
  - exact HC.
  - left. auto.
  - exact HR.
  - constructor; [intros []|constructor].
  - intros w [<-|[]]. reflexivity.
  - assert (Ef : filter (fun v => negb (hmem vdec v (trn_vertices tr))) [v] = [v]).
    { cbn [filter]. destruct (hmem vdec v (trn_vertices tr)) eqn:Em; [|reflexivity]. exfalso. apply (hmem_In vdec) in Em. apply Hv.
      apply (cd_points S K tr HC); [intros w Hw; apply (rs_plain _ HR); right; exact Hw|exact Em]. }
    rewrite Ef in Hperm.
    assert (Ei : ins = [v]).
    { destruct (region_hit S K tr v HC HR Hv Hin) as (a & b & c & [Ht _] & He & _).
      destruct ins as [|w ins]; [exfalso; apply Hne; [|reflexivity]; exists (Tri a b c), v; cbn [In]; auto|].
      pose proof (Permutation_length Hperm) as El. cbn in El. rewrite app_length in El. destruct ins; [|cbn in El; lia].
      assert (Hw : In w [v]) by (apply (Permutation_in _ (Permutation_sym Hperm)); left; reflexivity). destruct Hw as [->|[]]. reflexivity. }
    subst ins. destruct HP' as [[E _]|[_ Hx]]; [exfalso; apply Hv; rewrite <- E; left; reflexivity|].
    exists n0, tr', inc, del. split; [exact Hrun|]. split; [exact HC'|]. split; [exact Hreg|]. split.
    + intros t Ht. rewrite Hx. split.
      * intros [[_ Hno]|(a & b & _ & ->)]; [intros He; apply Hno, Hz; assumption|]. exfalso.
        destruct (cd_shape _ _ _ HC _ Ht) as [(x & y & z & E & _ & _ & Hc & _)|(x & y & E & _)]; injection E as -> -> ->; [exact (Hv Hc)|].
        pose proof (rs_plain _ HR gv (or_introl eq_refl)). discriminate.
      * intros Hno. left. split; [exact Ht|]. intros Hzt. apply Hno, Hzi, Hzt.
    + intros t Ht. apply Hx in Ht. destruct Ht as [[Ht _]|(a & b & _ & ->)]; [left; exact Ht|right; constructor].
Qed.
