(** P_G2.v — an insertion that nothing hinders ends. *)

From Coq Require Import List Bool Arith Lia Permutation.
From Verif Require Import Base Arith Geometry Elements Polyline Procedures Refine Spec P_Base P_Trn P_Fuel P_Vertices P_Cavity P_Refine P_E1 P_G1.
Import ListNotations.
Local Open Scope nat_scope.

Section Ends.
  Context {A : Arith} (H : HashOrder).
  Notation vertex := (vertex A).
  Notation edge := (edge A).
  Notation triangle := (triangle A).
  Notation triangulation := (triangulation A).
  Notation polyline := (polyline A).

  Variables (tr0 : triangulation) (v : vertex) (cs : list edge) (bd : option polyline) (hs : list polyline).
  Hypothesis Hs0 : adj_sound tr0.
  Hypothesis Hc0 : adj_complete tr0.
  Hypothesis Hnew : forall t, In t (tris tr0) -> ~ corner_of v t.
  Hypothesis Hreal : vghost v = false.
  Hypothesis Hcs : forall e, In e cs -> vghost (fst e) = false /\ vghost (snd e) = false.
  Hypothesis Hout : forall t a b, In t (tris tr0) -> side_of (a, b) t -> vghost a = false -> vghost b = false ->
    continence b a v v <> Inside.
  Hypothesis Hst : forall p q, ho H p polyline hs = ho H q polyline hs.
  (** Nothing stands in the way of [v]. *)
  Hypothesis Hyes : forall t fuel p m, In t (tris tr0) -> is_conflicting t v = true -> may_insert_triangle H fuel p t v bd hs = Ok m -> m = true.
  Hypothesis Hbar : forall t u e, In t (tris tr0) -> In u (tris tr0) -> is_conflicting t v = true -> is_conflicting u v = true ->
    side_of e t -> side_of (flip e) u -> is_constrained cs e = false.

  (** The boundary test ends on the old triangles and on those a side away. *)
  Hypothesis Hold_ends : forall t p, In t (tris tr0) -> exists m, ends (fun n => may_insert_triangle H n p t v bd hs) m.
  Hypothesis Hnew_ends : forall t e p, In t (tris tr0) -> side_of e t -> ~ ghost_ended e -> exists m, ends (fun n => may_insert_triangle H n p (new_triangle (flip e) v) v bd hs) m.

  Notation rcav := (rcav H tr0 v bd hs).
  Notation accepted := (accepted H v bd hs).
  Let step_old' := step_old H tr0 v bd hs Hc0 Hnew Hreal Hout.
  Lemma cavity_ends : forall f p pending s s', cavity_loop H f p [] None [] v pending s = Ok s' -> rcav pending s ->
    ends (fun n => cavity_loop H n p cs bd hs v pending s) s'.
  Proof.
    induction f as [|f IH]; intros p pending s s' Hc HI; [discriminate|]. cbn [cavity_loop] in Hc.
    destruct pending as [|e pending]; [exists 1; intros [|n] Hn; [lia|exact Hc]|].
    apply bind_ok in Hc. destruct Hc as (outer & Ho & Hc). apply unwrap_ok in Ho.
    eapply ends_next; cycle 1; [intros n; cbn [cavity_loop]; rewrite Ho; cbn [unwrap bind]; reflexivity|].
    rewrite may_insert_free in Hc. cbn [bind] in Hc.
    assert (Hm : exists m, ends (fun n => may_insert_triangle H n (1 :: p) outer v bd hs) m).
    { rewrite opposite_flip in Ho. destruct (rc_sound _ _ _ _ _ _ _ HI _ _ Ho) as [Hin Hsd].
      destruct (rc_sub _ _ _ _ _ _ _ HI outer Hin) as [Hold|Hinc]; [apply Hold_ends, Hold|].
      destruct (outer_new H tr0 v bd hs Hc0 Hnew _ _ e outer HI (or_introl eq_refl) Hsd Hinc) as [Hng ->].
      destruct (rc_pending _ _ _ _ _ _ _ HI e (or_introl eq_refl)) as (t & Hd & Hst'). destruct (rc_del _ _ _ _ _ _ _ HI t Hd) as [Ht _].
      exact (Hnew_ends t e _ Ht Hst' Hng). }
    destruct Hm as (may & Hme). eapply ends_bind; [exact Hme|]. cbv beta. destruct (ends_at _ _ _ Hme) as (fuel & Hm).
    rewrite opposite_flip in Ho. destruct (rc_sound _ _ _ _ _ _ _ HI _ _ Ho) as [Hin Hsd].
    assert (Eb : is_conflicting outer v && negb (is_constrained cs e) && may = is_conflicting outer v && negb (is_constrained [] e) && true).
    { destruct (is_conflicting outer v) eqn:Hb1; [|reflexivity]. pose proof (step_old' _ _ _ _ HI Hin Hsd Hb1) as Hold.
      rewrite (Hyes outer _ _ _ Hold Hb1 Hm). destruct (rc_pending _ _ _ _ _ _ _ HI e (or_introl eq_refl)) as (t & Hd & Hst').
      destruct (rc_del _ _ _ _ _ _ _ HI t Hd) as [Ht [Hct _]]. rewrite (Hbar t outer e Ht Hold Hct Hb1 Hst' Hsd). reflexivity. }
    rewrite <- Eb in Hc. destruct (is_conflicting outer v && negb (is_constrained cs e) && may) eqn:Hb.
    - apply andb_true_iff in Hb. destruct Hb as [Hb ->]. apply andb_true_iff in Hb. destruct Hb as [Hb1 Hb2].
      apply negb_true_iff in Hb2. pose proof (step_old' _ _ _ _ HI Hin Hsd Hb1) as Hold.
      refine (IH _ _ _ _ Hc _). rewrite (rc_cm _ _ _ _ _ _ _ HI). cbn [mget]. constructor; cbn.
      + apply adj_sound_rem, (rc_sound _ _ _ _ _ _ _ HI).
      + reflexivity.
      + apply (rc_rem _ _ _ _ _ _ _ HI).
      + intros t Ht. apply hadd_In in Ht. destruct Ht as [->|Ht]; [|apply (rc_del _ _ _ _ _ _ _ HI), Ht].
        split; [exact Hold|]. split; [exact Hb1|]. exists fuel, (1 :: p). exact Hm.
      + intros x Hx. apply next_cavities_In in Hx. destruct Hx as [Hx|Hx].
        * exists outer. split; [apply hadd_In; auto|exact Hx].
        * destruct (rc_pending _ _ _ _ _ _ _ HI x (or_intror Hx)) as (t & Ht & Hs). exists t. split; [apply hadd_In; auto|exact Hs].
      + apply (rc_inc _ _ _ _ _ _ _ HI).
      + intros t Ht. apply rem_tri_In in Ht. apply (rc_sub _ _ _ _ _ _ _ HI), Ht.
      + intros t Ht. destruct (rc_sup _ _ _ _ _ _ _ HI t Ht) as [Hi|Hd]; [|right; apply hadd_In; auto].
        destruct (tdec t outer) as [->|Hne]; [right; apply hadd_In; auto|]. left. apply rem_tri_In. auto.
    - unfold distribute_conflicts in Hc |- *.
      rewrite (rc_rem _ _ _ _ _ _ _ HI), (rc_cm _ _ _ _ _ _ _ HI) in Hc. cbn [split_conflicts bind add_conflicts] in Hc.
      eapply ends_ext; cycle 1; [intros n; rewrite (rc_rem _ _ _ _ _ _ _ HI), (rc_cm _ _ _ _ _ _ _ HI); cbn [split_conflicts bind add_conflicts]; reflexivity|].
      refine (IH _ _ _ _ Hc _). constructor; cbn.
      + apply adj_sound_incl, (rc_sound _ _ _ _ _ _ _ HI).
      + reflexivity.
      + reflexivity.
      + apply (rc_del _ _ _ _ _ _ _ HI).
      + intros x Hx. apply (rc_pending _ _ _ _ _ _ _ HI). right. exact Hx.
      + intros t Ht. apply hadd_In in Ht. destruct Ht as [->|Ht]; [|apply (rc_inc _ _ _ _ _ _ _ HI), Ht].
        exists e. split; [reflexivity|]. intros Hg.
        assert (Hold : In outer (tris tr0)).
        { destruct (rc_sub _ _ _ _ _ _ _ HI outer Hin) as [Hold|Hinc]; [exact Hold|]. exfalso.
          destruct (outer_new H tr0 v bd hs Hc0 Hnew _ _ e outer HI (or_introl eq_refl) Hsd Hinc) as [Hng _]. contradiction. }
        exists outer. split; [exact Hold|]. split; [exact Hsd|]. intros [Ha1 (f' & p' & Ha2)].
        rewrite Ha1, (ghost_unconstrained cs Hcs e Hg) in Hb. cbn in Hb.
        pose proof (may_insert_same H _ _ _ _ _ _ _ _ _ _ Hst Hm Ha2). congruence.
      + intros t Ht. apply incl_tri_In in Ht. destruct Ht as [->|Ht]; [right; apply hadd_In; auto|].
        destruct (rc_sub _ _ _ _ _ _ _ HI t Ht) as [Hi|Hi]; [auto|right; apply hadd_In; auto].
      + intros t Ht. destruct (rc_sup _ _ _ _ _ _ _ HI t Ht) as [Hi|Hi]; [left; apply incl_tri_In; auto|auto].
  Qed.

  Lemma single_ends : forall p t0 s f, In t0 (tris tr0) -> accepted t0 ->
    cavity_loop H f (2 :: p) [] None [] v [te3 t0; te2 t0; te1 t0] (SS (rem_tri t0 tr0) [] [] [] (hadd tdec t0 [])) = Ok s ->
    ends (fun n => solve_conflicts H n p tr0 [(t0, [v])] [] cs bd hs) s.
  Proof.
    intros p t0 s f Ht Ha Hc. assert (Hmd : mdel tdec t0 [(t0, [v])] = []) by (cbn; destruct (tdec t0 t0); [reflexivity|contradiction]).
    pose proof (single_start H tr0 v bd hs Hs0 t0 Ht Ha) as H0. pose proof (cavity_ends _ _ _ _ _ Hc H0) as He.
    eapply ends_next; cycle 1.
    { intros n. unfold solve_conflicts. cbn [solve_loop ss_cm map fst]. rewrite ho_single. cbn [mget]. destruct (tdec t0 t0) as [_|Hn]; [|contradiction].
      cbn [unwrap bind rev app hd_error removelast ss_tr ss_rem ss_inc ss_del]. rewrite Hmd. reflexivity. }
    eapply ends_bind; [exact He|]. destruct (ends_at _ _ _ He) as (fuel & E).
    pose proof (cavity_rejected H tr0 v cs bd hs Hc0 Hnew Hreal Hcs Hout Hst _ _ _ _ _ E H0) as HI.
    eapply ends_next; cycle 1; [intros n; cbn [solve_loop]; rewrite (rc_cm _ _ _ _ _ _ _ HI); cbn [map]; rewrite ho_nil; reflexivity|]. apply ends_const.
  Qed.
End Ends.
