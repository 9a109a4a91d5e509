(** P_E1.v — an insertion that no constraint and no boundary test hinders is the
    insertion without them. *)

From Coq Require Import List Bool Arith Lia Permutation.
From Verif Require Import Base Arith Geometry Elements Polyline Procedures Refine Spec P_Base P_Trn P_Fuel P_Vertices P_Cavity P_Refine.
Import ListNotations.
Local Open Scope nat_scope.

Section Same.
  Context {A : Arith} (H : HashOrder).
  Notation vertex := (vertex A).
  Notation edge := (edge A).
  Notation triangle := (triangle A).
  Notation triangulation := (triangulation A).
  Notation polyline := (polyline A).

  Variables (tr0 : triangulation) (v : vertex) (cs : list edge) (bd : option polyline) (hs : list polyline).
  Hypothesis Hs0 : adj_sound tr0.
  Hypothesis Hc0 : adj_complete tr0.
  Hypothesis Hnew : forall t, In t (tris tr0) -> ~ corner_of v t.
  Hypothesis Hreal : vghost v = false.
  Hypothesis Hcs : forall e, In e cs -> vghost (fst e) = false /\ vghost (snd e) = false.
  Hypothesis Hout : forall t a b, In t (tris tr0) -> side_of (a, b) t -> vghost a = false -> vghost b = false ->
    continence b a v v <> Inside.
  Hypothesis Hst : forall p q, ho H p polyline hs = ho H q polyline hs.
  (** Nothing stands in the way of [v]. *)
  Hypothesis Hyes : forall t fuel p m, In t (tris tr0) -> is_conflicting t v = true -> may_insert_triangle H fuel p t v bd hs = Ok m -> m = true.
  Hypothesis Hbar : forall t u e, In t (tris tr0) -> In u (tris tr0) -> is_conflicting t v = true -> is_conflicting u v = true ->
    side_of e t -> side_of (flip e) u -> is_constrained cs e = false.

  Notation rcav := (rcav H tr0 v bd hs).
  Notation accepted := (accepted H v bd hs).

  Lemma step_old : forall pending s e outer, rcav (e :: pending) s -> In outer (tris (ss_tr s)) -> side_of (flip e) outer ->
    is_conflicting outer v = true -> In outer (tris tr0).
  Proof.
    intros pending s e outer HI Hin Hsd Hb1.
    destruct (rc_sub _ _ _ _ _ _ _ HI outer Hin) as [Hold|Hinc]; [exact Hold|]. exfalso.
    destruct (outer_new H tr0 v bd hs Hc0 Hnew _ _ e outer HI (or_introl eq_refl) Hsd Hinc) as [Hng ->].
    unfold is_conflicting in Hb1. apply orb_true_iff in Hb1. destruct Hb1 as [Hb1|Hb1].
    - destruct (rc_pending _ _ _ _ _ _ _ HI e (or_introl eq_refl)) as (t & Hd & Hst'). destruct (rc_del _ _ _ _ _ _ _ HI t Hd) as [Ht _].
      destruct e as [a b]. unfold ghost_ended in Hng. cbn [fst snd] in Hng.
      destruct (vghost a) eqn:Ga; [apply Hng; auto|]. destruct (vghost b) eqn:Gb; [apply Hng; auto|].
      apply (Hout t a b Ht Hst' Ga Gb). unfold new_triangle, flip, ev1, ev2, encircles, is_ghost in Hb1. cbn in Hb1.
      rewrite Ga, Gb in Hb1. cbn in Hb1. rewrite Ga, Gb, Hreal in Hb1. cbn in Hb1.
      destruct (continence b a v v); [reflexivity|discriminate|discriminate].
    - apply andb_true_iff in Hb1. destruct Hb1 as [Hb1 _]. apply new_triangle_ghost in Hb1; [|exact Hreal].
      apply Hng. destruct e; unfold ghost_ended; cbn in *; tauto.
  Qed.

  Lemma cavity_same : forall fuel p pending s s',
    cavity_loop H fuel p cs bd hs v pending s = Ok s' -> rcav pending s -> cavity_loop H fuel p [] None [] v pending s = Ok s'.
  Proof.
    induction fuel as [|fuel IH]; intros p pending s s' Hc HI; cbn [cavity_loop] in *; [discriminate|].
    destruct pending as [|e pending]; [exact Hc|].
    apply bind_ok in Hc. destruct Hc as (outer & Ho & Hc). apply unwrap_ok in Ho. rewrite Ho. cbn [unwrap bind].
    apply bind_ok in Hc. destruct Hc as (may & Hm & Hc). rewrite may_insert_free. cbn [bind].
    rewrite opposite_flip in Ho. destruct (rc_sound _ _ _ _ _ _ _ HI _ _ Ho) as [Hin Hsd].
    assert (Eb : is_conflicting outer v && negb (is_constrained cs e) && may = is_conflicting outer v && negb (is_constrained [] e) && true).
    { destruct (is_conflicting outer v) eqn:Hb1; [|reflexivity]. pose proof (step_old _ _ _ _ HI Hin Hsd Hb1) as Hold.
      rewrite (Hyes outer _ _ _ Hold Hb1 Hm). destruct (rc_pending _ _ _ _ _ _ _ HI e (or_introl eq_refl)) as (t & Hd & Hst').
      destruct (rc_del _ _ _ _ _ _ _ HI t Hd) as [Ht [Hct _]]. rewrite (Hbar t outer e Ht Hold Hct Hb1 Hst' Hsd). reflexivity. }
    rewrite <- Eb. destruct (is_conflicting outer v && negb (is_constrained cs e) && may) eqn:Hb.
    - apply andb_true_iff in Hb. destruct Hb as [Hb ->]. apply andb_true_iff in Hb. destruct Hb as [Hb1 Hb2].
      apply negb_true_iff in Hb2. pose proof (step_old _ _ _ _ HI Hin Hsd Hb1) as Hold.
      refine (IH _ _ _ _ Hc _). rewrite (rc_cm _ _ _ _ _ _ _ HI). cbn [mget]. constructor; cbn.
      + apply adj_sound_rem, (rc_sound _ _ _ _ _ _ _ HI).
      + reflexivity.
      + apply (rc_rem _ _ _ _ _ _ _ HI).
      + intros t Ht. apply hadd_In in Ht. destruct Ht as [->|Ht]; [|apply (rc_del _ _ _ _ _ _ _ HI), Ht].
        split; [exact Hold|]. split; [exact Hb1|]. exists fuel, (1 :: p). exact Hm.
      + intros x Hx. apply next_cavities_In in Hx. destruct Hx as [Hx|Hx].
        * exists outer. split; [apply hadd_In; auto|exact Hx].
        * destruct (rc_pending _ _ _ _ _ _ _ HI x (or_intror Hx)) as (t & Ht & Hs). exists t. split; [apply hadd_In; auto|exact Hs].
      + apply (rc_inc _ _ _ _ _ _ _ HI).
      + intros t Ht. apply rem_tri_In in Ht. apply (rc_sub _ _ _ _ _ _ _ HI), Ht.
      + intros t Ht. destruct (rc_sup _ _ _ _ _ _ _ HI t Ht) as [Hi|Hd]; [|right; apply hadd_In; auto].
        destruct (tdec t outer) as [->|Hne]; [right; apply hadd_In; auto|]. left. apply rem_tri_In. auto.
    - apply bind_ok in Hc. destruct Hc as ([cm' rem'] & Hd & Hc). unfold distribute_conflicts in Hd |- *.
      rewrite (rc_rem _ _ _ _ _ _ _ HI), (rc_cm _ _ _ _ _ _ _ HI) in Hd |- *. cbn [split_conflicts bind add_conflicts] in Hd |- *. injection Hd as <- <-.
      refine (IH _ _ _ _ Hc _). constructor; cbn.
      + apply adj_sound_incl, (rc_sound _ _ _ _ _ _ _ HI).
      + reflexivity.
      + reflexivity.
      + apply (rc_del _ _ _ _ _ _ _ HI).
      + intros x Hx. apply (rc_pending _ _ _ _ _ _ _ HI). right. exact Hx.
      + intros t Ht. apply hadd_In in Ht. destruct Ht as [->|Ht]; [|apply (rc_inc _ _ _ _ _ _ _ HI), Ht].
        exists e. split; [reflexivity|]. intros Hg.
        assert (Hold : In outer (tris tr0)).
        { destruct (rc_sub _ _ _ _ _ _ _ HI outer Hin) as [Hold|Hinc]; [exact Hold|]. exfalso.
          destruct (outer_new H tr0 v bd hs Hc0 Hnew _ _ e outer HI (or_introl eq_refl) Hsd Hinc) as [Hng _]. contradiction. }
        exists outer. split; [exact Hold|]. split; [exact Hsd|]. intros [Ha1 (f' & p' & Ha2)].
        rewrite Ha1, (ghost_unconstrained cs Hcs e Hg) in Hb. cbn in Hb.
        pose proof (may_insert_same H _ _ _ _ _ _ _ _ _ _ Hst Hm Ha2). congruence.
      + intros t Ht. apply incl_tri_In in Ht. destruct Ht as [->|Ht]; [right; apply hadd_In; auto|].
        destruct (rc_sub _ _ _ _ _ _ _ HI t Ht) as [Hi|Hi]; [auto|right; apply hadd_In; auto].
      + intros t Ht. destruct (rc_sup _ _ _ _ _ _ _ HI t Ht) as [Hi|Hi]; [left; apply incl_tri_In; auto|auto].
  Qed.

  (** The run is the run without hindrances, or it runs out of fuel. *)
  Lemma cavity_safe : (forall fuel p t, may_insert_triangle H fuel p t v bd hs <> Panic) -> forall fuel p pending s s' f,
    cavity_loop H f p [] None [] v pending s = Ok s' -> rcav pending s ->
    cavity_loop H fuel p cs bd hs v pending s = Ok s' \/ cavity_loop H fuel p cs bd hs v pending s = NoFuel.
  Proof.
    intros Hsafe. induction fuel as [|fuel IH]; intros p pending s s' f Hc HI; cbn [cavity_loop]; [right; reflexivity|].
    destruct f as [|f]; [discriminate|]. cbn [cavity_loop] in Hc.
    destruct pending as [|e pending]; [left; exact Hc|].
    apply bind_ok in Hc. destruct Hc as (outer & Ho & Hc). apply unwrap_ok in Ho. rewrite Ho. cbn [unwrap bind].
    rewrite may_insert_free in Hc. cbn [bind] in Hc.
    destruct (may_insert_triangle H fuel (1 :: p) outer v bd hs) as [may| |] eqn:Hm; cbn [bind]; [|exfalso; exact (Hsafe _ _ _ Hm)|right; reflexivity].
    rewrite opposite_flip in Ho. destruct (rc_sound _ _ _ _ _ _ _ HI _ _ Ho) as [Hin Hsd].
    assert (Eb : is_conflicting outer v && negb (is_constrained cs e) && may = is_conflicting outer v && negb (is_constrained [] e) && true).
    { destruct (is_conflicting outer v) eqn:Hb1; [|reflexivity]. pose proof (step_old _ _ _ _ HI Hin Hsd Hb1) as Hold.
      rewrite (Hyes outer _ _ _ Hold Hb1 Hm). destruct (rc_pending _ _ _ _ _ _ _ HI e (or_introl eq_refl)) as (t & Hd & Hst').
      destruct (rc_del _ _ _ _ _ _ _ HI t Hd) as [Ht [Hct _]]. rewrite (Hbar t outer e Ht Hold Hct Hb1 Hst' Hsd). reflexivity. }
    rewrite <- Eb in Hc. destruct (is_conflicting outer v && negb (is_constrained cs e) && may) eqn:Hb.
    - apply andb_true_iff in Hb. destruct Hb as [Hb ->]. apply andb_true_iff in Hb. destruct Hb as [Hb1 Hb2].
      apply negb_true_iff in Hb2. pose proof (step_old _ _ _ _ HI Hin Hsd Hb1) as Hold.
      refine (IH _ _ _ _ _ Hc _). rewrite (rc_cm _ _ _ _ _ _ _ HI). cbn [mget]. constructor; cbn.
      + apply adj_sound_rem, (rc_sound _ _ _ _ _ _ _ HI).
      + reflexivity.
      + apply (rc_rem _ _ _ _ _ _ _ HI).
      + intros t Ht. apply hadd_In in Ht. destruct Ht as [->|Ht]; [|apply (rc_del _ _ _ _ _ _ _ HI), Ht].
        split; [exact Hold|]. split; [exact Hb1|]. exists fuel, (1 :: p). exact Hm.
      + intros x Hx. apply next_cavities_In in Hx. destruct Hx as [Hx|Hx].
        * exists outer. split; [apply hadd_In; auto|exact Hx].
        * destruct (rc_pending _ _ _ _ _ _ _ HI x (or_intror Hx)) as (t & Ht & Hs). exists t. split; [apply hadd_In; auto|exact Hs].
      + apply (rc_inc _ _ _ _ _ _ _ HI).
      + intros t Ht. apply rem_tri_In in Ht. apply (rc_sub _ _ _ _ _ _ _ HI), Ht.
      + intros t Ht. destruct (rc_sup _ _ _ _ _ _ _ HI t Ht) as [Hi|Hd]; [|right; apply hadd_In; auto].
        destruct (tdec t outer) as [->|Hne]; [right; apply hadd_In; auto|]. left. apply rem_tri_In. auto.
    - unfold distribute_conflicts in Hc |- *.
      rewrite (rc_rem _ _ _ _ _ _ _ HI), (rc_cm _ _ _ _ _ _ _ HI) in Hc |- *. cbn [split_conflicts bind add_conflicts] in Hc |- *.
      refine (IH _ _ _ _ _ Hc _). constructor; cbn.
      + apply adj_sound_incl, (rc_sound _ _ _ _ _ _ _ HI).
      + reflexivity.
      + reflexivity.
      + apply (rc_del _ _ _ _ _ _ _ HI).
      + intros x Hx. apply (rc_pending _ _ _ _ _ _ _ HI). right. exact Hx.
      + intros t Ht. apply hadd_In in Ht. destruct Ht as [->|Ht]; [|apply (rc_inc _ _ _ _ _ _ _ HI), Ht].
        exists e. split; [reflexivity|]. intros Hg.
        assert (Hold : In outer (tris tr0)).
        { destruct (rc_sub _ _ _ _ _ _ _ HI outer Hin) as [Hold|Hinc]; [exact Hold|]. exfalso.
          destruct (outer_new H tr0 v bd hs Hc0 Hnew _ _ e outer HI (or_introl eq_refl) Hsd Hinc) as [Hng _]. contradiction. }
        exists outer. split; [exact Hold|]. split; [exact Hsd|]. intros [Ha1 (f' & p' & Ha2)].
        rewrite Ha1, (ghost_unconstrained cs Hcs e Hg) in Hb. cbn in Hb.
        pose proof (may_insert_same H _ _ _ _ _ _ _ _ _ _ Hst Hm Ha2). congruence.
      + intros t Ht. apply incl_tri_In in Ht. destruct Ht as [->|Ht]; [right; apply hadd_In; auto|].
        destruct (rc_sub _ _ _ _ _ _ _ HI t Ht) as [Hi|Hi]; [auto|right; apply hadd_In; auto].
      + intros t Ht. destruct (rc_sup _ _ _ _ _ _ _ HI t Ht) as [Hi|Hi]; [left; apply incl_tri_In; auto|auto].
  Qed.

  (** One vertex, from a triangle that takes it. *)
  Lemma single_start : forall t0, In t0 (tris tr0) -> accepted t0 ->
    rcav [te3 t0; te2 t0; te1 t0] (SS (rem_tri t0 tr0) [] [] [] (hadd tdec t0 [])).
  Proof.
    intros t0 Ht Ha. constructor; cbn.
    - apply adj_sound_rem, Hs0.
    - reflexivity.
    - reflexivity.
    - intros t [<-|[]]. auto.
    - intros e He. exists t0. split; [auto|]. destruct He as [<-|[<-|[<-|[]]]]; [apply side_te3|apply side_te2|apply side_te1].
    - intros t [].
    - intros t Hi. apply rem_tri_In in Hi. left. apply Hi.
    - intros t Hi. destruct (tdec t t0) as [->|Hne]; [auto|]. left. apply rem_tri_In. auto.
  Qed.
  Lemma single_same : forall fuel p t0 s, In t0 (tris tr0) -> accepted t0 ->
    solve_conflicts H fuel p tr0 [(t0, [v])] [] cs bd hs = Ok s ->
    (exists fuel', cavity_loop H fuel' (2 :: p) [] None [] v [te3 t0; te2 t0; te1 t0] (SS (rem_tri t0 tr0) [] [] [] (hadd tdec t0 [])) = Ok s) /\
    rcav [] s /\ reported tr0 s.
  Proof.
    intros fuel p t0 s Ht Ha Hsv. unfold solve_conflicts in Hsv. destruct fuel as [|fuel]; [discriminate|].
    cbn [solve_loop ss_cm map fst] in Hsv. rewrite ho_single in Hsv. cbn [mget] in Hsv.
    destruct (tdec t0 t0) as [_|Hn]; [|contradiction]. cbn [unwrap bind rev app hd_error removelast ss_tr ss_rem ss_inc ss_del] in Hsv.
    apply bind_ok in Hsv. destruct Hsv as (s1 & Hc & Hsv).
    assert (Hmd : mdel tdec t0 [(t0, [v])] = []) by (cbn; destruct (tdec t0 t0); [reflexivity|contradiction]).
    rewrite Hmd in Hc. pose proof (single_start t0 Ht Ha) as H0.
    pose proof (cavity_rejected H tr0 v cs bd hs Hc0 Hnew Hreal Hcs Hout Hst _ _ _ _ _ Hc H0) as HI.
    assert (Hrep : reported tr0 s1).
    { apply (cavity_loop_inv H cs bd hs (fun _ _ => reported tr0) (reported_remove tr0 cs) (reported_include H tr0 bd hs) _ _ _ _ _ _ Hc).
      split; [apply adj_sound_rem, Hs0|]. cbn. split; [intros t []|]. split; [intros t Hi; apply rem_tri_In in Hi; left; apply Hi|]. split.
      - intros t [Hi|[]]. destruct (tdec t t0) as [->|Hne]; [auto|]. left. apply rem_tri_In. auto.
      - intros t [<-|[]]. auto. }
    destruct fuel as [|fuel]; [discriminate|]. cbn [solve_loop] in Hsv. rewrite (rc_cm _ _ _ _ _ _ _ HI) in Hsv. cbn [map] in Hsv.
    rewrite ho_nil in Hsv. injection Hsv as <-. split; [|auto]. exists (S fuel). apply cavity_same; assumption.
  Qed.
  Lemma single_safe : (forall fuel p t, may_insert_triangle H fuel p t v bd hs <> Panic) -> forall fuel p t0 s f, In t0 (tris tr0) -> accepted t0 ->
    cavity_loop H f (2 :: p) [] None [] v [te3 t0; te2 t0; te1 t0] (SS (rem_tri t0 tr0) [] [] [] (hadd tdec t0 [])) = Ok s ->
    solve_conflicts H fuel p tr0 [(t0, [v])] [] cs bd hs <> Panic.
  Proof.
    intros Hsafe fuel p t0 s f Ht Ha Hc. unfold solve_conflicts. destruct fuel as [|fuel]; [discriminate|].
    cbn [solve_loop ss_cm map fst]. rewrite ho_single. cbn [mget].
    destruct (tdec t0 t0) as [_|Hn]; [|contradiction]. cbn [unwrap bind rev app hd_error removelast ss_tr ss_rem ss_inc ss_del].
    assert (Hmd : mdel tdec t0 [(t0, [v])] = []) by (cbn; destruct (tdec t0 t0); [reflexivity|contradiction]).
    rewrite Hmd. pose proof (single_start t0 Ht Ha) as H0.
    destruct (cavity_safe Hsafe fuel (2 :: p) _ _ _ _ Hc H0) as [E|E]; rewrite E; cbn [bind]; [|discriminate].
    pose proof (cavity_rejected H tr0 v cs bd hs Hc0 Hnew Hreal Hcs Hout Hst _ _ _ _ _ E H0) as HI.
    destruct fuel as [|fuel]; [discriminate|]. cbn [solve_loop]. rewrite (rc_cm _ _ _ _ _ _ _ HI). cbn [map]. rewrite ho_nil. discriminate.
  Qed.
End Same.
