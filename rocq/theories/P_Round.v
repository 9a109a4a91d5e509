(** P_Round.v — how often the loops of vertex insertion go round (C133). *)

From Coq Require Import Reals List ZArith Lra Lia Psatz Bool Permutation.
From Verif Require Import Base Arith Geometry Elements Polyline Procedures Triangulator ArithR Spec SpecR SpecD SpecP
  P_Base P_Trn P_Fuel P_Vertices P_Cavity P_R1 P_R2 P_R5 P_D1 P_D2 P_D3 P_D4 P_D5 P_D6 P_D7 P_D8 P_RX P_Trn2 P_Poly P_Flood P_Fill P_Fill2 P_Polygon P_Polygon2 P_Polygon3 P_Checks P_Count1 P_Count2 P_Count3.
Import ListNotations.
Local Open Scope R_scope.

Lemma solve_rounds : forall (H : HashOrder) n L S (s : state) p, (length L <= n)%nat -> held L s -> delaunay S (ss_tr s) -> resolved (L ++ S) -> NoDup S ->
  exists s', forall fuel, (5 * n + 4 * length S <= fuel)%nat -> solve_loop H fuel p [] None [] s = Ok s'.
Proof.
  intros H n. induction n as [|n IH]; intros L S s p Hn Hh HD HR HN.
  - assert (L = []) by (destruct L; [reflexivity|cbn in Hn; lia]). subst L. destruct Hh as (Hf & Hp & _ & _).
    apply Permutation_nil in Hp. apply app_eq_nil in Hp. destruct Hp as [Hl Hr].
    assert (Ecm : ss_cm s = []).
    { destruct (ss_cm s) as [|[t l] cm] eqn:Ec; [reflexivity|]. exfalso. destruct (proj2 Hf t l (or_introl eq_refl)) as [Hne _]. cbn in Hl. apply app_eq_nil in Hl. apply Hne, Hl. }
    exists s. intros fuel Hfu. destruct (has_two S _ HD) as (x & Hx). destruct S as [|y S]; [destruct Hx|]. cbn [length] in Hfu.
    destruct fuel; [lia|]. cbn [solve_loop]. rewrite Ecm. rewrite ho_nil. reflexivity.
  - destruct (ho H (1%nat :: p) _ (map fst (ss_cm s))) as [|t ts] eqn:Hk.
    { exists s. intros fuel Hfu. destruct fuel; [lia|]. cbn [solve_loop]. rewrite Hk. reflexivity. }
    assert (Ht : In t (map fst (ss_cm s))) by (apply (ho_In H (1%nat :: p)); rewrite Hk; left; reflexivity).
    destruct (mget tdec t (ss_cm s)) as [vs|] eqn:Hg; [|apply mget_None in Hg; contradiction].
    pose proof (mget_In _ _ _ _ Hg) as Hin. destruct Hh as (Hf & Hp & Ha & Hkeys). destruct (proj2 Hf t vs Hin) as [Hne Hins].
    destruct (hd_error (rev vs)) as [v|] eqn:Hv.
    2:{ exfalso. apply Hne. destruct (rev vs) eqn:Er; [|discriminate]. rewrite <- (rev_involutive vs), Er. reflexivity. }
    assert (Hvl : In v vs) by (rewrite (hd_rev_last _ _ Hv); apply in_or_app; right; left; reflexivity).
    pose proof (Hins v Hvl) as He. assert (Htr : In t (tris (ss_tr s))) by (apply Hkeys, Ht).
    destruct (held_start t vs v s L) as (L' & HpL & Hh'); [repeat (split; [assumption|]); assumption|exact Hg|exact Hv|].
    assert (HRS : resolved (v :: S)).
    { apply (resolved_incl (L ++ S)); [exact HR|]. intros w [<-|Hw]; apply in_or_app; [left|right; exact Hw].
      apply (Permutation_in _ (Permutation_sym HpL)). left. reflexivity. }
    assert (HRS0 : resolved S) by (apply (resolved_incl (v :: S)); [exact HRS|]; intros w Hw; right; exact Hw).
    assert (HvS : ~ In v S) by (apply (inside_new S (ss_tr s) t); auto; intros w Hw; apply (rs_plain _ HRS); right; exact Hw).
    pose proof (mesh_count S (ss_tr s) HD HRS0 HN) as HC.
    destruct (insert_one H S (ss_tr s) v HD HRS HvS t
      (SS (rem_tri t (ss_tr s)) (mdel tdec t (ss_cm s)) (ss_rem s ++ removelast vs) (ss_inc s) (hadd tdec t (ss_del s)))
      (3 + 2 * length (tris (ss_tr s)))%nat (2%nat :: p)) as (s1 & Hs1 & HD1); auto; [lia|].
    assert (Hh1 : held L' s1) by exact (cavity_loop_inv H [] None [] (fun _ _ => held L') (held_remove L') (held_include H L') _ _ _ _ _ _ Hs1 Hh').
    destruct (IH L' (v :: S) s1 (0%nat :: p)) as (s' & Hrun); auto.
    { apply Permutation_length in HpL. cbn in HpL. lia. }
    { apply (resolved_incl (L ++ S)); [exact HR|]. intros w Hw. apply in_or_app. apply in_app_or in Hw. destruct Hw as [Hw|[<-|Hw]]; [left|left|auto].
      - apply (Permutation_in _ (Permutation_sym HpL)). right. exact Hw.
      - apply (Permutation_in _ (Permutation_sym HpL)). left. reflexivity. }
    { constructor; assumption. }
    exists s'. intros fuel Hfu. destruct fuel as [|fuel]; [lia|]. cbn [solve_loop]. rewrite Hk, Hg. cbn [unwrap bind]. rewrite Hv. cbn [unwrap bind].
    assert (Hc : cavity_loop H fuel (2%nat :: p) [] None [] v [te3 t; te2 t; te1 t]
      (SS (rem_tri t (ss_tr s)) (mdel tdec t (ss_cm s)) (ss_rem s ++ removelast vs) (ss_inc s) (hadd tdec t (ss_del s))) = Ok s1).
    { refine (rle_ok _ _ _ _ _ Hs1). apply cavity_loop_mono. lia. }
    rewrite Hc. cbn [bind]. apply Hrun. cbn [length]. lia.
Qed.

Lemma insertion_rounds : forall (H : HashOrder) fuel p S (tr : mesh) vs, delaunay S tr -> resolved (vs ++ S) ->
  (4 * length (trn_vertices tr) + 5 * length vs <= fuel)%nat -> exists x, vertices_include H fuel p tr vs [] None [] = Ok x.
Proof.
  intros H fuel p S tr vs HD HR Hfu. set (new := filter (fun v => negb (hmem vdec v (trn_vertices tr))) vs).
  assert (HP : forall w, In w S -> vghost w = false) by (intros w Hw; apply (rs_plain _ HR), in_or_app; auto).
  pose proof (delaunay_points S tr HD HP) as Hpts.
  assert (HD0 : delaunay (trn_vertices tr) tr) by (apply (delaunay_incl S); [exact HD|]; intros w; symmetry; apply Hpts).
  destruct (distribute_all_ok H 0 (ho H (1%nat :: p) _ (tris tr)) (2%nat :: p) [] new) as (cm & rem & Hd & Hout).
  destruct (distribute_all_spec H _ _ _ _ _ _ _ _ _ Hd fair_nil) as (Hf & Hp & Hk). cbn [listed flat_map app] in Hp.
  assert (Hlen : (length new <= length vs)%nat) by (unfold new; clear; induction vs as [|v vs IH]; cbn; [lia|]; destruct (negb _); cbn; lia).
  destruct (solve_rounds H (length vs) new (trn_vertices tr) (SS tr cm rem [] []) (3%nat :: p)) as (s' & Hrun); auto.
  - split; [exact Hf|]. cbn [ss_cm ss_rem ss_tr]. split; [exact Hp|]. split; [exact (dl_sound _ _ HD)|].
    intros t Ht. destruct (Hk t Ht) as [[]|Ht']. apply ho_In in Ht'. exact Ht'.
  - apply (resolved_incl (vs ++ S)); [exact HR|]. intros w Hw. apply in_or_app. apply in_app_or in Hw. destruct Hw as [Hw|Hw]; [|right; apply Hpts, Hw]. apply filter_In in Hw. tauto.
  - apply trn_lists_NoDup.
  - exists (ss_tr s', ss_inc s', ss_del s'). unfold vertices_include. fold new.
    assert (Hd' : distribute_all H fuel (2%nat :: p) (ho H (1%nat :: p) _ (tris tr)) [] new None [] = Ok (cm, rem)).
    { refine (rle_ok _ _ _ _ _ Hd). apply distribute_all_mono. lia. }
    rewrite Hd'. cbn [bind]. unfold solve_conflicts. rewrite (Hrun fuel) by lia. reflexivity.
Qed.

Lemma polygon_rounds : forall (H : HashOrder) fuel p (t : triangulator ArithR) l v1 v2 rest, only_polygon t l -> l = v1 :: v2 :: rest -> v1 <> v2 -> resolved l ->
  (8 * (length l + 1) <= fuel)%nat -> exists t', triangulate H fuel p t = Ok t'.
Proof.
  intros H fuel p t l v1 v2 rest [Eb Eh Es Ev] El Hne HR Hfu.
  assert (H12 : In v1 l /\ In v2 l) by (rewrite El; cbn [In]; auto).
  assert (H0 : delaunay [v1; v2] (from_initial_segment v1 v2)) by (apply initial_delaunay; auto; apply (rs_plain _ HR); tauto).
  assert (HR2 : resolved (l ++ [v1; v2])).
  { apply (resolved_incl l); [exact HR|]. intros w Hw. apply in_app_or in Hw. destruct Hw as [Hw|[<-|[<-|[]]]]; tauto. }
  assert (Hp0 : forall w, In w (trn_vertices (from_initial_segment v1 v2)) <-> In w [v1; v2]).
  { apply delaunay_points; [exact H0|]. intros w [<-|[<-|[]]]; apply (rs_plain _ HR); tauto. }
  assert (L0 : (length (trn_vertices (from_initial_segment v1 v2)) <= 2)%nat).
  { change 2%nat with (length [v1; v2]). apply NoDup_incl_length; [apply trn_lists_NoDup|]. intros w Hw. apply Hp0, Hw. }
  destruct (insertion_rounds H fuel (1%nat :: 1%nat :: p) [v1; v2] _ l H0 HR2) as ([[tr1 inc] del] & Hi); [lia|].
  assert (HC : (length (tris tr1) + 2 = 2 * length (trn_vertices tr1))%nat) by exact (insertion_count H fuel _ [v1; v2] _ l tr1 inc del H0 HR2 Hi).
  destruct (insertion H fuel _ [v1; v2] _ l tr1 inc del H0 HR2 Hi) as (ins & _ & Hins & HD1).
  assert (L1 : (length (trn_vertices tr1) <= length l)%nat).
  { apply NoDup_incl_length; [apply trn_lists_NoDup|]. intros w Hw. apply (delaunay_points _ _ HD1) in Hw.
    - apply in_app_or in Hw. destruct Hw as [Hw|[<-|[<-|[]]]]; [apply Hins, Hw| |]; tauto.
    - intros x Hx. apply in_app_or in Hx. apply (rs_plain _ HR). destruct Hx as [Hx|[<-|[<-|[]]]]; [apply Hins, Hx| |]; tauto. }
  assert (Ee : into_edges (Poly l false) = Ok (polygon_sides l)) by (apply polygon_edges; rewrite El; discriminate).
  destruct (boundary_include_total H fuel (1%nat :: p) (from_initial_segment v1 v2) (Poly l false) [] (polygon_sides l) tr1 inc del) as [tr' Hb].
  - exact (dl_sound _ _ H0).
  - exact Ee.
  - exact Hi.
  - lia.
  - exists (with_triangulation t tr'). unfold triangulate. rewrite Eb, Eh, Es, Ev. cbn [pverts]. replace (nth_error l 0) with (Some v1) by (rewrite El; reflexivity). replace (nth_error l 1) with (Some v2) by (rewrite El; reflexivity). cbn [unwrap bind]. cbn zeta.
    rewrite Hb. cbn [bind]. rewrite Ee. cbn [bind]. rewrite !ho_nil. cbn [include_holes include_segments bind].
    rewrite include_present; [reflexivity|lia|intros v []].
Qed.
