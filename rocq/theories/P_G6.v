(** P_G6.v — what the end of a refinement gives, with the number of vertices. *)

From Coq Require Import Reals List ZArith Lra Lia Psatz Bool Permutation.
From Verif Require Import Base Arith Geometry Elements Polyline Procedures Refine Triangulator ArithR Spec SpecM SpecR SpecD SpecP SpecC SpecE
  P_Base P_Trn P_Trn2 P_Fuel P_Poly P_Vertices P_Cavity P_Refine P_Worked P_RX P_R1 P_R2 P_R3 P_R5 P_R6 P_D1 P_D2 P_D3 P_D4 P_D5 P_D6 P_D7 P_Fill P_Fill2 P_Region P_C1 P_C2 P_C3 P_C4 P_C5 P_C6 P_C7 P_C8 P_C9 P_E1 P_E2 P_E3 P_E4 P_E5 P_E6 P_E7 P_E8 P_E9 P_F1 P_F2 P_F3 P_G1 P_G3 P_G4 P_G5.
Import ListNotations.
Local Open Scope R_scope.

Lemma framed_count : forall l N S (tr : mesh), (forall S, (forall w, In w S -> placed l w) -> resolved S -> (length (nodup vdec S) <= N)%nat) -> framed l S tr -> resolved S -> (length (trn_vertices tr) <= N)%nat.
Proof.
  intros l N S tr HN HF HR. apply Nat.le_trans with (2 := HN S (fr_placed _ _ _ HF) HR). apply NoDup_incl_length; [apply trn_lists_NoDup|].
  intros w Hw. apply nodup_In. apply (delaunay_points S tr (fr_delaunay _ _ _ HF) (rs_plain _ HR)), Hw.
Qed.

Lemma refine_ends : forall l, convex_polygon l -> exists N, forall (H : HashOrder) p (t : triangulator ArithR) prm S,
  t_boundary t = Poly l false -> t_holes t = [] -> t_segments t = [] ->
  framed l S (t_trn t) -> resolved S -> (forall a b, In (a, b) (polygon_sides l) -> piece l S (a, b)) ->
  (forall fuel a, In a (refine_attempts H fuel p t prm) -> sound_attempt l a) ->
  exists n t' cs, (forall fuel, (n <= fuel)%nat -> refine H fuel p t prm = Ok (t', cs)) /\ (length (trn_vertices (t_trn t')) <= N)%nat.
Proof.
  intros l HC. destruct (packing l HC) as [N HN]. exists N. intros H p t prm S Eb Eh Es HF HR Hp Hat.
  destruct (refine_halts l H p t prm S HC Eb Eh Es HF HR Hp Hat) as (n & [t' cs] & Hn). exists n, t', cs. split; [exact Hn|].
  destruct (refine_stage l H HC n p t t' prm S cs Eb Eh Es HF HR Hp (Hat n) (Hn n (Nat.le_refl n))) as (S' & HF' & HR' & _). exact (framed_count l N S' _ HN HF' HR').
Qed.

(** From the corners and the free vertices. *)
Lemma convex_ends : forall l, convex_polygon l -> exists N, forall (H : HashOrder) n p (t0 t0' t : triangulator ArithR) vs, only_polygon t0 l -> triangulate H n p t0 = Ok t0' -> polygon_with t l vs ->
  NoDup vs -> resolved (vs ++ l) -> 0 < shoelace (polygon_sides l) -> (forall w, In w vs -> deep l w) ->
  (forall w, In w l -> exists u, solid_in (t_trn t0') u /\ corner_of w u) ->
  exists n0 t', (forall fuel, (n0 <= fuel)%nat -> triangulate H fuel p t = Ok t') /\
    forall prm q, (forall fuel a, In a (refine_attempts H fuel q t' prm) -> sound_attempt l a) ->
      exists n1 t'' cs, (forall fuel, (n1 <= fuel)%nat -> refine H fuel q t' prm = Ok (t'', cs)) /\ (length (trn_vertices (t_trn t'')) <= N)%nat.
Proof.
  intros l HC. destruct (refine_ends l HC) as [N HN]. exists N. intros H n p t0 t0' t vs Ho Hr Hw Hnv HR Ha Hd Hu.
  destruct (convex_triangulated H n p t0 t0' t l vs Ho Hr Hw (cp_nodup _ HC) Hnv HR Ha (cp_away _ HC)) as (n0 & t' & ins & dropped & Hrun & HD & Hperm & Hne & Hreg); auto.
  { intros a b w Hab Hi. apply Hd; assumption. }
  exists n0, t'. split; [exact Hrun|]. assert (Hin : forall w, In w ins -> In w vs) by (intros w Hi; apply (Permutation_in _ (Permutation_sym Hperm)), in_or_app; auto).
  intros prm q Hat.
  destruct (triangulate_keeps H n0 p t t' (Hrun n0 (Nat.le_refl _))) as (E1 & E2 & E3). destruct Hw as [W1 W2 W3 _]. rewrite W1 in E1. rewrite W2 in E2. rewrite W3 in E3.
  assert (HR' : resolved (ins ++ l)) by (apply (resolved_incl (vs ++ l)); [exact HR|]; intros w Hi; apply in_or_app; apply in_app_or in Hi; destruct Hi; auto).
  destruct (start_framed l ins (t_trn t') HC HR' (fun w Hi => Hd w (Hin w Hi)) HD) as [HF Hp].
  exact (HN H q t' prm (ins ++ l) E1 E2 E3 HF HR' Hp Hat).
Qed.

(** The steps alone. *)
Lemma split_ends : forall l (H : HashOrder), convex_polygon l -> forall S (tr : mesh) s R p, stage l S tr (s :: R) -> resolved (edge_midpoint s :: S) -> placed l (edge_midpoint s) ->
  exists n r, forall fuel, (n <= fuel)%nat -> split_segment H fuel p tr s (s :: R) (Some (Poly l false)) [] = Ok r.
Proof.
  intros l H HC S tr s R p HS HRm Hpl. pose proof HS as (HF & HR & HX).
  assert (Hplain : forall u, In u l -> vghost u = false) by (intros u Hu; apply (rs_plain _ HR), (fr_corners _ _ _ HF), Hu).
  assert (Hs : piece l S s) by (apply (proj2 HX); left; reflexivity).
  destruct (split_halts l H HC Hplain S tr s (s :: R) p HF HRm Hs Hpl (stage_along l S tr _ HS)) as (r & n & Hn). exists n, r. exact Hn.
Qed.
Lemma centre_ends : forall l (H : HashOrder), convex_polygon l -> forall S (tr : mesh) t o K p, stage l S tr K -> resolved (o :: S) -> solid_in tr t -> tri_circumcenter t = Some o -> deep l o ->
  exists n r, forall fuel, (n <= fuel)%nat -> try_circumcenter H fuel p tr t K (Some (Poly l false)) [] = Ok r.
Proof.
  intros l H HC S tr t o K p HS HRo [Ht Hg] Ho Hd. pose proof HS as (HF & HR & HX).
  assert (Hplain : forall u, In u l -> vghost u = false) by (intros u Hu; apply (rs_plain _ HR), (fr_corners _ _ _ HF), Hu).
  destruct (try_halts l H HC Hplain S tr t o K p HF HRo Ht Hg Ho Hd (stage_along l S tr K HS)) as (r & n & Hn). exists n, r. exact Hn.
Qed.
