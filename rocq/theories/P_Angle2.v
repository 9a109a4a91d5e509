(** P_Angle2.v — the angles left by a refinement (C135). *)

From Coq Require Import Reals List ZArith Lra Lia Psatz Bool.
From Verif Require Import Base Arith Geometry Elements Polyline Procedures Refine Triangulator ArithR Spec SpecM SpecR SpecD SpecP SpecC SpecE
  P_R1 P_R2 P_R4 P_RX P_D1 P_D5 P_F2 P_F3 P_Angle.
Import ListNotations.
Local Open Scope R_scope.

(** All three angles of a triangle are between [lo] and [hi]. *)
Lemma meets_angles : forall (a b c : pnt) (prm : refine_params ArithR), vghost a || vghost b || vghost c = false -> 0 < area2 a b c -> ~ misses prm (Tri a b c) ->
  exists al be ga : R, angle c a b = Some al /\ angle a b c = Some be /\ angle b c a = Some ga /\
    forall th, In th [al; be; ga] -> asin (/ (2 * quality_ratio prm)) <= th <= PI - 2 * asin (/ (2 * quality_ratio prm)).
Proof.
  intros a b c prm Hg Ha Hm. destruct (quality_product a b c Hg ltac:(lra)) as (q & Hq & _).
  destruct (quality_angles a b c q Hg Ha Hq) as (al & be & ga & E1 & E2 & E3 & Sum & Hb & _). exists al, be, ga. split; [exact E1|]. split; [exact E2|]. split; [exact E3|].
  destruct (quality_corner a b c q be Hg Ha Hq E2) as ([P1 P2] & _ & _).
  set (r := quality_ratio prm) in *. change (T ArithR) with R in r.
  assert (L : q < r).
  { apply Rnot_le_lt. intros L. apply Hm. left. exists q. split; [exact Hq|]. right. change (Rleb r q = true). destruct (Rleb_spec r q); [reflexivity|lra]. }
  assert (Pq : 0 < q) by (apply Rnot_le_lt; intros L'; destruct (Req_dec q 0) as [E|E]; [rewrite E, Rmult_0_r, Rinv_0 in P1; lra|]; assert (/ (2 * q) < 0) by (apply Rinv_lt_0_compat; lra); lra).
  assert (O : / (2 * r) <= / (2 * q)) by (apply Rinv_le_contravar; lra).
  assert (O' : 0 < / (2 * r)) by (apply Rinv_0_lt_compat; lra).
  pose proof (asin_order (/ (2 * r)) (/ (2 * q)) ltac:(lra) O P2) as Q.
  intros th Ht. specialize (Hb th Ht). lra.
Qed.
Lemma meets_area : forall (a b c : pnt) (prm : refine_params ArithR) (m : R), vghost a || vghost b || vghost c = false -> ~ misses prm (Tri a b c) ->
  max_area prm = Some m -> area2 a b c / 2 < m.
Proof.
  intros a b c prm m Hg Hm E. apply Rnot_le_lt. intros L. apply Hm. right. destruct (tri_area_spec (Tri a b c)) as (x & Ex & Vx & _); [exact Hg|].
  exists x, m. split; [exact Ex|]. split; [exact E|]. right. cbn [tv1 tv2 tv3] in Vx. change (Rleb m x = true). destruct (Rleb_spec m x); [reflexivity|lra].
Qed.

Lemma refined_angles : forall (H : HashOrder) fuel p (t : triangulator ArithR) prm l S, convex_polygon l ->
  t_boundary t = Poly l false -> t_holes t = [] -> t_segments t = [] ->
  framed l S (t_trn t) -> resolved S -> (forall a b, In (a, b) (polygon_sides l) -> piece l S (a, b)) ->
  (forall a, In a (refine_attempts H fuel p t prm) -> sound_attempt l a) ->
  forall t' cs, refine H fuel p t prm = Ok (t', cs) -> forall a b c, solid_in (t_trn t') (Tri a b c) ->
    (exists tr1, In (Centre tr1 (Tri a b c)) (refine_attempts H fuel p t prm) /\ turned_down l tr1 (Tri a b c)) \/
    ((forall m, max_area prm = Some m -> area2 a b c / 2 < m) /\
     exists al be ga : R, angle c a b = Some al /\ angle a b c = Some be /\ angle b c a = Some ga /\
       forall th, In th [al; be; ga] -> asin (/ (2 * quality_ratio prm)) <= th <= PI - 2 * asin (/ (2 * quality_ratio prm))).
Proof.
  intros H fuel p t prm l S Hc Hb Hh Hs HF HR Hp Hat t' cs Hr a b c Hi.
  destruct (refine_convex H fuel p t prm l S Hc Hb Hh Hs HF HR Hp Hat) as [_ Q]. destruct (Q t' cs Hr) as (S' & HF' & HR' & _ & _ & _ & Hm).
  destruct (Classical_Prop.classic (misses prm (Tri a b c))) as [M|M]; [left; apply (Hm _ Hi M)|right].
  destruct Hi as [Hi G]. assert (Hg : vghost a || vghost b || vghost c = false) by exact G.
  destruct (dl_shape _ _ (fr_delaunay _ _ _ HF') _ Hi) as [(x & y & z & E & _ & _ & _ & P)|(x & y & E & _)].
  - injection E as <- <- <-. split; [intros m Em; apply (meets_area a b c prm m Hg M Em)|]. apply meets_angles; assumption.
  - injection E as -> -> ->. cbn in Hg. rewrite !orb_true_r in Hg. discriminate.
Qed.

Lemma case_angles : let a := at_ 1 0 in let b := at_ 0 1 in let c := at_ (-1) 0 in
  vghost a || vghost b || vghost c = false /\ 0 < area2 a b c /\ exists q : R, quality (Tri a b c) = Some q.
Proof.
  cbv zeta. destruct case_quality as (Hg & Ha & _). split; [exact Hg|]. split; [exact Ha|].
  destruct (quality_product (at_ 1 0) (at_ 0 1) (at_ (-1) 0) Hg) as (q & Hq & _); [apply Rgt_not_eq, Ha|]. exists q. exact Hq.
Qed.
