(** P_Y9.v — quadrilaterals in doubles: the mesh does not depend on the hash order
    (C145). *)

From Coq Require Import Reals List ZArith Lra Lia Bool Permutation.
From Verif Require Import Base Arith ArithR ArithF Geometry Elements Polyline Procedures Triangulator Spec SpecR SpecD SpecP SpecF Samples
  P_Fuel P_D7 P_Y1 P_Y3 P_Y4 P_Y7 P_Y8 P_Z12 P_Z16.
Import ListNotations.
Local Open Scope R_scope.

Lemma quadrilateral_same : forall k, fine_spacing k -> forall l a b c d, Forall2 (fine_reads k) l [a; b; c; d] -> NoDup [a; b; c; d] -> no_four_on_a_circle [a; b; c; d] ->
  0 < shoelace (polygon_sides [a; b; c; d]) -> (forall x y, In (x, y) (polygon_sides [a; b; c; d]) -> free_side [a; b; c; d] x y) ->
  forall (H H' : HashOrder) fuel fuel' p p' (t t' u u' : triangulator ArithF), only_polygon t l -> only_polygon u l ->
  triangulate H fuel p t = Ok t' -> triangulate H' fuel' p' u = Ok u' ->
  forall x, In x (tris (t_trn t')) -> exists y, In y (tris (t_trn u')) /\ exists a b c, x = Tri a b c /\ (y = Tri a b c \/ y = Tri b c a \/ y = Tri c a b).
Proof.
  intros k Hk l a b c d HF HN H4 Ha0 HC H H' fuel fuel' p p' t t' u u' Ot Ou Rt Ru x Hx.
  destruct (float_quadrilateral k Hk H p t l a b c d Ot HF HN H4 Ha0 HC) as (n1 & t1 & M & Ht & HR & HM).
  destruct (float_quadrilateral k Hk H' p' u l a b c d Ou HF HN H4 Ha0 HC) as (n2 & t2 & M' & Hu & HR' & HM').
  assert (t1 = t') as -> by (pose proof (Ht (n1 + fuel)%nat ltac:(lia)) as E1; pose proof (rle_ok _ _ _ _ (triangulate_mono H fuel (n1 + fuel) ltac:(lia) p t) Rt) as E2; congruence).
  assert (t2 = u') as -> by (pose proof (Hu (n2 + fuel')%nat ltac:(lia)) as E1; pose proof (rle_ok _ _ _ _ (triangulate_mono H' fuel' (n2 + fuel') ltac:(lia) p' u) Ru) as E2; congruence).
  destruct (ra_reads _ _ _ HR x Hx) as (y & Hy & Ry). assert (Hy' : exists y', In y' (tris M') /\ same_triangle y y').
  { destruct (is_ghost y) eqn:G.
    - exists y. split; [|destruct y as [y1 y2 y3]; exists y1, y2, y3; auto]. apply (fl_outer _ _ HM'), (fl_outer _ _ HM). auto.
    - destruct (fills_match _ M M' H4 HM HM' y (conj Hy G)) as (y' & [Hy' _] & S'). exists y'. auto. }
  destruct Hy' as (y' & Hy' & Sy). destruct (ra_read _ _ _ HR' y' Hy') as (x' & Hx' & Rx'). exists x'. split; [exact Hx'|].
  apply (read_turned k l _ HF HN x x' y y'); auto; intros w Cw; [apply (ra_over _ _ _ HR x w Hx Cw)|apply (ra_over _ _ _ HR' x' w Hx' Cw)].
Qed.

(** Four vertices at once, in doubles. *)
Lemma float_batch : forall k, fine_spacing k -> forall (H : HashOrder) p a b v w a' b' v' w', Forall2 (fine_reads k) [a; b; v; w] [a'; b'; v'; w'] ->
  NoDup [a'; b'; v'; w'] -> no_four_on_a_circle [a'; b'; v'; w'] -> area2 a' b' v' <> 0 \/ area2 a' b' w' <> 0 ->
  exists n0 tr M inc del, (forall fuel, (n0 <= fuel)%nat -> vertices_include H fuel p (from_initial_segment a b) [a; b; v; w] [] None [] = Ok (tr, inc, del)) /\
    stands_for [a; b; v; w] tr M /\ delaunay [a'; b'; v'; w'] M.
Proof.
  intros k Hk H p a b v w a' b' v' w' HF HN H4 HP. destruct (reads_map k _ _ HF) as [El HU]. injection El as <- <- <- <-.
  pose proof (float_agrees k [a; b; v; w] Hk HU HN H4) as HA.
  destruct (include_four rdF [a; b; v; w] HA H p a b v w) as (n0 & tr & M & inc & del & Hi & Hsh & HD); auto; [|apply incl_refl|].
  { apply (P_Y6.apart_rd rdF [a; b; v; w] HN). }
  exists n0, tr, M, inc, del. split; [exact Hi|]. split; [|exact HD]. apply (shows_stands k [a; b; v; w] Hk HU HN H4); auto. apply incl_refl.
Qed.
