(** P_L4.v — convex polygons from input to mesh: no corner is lost. *)

From Coq Require Import Reals List ZArith Lra Lia Bool Permutation.
From Verif Require Import Base Arith Geometry Elements Polyline Procedures Refine Triangulator ArithR Spec SpecR SpecD SpecP SpecC SpecE SpecJ SpecQ SpecM
  P_Base P_Fuel P_RX P_D5 P_D7 P_D8 P_Fill2 P_Polygon3 P_C7 P_C8 P_C9 P_F2 P_G6 P_J3 P_L2 P_L3.
Import ListNotations.
Local Open Scope R_scope.

Lemma convex_strict : forall l, convex_polygon l -> forall a b w, In (a, b) (polygon_sides l) -> In w l -> w <> a -> w <> b -> 0 < area2 a b w.
Proof. intros l Hc a b w Hab Hw N1 N2. apply (spread_pos 3); [lra|]. apply (cp_away _ Hc); assumption. Qed.
Lemma convex_shoelace : forall l, convex_polygon l -> 0 < shoelace (polygon_sides l).
Proof. intros l Hc. apply convex_area; [apply (cp_nodup _ Hc)|apply (cp_three _ Hc)|apply (convex_strict l Hc)]. Qed.

Lemma convex_corners : forall (H : HashOrder) n p (t t' : triangulator ArithR) l, only_polygon t l -> triangulate H n p t = Ok t' -> NoDup l -> resolved l -> (3 <= length l)%nat ->
  (forall a b w, In (a, b) (polygon_sides l) -> In w l -> w <> a -> w <> b -> 0 < area2 a b w) ->
  fills l (t_trn t') /\ forall w, In w l -> exists u, solid_in (t_trn t') u /\ corner_of w u.
Proof.
  intros H n p t t' l Ho Hr Hnd HR Hl Hc. destruct (convex_triangulates H p t l Ho Hnd HR Hl Hc) as (n0 & t1 & Hrun & HF).
  assert (E : t' = t1).
  { assert (E1 : triangulate H (n0 + n) p t = Ok t') by (refine (rle_ok _ _ _ _ _ Hr); apply triangulate_mono; lia).
    rewrite (Hrun (n0 + n)%nat) in E1 by lia. congruence. }
  subst t1. split; [exact HF|]. apply fills_corners, HF.
Qed.

Definition alone (l : list pnt) : triangulator ArithR := triangulator_new (Poly l false).
Lemma alone_only : forall l, only_polygon (alone l) l.
Proof. intros l. split; reflexivity. Qed.
Lemma convex_alone : forall (H : HashOrder) p l, convex_polygon l -> resolved l -> exists n t', triangulate H n p (alone l) = Ok t' /\ forall w, In w l -> exists u, solid_in (t_trn t') u /\ corner_of w u.
Proof.
  intros H p l Hc HR. destruct (convex_triangulates H p (alone l) l (alone_only l) (cp_nodup _ Hc) HR (cp_three _ Hc) (convex_strict l Hc)) as (n & t' & Hr & HF).
  exists n, t'. split; [apply Hr; lia|]. apply fills_corners, HF.
Qed.
Lemma resolved_right : forall l l' : list pnt, resolved (l ++ l') -> resolved l'.
Proof. intros l l' HR. apply (resolved_incl (l ++ l')); [exact HR|]. intros w Hw. apply in_or_app. auto. Qed.

Lemma convex_with_vertices : forall (H : HashOrder) p (t : triangulator ArithR) l vs, polygon_with t l vs ->
  convex_polygon l -> NoDup vs -> resolved (vs ++ l) -> (forall w, In w vs -> deep l w) ->
  exists n0 t' ins dropped, (forall fuel, (n0 <= fuel)%nat -> triangulate H fuel p t = Ok t') /\
    constrained_delaunay (ins ++ l) (polygon_sides l) (t_trn t') /\ Permutation vs (ins ++ dropped) /\ (vs <> [] -> ins <> []) /\
    (forall q, in_region (t_trn t') q <-> winding q (polygon_sides l) = 1%Z \/ on_polygon l q).
Proof.
  intros H p t l vs Hw Hc Hv HR Hd. destruct (convex_alone H p l Hc (resolved_right _ _ HR)) as (n & t0' & Hr & Hu).
  apply (convex_triangulated H n p (alone l) t0' t l vs); auto.
  - apply alone_only.
  - apply (cp_nodup _ Hc).
  - apply convex_shoelace, Hc.
  - apply (cp_away _ Hc).
  - intros a b w Hab Hw'. apply Hd; assumption.
Qed.
Lemma convex_with_one : forall (H : HashOrder) p (t : triangulator ArithR) l v, polygon_with t l [v] -> convex_polygon l -> resolved (v :: l) -> deep l v ->
  exists n0 t', (forall fuel, (n0 <= fuel)%nat -> triangulate H fuel p t = Ok t') /\ constrained_delaunay (v :: l) (polygon_sides l) (t_trn t') /\
    (forall q, in_region (t_trn t') q <-> winding q (polygon_sides l) = 1%Z \/ on_polygon l q).
Proof.
  intros H p t l v Hw Hc HR Hd.
  destruct (convex_with_vertices H p t l [v] Hw Hc) as (n0 & t' & ins & dropped & Hrun & HC & Hp & Hne & Hreg); [repeat constructor; intros []|exact HR|intros w [<-|[]]; exact Hd|].
  assert (E : ins = [v]).
  { destruct ins as [|x ins]; [exfalso; apply Hne; [discriminate|reflexivity]|]. pose proof (Permutation_length Hp) as El. cbn in El. rewrite app_length in El.
    destruct ins; [|cbn in El; lia]. destruct dropped; [|cbn in El; lia]. cbn in Hp. apply Permutation_length_1 in Hp. rewrite Hp. reflexivity. }
  subst ins. exists n0, t'. auto.
Qed.

Lemma convex_refines : forall (H : HashOrder) p (t : triangulator ArithR) l vs, polygon_with t l vs ->
  convex_polygon l -> NoDup vs -> resolved (vs ++ l) -> (forall w, In w vs -> deep l w) ->
  exists n0 t' ins, (forall fuel, (n0 <= fuel)%nat -> triangulate H fuel p t = Ok t') /\ (forall w, In w ins -> In w vs) /\ (vs <> [] -> ins <> []) /\
    forall prm fuel q, (forall a, In a (refine_attempts H fuel q t' prm) -> sound_attempt l a) ->
      refine H fuel q t' prm <> Panic /\
      forall t'' cs, refine H fuel q t' prm = Ok (t'', cs) ->
        exists S', framed l S' (t_trn t'') /\ resolved S' /\ (forall w, In w (ins ++ l) -> In w S') /\
          (forall z, in_region (t_trn t'') z <-> winding z (polygon_sides l) = 1%Z \/ on_polygon l z) /\
          (forall e, part l S' e -> exists u, solid_in (t_trn t'') u /\ side_of e u) /\
          forall x, solid_in (t_trn t'') x -> misses prm x -> exists tr1, In (Centre tr1 x) (refine_attempts H fuel q t' prm) /\ turned_down l tr1 x.
Proof.
  intros H p t l vs Hw Hc Hv HR Hd. destruct (convex_alone H p l Hc (resolved_right _ _ HR)) as (n & t0' & Hr & Hu).
  apply (convex_refined H n p (alone l) t0' t l vs); auto; [apply alone_only|apply convex_shoelace, Hc].
Qed.
Lemma convex_refines_ends : forall l, convex_polygon l -> exists N,
  forall (H : HashOrder) p (t : triangulator ArithR) vs, polygon_with t l vs -> NoDup vs -> resolved (vs ++ l) -> (forall w, In w vs -> deep l w) ->
  exists n0 t', (forall fuel, (n0 <= fuel)%nat -> triangulate H fuel p t = Ok t') /\
    forall prm q, (forall fuel a, In a (refine_attempts H fuel q t' prm) -> sound_attempt l a) ->
      exists n1 t'' cs, (forall fuel, (n1 <= fuel)%nat -> refine H fuel q t' prm = Ok (t'', cs)) /\ (length (trn_vertices (t_trn t'')) <= N)%nat.
Proof.
  intros l Hc. destruct (convex_ends l Hc) as [N HN]. exists N. intros H p t vs Hw Hv HR Hd.
  destruct (convex_alone H p l Hc (resolved_right _ _ HR)) as (n & t0' & Hr & Hu).
  apply (HN H n p (alone l) t0' t vs); auto; [apply alone_only|apply convex_shoelace, Hc].
Qed.
Lemma convex_with_hole : forall (H : HashOrder) n p (t0 t0' t : triangulator ArithR) l h,
  only_polygon t0 l -> triangulate H n p t0 = Ok t0' -> polygon_hole t l h -> convex_polygon l -> NoDup h -> resolved (h ++ l) ->
  0 < shoelace (polygon_sides h) -> (forall w, In w h -> deep l w) -> (forall a b, In (a, b) (polygon_sides h) -> free_side (h ++ l) a b) ->
  exists n0 tr1 inc del, (forall fuel, (n0 <= fuel)%nat -> vertices_include H fuel (1%nat :: 1%nat :: 2%nat :: p) (t_trn t0') h (polygon_sides l) None [] = Ok (tr1, inc, del)) /\
    ((forall w, In w h -> In w (trn_vertices tr1)) ->
     exists n1 t' S, (forall fuel, (n1 <= fuel)%nat -> triangulate H fuel p t = Ok t') /\ (forall w, In w S <-> In w l \/ In w h) /\ holed l h S (t_trn t')).
Proof.
  intros H n p t0 t0' t l h Ho Hr Hh Hc Hn HR Ha Hd Hf.
  destruct (convex_corners H n p t0 t0' l Ho Hr (cp_nodup _ Hc) (resolved_right _ _ HR) (cp_three _ Hc) (convex_strict l Hc)) as [_ Hu].
  apply (polygon_with_hole H n p t0 t0' t l h); auto. apply convex_shoelace, Hc.
Qed.

(** ** Samples *)
Definition hexagon : list pnt := [at_ 0 0; at_ 4 0; at_ 6 3; at_ 4 6; at_ 0 6; at_ (- 2) 3].
Lemma hexagon_grid : grid (at_ 2 3 :: hexagon).
Proof.
  intros w Hw. unfold hexagon in Hw. cbn [In] in Hw. destruct Hw as [<-|[<-|[<-|[<-|[<-|[<-|[<-|[]]]]]]]]; (split; [reflexivity|]);
    [exists 2%Z, 3%Z|exists 0%Z, 0%Z|exists 4%Z, 0%Z|exists 6%Z, 3%Z|exists 4%Z, 6%Z|exists 0%Z, 6%Z|exists (- 2)%Z, 3%Z]; split; reflexivity.
Qed.
Lemma hexagon_sides : forall a b, In (a, b) (polygon_sides hexagon) ->
  In (a, b) [(at_ 0 0, at_ 4 0); (at_ 4 0, at_ 6 3); (at_ 6 3, at_ 4 6); (at_ 4 6, at_ 0 6); (at_ 0 6, at_ (- 2) 3); (at_ (- 2) 3, at_ 0 0)].
Proof. intros a b Hab. exact Hab. Qed.
Lemma hexagon_left : forall a b w, In (a, b) (polygon_sides hexagon) -> In w (at_ 2 3 :: hexagon) -> w <> a -> w <> b -> 0 < area2 a b w.
Proof.
  intros a b w Hab Hw N1 N2. apply hexagon_sides in Hab. unfold hexagon in Hw. cbn [In] in Hab, Hw.
  destruct Hab as [E|[E|[E|[E|[E|[E|[]]]]]]]; injection E as <- <-; destruct Hw as [<-|[<-|[<-|[<-|[<-|[<-|[<-|[]]]]]]]]; try congruence; unfold area2; rewrite !X_at, !Y_at; lra.
Qed.
Lemma hexagon_spread : forall a b w, In (a, b) (polygon_sides hexagon) -> In w (at_ 2 3 :: hexagon) -> w <> a -> w <> b -> spread 3 a b w.
Proof.
  intros a b w Hab Hw N1 N2. apply spread_grid.
  - destruct (P_Fill2.polygon_ends hexagon _ Hab) as [Ha Hb]. cbn [fst snd] in Ha, Hb. intros x [<-|[<-|[<-|[]]]]; apply hexagon_grid; [right; exact Ha|right; exact Hb|exact Hw].
  - clear N1 N2. apply hexagon_sides in Hab. cbn [In] in Hab. destruct Hab as [E|[E|[E|[E|[E|[E|[]]]]]]]; injection E as <- <-; rewrite !X_at, !Y_at; unfold Rabs; repeat destruct (Rcase_abs _); lra.
  - apply hexagon_left; assumption.
Qed.
Lemma hexagon_nodup : NoDup (at_ 2 3 :: hexagon).
Proof.
  assert (N : forall x y x' y', x <> x' \/ y <> y' -> at_ x y <> at_ x' y') by (intros x y x' y' Hn E; injection E; intros; lra).
  unfold hexagon. repeat constructor; cbn [In]; intros Hx; repeat (destruct Hx as [Hx|Hx]); try contradiction; revert Hx; apply N; lra.
Qed.
Lemma hexagon_convex : convex_polygon hexagon.
Proof.
  split; [pose proof hexagon_nodup as Q; inversion Q; assumption|cbn; lia|]. intros a b w Hab Hw. apply hexagon_spread; [exact Hab|right; exact Hw].
Qed.
Lemma hexagon_deep : deep hexagon (at_ 2 3).
Proof.
  intros a b Hab. pose proof hexagon_nodup as Q. inversion Q as [|? ? Q1 _]; subst. destruct (P_Fill2.polygon_ends hexagon _ Hab) as [Ha Hb]. cbn [fst snd] in Ha, Hb.
  apply hexagon_spread; [exact Hab|left; reflexivity|intros E; apply Q1; rewrite E; exact Ha|intros E; apply Q1; rewrite E; exact Hb].
Qed.
Lemma hexagon_position : convex_position hexagon.
Proof.
  apply polygon_position; [intros w Hw; apply (hexagon_grid w); right; exact Hw|]. intros a b w Hab Hw. apply hexagon_left; [exact Hab|right; exact Hw].
Qed.
Lemma case_hexagon : only_polygon (alone hexagon) hexagon /\ polygon_with (TR trn_new (Poly hexagon false) [] [at_ 2 3] []) hexagon [at_ 2 3] /\ convex_polygon hexagon /\ resolved (at_ 2 3 :: hexagon) /\ resolved hexagon /\
  deep hexagon (at_ 2 3) /\ convex_position hexagon /\
  (forall a b w, In (a, b) (polygon_sides hexagon) -> In w hexagon -> w <> a -> w <> b -> 0 < area2 a b w).
Proof.
  pose proof (grid_resolved _ hexagon_grid) as HR.
  split; [apply alone_only|]. split; [split; reflexivity|]. split; [exact hexagon_convex|]. split; [exact HR|]. split; [apply (resolved_right [at_ 2 3]); exact HR|].
  split; [exact hexagon_deep|]. split; [exact hexagon_position|]. exact (convex_strict _ hexagon_convex).
Qed.
Lemma case_kite_full : polygon_with kite_full kite [pE; pG] /\ convex_polygon kite /\ NoDup [pE; pG] /\ resolved ([pE; pG] ++ kite) /\ (forall w, In w [pE; pG] -> deep kite w) /\
  grid ([pE; pG] ++ kite).
Proof.
  destruct case_full as (_ & H1 & H2 & H3 & H4 & _ & H5 & H6 & H7 & _). split; [exact H1|]. split; [split; [exact H2|cbn; lia|exact H5]|]. split; [exact H3|]. split; [exact H4|].
  split; [intros w Hw a b Hab; apply H6; assumption|exact H7].
Qed.
