(** P_C5.v — a filled polygon is a constrained Delaunay mesh. *)

From Coq Require Import Reals List ZArith Lra Lia Psatz Bool Permutation.
From Verif Require Import Base Arith Geometry Elements Polyline Procedures Triangulator ArithR Spec SpecR SpecD SpecP SpecC
  P_Base P_Trn P_Fuel P_Poly P_Vertices P_Flood P_R1 P_R2 P_R5 P_R6 P_RX P_D1 P_D2 P_D3 P_D4 P_D5 P_D6 P_D7 P_D8 P_Fill P_Fill2 P_Region P_Region2 P_Polygon P_Polygon2 P_Polygon3 P_C1 P_C2 P_C3 P_C4.
Import ListNotations.
Local Open Scope R_scope.

Lemma shared_side : forall a b c c', 0 < D a b c -> 0 < D a b c' -> exists q, inside_triangle a b c q /\ inside_triangle a b c' q.
Proof.
  intros a b c c' P P'. set (m := toward a b (1 / 2)). set (g := centroid a b c).
  pose proof (centroid_inside a b c P) as Hg. fold g in Hg. pose proof Hg as (G1 & _ & _).
  assert (M : forall x y, D x y m = (D x y a + D x y b) / 2) by (intros x y; unfold m; rewrite toward_D; field).
  pose proof (D_rot a b c) as R1. pose proof (D_rot2 a b c) as R2. pose proof (D_rot a b c') as R1'. pose proof (D_rot2 a b c') as R2'.
  assert (E1 : 0 < D b c' m) by (rewrite M; rewrite (D_ab_a b c'); lra). assert (E2 : 0 < D c' a m) by (rewrite M; rewrite (D_ab_b c' a); lra).
  assert (Hm : in_triangle a b c m).
  { unfold in_triangle. rewrite !M, !D_ab_a, !D_ab_b. repeat split; lra. }
  destruct (small_mix _ (D b c' g) E1) as (e1 & P1 & F1). destruct (small_mix _ (D c' a g) E2) as (e2 & P2 & F2).
  pose proof (Rmin_l e1 e2). pose proof (Rmin_r e1 e2). assert (0 < Rmin e1 e2) by (apply Rmin_glb_lt; lra). set (s := Rmin e1 e2) in *.
  exists (toward m g s). split; [apply toward_inside; [exact Hm|exact Hg|lra]|]. unfold inside_triangle. rewrite !toward_D.
  split; [|split; [apply F1|apply F2]; lra]. rewrite M, D_ab_a, D_ab_b. assert (Q := spp s (D a b g)). lra.
Qed.

Lemma polygon_ends_in : forall (l : list pnt) w, In w l -> exists e, In e (polygon_sides l) /\ snd e = w.
Proof.
  intros [|a l] w Hw; [destruct Hw|]. assert (Hi : In w (map snd (polygon_sides (a :: l)))).
  { change (polygon_sides (a :: l)) with (path_sides (a :: (l ++ [a]))). rewrite path_snd. apply in_or_app. destruct Hw as [<-|Hw]; [right; left; reflexivity|left; exact Hw]. }
  apply in_map_iff in Hi. destruct Hi as (e & E & He). exists e. auto.
Qed.
Lemma polygon_snd_NoDup : forall l : list pnt, NoDup l -> NoDup (map snd (polygon_sides l)).
Proof.
  intros [|a l] Hn; [constructor|]. change (polygon_sides (a :: l)) with (path_sides (a :: (l ++ [a]))). rewrite path_snd.
  apply (Permutation_NoDup (l := a :: l)); [apply Permutation_cons_append|exact Hn].
Qed.
Lemma NoDup_map_eq : forall X Z (f : X -> Z) l x y, NoDup (map f l) -> In x l -> In y l -> f x = f y -> x = y.
Proof.
  intros X Z f l x y. induction l as [|a l IH]; intros Hn Hx Hy E; [destruct Hx|]. cbn in Hn. inversion Hn as [|? ? Ha Hn']; subst.
  destruct Hx as [<-|Hx]; destruct Hy as [<-|Hy]; auto; exfalso; apply Ha; [rewrite E|rewrite <- E]; apply in_map; assumption.
Qed.

Section Filled.
  Variables (l : list pnt) (tr : mesh).
  Hypothesis HF : fills l tr.
  Hypothesis HR : resolved l.
  Hypothesis Hnd : NoDup l.
  Notation es := (polygon_sides l).

  Lemma fl_view : forall t a b, solid_in tr t -> side_of (a, b) t -> exists c, looks t a b c /\ In a l /\ In b l /\ In c l /\ 0 < D a b c.
  Proof.
    intros [x y z] a b Ht Se. destruct (fl_shape _ _ HF x y z Ht) as (Hx & Hy & Hz & P & _). pose proof (D_rot x y z). pose proof (D_rot2 x y z).
    inversion Se; subst; [exists z|exists x|exists y]; unfold looks; repeat (split; [auto|]); auto; lra.
  Qed.
  Lemma looks_inside : forall t a b c q, looks t a b c -> inside_triangle a b c q -> inside_triangle (tv1 t) (tv2 t) (tv3 t) q.
  Proof. intros t a b c q [-> |[-> | ->]] (H1 & H2 & H3); cbn [tv1 tv2 tv3]; repeat split; assumption. Qed.
  Lemma fl_one_side : forall t t' e, solid_in tr t -> solid_in tr t' -> side_of e t -> side_of e t' -> t = t'.
  Proof.
    intros t t' [a b] Ht Ht' Se Se'. destruct (fl_view t a b Ht Se) as (c & L & _ & _ & _ & P). destruct (fl_view t' a b Ht' Se') as (c' & L' & _ & _ & _ & P').
    destruct (shared_side a b c c' P P') as (q & Q & Q'). apply (looks_inside t) in Q; [|exact L]. apply (looks_inside t') in Q'; [|exact L'].
    destruct t as [x y z], t' as [x' y' z']. exact (fl_once _ _ HF _ _ _ _ _ _ q Ht Ht' Q Q').
  Qed.
  Lemma fl_neq : forall a b, In (a, b) es -> a <> b.
  Proof.
    intros a b He ->. destruct (fl_border _ _ HF _ He) as (u & Hu & Su). destruct (fl_view u b b Hu Su) as (c & _ & _ & _ & _ & P). rewrite D_aa in P. lra.
  Qed.
  Lemma fl_no_flip : forall e u, In e es -> solid_in tr u -> ~ side_of (flip e) u.
  Proof.
    intros e u He Hu Su. destruct (fl_border _ _ HF _ He) as (t & Ht & St). destruct (fl_sides _ _ HF t e Ht St) as [[_ Hno]|[Hno _]]; [apply Hno; exists u; auto|exact (Hno He)].
  Qed.
  Lemma fl_plain : forall t w, solid_in tr t -> corner_of w t -> vghost w = false.
  Proof.
    intros [x y z] w Ht Hc. destruct (fl_shape _ _ HF x y z Ht) as (Hx & Hy & Hz & _). inversion Hc; subst; apply (rs_plain _ HR); assumption.
  Qed.
  (** No two triangles have a directed side in common. *)
  Lemma fl_unique : forall t t' e, In t (tris tr) -> In t' (tris tr) -> side_of e t -> side_of e t' -> t' = t.
  Proof.
    assert (Kg : forall a b t e, In (a, b) es -> solid_in tr t -> side_of e t -> side_of e (Tri b a gv) -> False).
    { intros a b t e He Ht Se Sg. inversion Sg; subst.
      - exact (fl_no_flip (a, b) t He Ht Se).
      - pose proof (fl_plain t gv Ht (side_corner2 _ _ Se)). discriminate.
      - pose proof (fl_plain t gv Ht (side_corner1 _ _ Se)). discriminate. }
    intros t t' e Ht Ht' Se Se'. destruct (is_ghost t) eqn:G, (is_ghost t') eqn:G'.
    - destruct (proj1 (fl_outer _ _ HF t) (conj Ht G)) as ([a b] & Hs & ->). destruct (proj1 (fl_outer _ _ HF t') (conj Ht' G')) as ([a' b'] & Hs' & ->).
      cbn [fst snd] in *. destruct (polygon_ends l _ Hs) as [Ha Hb]. destruct (polygon_ends l _ Hs') as [Ha' Hb']. cbn [fst snd] in *.
      assert (Na : forall w, In w l -> w <> gv) by (intros w Hw ->; pose proof (rs_plain _ HR gv Hw); discriminate).
      assert (E : (a, b) = (a', b')).
      { pose proof (Na a Ha). pose proof (Na b Hb). pose proof (Na a' Ha'). pose proof (Na b' Hb').
        inversion Se; subst; inversion Se'; subst; try congruence.
        - apply (NoDup_map_eq _ _ fst es); auto. rewrite polygon_fst. exact Hnd.
        - apply (NoDup_map_eq _ _ snd es); auto. apply polygon_snd_NoDup, Hnd. }
      injection E as -> ->. reflexivity.
    - exfalso. destruct (proj1 (fl_outer _ _ HF t) (conj Ht G)) as ([a b] & Hs & ->). exact (Kg a b t' e Hs (conj Ht' G') Se' Se).
    - exfalso. destruct (proj1 (fl_outer _ _ HF t') (conj Ht' G')) as ([a b] & Hs & ->). exact (Kg a b t e Hs (conj Ht G) Se Se').
    - symmetry. apply (fl_one_side t t' e); auto; split; assumption.
  Qed.

  Hypothesis A1 : adj_sound tr.
  Hypothesis A2 : adj_complete tr.
  Hypothesis A3 : NoDup (tris tr).
  Lemma fills_constrained : constrained_delaunay l es tr.
  Proof.
    assert (Gh : forall a b, In (a, b) es -> In (Tri b a gv) (tris tr)).
    { intros a b He. apply (fl_outer _ _ HF). exists (a, b). auto. }
    split; auto.
    - intros t Ht. destruct (is_ghost t) eqn:G.
      + right. destruct (proj1 (fl_outer _ _ HF t) (conj Ht G)) as ([a b] & Hs & ->). destruct (polygon_ends l _ Hs) as [Ha Hb]. cbn [fst snd] in *.
        exists b, a. split; [reflexivity|]. split; [exact Hb|]. split; [exact Ha|]. intros ->. exact (fl_neq _ _ Hs eq_refl).
      + left. destruct t as [x y z]. destruct (fl_shape _ _ HF x y z (conj Ht G)) as (Hx & Hy & Hz & P & _). exists x, y, z. auto.
    - intros t e Ht Se. destruct (is_ghost t) eqn:G.
      + destruct (proj1 (fl_outer _ _ HF t) (conj Ht G)) as ([a b] & Hs & ->). destruct (polygon_ends l _ Hs) as [Ha Hb]. cbn [fst snd] in *. inversion Se; subst; cbn [flip fst snd].
        * destruct (fl_border _ _ HF _ Hs) as (u & [Hu _] & Su). exists u. auto.
        * destruct (polygon_ends_in l a Ha) as ([x y] & He & E). cbn in E. subst y. exists (Tri a x gv). split; [apply Gh, He|constructor].
        * destruct (polygon_starts l b Hb) as ([x y] & He & E). cbn in E. subst x. exists (Tri y b gv). split; [apply Gh, He|constructor].
      + destruct (fl_sides _ _ HF t e (conj Ht G) Se) as [[He _]|[_ (u & [Hu _] & Su)]]; [|exists u; auto].
        destruct e as [a b]. exists (Tri b a gv). split; [apply Gh, He|constructor].
    - intros a b Ht. assert (G : is_ghost (Tri a b gv) = true) by (unfold is_ghost; cbn; apply orb_true_r).
      destruct (proj1 (fl_outer _ _ HF _) (conj Ht G)) as ([x y] & Hs & E). injection E as -> ->. right. exact Hs.
    - intros a b He. destruct (polygon_ends l _ He) as [Ha Hb]. split; [exact Ha|]. split; [exact Hb|]. destruct (fl_border _ _ HF _ He) as (u & Hu & Su). exists u. auto.
    - intros a b c d t u [Ht Lt] [Hu Lu] G G' _ o E1 E2. destruct u as [x y z]. destruct (fl_shape _ _ HF x y z (conj Hu G')) as (Hx & Hy & Hz & _ & _).
      assert (Hd : In d l) by (destruct Lu as [E|[E|E]]; injection E as <- <- <-; assumption).
      assert (He : empty_circle l (tv1 t) (tv2 t) (tv3 t)) by (destruct t as [x' y' z']; apply (fl_shape _ _ HF x' y' z' (conj Ht G))).
      destruct Lt as [-> |[-> | ->]]; cbn [tv1 tv2 tv3] in He; [apply (He o d Hd E1 E2)| |];
        [rewrite E1; apply (He o d Hd)|rewrite E2; apply (He o d Hd)]; congruence.
    - apply (fl_once _ _ HF).
    - intros w Hw. destruct (polygon_starts l w Hw) as (e & He & <-). destruct (fl_border _ _ HF _ He) as (u & Hu & Su). exists u. split; [exact Hu|]. apply (side_corner1 _ _ Su).
  Qed.
End Filled.

(** ** The adjacency after the boundary stage *)
Lemma ghosts_complete : forall es (tr : mesh), adj_complete tr -> (forall t t' e, In t (tris (include_ghosts es tr)) -> In t' (tris (include_ghosts es tr)) -> side_of e t -> side_of e t' -> t' = t) ->
  adj_complete (include_ghosts es tr).
Proof.
  induction es as [|e es IH]; intros tr Hc Hu; [exact Hc|]. unfold include_ghosts in *. cbn [fold_left] in *. apply IH; [|exact Hu].
  apply adj_complete_incl; [exact Hc|]. intros t' x Ht' S1 S2. apply (Hu (ghost_on e) t' x); auto; apply (include_ghosts_In es); left; apply incl_tri_In; auto.
Qed.
Lemma ghosts_NoDup : forall es (tr : mesh), NoDup (tris tr) -> NoDup (tris (include_ghosts es tr)).
Proof. induction es as [|e es IH]; intros tr Hn; [exact Hn|]. unfold include_ghosts in *. cbn [fold_left]. apply IH, incl_tri_NoDup, Hn. Qed.
Lemma ghosts_sound : forall es (tr : mesh), adj_sound tr -> adj_sound (include_ghosts es tr).
Proof. induction es as [|e es IH]; intros tr Hn; [exact Hn|]. unfold include_ghosts in *. cbn [fold_left]. apply IH, adj_sound_incl, Hn. Qed.
Lemma flood_NoDup : forall fuel fr pending (tr tr' : mesh), flood_fill fuel fr pending tr = Ok tr' -> NoDup (tris tr) -> NoDup (tris tr').
Proof.
  induction fuel as [|fuel IH]; intros fr pending tr tr' Hf Hn; [discriminate|]. cbn [flood_fill] in Hf. destruct pending as [|e pending]; [injection Hf as <-; exact Hn|].
  destruct (adj_get e tr); [apply (IH _ _ _ _ Hf), rem_tri_NoDup, Hn|apply (IH _ _ _ _ Hf), Hn].
Qed.
Lemma behind_NoDup : forall fr es (tr : mesh) pending tr' pending', remove_behind fr es tr pending = (tr', pending') -> NoDup (tris tr) -> NoDup (tris tr').
Proof.
  intros fr es. induction es as [|e es IH]; intros tr pending tr' pending' Hr Hn; cbn [remove_behind] in Hr; [injection Hr as <- <-; exact Hn|].
  destruct (adj_get e tr); [apply (IH _ _ _ _ Hr), rem_tri_NoDup, Hn|apply (IH _ _ _ _ Hr), Hn].
Qed.
Lemma boundary_adj : forall (H : HashOrder) fuel p (tr : mesh) b cs tr' tr1 inc del, adj_sound tr -> boundary_include H fuel p tr b cs = Ok tr' ->
  vertices_include H fuel (1%nat :: p) tr (pverts b) cs None [] = Ok (tr1, inc, del) -> adj_complete tr1 -> NoDup (tris tr1) ->
  (forall t t' e, In t (tris tr') -> In t' (tris tr') -> side_of e t -> side_of e t' -> t' = t) ->
  adj_sound tr' /\ adj_complete tr' /\ NoDup (tris tr').
Proof.
  intros H fuel p tr b cs tr' tr1 inc del Hs Hb Hv Hc1 Hn1 Hu. unfold boundary_include in Hb.
  apply bind_ok in Hb. destruct Hb as (es & He & Hb). rewrite Hv in Hb. cbn [bind] in Hb.
  set (segs := hset edec (map opposite es)) in *.
  destruct (remove_behind segs (ho H (2%nat :: p) _ segs) tr1 []) as [tr2 pending] eqn:Hr.
  apply bind_ok in Hb. destruct Hb as (tr3 & Hf & Hb). injection Hb as <-.
  pose proof (proj1 (include_reported H _ _ _ _ _ _ _ _ _ _ Hs Hv)) as Hs1.
  destruct (remove_behind_sweeps (in_trn tr1) segs segs _ _ _ _ _ Hr Hs1 Hc1) as (Hs2 & Hc2 & HI2).
  { apply sweeping_init. intros e. rewrite app_nil_r. apply ho_In. }
  destruct (flood_fill_sweeps _ _ _ _ _ _ _ Hf Hs2 Hc2 HI2) as (Hs3 & Hc3 & _).
  split; [apply ghosts_sound, Hs3|]. split; [apply ghosts_complete; assumption|]. apply ghosts_NoDup, (flood_NoDup _ _ _ _ _ Hf), (behind_NoDup _ _ _ _ _ _ Hr), Hn1.
Qed.
