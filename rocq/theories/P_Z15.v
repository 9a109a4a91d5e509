(** P_Z15.v — polygons of doubles as they are read, and the whole program from the input. *)

From Coq Require Import String Reals List ZArith Lra Lia Bool Permutation.
From Verif Require Import Base Arith ArithR ArithF Geometry Elements Polyline Procedures Refine Triangulator Interface Spec SpecI SpecM SpecR SpecD SpecP SpecC SpecE SpecF SpecX Samples
  P_Base P_Fuel P_Poly P_Interface P_RX P_R1 P_R2 P_Fill2 P_Contains P_Polygon3 P_L5 P_Y1 P_Z3 P_Z10 P_Refuted P_Z11 P_Z12 P_Z14.
Import ListNotations.
Local Open Scope R_scope.

(** ** One polygon to include, in any arithmetic *)
Section One.
  Context {A : Arith} (H : HashOrder).
  Variables (inp : input A) (a : action A) (l : list (vertex A)).
  Hypothesis Ha : i_actions inp = [a].
  Hypothesis Hi : a_intent a = "include"%string.
  Hypothesis Hg : a_geometry a = "polyline"%string.
  Hypothesis Hl : map (fun q => mkv (fst q) (snd q)) (a_points a) = l.
  Hypothesis H3 : (3 <= length l)%nat.
  Hypothesis HQ : forall es, vertex_pairs l false = Ok es -> forall e e', In e es -> In e' es -> crosses e e' = false.

  Lemma one_read : forall fuel, (length l < fuel)%nat -> parse_polyline fuel a = Ok (Some (Poly l false)).
  Proof.
    intros fuel Hf. assert (Hp : map (point_to_vertex (A:=A)) (a_points a) = l) by exact Hl.
    assert (El : length (a_points a) = length l) by (rewrite <- Hp; symmetry; apply map_length).
    rewrite (parse_polyline_accepts fuel a).
    - rewrite Hp. reflexivity.
    - rewrite El. exact H3.
    - rewrite El. exact Hf.
    - rewrite Hp. intros es Hes l1 x l2 y l3 E.
      apply crosses_crossing. apply (HQ es Hes); apply in_rev; rewrite E, in_app_iff; right.
      + right. rewrite in_app_iff. right. left. reflexivity.
      + left. reflexivity.
  Qed.
  Lemma one_parse : forall fuel p, (length l < fuel)%nat -> parse H fuel p inp = Ok (Some (triangulator_new (Poly l false), RP (i_max_area inp) (i_quality inp))).
  Proof.
    intros fuel p Hf. destruct fuel as [|f]; [lia|]. unfold parse, interpret. rewrite Ha. cbn [parse_actions]. unfold parse_action. rewrite Hg. cbn [String.eqb Ascii.eqb Bool.eqb]. rewrite (one_read _ Hf). cbn [bind]. unfold add_domain. rewrite Hi. cbn [String.eqb Ascii.eqb Bool.eqb].
    cbn [parse_actions bind d_includes d_removes d_segments d_vertices app]. unfold domain_boundary.
    assert (E1 : hset pdec [Poly l false] = [Poly l false]) by reflexivity. rewrite E1, ho_single, hdel_alone. cbn [length unite_all bind subtract_all].
    unfold domain_holes. cbn [rev holes_loop bind]. rewrite ho_nil. cbn [insert_holes bind insert_segments]. unfold insert_vertices. reflexivity.
  Qed.
  Lemma one_only : only_polygon (triangulator_new (Poly l false)) l.
  Proof. split; reflexivity. Qed.
End One.

(** ** Polygons of doubles whose sides do not cross *)
Lemma convex_simple : forall l : list pnt, (forall a b w, In (a, b) (polygon_sides l) -> In w l -> w <> a -> w <> b -> 0 < area2 a b w) ->
  forall a b c d, In (a, b) (polygon_sides l) -> In (c, d) (polygon_sides l) -> a <> c -> a <> d -> b <> c -> b <> d -> ~ exists p, on_segment a b p /\ on_segment c d p.
Proof.
  intros l Hc a b c d H1 H2 N1 N2 N3 N4 (p & (t & Ht & E1 & E2) & (s & Hs & E3 & E4)). destruct (polygon_ends l _ H2) as [Ic Id]. cbn [fst snd] in *.
  pose proof (Hc a b c H1 Ic ltac:(congruence) ltac:(congruence)) as P1. pose proof (Hc a b d H1 Id ltac:(congruence) ltac:(congruence)) as P2.
  assert (Q0 : area2 a b p = 0) by (unfold area2; rewrite E1, E2; ring).
  assert (Q : area2 a b p = (1 - s) * area2 a b c + s * area2 a b d) by (unfold area2; rewrite E3, E4; ring). nra.
Qed.

Section Doubles.
  Variables (k : Z) (l : list (vertex ArithF)) (l' : list pnt).
  Hypothesis Hk : fine_spacing k.
  Hypothesis HF : Forall2 (fine_reads k) l l'.
  Hypothesis H3 : (3 <= length l')%nat.
  Hypothesis HS : forall a b c d, In (a, b) (polygon_sides l') -> In (c, d) (polygon_sides l') -> a <> c -> a <> d -> b <> c -> b <> d -> ~ exists p, on_segment a b p /\ on_segment c d p.

  Lemma path_reads : forall m m', Forall2 (fine_reads k) m m' -> forall e, In e (consecutive m) -> exists e', In e' (path_sides m') /\ fine_reads k (fst e) (fst e') /\ fine_reads k (snd e) (snd e').
  Proof.
    clear. induction 1 as [|x x' m m' Hx Hm IH]; [intros e []|]. destruct Hm as [|y y' m m' Hy Hm]; [intros e []|]. intros e He. change (consecutive (x :: y :: m)) with ((x, y) :: consecutive (y :: m)) in He. change (path_sides (x' :: y' :: m')) with ((x', y') :: path_sides (y' :: m')).
    destruct He as [<-|He]; [exists (x', y'); split; [left; reflexivity|split; assumption]|]. destruct (IH e He) as (e' & I & R). exists e'. split; [right; exact I|exact R].
  Qed.
  Lemma side_reads : forall es, vertex_pairs l false = Ok es -> forall e, In e es -> exists e', In e' (polygon_sides l') /\ fine_reads k (fst e) (fst e') /\ fine_reads k (snd e) (snd e').
  Proof.
    clear HS H3. intros es Hes e He. destruct HF as [|x x' m m' Hx Hm]; [discriminate|]. pose proof (vertex_pairs_closed m x) as E. rewrite E in Hes. assert (Ees : consecutive ((x :: m) ++ [x]) = es) by congruence. clear Hes E. rewrite <- Ees in He.
    apply (path_reads ((x :: m) ++ [x]) ((x' :: m') ++ [x'])); [|exact He].
    apply Forall2_app; [constructor; assumption|constructor; [exact Hx|constructor]].
  Qed.
  Lemma simple_quiet : forall es, vertex_pairs l false = Ok es -> forall e e', In e es -> In e' es -> crosses (A:=ArithF) e e' = false.
  Proof.
    intros es Hes [a b] [c d] He He'. destruct (side_reads es Hes _ He) as ([a' b'] & I1 & Ra & Rb). destruct (side_reads es Hes _ He') as ([c' d'] & I2 & Rc & Rd). cbn [fst snd] in *.
    apply (quiet_double k Hk a b c d a' b' c' d' Ra Rb Rc Rd). destruct (vdec a' c'); [tauto|]. destruct (vdec a' d'); [tauto|]. destruct (vdec b' c'); [tauto|]. destruct (vdec b' d'); [tauto|].
    right. right. right. right. right. apply HS; assumption.
  Qed.

  Variables (H : HashOrder) (inp : input ArithF) (a : action ArithF).
  Hypothesis Ha : i_actions inp = [a].
  Hypothesis Hi : a_intent a = "include"%string.
  Hypothesis Hg : a_geometry a = "polyline"%string.
  Hypothesis Hl : map (fun q => mkv (fst q) (snd q)) (a_points a) = l.
  Lemma read_accepts : exists t, only_polygon t l /\ forall fuel p, (length l < fuel)%nat -> parse H fuel p inp = Ok (Some (t, RP (i_max_area inp) (i_quality inp))).
  Proof.
    exists (triangulator_new (Poly l false)). split; [apply one_only|]. intros fuel p Hf. apply (one_parse H inp a l Ha Hi Hg Hl); [|exact simple_quiet|exact Hf].
    assert (E : length l = length l') by (clear - HF; induction HF; cbn; auto). rewrite E. exact H3.
  Qed.
End Doubles.

Lemma input_program : forall k (l : list (vertex ArithF)) (l' : list pnt), fine_spacing k -> Forall2 (fine_reads k) l l' -> NoDup l' -> no_four_on_a_circle l' -> (3 <= length l')%nat ->
  (forall a b w, In (a, b) (polygon_sides l') -> In w l' -> w <> a -> w <> b -> 0 < area2 a b w) ->
  (forall a b w m, In (a, b) (polygon_sides l') -> In w l' -> half_point a b m -> d2 a b / 4 <= d2 m w) ->
  forall (H : HashOrder) p (inp : input ArithF) a, i_actions inp = [a] -> a_intent a = "include"%string -> a_geometry a = "polyline"%string -> map (fun q => mkv (fst q) (snd q)) (a_points a) = l ->
  (forall a b c, In a l -> In b l -> In c l -> orientation a b c = CCW -> ~ misses (RP (i_max_area inp) (i_quality inp)) (Tri a b c)) ->
  exists n0 coords triples M order vec ts, (forall fuel, (n0 <= fuel)%nat -> run_main H fuel p inp = Ok (Some (coords, triples))) /\ fills l' M /\
    coords = map (fun v => (vx v, vy v)) order /\ Permutation order l /\ Permutation vec l /\ Forall2 (names vec) ts triples /\ NoDup ts /\
    (forall x, In x ts -> exists y, solid_in M y /\ tri_reads x y) /\ (forall y, solid_in M y -> exists x, In x ts /\ tri_reads x y) /\ (length triples + 2 = length l)%nat.
Proof.
  intros k l l' Hk HF HN H4 H3 Hc Hfree H p inp a Ha Hi Hg Hl Hfine. destruct (read_accepts k l l' Hk HF H3 (convex_simple l' Hc) H inp a Ha Hi Hg Hl) as (t & Ho & Hp).
  apply (float_program k l l' Hk HF HN H4 H3 Hc H p inp (S (length l)) t (RP (i_max_area inp) (i_quality inp)) (Hp (S (length l)) (1%nat :: p) (Nat.lt_succ_diag_r _)) Ho Hfree Hfine).
Qed.

(** ** Cases *)
Lemma case_input : exists a, i_actions kite_job = [a] /\ a_intent a = "include"%string /\ a_geometry a = "polyline"%string /\ map (fun q => mkv (fst q) (snd q)) (a_points a) = [pt 0 0; pt 4 0; pt 7 5; pt 1 3] /\
  i_max_area kite_job = None /\ i_quality kite_job = fpz 10.
Proof. eexists. split; [reflexivity|]. repeat split. Qed.

Lemma blend : forall a b c d t s : R, 0 <= t <= 1 -> 0 <= s <= 1 -> a < c -> a < d -> b < c -> b < d -> a + t * (b - a) < c + s * (d - c).
Proof.
  intros a b c d t s [Ht Ht'] [Hs Hs'] H1 H2 H3 H4. assert (U : a + t * (b - a) <= a \/ a + t * (b - a) <= b) by (destruct (Rle_lt_dec a b) as [L|L]; [right; pose proof (Rmult_le_pos (1 - t) (b - a) ltac:(lra) ltac:(lra)); lra|left; pose proof (Rmult_le_pos t (a - b) ltac:(lra) ltac:(lra)); lra]).
  assert (V : c <= c + s * (d - c) \/ d <= c + s * (d - c)) by (destruct (Rle_lt_dec c d) as [L|L]; [left; pose proof (Rmult_le_pos s (d - c) ltac:(lra) ltac:(lra)); lra|right; pose proof (Rmult_le_pos (1 - s) (c - d) ltac:(lra) ltac:(lra)); lra]). lra.
Qed.
Definition hook : list pnt := [at_ 0 0; at_ 8 0; at_ 2 2; at_ 0 8].
Lemma case_hook : fine_spacing 0 /\ Forall2 (fine_reads 0) [pt 0 0; pt 8 0; pt 2 2; pt 0 8] hook /\ (3 <= length hook)%nat /\
  (forall a b c d, In (a, b) (polygon_sides hook) -> In (c, d) (polygon_sides hook) -> a <> c -> a <> d -> b <> c -> b <> d -> ~ exists p, on_segment a b p /\ on_segment c d p) /\
  exists a b w, In (a, b) (polygon_sides hook) /\ In w hook /\ area2 a b w < 0.
Proof.
  split; [unfold fine_spacing; lia|]. split; [repeat (apply Forall2_cons; [apply pt_fine; lia|]); apply Forall2_nil|]. split; [cbn; lia|]. split.
  - assert (K : forall a b c d : pnt, (exists f : pnt -> R, (f = X \/ f = Y) /\ ((f a < f c /\ f a < f d /\ f b < f c /\ f b < f d) \/ (f c < f a /\ f d < f a /\ f c < f b /\ f d < f b))) -> ~ exists p, on_segment a b p /\ on_segment c d p).
    { intros a b c d (f & Hf & Hv) (p & (t & Ht & E1 & E2) & (s & Hs & E3 & E4)). destruct Hf as [-> | ->]; destruct Hv as [(V1 & V2 & V3 & V4)|(V1 & V2 & V3 & V4)]; [pose proof (blend _ _ _ _ t s Ht Hs V1 V2 V3 V4)|pose proof (blend _ _ _ _ s t Hs Ht V1 V3 V2 V4)|pose proof (blend _ _ _ _ t s Ht Hs V1 V2 V3 V4)|pose proof (blend _ _ _ _ s t Hs Ht V1 V3 V2 V4)]; lra. }
    intros a b c d H1 H2 N1 N2 N3 N4. cbn in H1, H2. decompose [or] H1; decompose [or] H2; try contradiction;
      repeat match goal with E : (_, _) = (_, _) |- _ => injection E as <- <- end; try congruence;
      apply K; [exists Y|exists X|exists Y|exists X]; (split; [auto|]); unfold X, Y, at_, mkv; cbn [vx vy]; lra.
  - exists (at_ 8 0), (at_ 2 2), (at_ 0 8). split; [cbn; auto|]. split; [cbn; auto|]. unfold area2, X, Y, at_, mkv. cbn [vx vy]. lra.
Qed.

(** Two segments that cross at (68/33, 221/99), and two that do not meet. *)
Lemma case_cross : fine_spacing 0 /\ fine_reads 0 (pt 0 0) (at_ 0 0) /\ fine_reads 0 (pt 12 13) (at_ 12 13) /\ fine_reads 0 (pt 1 4) (at_ 1 4) /\ fine_reads 0 (pt 4 (-1)) (at_ 4 (-1)) /\
  crossp (at_ 0 0) (at_ 12 13) (at_ 1 4) (at_ 4 (-1)) <> 0 /\
  let p := at_ (68 / 33) (221 / 99) in on_segment (at_ 0 0) (at_ 12 13) p /\ on_segment (at_ 1 4) (at_ 4 (-1)) p /\ forall w, In w [at_ 0 0; at_ 12 13; at_ 1 4; at_ 4 (-1)] -> X p <> X w /\ Y p <> Y w.
Proof.
  split; [unfold fine_spacing; lia|]. split; [apply pt_fine; lia|]. split; [apply pt_fine; lia|]. split; [apply pt_fine; lia|]. split; [apply (pt_fine 4 (-1)); lia|].
  split; [unfold crossp, X, Y, at_, mkv; cbn [vx vy]; lra|]. intros p. split; [exists (17 / 99)|split; [exists (35 / 99)|]].
  - unfold at_ratio, p, X, Y, at_, mkv; cbn [vx vy]; lra.
  - unfold at_ratio, p, X, Y, at_, mkv; cbn [vx vy]; lra.
  - intros w [<-|[<-|[<-|[<-|[]]]]]; unfold p, X, Y, at_, mkv; cbn [vx vy]; lra.
Qed.
Lemma case_apart : fine_spacing 0 /\ fine_reads 0 (pt 0 0) (at_ 0 0) /\ fine_reads 0 (pt 9 9) (at_ 9 9) /\ fine_reads 0 (pt 5 1) (at_ 5 1) /\ fine_reads 0 (pt 5 4) (at_ 5 4) /\
  crossp (at_ 0 0) (at_ 9 9) (at_ 5 1) (at_ 5 4) <> 0 /\ ~ exists p, on_segment (at_ 0 0) (at_ 9 9) p /\ on_segment (at_ 5 1) (at_ 5 4) p.
Proof.
  split; [unfold fine_spacing; lia|]. split; [apply pt_fine; lia|]. split; [apply pt_fine; lia|]. split; [apply pt_fine; lia|]. split; [apply pt_fine; lia|].
  split; [unfold crossp, X, Y, at_, mkv; cbn [vx vy]; lra|]. intros (p & (t & Ht & E1 & E2) & (s & Hs & E3 & E4)). unfold X, Y, at_, mkv in *. cbn [vx vy] in *. lra.
Qed.
