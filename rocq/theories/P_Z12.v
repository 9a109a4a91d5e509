(** P_Z12.v — one mesh in doubles, whatever the hash order, and its number of triangles. *)

From Coq Require Import String Reals List ZArith Lra Lia Bool Permutation.
From Verif Require Import Base Arith ArithR ArithF Geometry Elements Polyline Procedures Refine Triangulator Interface Spec SpecI SpecM SpecR SpecD SpecP SpecC SpecE SpecF SpecX Samples
  P_Base P_Fuel P_Trn P_Trn2 P_Interface P_R1 P_R2 P_D1 P_Fill2 P_D4 P_D7 P_D8 P_C5 P_L3 P_L4 P_F2 P_X1 P_Polygon3 P_Y1 P_Y2 P_Y3 P_Y4 P_Y6 P_Y7 P_Z1 P_Z3 P_Count1 P_Count2 P_Count3 P_Same P_Made P_Refuted P_Z11.
Import ListNotations.
Local Open Scope R_scope.

(** ** Two fillings of a polygon *)
Lemma empty_incircle : forall l a b c w, 0 < D a b c -> empty_circle l a b c -> In w l -> I a b c w <= 0.
Proof.
  intros l a b c w Hp He Hw. destruct (proj2 (circumcenter_spec a b c)) as (o & _ & _ & E1 & E2 & _); [lra|].
  rewrite (incircle_power a b c w o E1 E2). pose proof (He o w Hw E1 E2). nra.
Qed.
Lemma fills_match : forall l (M M' : mesh), no_four_on_a_circle l -> fills l M -> fills l M' -> forall x, solid_in M x -> exists y, solid_in M' y /\ same_triangle x y.
Proof.
  intros l M M' H4 HM HM' [a b c] Hx. destruct (fl_shape _ _ HM a b c Hx) as (Ha & Hb & Hc & Hp & He). pose proof (middle_inside a b c Hp) as Hm.
  destruct (fl_covers _ _ HM' (middle a b c) (fl_inside _ _ HM a b c _ Hx Hm)) as (a' & b' & c' & Hy & Hm'). destruct (fl_shape _ _ HM' a' b' c' Hy) as (Ha' & Hb' & Hc' & Hp' & He').
  exists (Tri a' b' c'). split; [exact Hy|]. exists a, b, c. split; [reflexivity|].
  destruct (same_power a b c a' b' c' (middle a b c)) as (I1 & I2 & I3); auto; try (eapply empty_incircle; eauto; fail).
  destruct (D_neq _ _ _ Hp) as (n1 & n2 & n3).
  pose proof (on_circle_corner l a' b' c' a H4 Ha' Hb' Hc' Ha Hp' I1) as C1. pose proof (on_circle_corner l a' b' c' b H4 Ha' Hb' Hc' Hb Hp' I2) as C2.
  pose proof (on_circle_corner l a' b' c' c H4 Ha' Hb' Hc' Hc Hp' I3) as C3.
  destruct C1 as [-> | [-> | ->]], C2 as [-> | [-> | ->]], C3 as [-> | [-> | ->]]; try congruence; auto; exfalso;
    revert Hp Hp'; unfold area2; lra.
Qed.
Lemma turned_inside : forall a b c t q, same_triangle (Tri a b c) t -> (inside_triangle (tv1 t) (tv2 t) (tv3 t) q <-> inside_triangle a b c q).
Proof. intros a b c t q (x & y & z & E & [-> | [-> | ->]]); injection E as <- <- <-; cbn [tv1 tv2 tv3]; unfold inside_triangle; tauto. Qed.
Lemma fills_one : forall l (M : mesh) x x' y, fills l M -> solid_in M x -> solid_in M x' -> same_triangle x y -> same_triangle x' y -> x = x'.
Proof.
  intros l M [a b c] [a' b' c'] y HM Hx Hx' S1 S2. destruct (fl_shape _ _ HM a b c Hx) as (_ & _ & _ & Hp & _). pose proof (middle_inside a b c Hp) as Hm.
  apply (fl_once _ _ HM a b c a' b' c' (middle a b c) Hx Hx' Hm). apply (turned_inside _ _ _ _ _ S2), (turned_inside _ _ _ _ _ S1), Hm.
Qed.

Lemma solids_spec : forall (M : mesh) x, In x (nodup tdec (filter (fun t => negb (is_ghost t)) (tris M))) <-> solid_in M x.
Proof. intros M x. rewrite nodup_In, filter_In, negb_true_iff. reflexivity. Qed.
Lemma fills_count : forall l (M : mesh), convex_polygon l -> resolved l -> no_four_on_a_circle l -> fills l M ->
  forall ts, NoDup ts -> (forall x, In x ts <-> solid_in M x) -> (length ts + 2 = length l)%nat.
Proof.
  intros l M HC HR H4 HM ts Hts Hin.
  destruct (convex_triangulates ho_id [] (alone l) l (alone_only l) (cp_nodup _ HC) HR (cp_three _ HC) (convex_strict l HC)) as (n & t' & Hr & HF).
  destruct (convex_with_vertices ho_id [] (alone l) l [] (polygon_with_only _ _ (alone_only l)) HC (NoDup_nil _) HR ltac:(intros w [])) as (n2 & t2 & ins & dropped & Ht & HD & Hpm & _ & _).
  assert (t2 = t') as -> by (specialize (Hr (n + n2)%nat ltac:(lia)); specialize (Ht (n + n2)%nat ltac:(lia)); congruence).
  assert (ins = []) as -> by (destruct ins as [|x ins]; [reflexivity|]; apply Permutation_length in Hpm; cbn in Hpm; lia). cbn [app] in HD.
  destruct (start_framed l [] (t_trn t') HC HR ltac:(intros w []) HD) as [HFr _].
  assert (Hc : (length (filter (fun t => negb (is_ghost t)) (tris (t_trn t'))) + 2 + length l = 2 * length l)%nat).
  { apply (solid_count l l (t_trn t') HC HFr HR l l (cp_nodup _ HC)); [intros w; reflexivity|apply (cp_nodup _ HC)|]. intros w. split; [intros Hw; split; [exact Hw|apply corner_on, Hw]|tauto]. }
  pose proof (NoDup_filter (fun t => negb (is_ghost t)) (dl_nodup _ _ (fr_delaunay _ _ _ HFr))) as Hnd.
  assert (Hsol : forall x, In x (filter (fun t => negb (is_ghost t)) (tris (t_trn t'))) <-> solid_in (t_trn t') x) by (intros x; rewrite filter_In, negb_true_iff; reflexivity).
  set (ss := filter (fun t => negb (is_ghost t)) (tris (t_trn t'))) in *.
  assert (length ts = length ss); [|lia]. apply Nat.le_antisymm.
  - apply (relation_le same_triangle); [exact Hts| |].
    + intros x Hx. apply Hin in Hx. destruct (fills_match l M (t_trn t') H4 HM HF x Hx) as (y & Hy & Sy). exists y. split; [apply Hsol, Hy|exact Sy].
    + intros x x' y Hx Hx'. apply Hin in Hx, Hx'. apply (fills_one l M); assumption.
  - apply (relation_le same_triangle); [exact Hnd| |].
    + intros x Hx. apply Hsol in Hx. destruct (fills_match l (t_trn t') M H4 HF HM x Hx) as (y & Hy & Sy). exists y. split; [apply Hin, Hy|exact Sy].
    + intros x x' y Hx Hx'. apply Hsol in Hx, Hx'. apply (fills_one l (t_trn t')); assumption.
Qed.

(** A convex polygon of a small grid is convex by more than the tolerance. *)
Lemma fine_convex : forall k l, fine_spacing k -> (forall w, In w l -> fine_point k w) -> NoDup l -> (3 <= length l)%nat ->
  (forall a b w, In (a, b) (polygon_sides l) -> In w l -> w <> a -> w <> b -> 0 < area2 a b w) -> convex_polygon l.
Proof.
  intros k l Hk HF HN H3 Hc. split; [exact HN|exact H3|]. intros a b w Hs Hw Na Nb. pose proof (Hc a b w Hs Hw Na Nb) as P0. destruct (polygon_ends l _ Hs) as [Ha Hb]. cbn [fst snd] in *.
  destruct (HF a Ha) as ((i & Bi & Ei) & (j & Bj & Ej) & _). destruct (HF b Hb) as ((i' & Bi' & Ei') & (j' & Bj' & Ej') & _). destruct (HF w Hw) as ((i2 & _ & Ei2) & (j2 & _ & Ej2) & _).
  set (q := pw k) in *. pose proof (pw_pos k) as Pq. fold q in Pq.
  assert (EA : area2 a b w = IZR ((i' - i) * (j2 - j) - (j' - j) * (i2 - i)) * (q * q)).
  { unfold area2, X, Y. change (T ArithR) with R in *. rewrite Ei, Ej, Ei', Ej', Ei2, Ej2, minus_IZR, !mult_IZR, !minus_IZR. ring. }
  assert (Z1 : (1 <= (i' - i) * (j2 - j) - (j' - j) * (i2 - i))%Z).
  { assert (0 < (i' - i) * (j2 - j) - (j' - j) * (i2 - i))%Z; [|lia]. apply lt_IZR. rewrite EA in P0. assert (0 < q * q) by nra. nra. }
  apply IZR_le in Z1. assert (L1 : q * q <= area2 a b w) by (rewrite EA; assert (0 < q * q) by nra; nra).
  assert (Dx : Rabs (X b - X a) <= IZR (2 ^ 11) * q).
  { unfold X. change (T ArithR) with R in *. rewrite Ei, Ei'. replace (IZR i' * q - IZR i * q) with (IZR (i' - i) * q) by (rewrite minus_IZR; ring). rewrite Rabs_mult, (Rabs_right q) by lra. apply Rmult_le_compat_r; [lra|]. rewrite <- abs_IZR. apply IZR_le. lia. }
  assert (Dy : Rabs (Y b - Y a) <= IZR (2 ^ 11) * q).
  { unfold Y. change (T ArithR) with R in *. rewrite Ej, Ej'. replace (IZR j' * q - IZR j * q) with (IZR (j' - j) * q) by (rewrite minus_IZR; ring). rewrite Rabs_mult, (Rabs_right q) by lra. apply Rmult_le_compat_r; [lra|]. rewrite <- abs_IZR. apply IZR_le. lia. }
  unfold spread. apply Rlt_le_trans with (q * q); [|exact L1].
  assert (Q0 : IZR (2 ^ 14) * eps < q).
  { apply Rlt_le_trans with (IZR (2 ^ 14) * pw (-46)); [apply Rmult_lt_compat_l; [apply IZR_lt; reflexivity|exact P_Z3.eps_small]|].
    apply Rle_trans with (pw (-32)); [rewrite (pw_split (-46) (-32)) by lia; right; reflexivity|]. apply pw_mono. unfold fine_spacing in Hk. lia. }
  pose proof eps_pos as Pe. assert (Q1 : 3 * eps * (Rabs (X b - X a) + Rabs (Y b - Y a)) <= 3 * eps * (IZR (2 ^ 12) * q)).
  { apply Rmult_le_compat_l; [lra|]. replace (IZR (2 ^ 12)) with (IZR (2 ^ 11) + IZR (2 ^ 11)) by (rewrite <- plus_IZR; reflexivity). lra. }
  apply Rle_lt_trans with (1 := Q1). replace (IZR (2 ^ 14)) with (4 * IZR (2 ^ 12)) in Q0 by (rewrite <- mult_IZR; reflexivity).
  replace (3 * eps * (IZR (2 ^ 12) * q)) with (3 * (IZR (2 ^ 12) * eps) * q) by ring. apply Rmult_lt_compat_r; [exact Pq|].
  assert (0 < IZR (2 ^ 12) * eps) by (apply Rmult_lt_0_compat; [apply IZR_lt; reflexivity|exact Pe]). lra.
Qed.

(** ** In doubles *)
Section Doubles.
  Variables (k : Z) (l : list (vertex ArithF)) (l' : list pnt).
  Hypothesis Hk : fine_spacing k.
  Hypothesis HF : Forall2 (fine_reads k) l l'.
  Hypothesis HN : NoDup l'.
  Hypothesis H4 : no_four_on_a_circle l'.
  Hypothesis H3 : (3 <= length l')%nat.
  Hypothesis Hc : forall a b w, In (a, b) (polygon_sides l') -> In w l' -> w <> a -> w <> b -> 0 < area2 a b w.

  Lemma fine_in : forall w, In w l' -> fine_point k w.
  Proof. intros w Hw. destruct (read_back k l l' HF w Hw) as (v & Hv & <-). apply (read_in k l l' HF v Hv). Qed.
  Lemma read_convex : convex_polygon l' /\ resolved l'.
  Proof. split; [apply (fine_convex k); auto; apply fine_in|apply (fine_resolved k l' Hk), fine_in]. Qed.
  Lemma read_length : length l = length l'.
  Proof. destruct (reads_map k l l' HF) as [E _]. rewrite <- E, map_length. reflexivity. Qed.

  Lemma read_vertex : forall v v' w, (In v l \/ v = ghost_vertex) -> (In v' l \/ v' = ghost_vertex) -> reads v w -> reads v' w -> v = v'.
  Proof.
    pose proof (read_solid k l l' HF) as HG. intros v v' w [Hv| ->] [Hv'| ->] R1 R2; [|exfalso|exfalso|reflexivity].
    - apply (read_one k l l' HF HN); auto. rewrite (reads_rd _ _ R1), (reads_rd _ _ R2). reflexivity.
    - destruct R1 as (_ & _ & G1). destruct R2 as (_ & _ & G2). rewrite (HG v Hv) in G1. rewrite <- G1 in G2. discriminate G2.
    - destruct R1 as (_ & _ & G1). destruct R2 as (_ & _ & G2). rewrite (HG v' Hv') in G2. rewrite <- G2 in G1. discriminate G1.
  Qed.
  Definition over (t : triangle ArithF) : Prop := forall w, corner_of w t -> In w l \/ w = ghost_vertex.
  Lemma read_triangle : forall t t' y, over t -> over t' -> tri_reads t y -> tri_reads t' y -> t = t'.
  Proof.
    intros [a b c] [a' b' c'] y O O' (R1 & R2 & R3) (R1' & R2' & R3'). cbn [tv1 tv2 tv3] in *.
    rewrite (read_vertex a a' (tv1 y)), (read_vertex b b' (tv2 y)), (read_vertex c c' (tv3 y)); auto; first [apply O; constructor|apply O'; constructor].
  Qed.
  Lemma read_turned : forall x x' y y', over x -> over x' -> tri_reads x y -> tri_reads x' y' -> same_triangle y y' ->
    exists a b c, x = Tri a b c /\ (x' = Tri a b c \/ x' = Tri b c a \/ x' = Tri c a b).
  Proof.
    intros [a b c] x' y y' O O' (R1 & R2 & R3) Rx' (u & v & w & -> & E). cbn [tv1 tv2 tv3] in *. exists a, b, c. split; [reflexivity|].
    assert (OT : over (Tri b c a) /\ over (Tri c a b)) by (split; intros z Hz; apply O; inversion Hz; subst; constructor).
    destruct E as [-> | [-> | ->]]; [left|right; left|right; right]; eapply read_triangle; try exact Rx'; auto; try apply OT; repeat split; cbn [tv1 tv2 tv3]; try apply R1; try apply R2; try apply R3.
  Qed.

  (** Every hash order gives the same triangles. *)
  Lemma float_same : forall (H H' : HashOrder) fuel fuel' p p' (t t' u u' : triangulator ArithF), only_polygon t l -> only_polygon u l ->
    triangulate H fuel p t = Ok t' -> triangulate H' fuel' p' u = Ok u' ->
    forall x, In x (tris (t_trn t')) -> exists y, In y (tris (t_trn u')) /\ exists a b c, x = Tri a b c /\ (y = Tri a b c \/ y = Tri b c a \/ y = Tri c a b).
  Proof.
    intros H H' fuel fuel' p p' t t' u u' Ot Ou Rt Ru x Hx.
    destruct (float_convex k Hk H p t l l' Ot HF HN H4 H3 Hc) as (n1 & t1 & M & Ht & HR & HM).
    destruct (float_convex k Hk H' p' u l l' Ou HF HN H4 H3 Hc) as (n2 & t2 & M' & Hu & HR' & HM').
    assert (t1 = t') as -> by (pose proof (Ht (n1 + fuel)%nat ltac:(lia)) as E1; pose proof (rle_ok _ _ _ _ (triangulate_mono H fuel (n1 + fuel) ltac:(lia) p t) Rt) as E2; congruence).
    assert (t2 = u') as -> by (pose proof (Hu (n2 + fuel')%nat ltac:(lia)) as E1; pose proof (rle_ok _ _ _ _ (triangulate_mono H' fuel' (n2 + fuel') ltac:(lia) p' u) Ru) as E2; congruence).
    destruct (ra_reads _ _ _ HR x Hx) as (y & Hy & Ry). assert (Hy' : exists y', In y' (tris M') /\ same_triangle y y').
    { destruct (is_ghost y) eqn:G.
      - exists y. split; [|destruct y as [a b c]; exists a, b, c; auto]. apply (fl_outer _ _ HM'), (fl_outer _ _ HM). auto.
      - destruct (fills_match l' M M' H4 HM HM' y (conj Hy G)) as (y' & [Hy' _] & S'). exists y'. auto. }
    destruct Hy' as (y' & Hy' & Sy). destruct (ra_read _ _ _ HR' y' Hy') as (x' & Hx' & Rx'). exists x'. split; [exact Hx'|].
    apply (read_turned x x' y y'); auto; intros w Cw; [apply (ra_over _ _ _ HR x w Hx Cw)|apply (ra_over _ _ _ HR' x' w Hx' Cw)].
  Qed.

  Lemma solids_length : forall M (ts : list (triangle ArithF)), fills l' M -> NoDup ts -> (forall x, In x ts -> over x) ->
    (forall x, In x ts -> exists y, solid_in M y /\ tri_reads x y) -> (forall y, solid_in M y -> exists x, In x ts /\ tri_reads x y) -> (length ts + 2 = length l)%nat.
  Proof.
    intros M ts HM Nt Ot H1 H2. destruct read_convex as [HC HR]. rewrite read_length.
    rewrite <- (fills_count l' M HC HR H4 HM _ (NoDup_nodup tdec _) (solids_spec M)). f_equal. apply Nat.le_antisymm.
    - apply (relation_le tri_reads); [exact Nt| |].
      + intros x Hx. destruct (H1 x Hx) as (y & Hy & Ry). exists y. split; [apply solids_spec, Hy|exact Ry].
      + intros x x' y Hx Hx'. apply read_triangle; auto.
    - apply (relation_le (fun y x => tri_reads x y)); [apply NoDup_nodup| |].
      + intros y Hy. apply solids_spec in Hy. destruct (H2 y Hy) as (x & Hx & Rx). exists x. auto.
      + intros y y' x _ _ R1 R2. rewrite <- (tri_reads_rt _ _ R1), <- (tri_reads_rt _ _ R2). reflexivity.
  Qed.

  Section Program.
    Variables (H : HashOrder) (p : path) (inp : input ArithF) (n : nat) (t : triangulator ArithF) (prm : refine_params ArithF).
    Hypothesis Hp : parse H n (1%nat :: p) inp = Ok (Some (t, prm)).
    Hypothesis Ho : only_polygon t l.
    Hypothesis Hfree : forall a b w m, In (a, b) (polygon_sides l') -> In w l' -> half_point a b m -> d2 a b / 4 <= d2 m w.
    Hypothesis Hfine : forall a b c, In a l -> In b l -> In c l -> orientation a b c = CCW -> ~ misses prm (Tri a b c).

    Lemma float_program : exists n0 coords triples M order vec ts, (forall fuel, (n0 <= fuel)%nat -> run_main H fuel p inp = Ok (Some (coords, triples))) /\ fills l' M /\
      coords = map (fun v => (vx v, vy v)) order /\ Permutation order l /\ Permutation vec l /\ Forall2 (names vec) ts triples /\ NoDup ts /\
      (forall x, In x ts -> exists y, solid_in M y /\ tri_reads x y) /\ (forall y, solid_in M y -> exists x, In x ts /\ tri_reads x y) /\ (length triples + 2 = length l)%nat.
    Proof.
      destruct (float_quiet k l l' Hk HF HN H p inp n t prm Hp Ho H4 H3 Hc Hfree Hfine) as (n0 & c & ts & M & order & vec & tt & E0 & E1 & E2 & E3 & E4 & E5 & E6 & E7 & E8).
      exists n0, c, ts, M, order, vec, tt. repeat (split; [assumption|]). assert (El : length tt = length ts) by (clear -E5; induction E5; cbn; congruence). rewrite <- El.
      apply (solids_length M tt); auto. intros x Hx w Cw. left. apply (Permutation_in _ E4).
      assert (Hn : exists ijk, names vec x ijk). { clear -E5 Hx. induction E5 as [|y ijk tt ts Hy HF IH]; [destruct Hx|]. destruct Hx as [<-|Hx]; [exists ijk; exact Hy|apply IH, Hx]. }
      destruct Hn as ([[i j] m] & N1 & N2 & N3). apply nth_error_In in N1, N2, N3. destruct x as [a b d]. cbn [tv1 tv2 tv3] in *. inversion Cw; subst; assumption.
    Qed.
  End Program.
End Doubles.

(** ** A sample: the kite *)
Section Check.
  Context {A : Arith}.
  Definition check_fine (prm : refine_params A) (l : list (vertex A)) : bool :=
    forallb (fun a => forallb (fun b => forallb (fun c =>
      negb (orient_eqb (orientation a b c) CCW) ||
      (match quality (Tri a b c) with Some q => negb (aeq q (quality_ratio prm) || fle (quality_ratio prm) q) | None => true end &&
       match max_area prm with None => true | Some _ => false end)) l) l) l.
  Lemma check_fine_ok : forall prm l, check_fine prm l = true ->
    forall a b c, In a l -> In b l -> In c l -> orientation a b c = CCW -> ~ misses prm (Tri a b c).
  Proof.
    intros prm l C a b c Ha Hb Hc Ho. unfold check_fine in C. rewrite forallb_forall in C. specialize (C a Ha). rewrite forallb_forall in C. specialize (C b Hb). rewrite forallb_forall in C. specialize (C c Hc).
    rewrite Ho in C. cbn [orient_eqb negb orb] in C. apply andb_true_iff in C. destruct C as [C1 C2]. intros [(q & E & Hq)|(x & m & _ & E & _)].
    - rewrite E in C1. apply negb_true_iff, orb_false_iff in C1. destruct C1 as [F1 F2]. destruct Hq; congruence.
    - rewrite E in C2. discriminate C2.
  Qed.
  Definition check_parse (l : list (vertex A)) (q : T A) (r : res (option (triangulator A * refine_params A))) : bool :=
    match r with
    | Ok (Some (t, prm)) =>
        (if pdec (t_boundary t) (Poly l false) then true else false) && (if list_eq_dec pdec (t_holes t) [] then true else false) &&
        (if list_eq_dec edec (t_segments t) [] then true else false) && (if list_eq_dec vdec (t_vertices t) [] then true else false) &&
        match max_area prm with None => true | Some _ => false end && (if same (quality_ratio prm) q then true else false)
    | _ => false
    end.
  Lemma check_parse_ok : forall l q r, check_parse l q r = true -> exists t, r = Ok (Some (t, RP None q)) /\ only_polygon t l.
  Proof.
    intros l q [[[t [m r]]|]| |] C; try discriminate C. unfold check_parse in C. apply andb_true_iff in C as [C C6]. apply andb_true_iff in C as [C C5]. apply andb_true_iff in C as [C C4].
    apply andb_true_iff in C as [C C3]. apply andb_true_iff in C as [C1 C2]. cbn [max_area quality_ratio] in *. destruct m; [discriminate|]. destruct (same r q) as [->|]; [|discriminate C6]. exists t. split; [reflexivity|].
    split; [destruct (pdec (t_boundary t) (Poly l false)); [assumption|discriminate]|destruct (list_eq_dec pdec (t_holes t) []); [assumption|discriminate]|
      destruct (list_eq_dec edec (t_segments t) []); [assumption|discriminate]|destruct (list_eq_dec vdec (t_vertices t) []); [assumption|discriminate]].
  Qed.
End Check.

Definition kite_job : input ArithF := Inp (A:=ArithF) [act_of "include" [(0, 0); (4, 0); (7, 5); (1, 3)]%Z] None (fpz 10).
Lemma kite_read : check_parse (A:=ArithF) [pt 0 0; pt 4 0; pt 7 5; pt 1 3] (fpz 10) (parse (A:=ArithF) ho_id 30 [1%nat] kite_job) = true.
Proof. vm_compute. reflexivity. Qed.
Lemma kite_fine : check_fine (A:=ArithF) (RP (A:=ArithF) None (fpz 10)) [pt 0 0; pt 4 0; pt 7 5; pt 1 3] = true.
Proof. vm_compute. reflexivity. Qed.
Lemma kite_free : forall a b w m, In (a, b) (polygon_sides kite) -> In w kite -> half_point a b m -> d2 a b / 4 <= d2 m w.
Proof.
  intros a b w m Hs Hw [Ex Ey]. cbn in Hs. destruct Hs as [E|[E|[E|[E|[]]]]]; injection E as <- <-; destruct Hw as [<-|[<-|[<-|[<-|[]]]]];
    unfold d2; rewrite Ex, Ey; unfold pA, pB, pC, pF; rewrite ?P_RX.X_at, ?P_RX.Y_at; lra.
Qed.
Lemma case_kite_job : exists t, parse (A:=ArithF) ho_id 30 [1%nat] kite_job = Ok (Some (t, RP (A:=ArithF) None (fpz 10))) /\ only_polygon t [pt 0 0; pt 4 0; pt 7 5; pt 1 3] /\
  fine_spacing 0 /\ Forall2 (fine_reads 0) [pt 0 0; pt 4 0; pt 7 5; pt 1 3] kite /\ NoDup kite /\ no_four_on_a_circle kite /\ (3 <= length kite)%nat /\
  (forall a b w, In (a, b) (polygon_sides kite) -> In w kite -> w <> a -> w <> b -> 0 < area2 a b w) /\
  (forall a b w m, In (a, b) (polygon_sides kite) -> In w kite -> half_point a b m -> d2 a b / 4 <= d2 m w) /\
  (forall a b c, In a [pt 0 0; pt 4 0; pt 7 5; pt 1 3] -> In b [pt 0 0; pt 4 0; pt 7 5; pt 1 3] -> In c [pt 0 0; pt 4 0; pt 7 5; pt 1 3] -> orientation a b c = CCW -> ~ misses (RP (A:=ArithF) None (fpz 10)) (Tri a b c)).
Proof.
  destruct (check_parse_ok _ _ _ kite_read) as (t & E & Ho). destruct case_float_kite as (C1 & _ & C2 & C3 & C4 & C5 & C6). exists t. repeat (split; [assumption|]).
  split; [exact kite_free|]. exact (check_fine_ok _ _ kite_fine).
Qed.
Lemma case_dart_filled : no_four_on_a_circle dart /\ exists M : mesh, fills dart M.
Proof. split; [apply case_float_dart|]. destruct dart_run as (n & t' & _ & HF). exists (t_trn t'). exact HF. Qed.
