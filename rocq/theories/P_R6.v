(** P_R6.v — crossings of polylines (C22), lengths of the pieces of a split
    segment (C47) and rejected centres (C49) over the reals. *)

From Coq Require Import Reals List ZArith Lra Lia Psatz Bool Permutation.
From Verif Require Import Base Arith Geometry Elements Polyline Procedures Refine ArithR Spec SpecR P_Base P_Refine P_R1 P_R2 P_R3 P_R4 P_Contains P_R5.
Import ListNotations.
Local Open Scope R_scope.

(** ** Pieces of a segment (C47) *)
Lemma tiling_ratio : forall (e : edge ArithR) l, tiling e l -> forall x, In x l ->
  exists k j, (j < 2 ^ k)%nat /\
    at_ratio (INR j / 2 ^ k) (fst e) (snd e) (fst x) /\ at_ratio ((INR j + 1) / 2 ^ k) (fst e) (snd e) (snd x).
Proof.
  intros e l Ht. induction Ht as [e|a b m l1 l2 Hm H1 IH1 H2 IH2]; intros x Hx.
  - destruct Hx as [<-|[]]. exists 0%nat, 0%nat. split; [cbn; lia|]. unfold at_ratio. cbn [INR pow]. split; split; field.
  - destruct (edge_midpoint_spec (a, b)) as [Hh _]. rewrite <- Hm in Hh. cbn [fst snd] in *.
    destruct Hh as [Hhx Hhy]. unfold at_ratio in Hhx, Hhy.
    apply in_app_iff in Hx. destruct Hx as [Hx|Hx].
    + destruct (IH1 x Hx) as (k & j & Hj & [A1 A2] & [B1 B2]). exists (S k), j. split; [cbn; lia|].
      assert (P : 2 ^ k <> 0) by (apply pow_nonzero; lra).
      unfold at_ratio. cbn [pow]. rewrite A1, A2, B1, B2, Hhx, Hhy. split; split; field; exact P.
    + destruct (IH2 x Hx) as (k & j & Hj & [A1 A2] & [B1 B2]). exists (S k), (2 ^ k + j)%nat. split; [cbn; lia|].
      assert (P : 2 ^ k <> 0) by (apply pow_nonzero; lra).
      unfold at_ratio. rewrite plus_INR, pow_INR. replace (INR 2) with 2 by (cbn; ring). cbn [pow].
      rewrite A1, A2, B1, B2, Hhx, Hhy. split; split; field; exact P.
Qed.

Lemma ratio_length : forall (a b u w : pnt) r s, at_ratio r a b u -> at_ratio (r + s) a b w -> 0 <= s -> dist u w = s * dist a b.
Proof.
  intros a b u w r s [A1 A2] [B1 B2] Hs. unfold dist.
  replace (d2 u w) with (s * s * d2 a b) by (unfold d2; rewrite A1, A2, B1, B2; ring).
  rewrite sqrt_mult; [|nra|apply d2_nonneg]. rewrite sqrt_square by exact Hs. reflexivity.
Qed.

Lemma unencroach_lengths : forall (H : HashOrder) fuel p (tr : triangulation ArithR) e vs cs bd hs tr' vs' new inc del,
  unencroach_segment H fuel p tr e vs cs bd hs = Ok (tr', vs', new, inc, del) ->
  forall x, In x new -> exists k j, (1 <= k)%nat /\ (j < 2 ^ k)%nat /\
    at_ratio (INR j / 2 ^ k) (fst e) (snd e) (fst x) /\ at_ratio ((INR j + 1) / 2 ^ k) (fst e) (snd e) (snd x) /\
    dist (fst x) (snd x) = dist (fst e) (snd e) / 2 ^ k.
Proof.
  intros H fuel p tr e vs cs bd hs tr' vs' new inc del Hu x Hx.
  destruct (unencroach_segment_tiles _ _ _ _ _ _ _ _ _ _ _ _ _ _ Hu) as (l1 & l2 & T1 & T2 & Hin).
  destruct (edge_midpoint_spec e) as [[Hmx Hmy] _].
  assert (G : exists k j, (1 <= k)%nat /\ (j < 2 ^ k)%nat /\ at_ratio (INR j / 2 ^ k) (fst e) (snd e) (fst x) /\ at_ratio ((INR j + 1) / 2 ^ k) (fst e) (snd e) (snd x)).
  { apply Hin, in_app_iff in Hx. destruct Hx as [Hx|Hx].
    - destruct (tiling_ratio _ _ T1 x Hx) as (k & j & Hj & [A1 A2] & [B1 B2]). cbn [fst snd] in *. exists (S k), j.
      split; [lia|]. split; [cbn; lia|]. assert (P : 2 ^ k <> 0) by (apply pow_nonzero; lra).
      unfold at_ratio in *. cbn [pow]. rewrite A1, A2, B1, B2, Hmx, Hmy. split; split; field; exact P.
    - destruct (tiling_ratio _ _ T2 x Hx) as (k & j & Hj & [A1 A2] & [B1 B2]). cbn [fst snd] in *. exists (S k), (2 ^ k + j)%nat.
      split; [lia|]. split; [cbn; lia|]. assert (P : 2 ^ k <> 0) by (apply pow_nonzero; lra).
      unfold at_ratio in *. rewrite plus_INR, pow_INR. replace (INR 2) with 2 by (cbn; ring). cbn [pow].
      rewrite A1, A2, B1, B2, Hmx, Hmy. split; split; field; exact P. }
  destruct G as (k & j & Hk & Hj & A & B). exists k, j. repeat split; try assumption; try apply A; try apply B.
  assert (P : 0 < 2 ^ k) by (apply pow_lt; lra).
  unfold seg_length. rewrite (ratio_length (fst e) (snd e) (fst x) (snd x) (INR j / 2 ^ k) (/ 2 ^ k)).
  - field. lra.
  - exact A.
  - replace (INR j / 2 ^ k + / 2 ^ k) with ((INR j + 1) / 2 ^ k) by (field; lra). exact B.
  - apply Rlt_le, Rinv_0_lt_compat, P.
Qed.

(** ** Rejected centres (C49) *)
Lemma continence_self : forall a b c : pnt, continence a b c c = Boundary.
Proof.
  intros a b c. rewrite continence_sign.
  replace (incircle a b c c) with 0; [rewrite Raeq_zero; reflexivity|].
  unfold incircle, Rdet4, Rdet3. ring.
Qed.

(** ** Crossings of polylines (C22) *)
Lemma poly_pairs_sides : forall p : polyline ArithR, pverts p <> [] -> poly_pairs p = Ok (sides_of p).
Proof.
  intros [l o] Hn. unfold poly_pairs, sides_of. cbn [pverts popened] in *. destruct l as [|a l]; [congruence|].
  destruct o; [reflexivity|]. rewrite vertex_pairs_closed. reflexivity.
Qed.

Lemma path_sides_ends : forall (l : list pnt) a b, In (a, b) (path_sides l) -> In a l /\ In b l.
Proof.
  induction l as [|x l IH]; intros a b Hi; [destruct Hi|]. destruct l as [|y l]; [destruct Hi|].
  change (path_sides (x :: y :: l)) with ((x, y) :: path_sides (y :: l)) in Hi. destruct Hi as [E|Hi].
  - injection E as <- <-. split; [left; reflexivity|right; left; reflexivity].
  - destruct (IH a b Hi) as [Ha Hb]. split; right; assumption.
Qed.
Lemma sides_ends : forall p a b, In (a, b) (sides_of p) -> In a (pverts p) /\ In b (pverts p).
Proof.
  intros [l o] a b. unfold sides_of. cbn [pverts popened]. destruct o; [apply path_sides_ends|].
  destruct l as [|x l]; [intros []|]. cbn [polygon_sides]. intros Hi. apply path_sides_ends in Hi. rewrite !in_app_iff in Hi.
  destruct Hi as [[Ha|[<-|[]]] [Hb|[<-|[]]]]; split; try assumption; left; reflexivity.
Qed.

Lemma on_segment_in_box : forall bb a b p, in_box bb a -> in_box bb b -> on_segment a b p -> in_box bb p.
Proof.
  intros bb a b p [[A1 A2] [A3 A4]] [[B1 B2] [B3 B4]] (t & Ht & Hx & Hy). unfold in_box. rewrite Hx, Hy. repeat split; nra.
Qed.

Lemma veqb_close : forall a b : pnt, vghost a = false -> veqb a b = true -> vghost b = false /\ close a b.
Proof.
  intros a b Ha He. unfold veqb in He. rewrite Ha in He. cbn [andb] in He.
  apply andb_prop in He. destruct He as [He Hy]. apply andb_prop in He. destruct He as [Hg Hx].
  split; [destruct (vghost b); [discriminate Hg|reflexivity]|].
  change (aeq (a:=ArithR) (vx a) (vx b)) with (Raeq (X a) (X b)) in Hx. change (aeq (a:=ArithR) (vy a) (vy b)) with (Raeq (Y a) (Y b)) in Hy.
  unfold close. destruct (Raeq_spec (X a) (X b)); [|discriminate]. destruct (Raeq_spec (Y a) (Y b)); [|discriminate]. split; assumption.
Qed.
Lemma close_refl : forall a, close a a.
Proof. intros a. pose proof eps_pos. unfold close. lra. Qed.

Lemma snap_close : forall a b c d q : pnt, vghost q = false ->
  close q (snap a b c d q) /\ vghost (snap a b c d q) = false.
Proof.
  intros a b c d q Hq. unfold snap.
  destruct (veqb q a) eqn:E1; [destruct (veqb_close _ _ Hq E1); split; assumption|].
  destruct (veqb q b) eqn:E2; [destruct (veqb_close _ _ Hq E2); split; assumption|].
  destruct (veqb q c) eqn:E3; [destruct (veqb_close _ _ Hq E3); split; assumption|].
  destruct (veqb q d) eqn:E4; [destruct (veqb_close _ _ Hq E4); split; assumption|].
  split; [apply close_refl|exact Hq].
Qed.

Lemma intersection_vertices_spec : forall p1 p2 : polyline ArithR, pverts p1 <> [] -> pverts p2 <> [] ->
  exists l, intersection_vertices p1 p2 = Ok l /\ NoDup l /\
  (forall v, In v l -> exists a b c d q, In (a, b) (sides_of p1) /\ In (c, d) (sides_of p2) /\ close q v /\
     near_box eps a b q /\ near_box eps c d q /\ - eps <= area2 a b q <= eps /\ - eps <= area2 c d q <= eps) /\
  (forall a b c d p, In (a, b) (sides_of p1) -> In (c, d) (sides_of p2) -> on_segment a b p -> on_segment c d p ->
     exists v, In v l /\ (crossp a b c d <> 0 -> close p v)).
Proof.
  intros p1 p2 N1 N2. unfold intersection_vertices, poly_bbox.
  pose proof (from_vertices_spec (pverts p1)) as F1. pose proof (from_vertices_spec (pverts p2)) as F2.
  destruct (bbox_from_vertices (pverts p1)) as [b1|]; [|contradiction]. destruct (bbox_from_vertices (pverts p2)) as [b2|]; [|contradiction].
  cbn [unwrap bind]. destruct F1 as [F1 _]. destruct F2 as [F2 _].
  pose proof (bbox_intersection_spec b1 b2) as Hbi. destruct (bbox_intersection b1 b2) as [b|].
  - rewrite (poly_pairs_sides p1 N1), (poly_pairs_sides p2 N2). cbn [bind]. eexists. split; [reflexivity|].
    split; [apply hset_NoDup|]. split.
    + intros v Hv. apply hset_In in Hv. apply in_flat_map in Hv. destruct Hv as ([a b'] & H1 & Hv).
      apply in_flat_map in Hv. destruct Hv as ([c d] & H2 & Hv).
      destruct (intersection a b' c d) as [q|] eqn:Hq; [|destruct Hv]. destruct Hv as [<-|[]].
      destruct (intersection_sound _ _ _ _ _ Hq) as (S1 & S2 & S3 & _ & S4 & S5).
      exists a, b', c, d, q. repeat split; try assumption; try apply S1; try apply S2; try apply S4; try apply S5; apply (snap_close a b' c d q S3).
    + intros a b' c d p H1 H2 O1 O2. destruct (intersection_complete a b' c d p O1 O2) as (q & Hq & Hc).
      destruct (intersection_sound _ _ _ _ _ Hq) as (_ & _ & S3 & _). destruct (snap_close a b' c d q S3) as [Sc _].
      exists (snap a b' c d q). split.
      * apply hset_In, in_flat_map. exists (a, b'). split; [exact H1|]. apply in_flat_map. exists (c, d). split; [exact H2|].
        rewrite Hq. left. reflexivity.
      * intros Hx. destruct (Hc Hx) as [Ex Ey]. unfold close in *. rewrite Ex, Ey. exact Sc.
  - eexists. split; [reflexivity|]. split; [constructor|]. split; [intros v []|].
    intros a b' c d p H1 H2 O1 O2. exfalso. apply (Hbi p).
    apply sides_ends in H1. apply sides_ends in H2. destruct H1 as [A1 A2]. destruct H2 as [B1 B2].
    split; [apply (on_segment_in_box b1 a b')|apply (on_segment_in_box b2 c d)]; auto.
Qed.

(** ** Statements gathered for T_Geometry *)
Lemma orientation_symmetries : forall a b c : pnt,
  orientation b c a = orientation a b c /\ orientation b a c = turned (orientation a b c) /\
  forall dx dy a' b' c', moved dx dy a a' -> moved dx dy b b' -> moved dx dy c c' -> orientation a' b' c' = orientation a b c.
Proof.
  intros a b c. split; [apply orientation_rotate|]. split; [apply orientation_swap|]. intros. eapply orientation_moved; eassumption.
Qed.

Lemma parallel_spec : forall a b c d : pnt, parallel a b c d = true <-> crossp a b c d = 0.
Proof.
  intros a b c d.
  assert (E : parallel a b c d = negb (negb (Reqb (- (Y b - Y a) * (X d - X c) - - (Y d - Y c) * (X b - X a)) 0))) by reflexivity.
  rewrite E, negb_involutive. unfold crossp. destruct (Reqb_spec (- (Y b - Y a) * (X d - X c) - - (Y d - Y c) * (X b - X a)) 0); split; intros; try discriminate; try reflexivity; lra.
Qed.

Lemma continence_symmetries : forall a b c d : pnt,
  continence b c a d = continence a b c d /\ continence b a c d = swapped (continence a b c d).
Proof. intros. split; [apply continence_rotate|apply continence_swap]. Qed.

Lemma encircles_spec : forall (t : triangle ArithR) (d : pnt),
  (is_ghost t = false -> forall o, d2 o (tv1 t) = d2 o (tv2 t) -> d2 o (tv1 t) = d2 o (tv3 t) -> 0 < area2 (tv1 t) (tv2 t) (tv3 t) ->
     (encircles t d = Inside <-> d2 o d < d2 o (tv1 t) - eps / area2 (tv1 t) (tv2 t) (tv3 t)) /\
     (encircles t d = Outside <-> d2 o (tv1 t) + eps / area2 (tv1 t) (tv2 t) (tv3 t) < d2 o d)) /\
  (is_ghost t = true ->
     (encircles t d = Inside <-> eps < area2 (tv1 t) (tv2 t) d) /\ (encircles t d = Outside <-> area2 (tv1 t) (tv2 t) d < - eps)).
Proof.
  intros t d. pose proof eps_pos. split.
  - intros Hg o H1 H2 Ha. unfold encircles. rewrite Hg. cbn [negb].
    destruct (continence_spec (tv1 t) (tv2 t) (tv3 t) d o H1 H2) as (C1 & C2 & _). rewrite C1, C2.
    set (k := area2 (tv1 t) (tv2 t) (tv3 t)) in *. set (p := d2 o d). set (q := d2 o (tv1 t)).
    assert (E : eps / k * k = eps) by (field; lra). set (e := eps / k) in *. clearbody k p q e.
    rewrite <- E. clear - Ha. split; split; intros Hi; nra.
  - intros Hg. unfold encircles. rewrite Hg. cbn [negb].
    destruct (orientation_spec (tv1 t) (tv2 t) d) as (O1 & O2 & O3).
    destruct (orientation (tv1 t) (tv2 t) d).
    + assert (eps < area2 (tv1 t) (tv2 t) d) by (apply O1; reflexivity). repeat split; intros; try discriminate; try reflexivity; lra.
    + assert (area2 (tv1 t) (tv2 t) d < - eps) by (apply O2; reflexivity). repeat split; intros; try discriminate; try reflexivity; lra.
    + assert (- eps <= area2 (tv1 t) (tv2 t) d <= eps) by (apply O3; reflexivity). repeat split; intros; try discriminate; try reflexivity; lra.
Qed.

Lemma encroach_extra : forall a b v : pnt, encroach a b v = encroach b a v /\
  (4 * eps < d2 a b -> forall m, half_point a b m -> encroach a b m = Inside).
Proof. intros a b v. split; [apply encroach_sym|]. intros Hd m Hm. apply encroach_midpoint; assumption. Qed.

Lemma intersection_orders : forall a b c d : pnt,
  intersection a b c d = intersection c d a b /\ intersection a b c d = intersection b a c d /\ intersection a b c d = intersection a b d c.
Proof.
  intros a b c d. split; [apply intersection_sym|]. split; [apply intersection_flip|].
  rewrite (intersection_sym a b c d), (intersection_flip c d a b). symmetry. apply intersection_sym.
Qed.

Lemma area_rotate : forall l1 l2 : list pnt, (area_segments (polygon_sides (l1 ++ l2)) : R) = area_segments (polygon_sides (l2 ++ l1)).
Proof.
  intros [|a l1] [|b l2]; try reflexivity; [rewrite app_nil_r; reflexivity|rewrite app_nil_r; reflexivity|].
  apply area_segments_perm.
  change (Permutation (consecutive (A:=ArithR) (((a :: l1) ++ b :: l2) ++ [a])) (consecutive (A:=ArithR) (((b :: l2) ++ a :: l1) ++ [b]))).
  rewrite <- !app_assoc. cbn [app].
  change (Permutation (consecutive (A:=ArithR) ((a :: l1) ++ b :: (l2 ++ [a]))) (consecutive (A:=ArithR) ((b :: l2) ++ a :: (l1 ++ [b])))).
  rewrite consecutive_app, (consecutive_app (b :: l2)). apply Permutation_app_comm.
Qed.
Lemma area_reverse : forall l : list pnt, (area_segments (polygon_sides (rev l)) : R) = - (area_segments (polygon_sides l) : R).
Proof.
  intros [|a l]; [rewrite area_segments_total; unfold total; cbn; ring|].
  cbn [rev]. rewrite (area_rotate (rev l) [a]). cbn [app].
  change (polygon_sides (a :: rev l)) with (consecutive (A:=ArithR) ((a :: rev l) ++ [a])).
  change (polygon_sides (a :: l)) with (consecutive (A:=ArithR) ((a :: l) ++ [a])).
  replace ((a :: rev l) ++ [a]) with (rev ((a :: l) ++ [a])) by (rewrite rev_app_distr; reflexivity).
  rewrite consecutive_rev, <- (area_segments_perm _ _ (Permutation_rev _)). apply area_segments_reverse.
Qed.

Lemma triangle_contains : forall (t : triangle ArithR) (p : pnt), is_ghost t = false -> area2 (tv1 t) (tv2 t) (tv3 t) <> 0 ->
  exists pl k, tri_as_polyline t = Ok (Some pl) /\ poly_contains pl p = Ok (Some k) /\
    (k = Boundary <-> touches_side p (te1 t) \/ touches_side p (te2 t) \/ touches_side p (te3 t)) /\
    (k = Inside -> inside_triangle (tv1 t) (tv2 t) (tv3 t) p) /\
    (inside_triangle (tv1 t) (tv2 t) (tv3 t) p -> k = Inside \/ k = Boundary) /\
    (k = Outside -> outside_triangle (tv1 t) (tv2 t) (tv3 t) p) /\
    (outside_triangle (tv1 t) (tv2 t) (tv3 t) p -> k = Outside \/ k = Boundary).
Proof.
  intros t p Hg Ha. destruct (triangle_contains_spec (tv1 t) (tv2 t) (tv3 t) p Ha) as (k & Hk & Hrest).
  exists (Poly [tv1 t; tv2 t; tv3 t] false), k. split; [|split; [exact Hk|exact Hrest]].
  unfold tri_as_polyline. rewrite Hg. reflexivity.
Qed.

Lemma tiling_lengths : forall (e : edge ArithR) l, tiling e l -> forall x, In x l ->
  exists k j, (j < 2 ^ k)%nat /\
    at_ratio (INR j / 2 ^ k) (fst e) (snd e) (fst x) /\ at_ratio ((INR j + 1) / 2 ^ k) (fst e) (snd e) (snd x) /\
    seg_length x = seg_length e / 2 ^ k.
Proof.
  intros e l Ht x Hx. destruct (tiling_ratio e l Ht x Hx) as (k & j & Hj & A & B). exists k, j.
  repeat split; try assumption; try apply A; try apply B.
  assert (P : 0 < 2 ^ k) by (apply pow_lt; lra).
  unfold seg_length. rewrite (ratio_length (fst e) (snd e) (fst x) (snd x) (INR j / 2 ^ k) (/ 2 ^ k)).
  - field. lra.
  - exact A.
  - replace (INR j / 2 ^ k + / 2 ^ k) with ((INR j + 1) / 2 ^ k) by (field; lra). exact B.
  - apply Rlt_le, Rinv_0_lt_compat, P.
Qed.
Lemma tiling_total : forall (e : edge ArithR) l, tiling e l ->
  total (map seg_length l) = seg_length e.
Proof.
  intros e l Ht. induction Ht as [e|a b m l1 l2 Hm H1 IH1 H2 IH2]; [unfold total; cbn; ring|].
  assert (Tapp : forall u v, total (u ++ v) = total u + total v).
  { induction u as [|x u IHu]; intros v; [cbn; unfold total; cbn; ring|]. change (x + total (u ++ v) = x + total u + total v). rewrite IHu. ring. }
  rewrite map_app, Tapp, IH1, IH2. unfold seg_length. cbn [fst snd]. destruct (edge_midpoint_spec (a, b)) as [[Hx Hy] _]. rewrite <- Hm in *. cbn [fst snd] in *.
  rewrite (ratio_length a b a m 0 (/ 2)), (ratio_length a b m b (/ 2) (/ 2)); unfold at_ratio; try lra.
Qed.
Lemma no_self_encircling : forall a b c : pnt, continence a b c c <> Inside.
Proof. intros. rewrite continence_self. discriminate. Qed.
