(** P_Region3.v — the left and the right side of a polygon in a Delaunay
    triangulation, and the result of filling a polygon in terms of the input. *)

From Coq Require Import Reals List ZArith Lra Lia Psatz Bool Permutation.
From Verif Require Import Base Arith Geometry Elements Polyline Procedures Triangulator ArithR Spec SpecR SpecD SpecP
  P_Base P_R1 P_R5 P_D1 P_D2 P_D3 P_D4 P_D5 P_D6 P_D7 P_D8 P_RX P_Fill P_Fill2 P_Slide P_Region P_Region2.
Import ListNotations.
Local Open Scope R_scope.

Section Sides.
  Variables (S : list pnt) (tr : mesh) (l : list pnt).
  Notation es := (polygon_sides l).
  Hypothesis HD : delaunay S tr.
  Hypothesis HR : resolved S.
  Hypothesis Hsolid : exists t, In t (tris tr) /\ solid_over S t.
  Hypothesis Hnd : NoDup l.
  Hypothesis Hes : forall x y, In (x, y) es -> medge S tr x y.
  Hypothesis Hone : forall x y, In (x, y) es -> ~ In (y, x) es.
  Let pl := rs_plain S HR.

  Definition mid (t : tri) : pnt := at_ ((X (tv1 t) + X (tv2 t) + X (tv3 t)) / 3) ((Y (tv1 t) + Y (tv2 t) + Y (tv3 t)) / 3).
  Definition W (t : tri) : Z := if vghost (tv3 t) then 0%Z else winding (mid t) es.
  Lemma mid_D : forall a b c x y, D x y (mid (Tri a b c)) = (D x y a + D x y b + D x y c) / 3.
  Proof. clear. intros. unfold mid, area2. cbn [tv1 tv2 tv3]. rewrite X_at, Y_at. field. Qed.
  Lemma mid_inside : forall a b c, 0 < D a b c -> inside_triangle a b c (mid (Tri a b c)).
  Proof.
    clear. intros a b c Hp. unfold inside_triangle. rewrite !mid_D, !D_ab_a, !D_ab_b, (D_rot a b c), (D_rot2 a b c). lra.
  Qed.
  Lemma inside_rot : forall a b c q, inside_triangle a b c q -> inside_triangle b c a q.
  Proof. clear. intros a b c q (H1 & H2 & H3). split; auto. Qed.

  (** ** The winding number is constant on a triangle and zero outside the hull *)
  Lemma inside_const : forall a b c q, In (Tri a b c) (tris tr) -> vghost c = false -> inside_triangle a b c q -> winding q es = W (Tri a b c).
  Proof.
    intros a b c q Ht Gc Hq. unfold W. cbn [tv3]. rewrite Gc. destruct (solid_view S tr a b c HD HR Ht Gc) as (_ & _ & _ & Hp).
    apply winding_const. intros x y Hi (z & Hz & Hz'). apply (edge_clear S tr HD HR a b c x y z Ht Gc); auto.
    apply (inside_convex a b c q (mid (Tri a b c))); auto. apply mid_inside, Hp.
  Qed.
  Lemma W_looks : forall t a b c q, In t (tris tr) -> looks t a b c -> In a S -> In b S -> In c S -> inside_triangle a b c q -> winding q es = W t.
  Proof.
    intros t a b c q Ht Hl Ha Hb Hc Hq. destruct Hl as [-> |[-> | ->]]; apply inside_const; auto using inside_rot.
  Qed.
  Lemma outside_zero : forall a b q, In (Tri a b gv) (tris tr) -> 0 < D a b q -> winding q es = 0%Z.
  Proof.
    intros a b q Ht Hq. pose proof (dl_hull _ _ HD a b Ht) as Hh.
    assert (He : forall e, In e es -> D a b (fst e) <= 0 /\ D a b (snd e) <= 0).
    { intros [x y] Hi. destruct (Hes x y Hi) as (_ & _ & _ & Hx & Hy). split; apply Hh; assumption. }
    destruct (Rtotal_order (X a) (X b)) as [L|[E|L]].
    - destruct (bounded_X (map fst es ++ map snd es)) as (M & HM). set (s := Rmax 0 ((M - X q) / (X b - X a))).
      set (q' := at_ (X q + s * (X b - X a)) (Y q + s * (Y b - Y a))).
      assert (Hs : 0 <= s) by apply Rmax_l. assert (HX : M <= X q').
      { unfold q'. rewrite X_at. assert ((M - X q) / (X b - X a) <= s) by apply Rmax_r. apply (Rmult_le_compat_r (X b - X a)) in H; [|lra].
        replace ((M - X q) / (X b - X a) * (X b - X a)) with (M - X q) in H by (field; lra). lra. }
      assert (Hq' : D a b q' = D a b q) by (unfold q', area2; rewrite X_at, Y_at; ring).
      rewrite (winding_const l q q').
      + rewrite winding_zsum. apply zsum_zero. intros [x y] Hi. apply rc_LL; (apply Rle_trans with M; [|exact HX]); apply HM; rewrite in_app_iff; [left|right]; apply in_map_iff; exists (x, y); auto.
      + intros x y Hi (z & (k & Hk & Rk) & Hz'). destruct (He _ Hi) as [H1 H2]. pose proof (segment_side a b x y z H1 H2 Hz') as Hz.
        rewrite (ratio_D k q q' z a b Rk), Hq' in Hz. lra.
    - rewrite winding_zsum. apply zsum_zero. intros [x y] Hi. destruct (He _ Hi) as [H1 H2]. cbn [fst snd] in *. unfold area2 in *. rewrite E in *.
      destruct (Rlt_dec (Y a) (Y b)) as [Ly|Ly].
      + assert (X q < X b). { apply Rnot_le_lt. intros C. pose proof (mpp (Y b - Y a) (X q - X b) ltac:(lra) ltac:(lra)). lra. }
        assert (forall w, (X b - X b) * (Y w - Y a) - (Y b - Y a) * (X w - X b) <= 0 -> X b <= X w).
        { intros w Hw. apply Rnot_lt_le. intros C. pose proof (spn (Y b - Y a) (X w - X b) ltac:(lra) ltac:(lra)). lra. }
        apply rc_RR; (apply Rlt_le_trans with (X b); [assumption|auto]).
      + assert (Ly' : Y b < Y a). { destruct (Rtotal_order (Y a) (Y b)) as [C|[C|C]]; [contradiction|exfalso; rewrite C in Hq; lra|exact C]. }
        assert (X b < X q). { apply Rnot_le_lt. intros C. pose proof (mpp (Y a - Y b) (X b - X q) ltac:(lra) ltac:(lra)). lra. }
        assert (forall w, (X b - X b) * (Y w - Y a) - (Y b - Y a) * (X w - X b) <= 0 -> X w <= X b).
        { intros w Hw. apply Rnot_lt_le. intros C. pose proof (spp (Y a - Y b) (X w - X b) ltac:(lra) ltac:(lra)). lra. }
        apply rc_LL; (apply Rle_trans with (X b); [auto|lra]).
    - destruct (bounded_X (map fst es ++ map snd es)) as (M & HM). set (s := Rmax 0 ((M - X q) / (X a - X b))).
      set (q' := at_ (X q - s * (X b - X a)) (Y q - s * (Y b - Y a))).
      assert (Hs : 0 <= s) by apply Rmax_l. assert (HX : M <= X q').
      { unfold q'. rewrite X_at. assert ((M - X q) / (X a - X b) <= s) by apply Rmax_r. apply (Rmult_le_compat_r (X a - X b)) in H; [|lra].
        replace ((M - X q) / (X a - X b) * (X a - X b)) with (M - X q) in H by (field; lra). lra. }
      assert (Hq' : D a b q' = D a b q) by (unfold q', area2; rewrite X_at, Y_at; ring).
      rewrite (winding_const l q q').
      + rewrite winding_zsum. apply zsum_zero. intros [x y] Hi. apply rc_LL; (apply Rle_trans with M; [|exact HX]); apply HM; rewrite in_app_iff; [left|right]; apply in_map_iff; exists (x, y); auto.
      + intros x y Hi (z & (k & Hk & Rk) & Hz'). destruct (He _ Hi) as [H1 H2]. pose proof (segment_side a b x y z H1 H2 Hz') as Hz.
        rewrite (ratio_D k q q' z a b Rk), Hq' in Hz. lra.
  Qed.
  Lemma W_ghost : forall a b, W (Tri a b gv) = 0%Z.
  Proof. clear. intros. reflexivity. Qed.

  (** ** Across a side *)
  Definition pt (a b c : pnt) (k : R) : pnt := at_ ((1 - k) * ((X a + X b) / 2) + k * X c) ((1 - k) * ((Y a + Y b) / 2) + k * Y c).
  Lemma pt_D : forall a b c k x y, D x y (pt a b c k) = (1 - k) * ((D x y a + D x y b) / 2) + k * D x y c.
  Proof. clear. intros. unfold pt, area2. rewrite X_at, Y_at. field. Qed.
  Lemma pt_segment : forall a b c e z, on_segment (pt a b c e) (pt a b c (- e)) z -> 0 < e -> exists k, - e <= k <= e /\ coincide (pt a b c k) z.
  Proof.
    clear. intros a b c e z (j & Hj & [Jx Jy]) He. exists (e - 2 * j * e). assert (0 <= j * e <= e) by (split; [apply mpp; lra|pose proof (mpp (1 - j) e ltac:(lra) ltac:(lra)); lra]). split; [lra|].
    unfold pt in *. rewrite !X_at in Jx. rewrite !Y_at in Jy. split; rewrite ?X_at, ?Y_at; lra.
  Qed.
  Lemma cross_solid : forall a b t u c, medge S tr a b -> In t (tris tr) -> looks t a b c -> In c S -> 0 < D a b c -> In u (tris tr) -> side_of (b, a) u ->
    (W t - W u = zsum (crossed a b) es)%Z.
  Proof.
    intros a b t u c Hm Ht Hl Hc Hp Hu Su. destruct (medge_view S tr HD HR a b Hm) as (Ha & Hb & Hco & _).
    destruct (view S tr HD u b a Hu Su (not_gv S HR b Hb) (not_gv S HR a Ha)) as (_ & _ & _ & V).
    (* close enough to the side *)
    assert (Hsm : exists e, 0 < e < 1 /\ forall k, - e <= k < 0 -> winding (pt a b c k) es = W u /\ forall x y, medge S tr x y -> ~ on_segment x y (pt a b c k)).
    { destruct V as [(d & Hd & Hl' & Hp')| ->].
      - destruct (small_mix (D b a d / 2) (D a d c)) as (e1 & He1 & Q1); [lra|]. destruct (small_mix (D b a d / 2) (D d b c)) as (e2 & He2 & Q2); [lra|].
        exists (Rmin e1 e2). split; [unfold Rmin; destruct (Rle_dec e1 e2); lra|]. intros k Hk.
        assert (Hk' : - e1 <= k <= e1 /\ - e2 <= k <= e2) by (unfold Rmin in Hk; destruct (Rle_dec e1 e2); lra).
        assert (Hin : inside_triangle b a d (pt a b c k)).
        { split; [|split]; rewrite pt_D.
          - rewrite D_ab_a, D_ab_b, (D_swap a b c). pose proof (spp (- k) (D a b c) ltac:(lra) Hp). lra.
          - rewrite D_ab_a. pose proof (D_rot b a d). pose proof (Q1 k (proj1 Hk')). replace ((0 + D a d b) / 2) with (D b a d / 2) by lra. lra.
          - rewrite D_ab_b. pose proof (D_rot2 b a d). pose proof (Q2 k (proj2 Hk')). replace ((D d b a + 0) / 2) with (D b a d / 2) by lra. lra. }
        split; [apply (W_looks u b a d); auto|]. intros x y Hxy Hon.
        destruct Hl' as [-> |[-> | ->]]; [apply (edge_clear S tr HD HR b a d x y (pt a b c k)); auto|apply (edge_clear S tr HD HR a d b x y (pt a b c k)); auto|apply (edge_clear S tr HD HR d b a x y (pt a b c k)); auto].
        + apply inside_rot, Hin.
        + apply inside_rot, inside_rot, Hin.
      - exists (1 / 2). split; [lra|]. intros k Hk. assert (Hq : 0 < D b a (pt a b c k)).
        { rewrite pt_D, D_ab_a, D_ab_b, (D_swap a b c). pose proof (spp (- k) (D a b c) ltac:(lra) Hp). lra. }
        split; [rewrite W_ghost; apply (outside_zero b a); assumption|]. intros x y (_ & _ & _ & Hx & Hy) Hon. pose proof (dl_hull _ _ HD b a Hu) as Hh.
        pose proof (segment_side b a x y _ (proj1 (Hh x Hx)) (proj1 (Hh y Hy)) Hon). lra. }
    destruct Hsm as (e & He & Q). destruct (Q (- e) ltac:(lra)) as [Wu _]. rewrite <- Wu.
    assert (Hin : forall k, 0 < k < 1 -> inside_triangle a b c (pt a b c k)).
    { intros k Hk. split; [|split]; rewrite pt_D.
      - rewrite D_ab_a, D_ab_b. pose proof (spp k (D a b c) ltac:(lra) Hp). lra.
      - rewrite D_ab_a, D_ab_b, (D_rot a b c). pose proof (spp (1 - k) (D a b c) ltac:(lra) Hp). lra.
      - rewrite D_ab_a, D_ab_b, (D_rot2 a b c). pose proof (spp (1 - k) (D a b c) ltac:(lra) Hp). lra. }
    rewrite <- (W_looks t a b c (pt a b c e) Ht Hl Ha Hb Hc (Hin e He)).
    apply jump.
    - intros E. apply Hco. rewrite E. split; reflexivity.
    - unfold pt. rewrite !X_at. field.
    - unfold pt. rewrite !Y_at. field.
    - apply (Hin e He).
    - intros x y Hi N1 N2 (z & Hz & Hz'). pose proof (Hes x y Hi) as Hxy. destruct (pt_segment a b c e z Hz ltac:(lra)) as (k & Hk & Ek).
      assert (Hon : on_segment x y (pt a b c k)) by (apply (on_segment_coincide x y z); [destruct Ek; split; auto|exact Hz']).
      destruct (Rtotal_order k 0) as [L|[E|L]].
      + exact (proj2 (Q k ltac:(lra)) x y Hxy Hon).
      + destruct (edge_cross S tr HD HR a b x y (1 / 2) (pt a b c k) Hm Hxy ltac:(lra)) as [[-> ->]|[-> ->]]; [|exact Hon|congruence|congruence].
        rewrite E. split; unfold pt; rewrite ?X_at, ?Y_at; field.
      + pose proof (Hin k ltac:(lra)) as Hk'. destruct Hl as [-> |[-> | ->]]; [apply (edge_clear S tr HD HR a b c x y (pt a b c k)); auto|apply (edge_clear S tr HD HR b c a x y (pt a b c k)); auto|apply (edge_clear S tr HD HR c a b x y (pt a b c k)); auto].
        * apply inside_rot, Hk'.
        * apply inside_rot, inside_rot, Hk'.
  Qed.
  Lemma crossed_flip : forall a b, a <> b -> zsum (crossed b a) es = (- zsum (crossed a b) es)%Z.
  Proof.
    clear. intros a b Nab. rewrite <- zsum_opp. apply zsum_ext. intros e _. unfold crossed. destruct (edec e (b, a)) as [E1|N1], (edec e (a, b)) as [E2|N2]; try lia. exfalso. congruence.
  Qed.
  Lemma cross_side : forall a b t u, medge S tr a b -> In t (tris tr) -> side_of (a, b) t -> In u (tris tr) -> side_of (b, a) u ->
    (W t - W u = zsum (crossed a b) es)%Z.
  Proof.
    intros a b t u Hm Ht St Hu Su. destruct (medge_view S tr HD HR a b Hm) as (Ha & Hb & Hco & _).
    destruct (view S tr HD t a b Ht St (not_gv S HR a Ha) (not_gv S HR b Hb)) as (_ & _ & Nab & [(c & Hc & Hl & Hp)| ->]); [apply (cross_solid a b t u c); assumption|].
    destruct (view S tr HD u b a Hu Su (not_gv S HR b Hb) (not_gv S HR a Ha)) as (_ & _ & _ & [(c & Hc & Hl & Hp)| ->]).
    - pose proof (cross_solid b a u (Tri a b gv) c (medge_flip S tr HD a b Hm) Hu Hl Hc Hp Ht St) as E. rewrite (crossed_flip a b Nab) in E. lia.
    - exfalso. destruct Hsolid as (s & Hs & x & y & z & -> & Hx & Hy & Hz & Hp). pose proof (dl_flat _ _ HD a b Ht Hu) as Hf. destruct (D_neq _ _ _ Hp) as (n1 & n2 & n3).
      destruct (Hf x Hx) as [-> | ->], (Hf y Hy) as [-> | ->], (Hf z Hz) as [-> | ->]; congruence.
  Qed.
  Lemma crossed_none : forall a b, ~ In (a, b) es -> ~ In (b, a) es -> zsum (crossed a b) es = 0%Z.
  Proof.
    clear. intros a b N1 N2. apply zsum_zero. intros e He. unfold crossed. destruct (edec e (a, b)) as [-> |]; [contradiction|]. destruct (edec e (b, a)) as [-> |]; [contradiction|reflexivity].
  Qed.
  Lemma crossed_one : forall a b, In (a, b) es -> zsum (crossed a b) es = 1%Z.
  Proof.
    intros a b Hi. pose proof (polygon_NoDup l Hnd) as Hn. pose proof (Hone a b Hi) as Hno. destruct (in_split _ _ Hi) as (e1 & e2 & E). rewrite E in Hn, Hno |- *.
    rewrite zsum_app, zsum_cons. apply NoDup_remove_2 in Hn. rewrite in_app_iff in Hno, Hn. cbn [In] in Hno.
    rewrite !(zsum_zero _ (crossed a b)); [unfold crossed; destruct (edec (a, b) (a, b)); [reflexivity|congruence]| |];
      intros e He; unfold crossed; (destruct (edec e (a, b)) as [-> |]; [tauto|]); (destruct (edec e (b, a)) as [-> |]; [tauto|reflexivity]).
  Qed.

  (** ** Around a corner *)
  Lemma left_point : forall a b t, medge S tr a b -> In t (tris tr) -> side_of (a, b) t -> exists q, 0 < D a b q /\
    (forall s, 0 < s <= 1 -> winding (toward b q s) es = W t /\ winding (toward a q s) es = W t) /\
    ((exists c, looks t a b c /\ In c S /\ 0 < D a b c /\ inside_triangle a b c q) \/ t = Tri a b gv).
  Proof.
    intros a b t Hm Ht St. destruct (medge_view S tr HD HR a b Hm) as (Ha & Hb & Hco & _).
    destruct (view S tr HD t a b Ht St (not_gv S HR a Ha) (not_gv S HR b Hb)) as (_ & _ & Nab & [(c & Hc & Hl & Hp)| ->]).
    - exists (mid (Tri a b c)). destruct (mid_inside a b c Hp) as (H1 & H2 & H3). split; [exact H1|]. split.
      + intros s Hs. split; apply (W_looks t a b c); auto; (split; [|split]); rewrite toward_D; rewrite ?D_ab_a, ?D_ab_b, ?(D_rot2 a b c), ?(D_rot a b c);
          repeat match goal with H : 0 < D ?x ?y ?z |- _ => lazymatch goal with K : 0 < s * D x y z |- _ => fail | _ => pose proof (spp s (D x y z) ltac:(lra) H) end end;
          pose proof (mpp (1 - s) (D a b c) ltac:(lra) ltac:(lra)); lra.
      + left. exists c. split; [exact Hl|]. split; [exact Hc|]. split; [exact Hp|]. split; [exact H1|]. split; [exact H2|exact H3].
    - assert (P2 : 0 < (X b - X a) * (X b - X a) + (Y b - Y a) * (Y b - Y a)).
      { pose proof (Rle_0_sqr (X b - X a)) as Q1. pose proof (Rle_0_sqr (Y b - Y a)) as Q2. unfold Rsqr in *. destruct (Req_dec (X b - X a) 0) as [Eu|Nu].
        - destruct (Req_dec (Y b - Y a) 0) as [Ew|Nw]; [exfalso; apply Hco; split; lra|]. pose proof (Rsqr_pos_lt _ Nw). unfold Rsqr in *. lra.
        - pose proof (Rsqr_pos_lt _ Nu). unfold Rsqr in *. lra. }
      set (q := at_ (X a - (Y b - Y a)) (Y a + (X b - X a))). assert (Hq : 0 < D a b q) by (unfold q, area2; rewrite X_at, Y_at; lra).
      exists q. split; [exact Hq|]. split; [|right; reflexivity].
      intros s Hs. rewrite W_ghost. pose proof (spp s (D a b q) ltac:(lra) Hq). split; apply (outside_zero a b _ Ht); rewrite toward_D, ?D_ab_a, ?D_ab_b; lra.
  Qed.
  Lemma near_corner : forall a b c q0 q1, In (a, b) es -> In (b, c) es ->
    (forall z, on_segment q0 q1 z -> (0 < D a b z /\ 0 < D b c z) \/ (0 < D a b z /\ D a b c <= 0) \/ (0 < D b c z /\ D a b c <= 0)) ->
    exists e, 0 < e < 1 /\ forall s, 0 < s <= e -> winding (toward b q0 s) es = winding (toward b q1 s) es.
  Proof.
    intros a b c q0 q1 Hab Hbc Hz. set (others := filter (fun e => negb (if edec e (a, b) then true else if edec e (b, c) then true else false)) es).
    assert (Ho : forall x y, In (x, y) others <-> In (x, y) es /\ (x, y) <> (a, b) /\ (x, y) <> (b, c)).
    { intros x y. unfold others. rewrite filter_In. destruct (edec (x, y) (a, b)), (edec (x, y) (b, c)); cbn [negb]; intuition congruence. }
    destruct (avoid_all others b q0 q1) as (e & He & Q).
    { intros x y Hi. apply Ho in Hi. destruct Hi as (Hi & N1 & N2). pose proof (Hes x y Hi) as Hm. destruct (medge_view S tr HD HR x y Hm) as (Hx & Hy & Hco & _). split; [exact Hco|].
      destruct (Hes a b Hab) as (_ & _ & _ & _ & Hb). intros Hon. destruct (open_or_end x y b Hon) as [E|[E|(k & Hk & Rk)]].
      - apply plain_coincide in E; auto. subst x. apply N2. rewrite (one_out l b y c Hnd Hi Hbc). reflexivity.
      - apply plain_coincide in E; auto. subst y. apply N1. rewrite (one_in l x a b Hnd Hi Hab). reflexivity.
      - apply (no_vertex_on S tr HD HR x y b Hm Hb), (param_between x y b k Hco Hk Rk). }
    exists e. split; [exact He|]. intros s Hs. apply winding_const. intros x y Hi (z & Hz1 & Hz2). destruct (toward_segment b q0 q1 s z Hz1) as (z0 & Hz0 & Ez).
    apply (on_segment_coincide x y z (toward b z0 s) Ez) in Hz2.
    destruct (edec (x, y) (a, b)) as [E|N1].
    - injection E as -> ->. destruct (Hz z0 Hz0) as [[L _]|[[L _]|[L Hl]]].
      + pose proof (segment_side a b a b _ ltac:(rewrite D_ab_a; lra) ltac:(rewrite D_ab_b; lra) Hz2) as B. rewrite toward_D, D_ab_b in B. pose proof (spp s _ ltac:(lra) L). lra.
      + pose proof (segment_side a b a b _ ltac:(rewrite D_ab_a; lra) ltac:(rewrite D_ab_b; lra) Hz2) as B. rewrite toward_D, D_ab_b in B. pose proof (spp s _ ltac:(lra) L). lra.
      + pose proof (segment_side b c a b _ ltac:(rewrite (D_rot a b c); lra) ltac:(rewrite D_ab_a; lra) Hz2) as B. rewrite toward_D, D_ab_a in B. pose proof (spp s _ ltac:(lra) L). lra.
    - destruct (edec (x, y) (b, c)) as [E|N2]; [|apply (Q s z0 x y); [lra|exact Hz0|apply Ho; auto|exact Hz2]].
      injection E as -> ->. destruct (Hz z0 Hz0) as [[_ L]|[[L Hl]|[L Hl]]].
      + pose proof (segment_side b c b c _ ltac:(rewrite D_ab_a; lra) ltac:(rewrite D_ab_b; lra) Hz2) as B. rewrite toward_D, D_ab_a in B. pose proof (spp s _ ltac:(lra) L). lra.
      + pose proof (segment_side a b b c _ ltac:(rewrite D_ab_b; lra) Hl Hz2) as B. rewrite toward_D, D_ab_b in B. pose proof (spp s _ ltac:(lra) L). lra.
      + pose proof (segment_side b c b c _ ltac:(rewrite D_ab_a; lra) ltac:(rewrite D_ab_b; lra) Hz2) as B. rewrite toward_D, D_ab_a in B. pose proof (spp s _ ltac:(lra) L). lra.
  Qed.
  Lemma seg_pos : forall x y q0 q1 z, 0 < D x y q0 -> 0 < D x y q1 -> on_segment q0 q1 z -> 0 < D x y z.
  Proof.
    clear. intros x y q0 q1 z H0 H1 (k & Hk & Rk). rewrite (ratio_D k q0 q1 z x y Rk).
    destruct (Rlt_dec 0 k) as [L|L]; [pose proof (spp k _ L H1); pose proof (mpp (1 - k) (D x y q0) ltac:(lra) ltac:(lra)); lra|pose proof (spp (1 - k) _ ltac:(lra) H0); pose proof (mpp k (D x y q1) ltac:(lra) ltac:(lra)); lra].
  Qed.
  Lemma on_toward : forall b c s, 0 <= s <= 1 -> on_segment b c (toward b c s).
  Proof. clear. intros b c s Hs. exists s. split; [exact Hs|]. split; unfold toward; rewrite ?X_at, ?Y_at; reflexivity. Qed.
  Lemma clear_looks : forall t a b c x y z, In t (tris tr) -> looks t a b c -> In a S -> In b S -> In c S -> inside_triangle a b c z -> medge S tr x y -> on_segment x y z -> False.
  Proof.
    intros t a b c x y z Ht Hl Ha Hb Hc Hin Hm Hon.
    destruct Hl as [-> |[-> | ->]]; [apply (edge_clear S tr HD HR a b c x y z); auto|apply (edge_clear S tr HD HR b c a x y z); auto using inside_rot|apply (edge_clear S tr HD HR c a b x y z); auto using inside_rot].
  Qed.
  Lemma turn : forall a b c t1 t2, In (a, b) es -> In (b, c) es -> In t1 (tris tr) -> side_of (a, b) t1 -> In t2 (tris tr) -> side_of (b, c) t2 -> W t1 = W t2.
  Proof.
    intros a b c t1 t2 Hab Hbc H1 S1 H2 S2. pose proof (Hes a b Hab) as M1. pose proof (Hes b c Hbc) as M2.
    destruct (left_point a b t1 M1 H1 S1) as (q0 & P0 & W0 & V0). destruct (left_point b c t2 M2 H2 S2) as (q1 & P1 & W1 & V1).
    destruct (medge_view S tr HD HR a b M1) as (Ha & Hb & Hco1 & _). destruct (medge_view S tr HD HR b c M2) as (_ & Hc & Hco2 & _).
    assert (Fin : forall e, 0 < e < 1 -> (forall s, 0 < s <= e -> winding (toward b q0 s) es = winding (toward b q1 s) es) -> W t1 = W t2).
    { intros e He Q. rewrite <- (proj1 (W0 e ltac:(lra))), <- (proj2 (W1 e ltac:(lra))). apply Q. lra. }
    destruct (Rtotal_order (D a b c) 0) as [L|[Z|L]].
    - (* a reflex corner: around the back *)
      set (r := at_ (3 * X b - X a - X c) (3 * Y b - Y a - Y c)).
      assert (R1 : D a b r = - D a b c) by (unfold r, area2; rewrite X_at, Y_at; ring). assert (R2 : D b c r = - D a b c) by (unfold r, area2; rewrite X_at, Y_at; ring).
      destruct (near_corner a b c q0 r Hab Hbc) as (e0 & He0 & Q0); [intros z Hz; right; left; split; [apply (seg_pos a b q0 r z); auto; lra|lra]|].
      destruct (near_corner a b c r q1 Hab Hbc) as (e1 & He1 & Q1); [intros z Hz; right; right; split; [apply (seg_pos b c r q1 z); auto; lra|lra]|].
      apply (Fin (Rmin e0 e1)); [unfold Rmin; destruct (Rle_dec e0 e1); lra|]. intros s Hs.
      assert (Hs' : 0 < s <= e0 /\ 0 < s <= e1) by (unfold Rmin in Hs; destruct (Rle_dec e0 e1); lra). rewrite (Q0 s (proj1 Hs')). apply (Q1 s (proj2 Hs')).
    - (* straight on *)
      destruct (ratio_of_line a b c Hco1 Z) as (k & Rk).
      assert (Lk : 1 < k).
      { apply Rnot_le_lt. intros Lk. destruct (Rlt_dec k 0) as [Ln|Ln].
        - assert (Hr : at_ratio (1 / (1 - k)) b c a) by (destruct Rk as [Kx Ky]; split; [rewrite Kx|rewrite Ky]; field; lra).
          apply (no_vertex_on S tr HD HR b c a M2 Ha), (param_between b c a (1 / (1 - k)) Hco2); [|exact Hr].
          split; [apply Rmult_lt_0_compat; [lra|apply Rinv_0_lt_compat; lra]|]. apply (Rmult_lt_reg_r (1 - k)); [lra|]. unfold Rdiv. rewrite Rmult_assoc, Rinv_l by lra. lra.
        - assert (Hon : on_segment a b c) by (exists k; split; [lra|exact Rk]). destruct (open_or_end a b c Hon) as [E|[E|(j & Hj & Rj)]].
          + apply plain_coincide in E; auto. subst c. exact (Hone a b Hab Hbc).
          + exact (Hco2 E).
          + apply (no_vertex_on S tr HD HR a b c M1 Hc), (param_between a b c j Hco1 Hj Rj). }
      assert (Pq : 0 < D a b q1).
      { assert (E : D b c q1 = (k - 1) * D a b q1) by (destruct Rk as [Kx Ky]; unfold area2; rewrite Kx, Ky; ring). apply Rnot_le_lt. intros C. pose proof (mpn (k - 1) (D a b q1) ltac:(lra) C). lra. }
      destruct (near_corner a b c q0 q1 Hab Hbc) as (e & He & Q); [intros z Hz; right; left; split; [apply (seg_pos a b q0 q1 z); auto|lra]|]. exact (Fin e He Q).
    - (* a convex corner *)
      assert (Pq0 : 0 < D b c q0).
      { destruct V0 as [(x & Hl & Hx & Hp & I1 & I2 & I3)| ->]; [|exfalso; pose proof (proj1 (dl_hull _ _ HD a b H1 c Hc)); lra].
        apply Rnot_le_lt. intros C. assert (K : D a b q0 * D b x c = D a b c * D b x q0 - D b c q0 * D b x a) by (unfold area2; ring).
        pose proof (spp _ _ L I2). pose proof (D_rot a b x). pose proof (mpp (- D b c q0) (D b x a) ltac:(lra) ltac:(lra)).
        assert (Pc : 0 < D b x c). { apply Rnot_le_lt. intros C'. pose proof (mpn (D a b q0) (D b x c) ltac:(lra) C'). lra. }
        destruct (small_mix (D x a b) (D x a c)) as (e & He & Q); [rewrite (D_rot2 a b x); exact Hp|].
        apply (clear_looks t1 a b x b c (toward b c e) H1 Hl Ha Hb Hx); [|exact M2|apply on_toward; lra]. split; [|split]; rewrite toward_D.
        - rewrite D_ab_b. pose proof (spp e _ ltac:(lra) L). lra.
        - rewrite D_ab_a. pose proof (spp e _ ltac:(lra) Pc). lra.
        - apply Q. lra. }
      assert (Pq1 : 0 < D a b q1).
      { destruct V1 as [(y & Hl & Hy & Hp & I1 & I2 & I3)| ->]; [|exfalso; pose proof (proj1 (dl_hull _ _ HD b c H2 a Ha)) as C; rewrite (D_rot a b c) in C; lra].
        apply Rnot_le_lt. intros C. assert (K : D b c q1 * D y b a = - D a b q1 * D b c y + D a b c * D y b q1) by (unfold area2; ring).
        pose proof (spp _ _ L I3). pose proof (mpp (- D a b q1) (D b c y) ltac:(lra) ltac:(lra)).
        assert (Pc : 0 < D y b a). { apply Rnot_le_lt. intros C'. pose proof (mpn (D b c q1) (D y b a) ltac:(lra) C'). lra. }
        destruct (small_mix (D c y b) (D c y a)) as (e & He & Q); [rewrite (D_rot b c y); exact Hp|].
        apply (clear_looks t2 b c y b a (toward b a e) H2 Hl Hb Hc Hy); [|apply medge_flip; assumption|apply on_toward; lra]. split; [|split]; rewrite toward_D.
        - rewrite D_ab_a. pose proof (D_rot a b c). pose proof (spp e (D b c a) ltac:(lra) ltac:(lra)). lra.
        - apply Q. lra.
        - rewrite D_ab_b. pose proof (spp e _ ltac:(lra) Pc). lra. }
      destruct (near_corner a b c q0 q1 Hab Hbc) as (e & He & Q); [intros z Hz; left; split; [apply (seg_pos a b q0 q1 z); auto|apply (seg_pos b c q0 q1 z); auto]|]. exact (Fin e He Q).
  Qed.

  (** ** All left sides are alike, and all right sides *)
  Lemma along : forall p x y, (forall e, In e (path_sides (x :: y :: p)) -> In e es) -> forall e t t', In e (path_sides (x :: y :: p)) ->
    In t (tris tr) -> side_of (x, y) t -> In t' (tris tr) -> side_of e t' -> W t = W t'.
  Proof.
    induction p as [|z p IH]; intros x y Hsub e t t' He Ht St Ht' St'.
    - destruct He as [<-|[]]. rewrite (excl S tr HD t t' (x, y) Ht Ht' St St'). reflexivity.
    - change (path_sides (x :: y :: z :: p)) with ((x, y) :: path_sides (y :: z :: p)) in *. destruct He as [<-|He]; [rewrite (excl S tr HD t t' (x, y) Ht Ht' St St'); reflexivity|].
      assert (Hyz : In (y, z) es) by (apply Hsub; right; left; reflexivity). destruct (Hes y z Hyz) as (u & Hu & Su & _).
      transitivity (W u); [apply (turn x y z t u); auto; apply Hsub; left; reflexivity|]. apply (IH y z (fun e He => Hsub e (or_intror He)) e u t'); assumption.
  Qed.
  Lemma left_alike : forall e e' t t', In e es -> In e' es -> In t (tris tr) -> side_of e t -> In t' (tris tr) -> side_of e' t' -> W t = W t'.
  Proof.
    assert (K : exists n, forall e t, In e es -> In t (tris tr) -> side_of e t -> W t = n).
    { pose proof along as Al. pose proof Hes as Hes'. destruct l as [|a m]; [exists 0%Z; intros e t []|]. change (polygon_sides (a :: m)) with (path_sides (a :: (m ++ [a]))) in *.
      destruct (m ++ [a]) as [|b p] eqn:E; [destruct m; discriminate|].
      destruct (Hes' a b) as (u & Hu & Su & _); [left; reflexivity|]. exists (W u). intros e t He Ht St. symmetry. apply (Al p a b (fun e He => He) e u t He Hu Su Ht St). }
    destruct K as [n K]. intros e e' t t' He He' Ht St Ht' St'. rewrite (K e t He Ht St), (K e' t' He' Ht' St'). reflexivity.
  Qed.
  Lemma swept_right : forall e u, In e es -> In u (tris tr) -> side_of e u ->
    forall t, swept (fun x => In x (tris tr)) (map flip es) (map flip es) t -> In t (tris tr) /\ W t = (W u - 1)%Z.
  Proof.
    intros e u He Hu Su t Hsw. induction Hsw as [f t Hf Ht St|x t t' Hsw IH Sx Hno Ht' Sf].
    - split; [exact Ht|]. apply in_map_iff in Hf. destruct Hf as ([a b] & <- & Hi). cbn [flip fst snd] in St. destruct (Hes a b Hi) as (u' & Hu' & Su' & Ha & Hb).
      pose proof (cross_side a b u' t (Hes a b Hi) Hu' Su' Ht St) as E. rewrite (crossed_one a b Hi) in E. rewrite (left_alike e (a, b) u u' He Hi Hu Su Hu' Su'). lia.
    - destruct IH as [Ht E]. split; [exact Ht'|]. rewrite <- E. destruct x as [a b]. cbn [flip fst snd] in Sf.
      assert (Hpl : (In a S /\ In b S) \/ (W t = 0%Z /\ W t' = 0%Z)).
      { destruct (HRv S tr HD HR) as [v Hv]. destruct (dl_shape _ _ HD t Ht) as [(x & y & z & -> & Hx & Hy & Hz & _)|(x & y & -> & Hx & Hy & _)]; [left; inversion Sx; subst; auto|].
        inversion Sx; subst; [left; auto| |].
        - right. split; [reflexivity|]. destruct (view_gv2 S tr v HD Hv t' _ Ht' Sf) as (c & -> & _). reflexivity.
        - right. split; [reflexivity|]. destruct (view_gv1 S tr v HD Hv t' _ Ht' Sf) as (c & -> & _). reflexivity. }
      destruct Hpl as [[Ha Hb]|[-> ->]]; [|reflexivity].
      assert (Hm : medge S tr a b) by (exists t; auto). pose proof (cross_side a b t t' Hm Ht Sx Ht' Sf) as Ec.
      assert (Nb : ~ In (b, a) es) by (intros Hi; apply Hno; apply in_map_iff; exists (b, a); auto).
      destruct (in_dec edec (a, b) es) as [Hi|Hi]; [exfalso; pose proof (left_alike e (a, b) u t He Hi Hu Su Ht Sx); lia|].
      rewrite (crossed_none a b Hi Nb) in Ec. lia.
  Qed.
  Lemma left_kept : forall e, In e es -> exists u, In u (tris tr) /\ side_of e u /\ ~ swept (fun x => In x (tris tr)) (map flip es) (map flip es) u.
  Proof.
    intros [a b] He. destruct (Hes a b He) as (u & Hu & Su & _). exists u. split; [exact Hu|]. split; [exact Su|]. intros Hsw.
    destruct (swept_right (a, b) u He Hu Su u Hsw) as [_ E]. lia.
  Qed.
End Sides.
