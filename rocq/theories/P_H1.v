(** P_H1.v — what inserting a segment touches; what arranging and decomposing
    edges cover. *)

From Coq Require Import Reals List ZArith Lra Lia Psatz Bool Permutation.
From Verif Require Import Base Arith Geometry Elements Polyline Procedures Refine Triangulator ArithR Spec SpecM SpecR SpecD SpecS
  P_Base P_Trn P_Poly P_Arrange P_Vertices P_Hull P_Cavity P_Flood P_Refine P_Worked P_Checks P_Stages P_R1 P_R2 P_R3 P_R6 P_RX P_D7.
Import ListNotations.

(** ** Segments *)
Section Segment.
  Context {A : Arith}.
  Variable H : HashOrder.
  Notation vertex := (vertex A). Notation edge := (edge A). Notation triangle := (triangle A).

  Lemma conflicts_way : forall fuel (s : edge) (t : triangle) b, conflicts_segment fuel s t = Ok b -> (b = true <-> in_the_way fuel s t).
  Proof.
    intros fuel [u v] t b Hc. unfold conflicts_segment, tri_as_polyline, edge_as_polyline in Hc. unfold in_the_way. cbn [fst snd ev1 ev2] in *.
    apply bind_ok in Hc. destruct Hc as (o1 & E1 & Hc). apply bind_ok in Hc. destruct Hc as (pl & E2 & Hc). apply bind_ok in Hc. destruct Hc as (o2 & E3 & Hc). apply bind_ok in Hc. destruct Hc as (sp & E4 & Hc).
    apply bind_ok in Hc. destruct Hc as (c & Hp & Hc). injection Hc as <-.
    destruct (is_ghost t); [injection E1 as <-; discriminate|]. destruct (vghost u || vghost v); [injection E3 as <-; discriminate|].
    cbn in E1, E3. injection E1 as <-. injection E3 as <-. cbn in E2, E4. injection E2 as <-. injection E4 as <-.
    assert (Cont : forall o : option (cont * binc), negb (continence_is o Outside Open) = true <-> o <> Some (Outside, Open)).
    { intros [[[| |] [|]]|]; cbn; split; intros Q; try discriminate; try reflexivity; try congruence. }
    assert (Enc : forall c, negb (cont_eqb c Outside) = true <-> c <> Outside) by (intros [| |]; cbn; split; intros Q; try discriminate; congruence).
    rewrite !orb_true_iff, !Enc, Cont. split; [|intros [Q|[Q|(o & Ho & Q)]]; [tauto|tauto|right; congruence]].
    intros [[Q|Q]|Q]; [auto|auto|]. right. right. exists c. auto.
  Qed.

  Lemma screened_shielded : forall cs (s : edge) (t : triangle), segment_screened cs s t = true <-> shielded cs s t.
  Proof.
    intros cs [u v] [x y z]. unfold segment_screened, shielded. cbn [ev1 ev2 fst snd].
    assert (Or : forall o, orient_eqb o CCW = true <-> o = CCW) by (intros [| |]; cbn; split; congruence).
    rewrite existsb_exists. split.
    - intros ([b a] & Hin & Ho). apply filter_In in Hin. destruct Hin as [Hin Hc]. cbn [ev1 ev2 fst snd opposite] in *. rewrite orb_true_iff, !Or in Ho. rewrite orb_true_iff, !hmem_In in Hc.
      exists a, b. cbn [outer_edges tv1 tv2 tv3 In] in Hin. split; [|split; [unfold opposite in Hc; cbn in Hc; tauto|exact Ho]].
      destruct Hin as [E|[E|[E|[]]]]; injection E as <- <-; constructor.
    - intros (a & b & Hs & Hc & Ho). exists (b, a). rewrite filter_In, !orb_true_iff, !hmem_In, !Or. unfold opposite. cbn [ev1 ev2 fst snd]. split; [split; [|tauto]|exact Ho].
      cbn [outer_edges tv1 tv2 tv3 In]. inversion Hs; subst; auto.
  Qed.

  Lemma conflicts_gives_way : forall fuel (tr : triangulation A) s cs ts, segment_conflicts fuel tr s cs = Ok ts ->
    forall t, In t ts <-> In t (tris tr) /\ gives_way fuel cs s t.
  Proof.
    intros fuel tr s cs ts Hc t. unfold segment_conflicts in Hc. apply bind_ok in Hc. destruct Hc as (l & Hf & E). injection E as <-. unfold gives_way.
    rewrite filter_In, negb_true_iff, <- not_true_iff_false, screened_shielded, (filterM_in _ _ _ _ Hf t), filter_In, negb_true_iff.
    split.
    - intros [[[H1 H2] H3] H4]. repeat split; auto. apply (conflicts_way fuel s t true H3). reflexivity.
    - intros (H1 & H2 & H3 & H4). split; [split; [auto|]|exact H4]. destruct (filterM_ok _ _ _ _ Hf) as (g & Hall & _).
      assert (Hin : In t (filter (fun t => negb (is_ghost t)) (tris tr))) by (apply filter_In; rewrite negb_true_iff; auto).
      pose proof (Hall t Hin) as Hb. rewrite Hb. f_equal. apply (conflicts_way fuel s t _ Hb). exact H3.
  Qed.

  Lemma segment_touches : forall fuel p (tr : triangulation A) s cs tr', segment_include H fuel p tr s cs = Ok tr' ->
    exists new, (forall t, In t (tris tr') <-> (In t (tris tr) /\ ~ gives_way fuel cs s t) \/ In t new) /\
      forall t, In t new -> is_ghost t = false /\
        forall w, corner_of w t -> w = fst s \/ w = snd s \/ exists t0, In t0 (tris tr) /\ gives_way fuel cs s t0 /\ corner_of w t0.
  Proof.
    intros fuel p tr s cs tr' Hi.
    unfold segment_include in Hi. apply bind_ok in Hi. destruct Hi as (conf & Hconf & Hi). apply bind_ok in Hi. destruct Hi as (oh & Hoh & Hi).
    apply bind_ok in Hi. destruct Hi as (hull & Hh & Hi). apply unwrap_ok in Hh. subst oh. apply bind_ok in Hi. destruct Hi as (st1 & Hb & Hi).
    apply bind_ok in Hi. destruct Hi as ([[st2 i] d] & Hv & E). injection E as <-.
    pose proof (conflicts_gives_way _ _ _ _ _ Hconf) as Hg.
    exists (filter (fun t => negb (is_ghost t)) (tris st2)). split.
    - intros t. rewrite fold_incl_In, fold_rem_In, !ho_In, Hg. split; [intros [[H1 H2]|H1]; [left; tauto|auto]|intros [[H1 H2]|H1]; [left; tauto|auto]].
    - intros t Ht. apply filter_In in Ht. destruct Ht as [Ht Hs]. apply negb_true_iff in Hs. split; [exact Hs|]. intros w Hc.
      set (W := fun w : vertex => vghost w = true \/ w = fst s \/ w = snd s \/ exists t0, In t0 (tris tr) /\ gives_way fuel cs s t0 /\ corner_of w t0).
      assert (Hcw : forall t w, In t conf -> corner_of w t -> W w) by (intros t0 w0 Ht0 Hw0; right; right; right; exists t0; apply Hg in Ht0; tauto).
      assert (HW : W w).
      { destruct (boundary_within H W _ _ _ _ _ _ (initial_sound (ev1 s) (ev2 s)) Hb) as [Hs1 Hw1].
        refine (vertices_within H W _ _ _ _ _ _ _ _ _ _ Hs1 Hv _ _ t w Ht Hc).
        + apply Hw1; [apply initial_within; unfold W; auto|left; reflexivity|]. intros v Hv'. destruct (hull_In H _ _ _ _ Hoh v Hv') as (t0 & Ht0 & Hc0). apply (Hcw t0 v Ht0 Hc0).
        + intros v Hv'. apply ho_In, hset_In, in_flat_map in Hv'. destruct Hv' as (t0 & Ht0 & Hc0). apply corner_of_tverts in Hc0. apply (Hcw t0 v Ht0 Hc0). }
      destruct HW as [G|HW]; [|exact HW]. exfalso. unfold is_ghost in Hs. rewrite !orb_false_iff in Hs. inversion Hc; subst; cbn in Hs; intuition congruence.
  Qed.
End Segment.

(** ** Edges *)
Local Open Scope R_scope.
Lemma ends_of_In : forall (es : list (edge ArithR)) e, In e es -> In (fst e) (ends_of es) /\ In (snd e) (ends_of es).
Proof. intros es e He. unfold ends_of. rewrite !in_flat_map. split; exists e; cbn; auto. Qed.

Lemma Rle_div_pos : forall x y, 0 <= x -> 0 < y -> 0 <= x / y.
Proof. intros x y Hx Hy. unfold Rdiv. apply Rmult_le_pos; [exact Hx|]. apply Rlt_le, Rinv_0_lt_compat, Hy. Qed.
Lemma div_le_one : forall x y, x <= y -> 0 < y -> x / y <= 1.
Proof. intros x y Hx Hy. apply (Rmult_le_reg_r y); [exact Hy|]. unfold Rdiv. rewrite Rmult_assoc, Rinv_l by lra. lra. Qed.

Lemma segment_cut : forall a b c q k, 0 <= k <= 1 -> at_ratio k a c b -> (on_segment a c q <-> on_segment a b q \/ on_segment b c q).
Proof.
  intros a b c q k Hk [Bx By]. unfold on_segment, at_ratio. split.
  - intros (m & Hm & Ex & Ey). destruct (Rle_dec m k) as [L|L].
    + left. destruct (Req_dec k 0) as [K|K].
      * exists 0. assert (m = 0) by lra. subst. split; [lra|]. rewrite Ex, Ey. split; ring.
      * exists (m / k). split; [split; [apply Rle_div_pos|apply div_le_one]; lra|]. rewrite Ex, Ey, Bx, By. split; field; lra.
    + right. exists ((m - k) / (1 - k)). split; [split; [apply Rle_div_pos|apply div_le_one]; lra|]. rewrite Ex, Ey, Bx, By. split; field; lra.
  - intros [(m & Hm & Ex & Ey)|(m & Hm & Ex & Ey)].
    + exists (m * k). split; [split; [apply Rmult_le_pos; lra|]; assert (m * k <= 1 * k) by (apply Rmult_le_compat_r; lra); lra|]. rewrite Ex, Ey, Bx, By. split; ring.
    + exists (k + m * (1 - k)). assert (0 <= m * (1 - k)) by (apply Rmult_le_pos; lra). assert (m * (1 - k) <= 1 * (1 - k)) by (apply Rmult_le_compat_r; lra). split; [lra|]. rewrite Ex, Ey, Bx, By. split; ring.
Qed.

Lemma straight_ratio : forall a b c, area2 a b c = 0 -> 0 < dotp a b b c -> exists k, 0 <= k <= 1 /\ at_ratio k a c b.
Proof.
  intros a b c Ha Hd. unfold area2 in Ha. unfold dotp in Hd. set (ux := X b - X a) in *. set (uy := Y b - Y a) in *. set (wx := X c - X b) in *. set (wy := Y c - Y b) in *.
  assert (Cr : ux * wy - uy * wx = 0) by (unfold ux, uy, wx, wy in *; lra). assert (Q1 := Rle_0_sqr ux). assert (Q2 := Rle_0_sqr uy). unfold Rsqr in *.
  set (n := ux * ux + uy * uy) in *. set (d := ux * wx + uy * wy) in *.
  assert (Np : 0 < n + d) by (unfold n; lra). assert (Nn : 0 <= n) by (unfold n; lra).
  exists (n / (n + d)). split; [split; [apply Rle_div_pos|apply div_le_one]; lra|].
  assert (Ex : ux * (n + d) = n * (ux + wx)).
  { unfold n, d. replace (ux * (ux * ux + uy * uy + (ux * wx + uy * wy))) with ((ux * ux + uy * uy) * (ux + wx) + uy * (ux * wy - uy * wx)) by ring. rewrite Cr. ring. }
  assert (Ey : uy * (n + d) = n * (uy + wy)).
  { unfold n, d. replace (uy * (ux * ux + uy * uy + (ux * wx + uy * wy))) with ((ux * ux + uy * uy) * (uy + wy) - ux * (ux * wy - uy * wx)) by ring. rewrite Cr. ring. }
  unfold at_ratio. replace (X c - X a) with (ux + wx) by (unfold ux, wx; ring). replace (Y c - Y a) with (uy + wy) by (unfold uy, wy; ring).
  split.
  - replace (n / (n + d) * (ux + wx)) with (n * (ux + wx) / (n + d)) by (field; lra). rewrite <- Ex. unfold ux. field. lra.
  - replace (n / (n + d) * (uy + wy)) with (n * (uy + wy) / (n + d)) by (field; lra). rewrite <- Ey. unfold uy. field. lra.
Qed.

Lemma dot_spec : forall a b c d : pnt, dot a b c d = dotp a b c d.
Proof. reflexivity. Qed.
Lemma dot_positive : forall a b c d : pnt, flt c0 (dot a b c d) = true <-> 0 < dotp a b c d.
Proof. intros a b c d. rewrite dot_spec. change (Rltb 0 (dotp a b c d) = true <-> 0 < dotp a b c d). destruct (Rltb_spec 0 (dotp a b c d)); split; intros; try discriminate; try reflexivity; lra. Qed.

(** Merged edges cover what they are merged from. *)
Lemma merged_covers : forall S a b l, resolved S -> merged (A:=ArithR) a b l -> (forall e, In e l -> In (fst e) S /\ In (snd e) S) ->
  In a S /\ In b S /\ forall q, on_segment a b q <-> exists e, In e l /\ on_segment (fst e) (snd e) q.
Proof.
  intros S a b l HR HM. induction HM as [a b|a b c l HM IH Ho Hd|a b c l HM IH Ho Hd]; intros Hin.
  - destruct (Hin _ (or_introl eq_refl)) as [Ha Hb]. split; [exact Ha|]. split; [exact Hb|]. intros q. split; [intros Q; exists (a, b); cbn; auto|]. intros (e & [<-|[]] & Q). exact Q.
  - destruct IH as (Ha & Hb & Hc); [intros e He; apply Hin, in_or_app; auto|]. destruct (Hin (b, c)) as [_ Hcs]; [apply in_or_app; right; left; reflexivity|]. cbn [snd] in Hcs.
    split; [exact Ha|]. split; [exact Hcs|]. apply orientation_spec in Ho. apply (rs_line _ HR) in Ho; auto. apply dot_positive in Hd.
    destruct (straight_ratio a b c Ho Hd) as (k & Hk & Rk). intros q. rewrite (segment_cut a b c q k Hk Rk), Hc. split.
    + intros [(e & He & Q)|Q]; [exists e|exists (b, c)]; rewrite in_app_iff; cbn; auto.
    + intros (e & He & Q). apply in_app_or in He. destruct He as [He|[<-|[]]]; [left; exists e; auto|auto].
  - destruct IH as (Ha & Hb & Hc); [intros e He; apply Hin; right; exact He|]. destruct (Hin (c, a)) as [Hcs _]; [left; reflexivity|]. cbn [fst] in Hcs.
    split; [exact Hcs|]. split; [exact Hb|]. apply orientation_spec in Ho. apply (rs_line _ HR) in Ho; auto. apply dot_positive in Hd.
    assert (Ho' : area2 c a b = 0) by (unfold area2 in *; lra). assert (Hd' : 0 < dotp c a a b) by (unfold dotp in *; lra).
    destruct (straight_ratio c a b Ho' Hd') as (k & Hk & Rk). intros q. rewrite (segment_cut c a b q k Hk Rk), Hc. split.
    + intros [Q|(e & He & Q)]; [exists (c, a)|exists e]; cbn; auto.
    + intros (e & [<-|He] & Q); [auto|right; exists e; auto].
Qed.

Lemma arrange_covers : forall (H : HashOrder) fuel p (edges r : list (edge ArithR)), NoDup edges -> (length edges < fuel)%nat -> resolved (ends_of edges) ->
  edge_arrange H fuel p edges = Ok r ->
  forall q, (exists e, In e r /\ on_segment (fst e) (snd e) q) <-> exists e, In e edges /\ on_segment (fst e) (snd e) q.
Proof.
  intros H fuel p edges r Hn Hl HR Hr q. destruct (edge_arrange_spec H fuel p edges Hn Hl) as (r' & groups & Hr' & Hp & Hm & Hi & _). rewrite Hr in Hr'. injection Hr' as <-.
  assert (Hsub : forall e l x, In (e, l) groups -> In x l -> In x edges).
  { intros e l x Hg Hx. apply (Permutation_in _ (Permutation_sym Hp)). apply in_concat. exists l. split; [apply in_map_iff; exists (e, l); auto|exact Hx]. }
  assert (Hc : forall e l, In (e, l) groups -> on_segment (fst e) (snd e) q <-> exists x, In x l /\ on_segment (fst x) (snd x) q).
  { intros e l Hg. apply (merged_covers (ends_of edges) (fst e) (snd e) l HR (Hm e l Hg)). intros x Hx. apply ends_of_In, (Hsub e l x Hg Hx). }
  split.
  - intros (e & He & Q). apply Hi in He. apply in_map_iff in He. destruct He as ([e' l] & <- & Hg). cbn [fst] in *. apply (Hc _ _ Hg) in Q. destruct Q as (x & Hx & Q). exists x. split; [exact (Hsub _ _ _ Hg Hx)|exact Q].
  - intros (x & Hx & Q). apply (Permutation_in _ Hp) in Hx. apply in_concat in Hx. destruct Hx as (l & Hl' & Hx). apply in_map_iff in Hl'. destruct Hl' as ([e l'] & E & Hg). cbn [snd] in E. subst l'.
    exists e. split; [apply Hi, in_map_iff; exists (e, l); auto|]. apply (Hc e l Hg). exists x. auto.
Qed.

(** Edges along one direction, one after the other. *)
Lemma chain_covers : forall dx dy x y l, 0 < dx * dx + dy * dy -> chain_from (A:=ArithR) x y l ->
  (forall s, In s l -> (X (snd s) - X (fst s)) * dy - (Y (snd s) - Y (fst s)) * dx = 0 /\ 0 < (X (snd s) - X (fst s)) * dx + (Y (snd s) - Y (fst s)) * dy) ->
  (exists m, 0 < m /\ X y = X x + m * dx /\ Y y = Y x + m * dy) /\ (forall q, on_segment x y q <-> exists s, In s l /\ on_segment (fst s) (snd s) q).
Proof.
  intros dx dy x y l Hd HC. set (n := dx * dx + dy * dy) in *.
  assert (One : forall a b : pnt, (X b - X a) * dy - (Y b - Y a) * dx = 0 -> 0 < (X b - X a) * dx + (Y b - Y a) * dy -> exists m, 0 < m /\ X b = X a + m * dx /\ Y b = Y a + m * dy).
  { intros a b E P. exists (((X b - X a) * dx + (Y b - Y a) * dy) / n). split; [apply Rdiv_lt_0_compat; assumption|].
    set (ux := X b - X a) in *. set (uy := Y b - Y a) in *. split.
    - apply (Rmult_eq_reg_r n); [|lra]. replace ((X a + (ux * dx + uy * dy) / n * dx) * n) with (X a * n + (ux * dx + uy * dy) * dx) by (field; lra).
      replace ((ux * dx + uy * dy) * dx) with (ux * n - (ux * dy - uy * dx) * dy) by (unfold n; ring). rewrite E. unfold ux. ring.
    - apply (Rmult_eq_reg_r n); [|lra]. replace ((Y a + (ux * dx + uy * dy) / n * dy) * n) with (Y a * n + (ux * dx + uy * dy) * dy) by (field; lra).
      replace ((ux * dx + uy * dy) * dy) with (uy * n + (ux * dy - uy * dx) * dx) by (unfold n; ring). rewrite E. unfold uy. ring. }
  induction HC as [a b|a b c l HC IH]; intros Hs.
  - destruct (Hs _ (or_introl eq_refl)) as [E P]. split; [apply One; assumption|]. intros q. split; [intros Q; exists (a, b); cbn; auto|]. intros (s & [<-|[]] & Q). exact Q.
  - destruct (Hs _ (or_introl eq_refl)) as [E P]. destruct (One a b E P) as (m & Pm & Mx & My). destruct IH as [(k & Pk & Kx & Ky) Hc]; [intros s Hi; apply Hs; right; exact Hi|].
    split; [exists (m + k); split; [lra|]; rewrite Kx, Ky, Mx, My; split; ring|].
    assert (R : at_ratio (m / (m + k)) a c b) by (unfold at_ratio; rewrite Kx, Ky, Mx, My; split; field; lra).
    intros q. rewrite (segment_cut a b c q (m / (m + k))); [|split; [apply Rle_div_pos|apply div_le_one]; lra|exact R]. rewrite Hc. split.
    + intros [Q|(e & He & Q)]; [exists (a, b)|exists e]; cbn; auto.
    + intros (e & [<-|He] & Q); [auto|right; exists e; auto].
Qed.
Lemma chain_ends : forall (x y : pnt) l, chain_from (A:=ArithR) x y l -> exists s, In s l /\ snd s = y.
Proof. intros x y l HC. induction HC as [a b|a b c l HC (s & Hs & E)]; [exists (a, b); cbn; auto|]. exists s. cbn. auto. Qed.

Lemma decompose_covers : forall (H : HashOrder) fuel p (base : list (edge ArithR)) e l, resolved (ends_of (e :: base)) -> fst e <> snd e -> decompose H fuel p base e = Ok (Some l) ->
  (forall s, In s l -> In s base) /\ chain_from (fst e) (snd e) l /\ forall q, on_segment (fst e) (snd e) q <-> exists s, In s l /\ on_segment (fst s) (snd s) q.
Proof.
  intros H fuel p base [a b] l HR Hne Hd. destruct (decompose_spec H fuel p base (a, b) l Hd) as [Hs Hc]. cbn [fst snd] in *.
  destruct (ends_of_In ((a, b) :: base) (a, b) (or_introl eq_refl)) as [Ha Hb]. cbn [fst snd] in *.
  assert (Hi : forall s, In s l -> In s base) by (intros s Hi; apply Hs, Hi). split; [exact Hi|].
  assert (Veq : forall u v, In u (ends_of ((a, b) :: base)) -> In v (ends_of ((a, b) :: base)) -> veqb u v = true -> u = v).
  { intros u v Hu Hv E. apply (rs_apart _ HR); auto. apply (veqb_close u v (rs_plain _ HR u Hu) E). }
  destruct Hc as [[_ E]|(b' & HC & E)]; [exfalso; apply Hne, Veq; assumption|].
  assert (b' = b).
  { apply Veq; [|exact Hb|exact E]. destruct (chain_ends _ _ _ HC) as (s & Hi' & <-). apply (ends_of_In ((a, b) :: base)). right. apply Hi, Hi'. }
  subst b'. split; [exact HC|]. apply (chain_covers (X b - X a) (Y b - Y a) a b l); [|exact HC|].
  - assert (Q1 := Rle_0_sqr (X b - X a)). assert (Q2 := Rle_0_sqr (Y b - Y a)). unfold Rsqr in *.
    destruct (Rle_lt_or_eq_dec 0 ((X b - X a) * (X b - X a) + (Y b - Y a) * (Y b - Y a))) as [L|L]; [lra|exact L|exfalso].
    assert (Zx : X b - X a = 0) by (apply Rsqr_0_uniq; unfold Rsqr; lra). assert (Zy : Y b - Y a = 0) by (apply Rsqr_0_uniq; unfold Rsqr; lra).
    apply Hne. apply (rs_apart _ HR); auto. unfold close. pose proof eps_pos. split; lra.
  - intros s Hs'. destruct (Hs s Hs') as (_ & _ & Hp & Hdt). apply parallel_spec in Hp. apply dot_positive in Hdt. unfold crossp in Hp. unfold dotp in Hdt. split; lra.
Qed.

(** Three edges, two of which go on straight. *)
Lemma case_edges : let a := at_ 0 0 in let b := at_ 1 0 in let c := at_ 2 0 in let d := at_ 2 5 in let es := [(a, b); (b, c); (c, d)] in
  NoDup es /\ resolved (ends_of ((a, c) :: es)) /\ a <> c /\ decompose ho_id 3 [] es (a, c) = Ok (Some [(a, b); (b, c)]).
Proof.
  intros a b c d es.
  assert (Xs : forall u v : pnt, X u <> X v -> u <> v) by (intros u v Q ->; apply Q; reflexivity).
  assert (Ys : forall u v : pnt, Y u <> Y v -> u <> v) by (intros u v Q ->; apply Q; reflexivity).
  assert (Nab : a <> b) by (apply Xs; unfold a, b; rewrite !X_at; lra). assert (Nac : a <> c) by (apply Xs; unfold a, c; rewrite !X_at; lra).
  assert (Nbc : b <> c) by (apply Xs; unfold b, c; rewrite !X_at; lra).
  split; [|split; [|split; [exact Nac|]]].
  - unfold es. constructor; [|constructor; [|constructor; [intros []|constructor]]]; cbn [In]; intros Q; repeat (destruct Q as [Q|Q]); try contradiction; injection Q; intros; congruence.
  - apply grid_resolved. intros u Hu.
    assert (Hi : In u [a; b; c; d]) by (unfold es, ends_of in Hu; cbn in Hu; cbn; intuition).
    destruct Hi as [<-|[<-|[<-|[<-|[]]]]]; (split; [reflexivity|]); [exists 0%Z, 0%Z|exists 1%Z, 0%Z|exists 2%Z, 0%Z|exists 2%Z, 5%Z]; split; reflexivity.
  - assert (F : forall u v x k, on_segment u v x -> on_segment a c x -> crossp u v a c = 0 -> 0 < dotp u v a c -> k = true -> decompose_filter (a, c) (u, v) = k).
    { intros u v x k O1 O2 Cr Dt ->. unfold decompose_filter. cbn [ev1 ev2 fst snd]. destruct (intersection_complete u v a c x O1 O2) as (y & -> & _).
      apply parallel_spec in Cr. rewrite Cr. apply dot_positive in Dt. exact Dt. }
    assert (F1 : decompose_filter (a, c) (a, b) = true).
    { apply (F a b a); [exists 0|exists 0| | |reflexivity]; unfold crossp, dotp, at_ratio, a, b, c; rewrite ?X_at, ?Y_at; lra. }
    assert (F2 : decompose_filter (a, c) (b, c) = true).
    { apply (F b c c); [exists 1|exists 1| | |reflexivity]; unfold crossp, dotp, at_ratio, a, b, c; rewrite ?X_at, ?Y_at; lra. }
    assert (F3 : decompose_filter (a, c) (c, d) = false).
    { unfold decompose_filter. cbn [ev1 ev2 fst snd]. destruct (intersection c d a c); [|reflexivity]. destruct (parallel c d a c) eqn:E; [|reflexivity].
      apply parallel_spec in E. unfold crossp, a, c, d in E. rewrite !X_at, !Y_at in E. lra. }
    unfold decompose. change (ho ho_id [] (edge ArithR) es) with es. unfold es. cbn [filter]. rewrite F1, F2, F3.
    assert (Vn : forall u v : pnt, vghost u = false -> X v - X u >= 1 -> veqb u v = false).
    { intros u v Hu Hx. destruct (veqb u v) eqn:E; [|reflexivity]. destruct (veqb_close u v Hu E) as [_ [C _]]. pose proof eps_small. lra. }
    unfold mcollect. cbn [fold_left fst snd ev1 ev2]. unfold mset. cbn [mdel filter fst]. destruct (vdec b a) as [E|_]; [congruence|].
    cbn [decompose_walk]. rewrite (Vn a c) by (try reflexivity; unfold a, c; rewrite !X_at; lra).
    cbn [mget]. destruct (vdec a b) as [E|_]; [congruence|]. destruct (vdec a a) as [_|E]; [|congruence].
    rewrite (Vn b c) by (try reflexivity; unfold b, c; rewrite !X_at; lra). destruct (vdec b b) as [_|E]; [|congruence].
    assert (Vc : veqb c c = true) by apply veqb_refl. rewrite Vc. reflexivity.
Qed.
