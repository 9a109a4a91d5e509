(** P_L2.v — points in convex position: inserting them all at once into a segment
    loses none of them. *)

From Coq Require Import Reals List ZArith Lra Lia Psatz Bool Permutation.
From Verif Require Import Base Arith Geometry Elements Polyline Procedures ArithR Spec SpecR SpecD SpecQ
  P_Base P_Trn P_Fuel P_Vertices P_Cavity P_R1 P_R2 P_R5 P_R6 P_D1 P_D2 P_D3 P_D4 P_D5.
Import ListNotations.
Local Open Scope R_scope.

Lemma convex_incl : forall S S', convex_position S -> (forall w, In w S' -> In w S) -> convex_position S'.
Proof. intros S S' [H1 H2] Hi. split; intros; [apply H1|apply H2]; auto. Qed.

Section Plane.
  Variable T : list pnt.
  Hypothesis HC : convex_position T.
  Let line : forall a b c, In a T -> In b T -> In c T -> a <> b -> b <> c -> c <> a -> D a b c <> 0 := proj1 HC.

  Lemma inside_no : forall a b c w, In a T -> In b T -> In c T -> In w T -> 0 < D a b w -> 0 < D b c w -> 0 < D c a w -> False.
  Proof. intros a b c w Ha Hb Hc Hw P1 P2 P3. apply (proj2 HC a b c w Ha Hb Hc Hw). repeat split; assumption. Qed.

  Lemma pos_neq : forall a b v, 0 < D a b v -> a <> b /\ b <> v /\ v <> a.
  Proof. intros a b v P. repeat split; intros ->; revert P; rewrite ?D_aa, ?D_ab_a, ?D_ab_b; lra. Qed.

  (** Two points left of a line: one is left of a line from the other to an end. *)
  Lemma takes : forall a b v w, In a T -> In b T -> In v T -> In w T -> w <> v -> 0 < D a b v -> 0 < D a b w ->
    0 < D a v w \/ 0 < D v b w.
  Proof.
    intros a b v w Ha Hb Hv Hw Hn P Q. destruct (pos_neq _ _ _ P) as (N1 & N2 & N3). destruct (pos_neq _ _ _ Q) as (N4 & N5 & N6).
    pose proof (line a v w Ha Hv Hw ltac:(congruence) ltac:(congruence) ltac:(congruence)) as L1.
    pose proof (line v b w Hv Hb Hw ltac:(congruence) ltac:(congruence) ltac:(congruence)) as L2.
    destruct (Rlt_dec 0 (D a v w)) as [|M1]; [auto|]. destruct (Rlt_dec 0 (D v b w)) as [|M2]; [auto|]. exfalso.
    apply (inside_no a b v w); auto; [rewrite D_swap|rewrite D_swap]; lra.
  Qed.

  (** A point is left of at most one edge of a hull. *)
  Lemma adjacent_no : forall a b d v, In a T -> In b T -> In d T -> In v T -> a <> b -> b <> d -> d <> a ->
    D a b d <= 0 -> 0 < D a b v -> 0 < D b d v -> False.
  Proof.
    intros a b d v Ha Hb Hd Hv N1 N2 N3 L P Q. pose proof (line a b d Ha Hb Hd N1 N2 N3).
    apply (inside_no d v a b); auto.
    - rewrite D_rot. assumption.
    - rewrite D_rot2. assumption.
    - rewrite D_swap2. lra.
  Qed.
  Lemma crossed_no : forall p q r s x y, x * y = p * q - r * s -> 0 < p -> 0 < q -> 0 < r -> 0 < s ->
    p < x + s -> q < y + s -> q < r - x -> p < r - y -> False.
  Proof.
    intros p q r s x y E P Q R0 S0 H1 H2 H3 H4.
    assert (A1 : p * q < (x + s) * (y + s)).
    { assert (p * q < (x + s) * q) by (apply Rmult_lt_compat_r; assumption).
      assert ((x + s) * q < (x + s) * (y + s)) by (apply Rmult_lt_compat_l; lra). lra. }
    assert (A2 : p * q < (r - x) * (r - y)).
    { assert (p * q < p * (r - x)) by (apply Rmult_lt_compat_l; assumption).
      assert (p * (r - x) < (r - y) * (r - x)) by (apply Rmult_lt_compat_r; lra). lra. }
    assert (B1 : 0 < s * (x + y + s - r)) by (replace (s * (x + y + s - r)) with ((x + s) * (y + s) - x * y - r * s) by ring; lra).
    assert (B2 : 0 < r * (r - x - y - s)) by (replace (r * (r - x - y - s)) with ((r - x) * (r - y) - x * y - r * s) by ring; lra).
    assert (C1 : 0 < x + y + s - r) by (apply (Rmult_lt_reg_l s); lra).
    assert (C2 : 0 < r - x - y - s) by (apply (Rmult_lt_reg_l r); lra). lra.
  Qed.
  Lemma seen_once : forall a b c d v, In a T -> In b T -> In c T -> In d T -> In v T -> a <> b -> c <> d ->
    D a b c <= 0 -> D a b d <= 0 -> D c d a <= 0 -> D c d b <= 0 -> 0 < D a b v -> 0 < D c d v -> a = c /\ b = d.
  Proof.
    intros a b c d v Ha Hb Hc Hd Hv N1 N2 L1 L2 L3 L4 P Q.
    destruct (pos_neq _ _ _ P) as (_ & Nbv & Nva). destruct (pos_neq _ _ _ Q) as (_ & Ndv & Nvc).
    destruct (vdec a c) as [<-|Nac].
    { split; [reflexivity|]. destruct (vdec b d) as [E|Nbd]; [exact E|exfalso].
      apply (line a b d); auto. pose proof (D_swap2 a b d). lra. }
    destruct (vdec b d) as [<-|Nbd].
    { exfalso. apply (line a b c); auto. assert (E : D c b a = - D a b c) by (unfold area2; ring). lra. }
    exfalso. destruct (vdec b c) as [<-|Nbc].
    { destruct (vdec d a) as [->|Nda].
      - pose proof (D_swap a b v). lra.
      - apply (adjacent_no a b d v); auto. }
    destruct (vdec d a) as [->|Nda].
    { apply (adjacent_no c a b v); auto. }
    assert (M1 : D a b c < 0) by (pose proof (line a b c Ha Hb Hc N1 Nbc ltac:(congruence)); lra).
    assert (M2 : D a b d < 0) by (pose proof (line a b d Ha Hb Hd N1 Nbd Nda); lra).
    assert (M3 : D c d a < 0) by (pose proof (line c d a Hc Hd Ha N2 Nda Nac); lra).
    assert (M4 : D c d b < 0) by (pose proof (line c d b Hc Hd Hb N2 ltac:(congruence) Nbc); lra).
    pose proof (line a d v Ha Hd Hv ltac:(congruence) ltac:(congruence) ltac:(congruence)) as Lr.
    pose proof (line c b v Hc Hb Hv ltac:(congruence) ltac:(congruence) ltac:(congruence)) as Ls.
    destruct (Rlt_dec (D a d v) 0) as [Rn|Rn].
    { apply (inside_no b v d a); auto.
      - rewrite D_rot. assumption.
      - assert (E : D v d a = - D a d v) by (unfold area2; ring). lra.
      - assert (E : D d b a = - D a b d) by (unfold area2; ring). lra. }
    destruct (Rlt_dec (D c b v) 0) as [Sn|Sn].
    { apply (inside_no d v b c); auto.
      - rewrite D_rot. assumption.
      - assert (E : D v b c = - D c b v) by (unfold area2; ring). lra.
      - assert (E : D b d c = - D c d b) by (unfold area2; ring). lra. }
    apply (crossed_no (D a b v) (D c d v) (D a d v) (D c b v) (D a c v) (D b d v)); try lra.
    - unfold area2. ring.
    - assert (E : D a b c = D a b v - D c b v - D a c v) by (unfold area2; ring). lra.
    - assert (E : D c d b = D c d v - D b d v - D c b v) by (unfold area2; ring). lra.
    - assert (E : D c d a = D c d v - D a d v + D a c v) by (unfold area2; ring). lra.
    - assert (E : D a b d = D a b v + D b d v - D a d v) by (unfold area2; ring). lra.
  Qed.
End Plane.

(** ** One vertex *)
Definition ghostly (t : tri) : Prop := exists a b : pnt, t = Tri a b gv /\ vghost a = false /\ vghost b = false.

Lemma ghost_inside : forall (a b w : pnt), encircles (Tri a b gv) w = Inside <-> eps < D a b w.
Proof.
  intros a b w. unfold encircles, is_ghost. cbn [tv1 tv2 tv3]. rewrite orb_true_r. cbn [negb].
  destruct (orientation_spec a b w) as (H1 & H2 & H3). rewrite <- H1. destruct (orientation a b w); split; congruence.
Qed.
Lemma ghost_free : forall T (a b w : pnt), resolved T -> In a T -> In b T -> In w T -> D a b w < 0 -> is_conflicting (Tri a b gv) w = false.
Proof.
  intros T a b w HR Ha Hb Hw Hn. pose proof eps_pos. unfold is_conflicting.
  assert (Hl : D a b w < - eps).
  { destruct (Rlt_dec (D a b w) (- eps)) as [L|L]; [exact L|]. assert (D a b w = 0) by (apply (rs_line _ HR); auto; lra). lra. }
  destruct (encircles (Tri a b gv) w) eqn:E; cbn [cont_eqb orb]; try (apply ghost_inside in E; lra);
    (destruct (edge_contains (tv1 (Tri a b gv), tv2 (Tri a b gv)) w) eqn:Ec; [|apply andb_false_r]);
    apply edge_contains_spec in Ec; destruct Ec as [_ Ec]; cbn [tv1 tv2 fst snd] in Ec; lra.
Qed.
Lemma solid_corner_free : forall (t : tri) v, is_ghost t = false -> corner_of v t -> is_conflicting t v = false.
Proof.
  intros [a b c] v Hg Hc. unfold is_conflicting. rewrite Hg. cbn [andb]. rewrite orb_false_r. unfold encircles. rewrite Hg. cbn [negb tv1 tv2 tv3].
  rewrite continence_sign. pose proof eps_pos.
  assert (E : I a b c v = 0) by (inversion Hc; subst; [apply I_a|apply I_b|apply I_c]).
  rewrite E. repeat rcase; try reflexivity; lra.
Qed.

Section One.
  Variables (T S : list pnt) (tr0 : mesh) (a b v : pnt).
  Hypothesis HD : delaunay S tr0.
  Hypothesis HR : resolved T.
  Hypothesis HC : convex_position T.
  Hypothesis HS : forall w, In w S -> In w T.
  Hypothesis HvT : In v T.
  Hypothesis HvS : ~ In v S.
  Hypothesis Ht0 : In (Tri a b gv) (tris tr0).
  Hypothesis Hv0 : 0 < D a b v.

  Lemma ghost_ends : forall c d, In (Tri c d gv) (tris tr0) -> In c S /\ In d S /\ c <> d.
  Proof.
    intros c d Hu. destruct (dl_shape _ _ HD _ Hu) as [(x & y & z & E & Hx & Hy & Hz & _)|(x & y & E & Hx & Hy & Hn)].
    - injection E as -> -> <-. apply HS, (rs_plain _ HR) in Hz. discriminate.
    - injection E as -> ->. auto.
  Qed.
  Lemma ghost_form : forall u, In u (tris tr0) -> is_ghost u = true -> exists c d, u = Tri c d gv /\ In c S /\ In d S /\ c <> d.
  Proof.
    intros u Hu Hg. destruct (dl_shape _ _ HD _ Hu) as [(x & y & z & -> & Hx & Hy & Hz & _)|(x & y & -> & Hx & Hy & Hn)]; [|eauto 6].
    exfalso. unfold is_ghost in Hg. cbn [tv1 tv2 tv3] in Hg. rewrite (rs_plain _ HR x), (rs_plain _ HR y), (rs_plain _ HR z) in Hg by auto. discriminate.
  Qed.
  Lemma gvT : forall w, In w T -> w <> gv.
  Proof. intros w Hw ->. apply (rs_plain _ HR) in Hw. discriminate. Qed.
  Lemma ab_S : In a S /\ In b S /\ a <> b. Proof. exact (ghost_ends a b Ht0). Qed.
  Lemma va : v <> a. Proof. intros ->. apply HvS, ab_S. Qed.
  Lemma vb : v <> b. Proof. intros ->. apply HvS, ab_S. Qed.

  (** The other outer faces are left alone. *)
  Lemma old_free : forall c d, In (Tri c d gv) (tris tr0) -> Tri c d gv <> Tri a b gv -> is_conflicting (Tri c d gv) v = false.
  Proof.
    intros c d Hu Hn. destruct (ghost_ends c d Hu) as (Hc & Hd & Ncd). destruct ab_S as (Ha & Hb & Nab).
    apply (ghost_free T); auto.
    assert (Nz : D c d v <> 0) by (apply (proj1 HC); auto; intros ->; contradiction).
    destruct (Rlt_dec 0 (D c d v)) as [P|P]; [|lra]. exfalso. apply Hn.
    destruct (seen_once T HC a b c d v) as [-> ->]; auto;
      first [apply (dl_hull _ _ HD a b Ht0); assumption | apply (dl_hull _ _ HD c d Hu); assumption].
  Qed.

  Definition ghosted (u : tri) : Prop := (In u (tris tr0) /\ u <> Tri a b gv) \/ u = Tri a v gv \/ u = Tri v b gv.
  Definition plain_edge (e : edge ArithR) : Prop := vghost (fst e) = false /\ vghost (snd e) = false /\ fst e <> v /\ snd e <> v.
  Definition phases (pending : list (edge ArithR)) (rem : list pnt) : Prop :=
    pending = [(gv, a); (b, gv); (a, b)] \/
    (pending = [(b, gv); (a, b)] /\ forall w, In w rem -> D a v w <= 0) \/
    ((forall e, In e pending -> plain_edge e) /\ rem = []).
  Definition rounded (pending : list (edge ArithR)) (s : state) : Prop :=
    adj_sound (ss_tr s) /\ (forall u, In u (tris (ss_tr s)) -> is_ghost u = true -> ghosted u) /\
    (forall u, In u (map fst (ss_cm s)) -> is_ghost u = true) /\
    (forall w, In w (ss_rem s) -> In w T /\ w <> v /\ 0 < D a b w) /\ phases pending (ss_rem s).

  Lemma corner_ghost : forall u : tri, corner_of gv u -> is_ghost u = true.
  Proof. intros u Hu. inversion Hu; subst; unfold is_ghost; cbn [tv1 tv2 tv3]; rewrite ?orb_true_r; reflexivity. Qed.

  Lemma at_first : forall u, ghosted u -> side_of (a, gv) u -> is_conflicting u v = false.
  Proof.
    intros u Hu Hs. destruct ab_S as (Ha & Hb & Nab). pose proof (gvT a (HS a Ha)). pose proof (gvT b (HS b Hb)). pose proof (gvT v HvT). pose proof va.
    destruct Hu as [[Hu Hn]|[-> | ->]]; [|exfalso|exfalso].
    - destruct (ghost_form u Hu (corner_ghost u (side_corner2 _ _ Hs))) as (c & d & -> & Hc & Hd & Ncd). apply old_free; assumption.
    - inversion Hs; subst; congruence.
    - inversion Hs; subst; congruence.
  Qed.
  Lemma at_second : forall u, ghosted u -> side_of (gv, b) u -> is_conflicting u v = false.
  Proof.
    intros u Hu Hs. destruct ab_S as (Ha & Hb & Nab). pose proof (gvT a (HS a Ha)). pose proof (gvT b (HS b Hb)). pose proof (gvT v HvT). pose proof vb.
    destruct Hu as [[Hu Hn]|[-> | ->]]; [|exfalso|exfalso].
    - destruct (ghost_form u Hu (corner_ghost u (side_corner1 _ _ Hs))) as (c & d & -> & Hc & Hd & Ncd). apply old_free; assumption.
    - inversion Hs; subst; congruence.
    - inversion Hs; subst; congruence.
  Qed.
  Lemma at_later : forall u e, ghosted u -> is_ghost u = true -> side_of (opposite e) u -> plain_edge e -> is_conflicting u v = false.
  Proof.
    intros u [x y] Hu Hg Hs (G1 & G2 & N1 & N2). unfold opposite, ev1, ev2 in Hs. cbn [fst snd] in *.
    destruct Hu as [[Hu Hn]|[-> | ->]]; [|exfalso|exfalso].
    - destruct (ghost_form u Hu Hg) as (c & d & -> & Hc & Hd & Ncd). apply old_free; assumption.
    - inversion Hs; subst; try discriminate; congruence.
    - inversion Hs; subst; try discriminate; congruence.
  Qed.

  Lemma rounded_remove : step_remove [] (fun v' pending s => v' = v /\ rounded pending s).
  Proof.
    intros v' e pending s outer [-> (Ha & Hg & Hk & Hr & Hp)] Ho Hc _. split; [reflexivity|].
    destruct (Ha _ _ Ho) as [Hin Hs]. destruct ab_S as (HaS & HbS & Nab).
    assert (Hout : is_ghost outer = false /\ (forall e', In e' (e :: pending) -> plain_edge e') /\ ss_rem s = []).
    { destruct Hp as [E|[[E _]|[Hp Er]]].
      - exfalso. injection E as -> ->. unfold opposite, ev1, ev2 in Hs. cbn [fst snd] in Hs.
        rewrite (at_first outer) in Hc; [discriminate| |exact Hs]. apply Hg; [exact Hin|]. apply corner_ghost, (side_corner2 _ _ Hs).
      - exfalso. injection E as -> ->. unfold opposite, ev1, ev2 in Hs. cbn [fst snd] in Hs.
        rewrite (at_second outer) in Hc; [discriminate| |exact Hs]. apply Hg; [exact Hin|]. apply corner_ghost, (side_corner1 _ _ Hs).
      - split; [|auto]. destruct (is_ghost outer) eqn:Eg; [|reflexivity]. exfalso.
        rewrite (at_later outer e) in Hc; [discriminate|auto|exact Eg|exact Hs|apply Hp; left; reflexivity]. }
    destruct Hout as (Hog & Hpl & Hr0). unfold rounded. cbn [ss_tr ss_cm ss_rem].
    assert (Hno : mget tdec outer (ss_cm s) = None).
    { apply mget_None. intros Hi. apply Hk in Hi. congruence. }
    rewrite Hno, Hr0. split; [apply adj_sound_rem, Ha|]. split; [|split; [|split; [intros w []|]]].
    - intros u Hu. apply rem_tri_In in Hu. apply Hg, Hu.
    - intros u Hu. apply mdel_keys in Hu. apply Hk, Hu.
    - right. right. split; [|reflexivity]. intros e' He'. apply next_cavities_In in He'. destruct He' as [He'|He']; [|apply Hpl; right; exact He'].
      assert (Hvc : ~ corner_of v outer).
      { intros Hcv. rewrite (solid_corner_free outer v Hog Hcv) in Hc. discriminate. }
      assert (Hgc : forall w, corner_of w outer -> vghost w = false).
      { intros w Hw. destruct outer as [x y z]. unfold is_ghost in Hog. cbn [tv1 tv2 tv3] in Hog. apply orb_false_iff in Hog. destruct Hog as [Hog G3]. apply orb_false_iff in Hog. destruct Hog as [G1 G2].
        inversion Hw; subst; assumption. }
      pose proof (side_corner1 _ _ He') as C1. pose proof (side_corner2 _ _ He') as C2.
      repeat split; [apply Hgc, C1|apply Hgc, C2|intros E; apply Hvc; rewrite <- E; exact C1|intros E; apply Hvc; rewrite <- E; exact C2].
  Qed.

  Lemma add_keys : forall (t : tri) conf (cm : conflict_map (A:=ArithR)) u, In u (map fst (add_conflicts t conf cm)) -> In u (map fst cm) \/ u = t.
  Proof.
    intros t conf cm u Hu. apply in_map_iff in Hu. destruct Hu as ([u' l] & E & Hi). cbn in E. subst u'.
    apply add_conflicts_In in Hi. destruct Hi as [Hi|(-> & _)]; [|auto]. left. apply (in_map fst) in Hi. exact Hi.
  Qed.
  Lemma split_free' : forall (H : HashOrder) fuel (t : tri) vs p conf rest, split_conflicts H fuel p t vs None [] = Ok (conf, rest) ->
    rest = filter (fun w => negb (cont_eqb (encircles t w) Inside)) vs.
  Proof.
    intros H fuel t vs p conf rest Hs. destruct (split_free H fuel t vs p) as (conf' & rest' & Hs' & _ & Er).
    rewrite Hs in Hs'. injection Hs' as -> ->. exact Er.
  Qed.
  Lemma not_taken : forall x y w, In x T -> In y T -> In w T -> negb (cont_eqb (encircles (Tri x y gv) w) Inside) = true -> D x y w <= 0.
  Proof.
    intros x y w Hx Hy Hw Hn. pose proof eps_pos. assert (Hne : encircles (Tri x y gv) w <> Inside) by (intros E; rewrite E in Hn; discriminate).
    rewrite ghost_inside in Hne. destruct (Rle_dec (D x y w) 0) as [L|L]; [exact L|].
    assert (D x y w = 0) by (apply (rs_line _ HR); auto; lra). lra.
  Qed.

  Lemma rounded_include : forall H : HashOrder, step_include H None [] (fun v' pending s => v' = v /\ rounded pending s).
  Proof.
    intros H fuel p v' e pending s outer conf rest [-> (Ha & Hg & Hk & Hr & Hp)] Ho Hs. split; [reflexivity|].
    pose proof (split_free' _ _ _ _ _ _ _ Hs) as Er. destruct ab_S as (HaS & HbS & Nab).
    assert (Ga : vghost a = false) by (apply (rs_plain _ HR); auto). assert (Gb : vghost b = false) by (apply (rs_plain _ HR); auto).
    assert (Gv : vghost v = false) by (apply (rs_plain _ HR); auto).
    unfold rounded. cbn [ss_tr ss_cm ss_rem]. split; [apply adj_sound_incl, Ha|].
    assert (Hr' : forall w, In w rest -> In w T /\ w <> v /\ 0 < D a b w) by (intros w Hw; rewrite Er in Hw; apply filter_In in Hw; apply Hr, Hw).
    destruct Hp as [E|[[E Hl]|[Hp Er0]]].
    - injection E as -> ->. assert (En : new_triangle (gv, a) v = Tri a v gv) by reflexivity. rewrite En in *.
      split; [|split; [|split; [exact Hr'|]]].
      + intros u Hu Hug. apply incl_tri_In in Hu. destruct Hu as [-> |Hu]; [right; left; reflexivity|apply Hg; assumption].
      + intros u Hu. apply add_keys in Hu. destruct Hu as [Hu| ->]; [apply Hk, Hu|apply corner_ghost; constructor].
      + right. left. split; [reflexivity|]. intros w Hw. rewrite Er in Hw. apply filter_In in Hw. destruct Hw as [Hw1 Hw2].
        apply not_taken; auto. apply Hr, Hw1.
    - injection E as -> ->.
      assert (En : new_triangle (b, gv) v = Tri v b gv) by (unfold new_triangle, ev1, ev2; cbn [fst snd]; rewrite Gb; reflexivity). rewrite En in *.
      split; [|split; [|split; [exact Hr'|]]].
      + intros u Hu Hug. apply incl_tri_In in Hu. destruct Hu as [-> |Hu]; [right; right; reflexivity|apply Hg; assumption].
      + intros u Hu. apply add_keys in Hu. destruct Hu as [Hu| ->]; [apply Hk, Hu|apply corner_ghost; constructor].
      + right. right. split.
        * intros e' [<-|[]]. pose proof va. pose proof vb. repeat split; cbn [fst snd]; auto.
        * destruct rest as [|w rest]; [reflexivity|exfalso]. assert (Hw : In w (w :: rest)) by (left; reflexivity).
          rewrite Er in Hw. apply filter_In in Hw. destruct Hw as [Hw1 Hw2]. destruct (Hr w Hw1) as (HwT & Hwv & Hwab).
          pose proof (Hl w Hw1) as L1. assert (L2 : D v b w <= 0) by (apply not_taken; auto).
          destruct (takes T HC a b v w); auto; lra.
    - assert (Hpe : plain_edge e) by (apply Hp; left; reflexivity). destruct e as [x y]. destruct Hpe as (Gx & Gy & Nx & Ny). cbn [fst snd] in *.
      assert (En : new_triangle (x, y) v = Tri x y v) by (unfold new_triangle, ev1, ev2; cbn [fst snd]; rewrite Gx, Gy; reflexivity). rewrite En in *.
      split; [|split; [|split; [exact Hr'|]]].
      + intros u Hu Hug. apply incl_tri_In in Hu. destruct Hu as [-> |Hu]; [|apply Hg; assumption].
        unfold is_ghost in Hug. cbn [tv1 tv2 tv3] in Hug. rewrite Gx, Gy, Gv in Hug. discriminate.
      + destruct (split_conflicts_spec _ _ _ _ _ _ _ _ _ Hs) as [Hperm _]. rewrite Er0 in Hperm. apply Permutation_nil in Hperm. apply app_eq_nil in Hperm.
        destruct Hperm as [-> _]. exact Hk.
      + right. right. split; [intros e' He'; apply Hp; right; exact He'|]. rewrite Er, Er0. reflexivity.
  Qed.
End One.

(** ** All of them *)
Lemma nodup_left : forall X (l l' : list X), NoDup (l ++ l') -> NoDup l.
Proof.
  intros X l l'. induction l as [|x l IH]; intros Hn; [constructor|]. cbn in Hn. inversion Hn; subst. constructor; [|auto].
  intros Hi. apply H1, in_or_app. auto.
Qed.
Definition outer_held (s : state) : Prop := ss_rem s = [] /\ forall u, In u (map fst (ss_cm s)) -> is_ghost u = true.

Lemma solve_convex : forall (H : HashOrder) n L S (s : state) p, (length L <= n)%nat -> held L s -> outer_held s -> delaunay S (ss_tr s) -> resolved (L ++ S) ->
  convex_position (L ++ S) -> NoDup L ->
  exists n0 s', (forall fuel, (n0 <= fuel)%nat -> solve_loop H fuel p [] None [] s = Ok s') /\ delaunay (L ++ S) (ss_tr s').
Proof.
  intros H n. induction n as [|n IH]; intros L S s p Hn Hh Ho HD HR HC HN.
  - exists 1%nat, s. assert (L = []) by (destruct L; [reflexivity|cbn in Hn; lia]). subst L. destruct Hh as (Hf & Hp & _ & _).
    apply Permutation_nil in Hp. apply app_eq_nil in Hp. destruct Hp as [Hl Hr].
    assert (Ecm : ss_cm s = []).
    { destruct (ss_cm s) as [|[t l] cm] eqn:Ec; [reflexivity|]. exfalso. destruct (proj2 Hf t l (or_introl eq_refl)) as [Hne _]. cbn in Hl. apply app_eq_nil in Hl. apply Hne, Hl. }
    split; [|exact HD]. intros fuel Hfu. destruct fuel; [lia|]. cbn [solve_loop]. rewrite Ecm. rewrite ho_nil. reflexivity.
  - destruct (ho H (1%nat :: p) _ (map fst (ss_cm s))) as [|t ts] eqn:Hk.
    { exists 1%nat, s. destruct Hh as (Hf & Hp & _ & _). split.
      - intros fuel Hfu. destruct fuel; [lia|]. cbn [solve_loop]. rewrite Hk. reflexivity.
      - apply ho_nil_inv in Hk. rewrite (proj1 Ho) in Hp. destruct (ss_cm s); [|discriminate]. apply Permutation_sym, Permutation_nil in Hp. rewrite Hp. exact HD. }
    assert (Ht : In t (map fst (ss_cm s))) by (apply (ho_In H (1%nat :: p)); rewrite Hk; left; reflexivity).
    destruct (mget tdec t (ss_cm s)) as [vs|] eqn:Hg; [|apply mget_None in Hg; contradiction].
    pose proof (mget_In _ _ _ _ Hg) as Hin. pose proof Hh as (Hf & Hp & Ha & Hkeys). destruct (proj2 Hf t vs Hin) as [Hne Hins].
    destruct (hd_error (rev vs)) as [v|] eqn:Hv.
    2:{ exfalso. apply Hne. destruct (rev vs) eqn:Er; [|discriminate]. rewrite <- (rev_involutive vs), Er. reflexivity. }
    assert (Hvl : In v vs) by (rewrite (hd_rev_last _ _ Hv); apply in_or_app; right; left; reflexivity).
    pose proof (Hins v Hvl) as He. assert (Htr : In t (tris (ss_tr s))) by (apply Hkeys, Ht).
    destruct (held_start t vs v s L) as (L' & HpL & Hh'); [exact Hh|exact Hg|exact Hv|].
    assert (HvL : In v L) by (apply (Permutation_in _ (Permutation_sym HpL)); left; reflexivity).
    assert (HsL : forall w, In w S -> In w (L ++ S)) by (intros w Hw; apply in_or_app; auto).
    assert (HRS : resolved (v :: S)).
    { apply (resolved_incl (L ++ S)); [exact HR|]. intros w [<-|Hw]; apply in_or_app; auto. }
    assert (HvS : ~ In v S) by (apply (inside_new S (ss_tr s) t); auto; intros w Hw; apply (rs_plain _ HRS); right; exact Hw).
    set (s0 := SS (rem_tri t (ss_tr s)) (mdel tdec t (ss_cm s)) (ss_rem s ++ removelast vs) (ss_inc s) (hadd tdec t (ss_del s))) in *.
    destruct (insert_one H S (ss_tr s) v HD HRS HvS t s0
      (3 + 2 * length (tris (ss_tr s)))%nat (2%nat :: p)) as (s1 & Hs1 & HD1); auto; [lia|].
    assert (Hh1 : held L' s1) by exact (cavity_loop_inv H [] None [] (fun _ _ => held L') (held_remove L') (held_include H L') _ _ _ _ _ _ Hs1 Hh').
    assert (HvT : In v (L ++ S)) by (apply in_or_app; auto).
    destruct (ghost_form (L ++ S) S (ss_tr s) HD HR HsL t Htr (proj2 Ho t Ht)) as (a & b & Et & HaS & HbS & Nab).
    assert (Pab : 0 < D a b v).
    { rewrite Et in He. apply ghost_inside in He. pose proof eps_pos. lra. }
    assert (Ho1 : outer_held s1).
    { assert (Htr' : In (Tri a b gv) (tris (ss_tr s))) by (rewrite <- Et; exact Htr).
      set (K := fun v' pending (s2 : state) => v' = v /\ rounded (L ++ S) (ss_tr s) a b v pending s2).
      assert (Hend : K v [] s1).
      { refine (cavity_loop_inv H [] None [] K _ _ _ _ _ _ _ _ Hs1 _).
        - exact (rounded_remove (L ++ S) S (ss_tr s) a b v HD HR HC HsL HvT HvS Htr' Pab).
        - exact (rounded_include (L ++ S) S (ss_tr s) a b v HD HR HC HsL HvT HvS Htr' Pab H).
        - split; [reflexivity|]. unfold rounded, s0. cbn [ss_tr ss_cm ss_rem]. split; [apply adj_sound_rem, Ha|]. split; [|split; [|split]].
          + intros u Hu _. apply rem_tri_In in Hu. left. rewrite <- Et. split; apply Hu.
          + intros u Hu. apply mdel_keys in Hu. apply (proj2 Ho), Hu.
          + rewrite (proj1 Ho). cbn [app]. intros w Hw. pose proof (in_removelast _ _ Hw) as Hwv.
            assert (HwL : In w L).
            { apply (Permutation_in _ (Permutation_sym Hp)). apply in_or_app. left. apply (listed_In _ t vs); assumption. }
            split; [apply in_or_app; auto|]. split.
            * intros ->. assert (Hnd : NoDup vs).
              { pose proof (Permutation_NoDup Hp HN) as Q. apply nodup_left in Q. pose proof (Permutation_NoDup (listed_mdel _ _ _ (proj1 Hf) Hg) Q) as Q'. apply nodup_left in Q'. exact Q'. }
              rewrite (hd_rev_last _ _ Hv) in Hnd. apply NoDup_remove_2 in Hnd. rewrite app_nil_r in Hnd. contradiction.
            * pose proof (Hins w Hwv) as Hw'. rewrite Et in Hw'. apply ghost_inside in Hw'. pose proof eps_pos. lra.
          + left. rewrite Et. reflexivity. }
      destruct Hend as (_ & _ & _ & Hk1 & _ & [E|[[E _]|[_ E]]]); [discriminate|discriminate|]. split; assumption. }
    assert (Hi : forall w, In w (L' ++ v :: S) <-> In w (L ++ S)).
    { intros w. rewrite !in_app_iff. cbn [In]. assert (Q : In w L <-> In w (v :: L')) by (split; apply Permutation_in; [exact HpL|apply Permutation_sym, HpL]).
      rewrite Q. cbn [In]. tauto. }
    destruct (IH L' (v :: S) s1 (0%nat :: p)) as (n0 & s' & Hrun & HD'); auto.
    { apply Permutation_length in HpL. cbn in HpL. lia. }
    { apply (resolved_incl (L ++ S)); [exact HR|]. intros w Hw. apply Hi, Hw. }
    { apply (convex_incl (L ++ S)); [exact HC|]. intros w Hw. apply Hi, Hw. }
    { pose proof (Permutation_NoDup HpL HN) as Q. inversion Q. assumption. }
    exists (1 + n0 + (3 + 2 * length (tris (ss_tr s))))%nat, s'. split; [|exact (delaunay_incl _ _ _ HD' Hi)].
    intros fuel Hfu. destruct fuel as [|fuel]; [lia|]. cbn [solve_loop]. rewrite Hk, Hg. cbn [unwrap bind]. rewrite Hv. cbn [unwrap bind].
    assert (Hc : cavity_loop H fuel (2%nat :: p) [] None [] v [te3 t; te2 t; te1 t] s0 = Ok s1).
    { refine (rle_ok _ _ _ _ _ Hs1). apply cavity_loop_mono. lia. }
    unfold s0 in Hc. rewrite Hc. cbn [bind]. apply Hrun. lia.
Qed.

Lemma include_convex : forall (H : HashOrder) p a b vs, a <> b -> NoDup vs -> resolved (vs ++ [a; b]) -> convex_position (vs ++ [a; b]) ->
  exists n0 tr' inc del,
    (forall fuel, (n0 <= fuel)%nat -> vertices_include H fuel p (from_initial_segment a b) vs [] None [] = Ok (tr', inc, del)) /\
    delaunay (vs ++ [a; b]) tr'.
Proof.
  intros H p a b vs Hab HN HR HC.
  assert (HaT : In a (vs ++ [a; b])) by (apply in_or_app; cbn; auto). assert (HbT : In b (vs ++ [a; b])) by (apply in_or_app; cbn; auto).
  assert (Ga : vghost a = false) by (apply (rs_plain _ HR), HaT). assert (Gb : vghost b = false) by (apply (rs_plain _ HR), HbT).
  pose proof (initial_delaunay a b Ga Gb Hab) as HD. set (tr := from_initial_segment a b) in *.
  assert (Hpts : forall w, In w (trn_vertices tr) <-> w = a \/ w = b).
  { intros w. rewrite (delaunay_points [a; b] tr HD); [cbn; intuition|]. intros x [<-|[<-|[]]]; assumption. }
  assert (Htr : forall t, In t (tris tr) <-> t = Tri a b gv \/ t = Tri b a gv).
  { intros t. unfold tr, from_initial_segment. rewrite !incl_tri_In. cbn. tauto. }
  set (new := filter (fun v => negb (hmem vdec v (trn_vertices tr))) vs).
  assert (Hnew : forall w, In w new <-> In w vs /\ w <> a /\ w <> b).
  { intros w. unfold new. rewrite filter_In, negb_true_iff. split.
    - intros [Hw He]. split; [exact Hw|]. assert (Hn : ~ In w (trn_vertices tr)) by (intros Hi; apply (hmem_In vdec) in Hi; congruence).
      rewrite Hpts in Hn. tauto.
    - intros (Hw & N1 & N2). split; [exact Hw|]. destruct (hmem vdec w (trn_vertices tr)) eqn:E; [|reflexivity]. apply (hmem_In vdec) in E. apply Hpts in E. tauto. }
  destruct (distribute_all_ok H 0 (ho H (1%nat :: p) _ (tris tr)) (2%nat :: p) [] new) as (cm & rem & Hd & Hout).
  destruct (distribute_all_spec H _ _ _ _ _ _ _ _ _ Hd fair_nil) as (Hf & Hp & Hk). cbn [listed flat_map app] in Hp.
  assert (Hrem : rem = []).
  { destruct rem as [|w rem]; [reflexivity|exfalso]. assert (Hw : In w (w :: rem)) by (left; reflexivity).
    assert (Hwn : In w new) by (apply (distribute_all_incl _ _ _ _ _ _ _ _ _ _ Hd), Hw). apply Hnew in Hwn. destruct Hwn as (Hwv & N1 & N2).
    assert (HwT : In w (vs ++ [a; b])) by (apply in_or_app; auto). pose proof eps_pos.
    assert (Q1 : ~ eps < D a b w) by (rewrite <- ghost_inside; apply Hout; [exact Hw|]; apply ho_In, Htr; auto).
    assert (Q2 : ~ eps < D b a w) by (rewrite <- ghost_inside; apply Hout; [exact Hw|]; apply ho_In, Htr; auto).
    rewrite D_swap in Q2. apply (proj1 HC a b w); auto. apply (rs_line _ HR); auto. lra. }
  subst rem.
  assert (Hi : forall w, In w (new ++ [a; b]) <-> In w (vs ++ [a; b])).
  { intros w. rewrite !in_app_iff, Hnew. cbn [In]. destruct (vdec w a) as [->|]; [intuition|]. destruct (vdec w b) as [->|]; intuition. }
  destruct (solve_convex H (length new) new [a; b] (SS tr cm [] [] []) (3%nat :: p)) as (n0 & s' & Hrun & HD'); auto.
  - split; [exact Hf|]. cbn [ss_cm ss_rem ss_tr]. split; [exact Hp|]. split; [exact (dl_sound _ _ HD)|].
    intros t Ht. destruct (Hk t Ht) as [[]|Ht']. apply ho_In in Ht'. exact Ht'.
  - split; [reflexivity|]. cbn [ss_cm]. intros u Hu. destruct (Hk u Hu) as [[]|Ht']. apply ho_In, Htr in Ht'. apply corner_ghost. destruct Ht' as [-> | ->]; constructor.
  - apply (resolved_incl (vs ++ [a; b])); [exact HR|]. intros w Hw. apply Hi, Hw.
  - apply (convex_incl (vs ++ [a; b])); [exact HC|]. intros w Hw. apply Hi, Hw.
  - apply NoDup_filter, HN.
  - exists n0, (ss_tr s'), (ss_inc s'), (ss_del s'). split; [|exact (delaunay_incl _ _ _ HD' Hi)].
    intros fuel Hfu. unfold vertices_include. fold new.
    assert (Hd' : distribute_all H fuel (2%nat :: p) (ho H (1%nat :: p) _ (tris tr)) [] new None [] = Ok (cm, [])).
    { refine (rle_ok _ _ _ _ _ Hd). apply distribute_all_mono. lia. }
    rewrite Hd'. cbn [bind]. unfold solve_conflicts. rewrite (Hrun fuel Hfu). reflexivity.
Qed.
