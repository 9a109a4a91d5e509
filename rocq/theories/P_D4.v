(** P_D4.v — the conflicting triangles of a point form a tree: every one but the
    last goes up, through one side, to a neighbour of lower rank. *)

From Coq Require Import Reals List ZArith Lra Lia Psatz Bool Permutation.
From Verif Require Import Base Arith Geometry Elements Polyline Procedures ArithR Spec SpecR SpecD
  P_Base P_Trn P_Vertices P_Cavity P_R1 P_R2 P_R5 P_D1 P_D2 P_D3.
Import ListNotations.
Local Open Scope R_scope.

(** ** Plane lemmas *)
Lemma between_param : forall a b v, strictly_between a b v -> exists k, 0 < k < 1 /\ at_ratio k a b v.
Proof.
  intros a b v [Hd Hq]. unfold dotp in Hq. unfold area2 in Hd.
  set (p := X b - X a) in *. set (q := Y b - Y a) in *.
  assert (Hn : 0 < p * p + q * q).
  { pose proof (Rle_0_sqr p) as N1. pose proof (Rle_0_sqr q) as N2. unfold Rsqr in *. destruct (Req_dec p 0) as [E1|E1].
    - destruct (Req_dec q 0) as [E2|E2]; [exfalso|pose proof (Rsqr_pos_lt q E2); unfold Rsqr in *; lra].
      unfold p, q in *. replace (X b) with (X a) in Hq by lra. replace (Y b) with (Y a) in Hq by lra.
      pose proof (Rle_0_sqr (X a - X v)). pose proof (Rle_0_sqr (Y a - Y v)). unfold Rsqr in *. lra.
    - pose proof (Rsqr_pos_lt p E1). unfold Rsqr in *. lra. }
  set (k := ((X v - X a) * p + (Y v - Y a) * q) / (p * p + q * q)).
  assert (Ek : k * (p * p + q * q) = (X v - X a) * p + (Y v - Y a) * q) by (unfold k; field; lra).
  assert (Ex : X v - X a = k * p).
  { apply (Rmult_eq_reg_r (p * p + q * q)); [|lra]. replace (k * p * (p * p + q * q)) with (k * (p * p + q * q) * p) by ring. rewrite Ek. 
    assert ((Y v - Y a) * p = q * (X v - X a)) by lra. replace (((X v - X a) * p + (Y v - Y a) * q) * p) with ((X v - X a) * (p * p) + q * ((Y v - Y a) * p)) by ring. rewrite H. ring. }
  assert (Ey : Y v - Y a = k * q).
  { apply (Rmult_eq_reg_r (p * p + q * q)); [|lra]. replace (k * q * (p * p + q * q)) with (k * (p * p + q * q) * q) by ring. rewrite Ek.
    assert (p * (Y v - Y a) = q * (X v - X a)) by lra. replace (((X v - X a) * p + (Y v - Y a) * q) * q) with (p * (q * (X v - X a)) + (Y v - Y a) * (q * q)) by ring. rewrite <- H. ring. }
  exists k. split; [|split; fold p; fold q; lra].
  assert (Q : k * (k - 1) * (p * p + q * q) < 0).
  { replace (X a - X v) with (- (k * p)) in Hq by lra. replace (X b - X v) with (p - k * p) in Hq by (unfold p at 1; lra).
    replace (Y a - Y v) with (- (k * q)) in Hq by lra. replace (Y b - Y v) with (q - k * q) in Hq by (unfold q at 1; lra).
    apply Rle_lt_trans with (2 := Hq). apply Req_le. ring. }
  apply (div_lt _ _ Hn) in Q. split; nra.
Qed.
Lemma param_between : forall a b v k, ~ coincide a b -> 0 < k < 1 -> at_ratio k a b v -> strictly_between a b v.
Proof.
  intros a b v k Hn Hk [Hx Hy].
  assert (Hp : 0 < d2 a b).
  { destruct (d2_nonneg a b) as [|Hz]; [assumption|]. exfalso. apply Hn, d2_zero. auto. }
  split; [unfold area2; rewrite Hx, Hy; ring|].
  replace (dotp v a v b) with (k * (k - 1) * d2 a b) by (unfold dotp, d2; rewrite Hx, Hy; ring).
  apply snp; [apply spn; lra|exact Hp].
Qed.
Lemma ratio_D : forall k a b v x y, at_ratio k a b v -> D x y v = (1 - k) * D x y a + k * D x y b.
Proof. intros k a b v x y [Hx Hy]. unfold area2. rewrite Hx, Hy. ring. Qed.

(** Membership in the segment as the code tests it. *)
Lemma box_between : forall a b v, ~ coincide a v -> ~ coincide b v -> D a b v = 0 ->
  (near_box 0 a b v <-> strictly_between a b v).
Proof.
  intros a b v Ha Hb Hd. unfold near_box, strictly_between.
  assert (Hbox : forall p q w, Rmin p q - 0 <= w <= Rmax p q + 0 <-> (p - w) * (q - w) <= 0).
  { intros p q w. unfold Rmin, Rmax. destruct (Rle_dec p q); split; intros H.
    - apply mnp; lra.
    - split; apply Rnot_lt_le; intros L; assert (Q1 := spp (p - w) (q - w)); assert (Q2 := snn (p - w) (q - w)); lra.
    - apply mpn; lra.
    - split; apply Rnot_lt_le; intros L; assert (Q1 := spp (p - w) (q - w)); assert (Q2 := snn (p - w) (q - w)); lra. }
  rewrite !Hbox. unfold coincide in *.
  set (u1 := X a - X v) in *. set (u2 := Y a - Y v) in *. set (w1 := X b - X v) in *. set (w2 := Y b - Y v) in *.
  assert (E : u1 * w2 = u2 * w1) by (unfold area2 in Hd; unfold u1, u2, w1, w2; lra).
  assert (Ed : dotp v a v b = u1 * w1 + u2 * w2) by (unfold dotp, u1, u2, w1, w2; ring). rewrite Ed.
  assert (Pr : (u1 * w1) * (u2 * w2) = (u1 * w2) * (u1 * w2)) by (rewrite E at 2; ring). pose proof (Rle_0_sqr (u1 * w2)) as Sq. unfold Rsqr in Sq.
  split.
  - intros [H1 H2]. split; [exact Hd|]. destruct (Rle_lt_or_eq_dec _ _ H1) as [L|Z1]; [lra|].
    destruct (Rle_lt_or_eq_dec _ _ H2) as [L|Z2]; [lra|]. exfalso.
    assert (Z3 : u1 * w2 = 0) by (assert (Q : (u1 * w2) * (u1 * w2) = 0) by (rewrite <- Pr, Z1; ring); apply Rmult_integral in Q; tauto).
    assert (Z4 : u2 * w1 = 0) by lra.
    apply Rmult_integral in Z1, Z2, Z3, Z4. unfold u1, u2, w1, w2 in *.
    destruct Z1, Z2, Z3, Z4; first [apply Ha; split; lra | apply Hb; split; lra].
  - intros [_ H]. split; apply Rnot_lt_le; intros L.
    + assert (0 <= u2 * w2) by (apply Rnot_lt_le; intros L'; assert (Q := spn _ _ L L'); lra). lra.
    + assert (0 <= u1 * w1) by (apply Rnot_lt_le; intros L'; assert (Q := snp _ _ L' L); lra). lra.
Qed.

Lemma lex_dec : forall a b : pnt, {lex_lt a b} + {~ lex_lt a b}.
Proof.
  intros a b. unfold lex_lt. destruct (Rlt_dec (X a) (X b)); [left; auto|]. destruct (Req_EM_T (X a) (X b)) as [E|N]; [|right; tauto].
  destruct (Rlt_dec (Y a) (Y b)); [left; auto|right; lra].
Qed.
Lemma beyond_dec : forall q e, {beyond q e} + {~ beyond q e}.
Proof.
  intros q [a b]. unfold beyond. destruct (Rlt_dec (D a b q) 0); [left; auto|]. destruct (Req_EM_T (D a b q) 0); [|right; tauto].
  destruct (lex_dec a b); [left; auto|right; tauto].
Qed.
Lemma beyond_le : forall q a b, beyond q (a, b) -> D a b q <= 0.
Proof. intros q a b [H|[H _]]; lra. Qed.
Lemma not_beyond_ge : forall q a b, ~ beyond q (a, b) -> 0 <= D a b q.
Proof. intros q a b H. apply Rnot_lt_le. intros L. apply H. left. exact L. Qed.

(** ** Counting *)
Lemma nodup_app : forall X (l l' : list X), NoDup l -> NoDup l' -> (forall x, In x l -> ~ In x l') -> NoDup (l ++ l').
Proof.
  intros X l l' Hl Hl' Hd. induction Hl as [|x l Hx Hl IH]; [exact Hl'|]. cbn. constructor.
  - intros Hi. apply in_app_or in Hi. destruct Hi as [Hi|Hi]; [contradiction|]. exact (Hd x (or_introl eq_refl) Hi).
  - apply IH. intros y Hy. apply Hd. right. exact Hy.
Qed.
Lemma filter_lt : forall X (f g : X -> bool) l x, (forall y, In y l -> f y = true -> g y = true) ->
  In x l -> g x = true -> f x = false -> (length (filter f l) < length (filter g l))%nat.
Proof.
  intros X f g l x Hs. assert (Hle : forall l, (forall y, In y l -> f y = true -> g y = true) -> (length (filter f l) <= length (filter g l))%nat).
  { clear. intros l Hs. induction l as [|y l IH]; [cbn; lia|]. cbn. assert (length (filter f l) <= length (filter g l))%nat by (apply IH; auto with datatypes).
    destruct (f y) eqn:Ef; [rewrite (Hs y (or_introl eq_refl) Ef); cbn; lia|destruct (g y); cbn; lia]. }
  induction l as [|y l IH]; intros Hx Hg Hf; [destruct Hx|]. cbn. destruct Hx as [-> |Hx].
  - rewrite Hf, Hg. cbn. assert (length (filter f l) <= length (filter g l))%nat by (apply Hle; auto with datatypes). lia.
  - assert (length (filter f l) < length (filter g l))%nat by (apply IH; auto with datatypes).
    destruct (f y) eqn:Ef; [rewrite (Hs y (or_introl eq_refl) Ef); cbn; lia|destruct (g y); cbn; lia].
Qed.

(** Lexicographic keys. *)
Definition key : Type := nat * (R * nat).
Definition key_lt (x y : key) : Prop :=
  (fst x < fst y)%nat \/ (fst x = fst y /\ (fst (snd x) < fst (snd y) \/ (fst (snd x) = fst (snd y) /\ (snd (snd x) < snd (snd y))%nat))).
Definition key_ltb (x y : key) : bool :=
  Nat.ltb (fst x) (fst y) || (Nat.eqb (fst x) (fst y) && (Rltb (fst (snd x)) (fst (snd y)) || (Reqb (fst (snd x)) (fst (snd y)) && Nat.ltb (snd (snd x)) (snd (snd y))))).
Lemma key_ltb_spec : forall x y, key_ltb x y = true <-> key_lt x y.
Proof.
  intros x y. unfold key_ltb, key_lt, Rltb, Reqb. rewrite orb_true_iff, andb_true_iff, orb_true_iff, andb_true_iff, !Nat.ltb_lt, Nat.eqb_eq.
  destruct (Rlt_dec (fst (snd x)) (fst (snd y))); destruct (Req_EM_T (fst (snd x)) (fst (snd y))); intuition (try discriminate; try lra).
Qed.
Lemma key_lt_irrefl : forall x, ~ key_lt x x.
Proof. intros x. unfold key_lt. intros [L|[_ [L|[_ L]]]]; [lia|lra|lia]. Qed.
Lemma key_lt_trans : forall x y z, key_lt x y -> key_lt y z -> key_lt x z.
Proof.
  intros x y z. unfold key_lt. intros [L|[E [L|[E' L]]]] [M|[F [M|[F' M]]]];
    first [left; lia | right; split; [lia|]; first [left; lra | right; split; [lra|lia]]].
Qed.
Definition krank {X} (k : X -> key) (l : list X) (x : X) : nat := length (filter (fun y => key_ltb (k y) (k x)) l).
Lemma krank_lt : forall X (k : X -> key) l x y, In x l -> key_lt (k x) (k y) -> (krank k l x < krank k l y)%nat.
Proof.
  intros X k l x y Hx Hl. unfold krank. apply (filter_lt _ _ _ l x); [|exact Hx|apply key_ltb_spec, Hl|].
  - intros z _ Hz. apply key_ltb_spec in Hz. apply key_ltb_spec. exact (key_lt_trans _ _ _ Hz Hl).
  - destruct (key_ltb (k x) (k x)) eqn:E; [|reflexivity]. apply key_ltb_spec in E. destruct (key_lt_irrefl _ E).
Qed.

(** ** Triangles seen from a side *)
Definition looks (t : tri) (a b c : pnt) : Prop := t = Tri a b c \/ t = Tri b c a \/ t = Tri c a b.
Lemma looks_rot : forall t a b c, looks t a b c -> looks t b c a.
Proof. unfold looks. tauto. Qed.
Lemma looks_sides : forall t a b c, looks t a b c -> forall e, side_of e t <-> e = (a, b) \/ e = (b, c) \/ e = (c, a).
Proof.
  intros t a b c Hl e. rewrite side_of_cases. unfold te1, te2, te3. destruct Hl as [-> |[-> | ->]]; cbn; tauto.
Qed.
Lemma side_looks : forall (t : tri) a b, side_of (a, b) t -> exists c, looks t a b c.
Proof.
  intros [x y z] a b Hs. inversion Hs; subst; [exists z|exists x|exists y]; unfold looks; auto.
Qed.

Section Local.
  Variables (S : list pnt) (tr : mesh) (v : pnt).
  Hypothesis HD : delaunay S tr.
  Hypothesis HR : resolved (v :: S).
  Hypothesis Hv : ~ In v S.

  Lemma plainS : forall w, In w S -> vghost w = false.
  Proof. intros w Hw. apply (rs_plain _ HR). right. exact Hw. Qed.
  Lemma plainv : vghost v = false.
  Proof. apply (rs_plain _ HR). left. reflexivity. Qed.
  Lemma apartS : forall a b, In a (v :: S) -> In b (v :: S) -> a <> b -> ~ coincide a b.
  Proof.
    intros a b Ha Hb Hn Hc. apply Hn. apply plain_coincide; [apply (rs_plain _ HR), Ha|apply (rs_plain _ HR), Hb|exact Hc].
  Qed.
  Lemma d2S : forall a b, In a (v :: S) -> In b (v :: S) -> a <> b -> 0 < d2 a b.
  Proof. intros a b Ha Hb Hn. apply d2_pos; [apply (rs_plain _ HR), Ha|apply (rs_plain _ HR), Hb|exact Hn]. Qed.
  Lemma neqv : forall w, In w S -> w <> v.
  Proof. intros w Hw ->. contradiction. Qed.
  Lemma ghost_not_S : ~ In gv S.
  Proof. intros Hi. apply plainS in Hi. discriminate. Qed.

  Lemma D_neq : forall a b c, 0 < D a b c -> a <> b /\ b <> c /\ c <> a.
  Proof.
    intros a b c Hd. repeat split; intros E; subst; [rewrite D_aa in Hd|rewrite D_ab_b in Hd|rewrite D_ab_a in Hd]; lra.
  Qed.

  Lemma I_none : forall a b c, In (Tri a b c) (tris tr) -> In c S -> forall w, In w S -> I a b c w <= 0.
  Proof.
    intros a b c Ht Hc w Hw. destruct (dl_shape _ _ HD _ Ht) as [(x & y & z & E & Hx & Hy & Hz & Hp)|(x & y & E & _)].
    2:{ injection E as <- <- ->. destruct (ghost_not_S Hc). }
    injection E as <- <- <-. destruct (circumcenter_spec a b c) as [_ Hcc]. destruct Hcc as (o & _ & _ & H1 & H2 & _); [lra|].
    pose proof (dl_circle _ _ HD a b c Ht (plainS _ Hc) o w Hw H1 H2) as Hle.
    rewrite (incircle_power a b c w o H1 H2). apply mpn; lra.
  Qed.

  (** A triangle seen from one of its plain sides. *)
  Lemma view : forall t a b, In t (tris tr) -> side_of (a, b) t -> a <> gv -> b <> gv ->
    In a S /\ In b S /\ a <> b /\ ((exists c, In c S /\ looks t a b c /\ 0 < D a b c) \/ t = Tri a b gv).
  Proof.
    intros t a b Ht Hs Ga Gb. destruct (dl_shape _ _ HD t Ht) as [(x & y & z & -> & Hx & Hy & Hz & Hp)|(x & y & -> & Hx & Hy & Hn)].
    - destruct (D_neq _ _ _ Hp) as (N1 & N2 & N3).
      pose proof (D_rot x y z). pose proof (D_rot2 x y z).
      inversion Hs; subst; repeat (split; [solve [auto]|]); left; [exists z|exists x|exists y];
        (split; [assumption|]; split; [unfold looks; auto|lra]).
    - inversion Hs; subst; [|congruence|congruence]. repeat (split; [solve [auto]|]). right. reflexivity.
  Qed.
  Lemma view_gv1 : forall t b, In t (tris tr) -> side_of (b, gv) t -> exists a, t = Tri a b gv /\ In a S /\ In b S /\ a <> b.
  Proof.
    intros t b Ht Hs. destruct (dl_shape _ _ HD t Ht) as [(x & y & z & -> & Hx & Hy & Hz & Hp)|(x & y & -> & Hx & Hy & Hn)].
    - inversion Hs; subst; exfalso; apply ghost_not_S; assumption.
    - inversion Hs; subst; [exfalso; apply ghost_not_S; assumption| |exfalso; apply ghost_not_S; assumption]. exists x. auto.
  Qed.
  Lemma view_gv2 : forall t a, In t (tris tr) -> side_of (gv, a) t -> exists b, t = Tri a b gv /\ In a S /\ In b S /\ a <> b.
  Proof.
    intros t a Ht Hs. destruct (dl_shape _ _ HD t Ht) as [(x & y & z & -> & Hx & Hy & Hz & Hp)|(x & y & -> & Hx & Hy & Hn)].
    - inversion Hs; subst; exfalso; apply ghost_not_S; assumption.
    - inversion Hs; subst; [exfalso; apply ghost_not_S; assumption|exfalso; apply ghost_not_S; assumption|]. exists y. auto.
  Qed.
  Lemma ghost_shape : forall a b, In (Tri a b gv) (tris tr) -> In a S /\ In b S /\ a <> b /\ hull_edge S a b.
  Proof.
    intros a b Ht. destruct (view_gv1 (Tri a b gv) b Ht) as (x & E & Hx & Hb & Hn); [constructor|]. injection E as <-.
    repeat (split; [assumption|]). apply (dl_hull _ _ HD), Ht.
  Qed.
  Lemma excl : forall t t' e, In t (tris tr) -> In t' (tris tr) -> side_of e t -> side_of e t' -> t = t'.
  Proof.
    intros t t' e Ht Ht' H1 H2. pose proof (dl_complete _ _ HD _ _ Ht H1). pose proof (dl_complete _ _ HD _ _ Ht' H2). congruence.
  Qed.
  (** A side is plain or has exactly one ghost end. *)
  Lemma side_kind : forall t e, In t (tris tr) -> side_of e t ->
    (exists a b, e = (a, b) /\ a <> gv /\ b <> gv) \/ (exists b, e = (b, gv)) \/ (exists a, e = (gv, a)).
  Proof.
    intros t e Ht Hs. destruct (dl_shape _ _ HD t Ht) as [(x & y & z & -> & Hx & Hy & Hz & Hp)|(x & y & -> & Hx & Hy & Hn)].
    - left. assert (N : forall w, In w S -> w <> gv) by (intros w Hw ->; exact (ghost_not_S Hw)).
      inversion Hs; subst; do 2 eexists; split; try reflexivity; split; auto.
    - assert (N : forall w, In w S -> w <> gv) by (intros w Hw ->; exact (ghost_not_S Hw)).
      inversion Hs; subst; [left; exists x, y; auto|right; left; eauto|right; right; eauto].
  Qed.

  (** ** Conflicts *)
  Definition hitv (t : tri) : Prop := hit tr v t.

  Lemma inside_I : forall a b c, In a S -> In b S -> In c S -> (continence a b c v = Inside <-> 0 < I a b c v).
  Proof.
    intros a b c Ha Hb Hc. rewrite continence_sign. pose proof eps_pos.
    assert (Hz : - eps <= I a b c v <= eps -> I a b c v = 0).
    { intros Hi. pose proof (rs_circle _ HR a b c v) as Hr. rewrite in_square_I in Hr. cbn [In] in Hr.
      assert (- I a b c v = 0) by (apply Hr; auto; lra). lra. }
    repeat rcase; (split; [intros E; try discriminate|intros E; try reflexivity]); try (exfalso; lra); try lra.
    all: exfalso; assert (I a b c v = 0) by (apply Hz; lra); lra.
  Qed.
  Lemma ccw_D : forall a b, In a S -> In b S -> (orientation a b v = CCW <-> 0 < D a b v).
  Proof.
    intros a b Ha Hb. destruct (orientation_spec a b v) as (-> & _ & _). pose proof eps_pos.
    assert (Hz : - eps <= D a b v <= eps -> D a b v = 0) by (apply (rs_line _ HR); cbn [In]; auto). split; intros E; [lra|].
    apply Rnot_le_lt. intros L. assert (D a b v = 0) by (apply Hz; lra). lra.
  Qed.

  Lemma looks_In : forall t a b c, looks t a b c -> In a S -> In b S -> In c S -> is_ghost t = false.
  Proof.
    intros t a b c Hl Ha Hb Hc. apply plainS in Ha, Hb, Hc. unfold is_ghost. destruct Hl as [-> |[-> | ->]]; cbn; rewrite Ha, Hb, Hc; reflexivity.
  Qed.
  Lemma hit_solid : forall t a b c, In t (tris tr) -> looks t a b c -> In a S -> In b S -> In c S -> (hitv t <-> 0 < I a b c v).
  Proof.
    intros t a b c Ht Hl Ha Hb Hc. unfold hitv, hit, is_conflicting, encircles. rewrite (looks_In t a b c) by assumption. cbn [negb andb]. rewrite orb_false_r.
    assert (E : continence (tv1 t) (tv2 t) (tv3 t) v = Inside <-> 0 < I a b c v).
    { destruct Hl as [-> |[-> | ->]]; cbn [tv1 tv2 tv3]; rewrite inside_I by assumption; [|rewrite I_rot|rewrite I_rot2]; reflexivity. }
    rewrite <- E. destruct (continence (tv1 t) (tv2 t) (tv3 t) v); cbn; intuition discriminate.
  Qed.
  Lemma hit_ghost : forall a b, In (Tri a b gv) (tris tr) -> (hitv (Tri a b gv) <-> 0 < D a b v \/ strictly_between a b v).
  Proof.
    intros a b Ht. destruct (ghost_shape a b Ht) as (Ha & Hb & Hn & _).
    assert (Ei : is_conflicting (Tri a b gv) v = cont_eqb (match orientation a b v with CCW => Inside | CW => Outside | Colinear => Boundary end) Inside || edge_contains (a, b) v).
    { unfold is_conflicting, encircles, is_ghost. cbn. rewrite !orb_true_r. reflexivity. }
    unfold hitv, hit. rewrite Ei. rewrite orb_true_iff, edge_contains_spec. cbn [fst snd]. rewrite <- (ccw_D a b Ha Hb).
    assert (Hz : - eps <= D a b v <= eps -> D a b v = 0) by (apply (rs_line _ HR); cbn [In]; auto).
    assert (Hbx : D a b v = 0 -> (near_box 0 a b v <-> strictly_between a b v)).
    { apply box_between; apply apartS; cbn [In]; auto; apply neqv; assumption. }
    pose proof eps_pos. split.
    - intros [_ [E|[E1 E2]]]; [left; destruct (orientation a b v); [reflexivity|discriminate|discriminate]|].
      right. apply Hbx; [apply Hz, E2|exact E1].
    - intros [E|E]; (split; [exact Ht|]); [left; rewrite E; reflexivity|]. right. destruct E as [E1 E2].
      split; [apply Hbx; [exact E1|split; assumption]|lra].
  Qed.

  (** Crossing a side towards [v] stays in conflict. *)
  Lemma cross_solid : forall t u a b c, In t (tris tr) -> In u (tris tr) -> looks t a b c -> In a S -> In b S -> In c S -> 0 < D a b c ->
    hitv t -> D a b v <= 0 -> side_of (b, a) u -> hitv u.
  Proof.
    intros t u a b c Ht Hu Hl Ha Hb Hc Hp Hh Hd Su. apply (hit_solid t a b c) in Hh; auto.
    assert (Gab : a <> gv /\ b <> gv) by (split; intros ->; apply ghost_not_S; assumption).
    destruct (view u b a Hu Su) as (_ & _ & Nab & [(d & Hd' & Lu & Pu)| ->]); try tauto.
    - apply (hit_solid u b a d); auto. destruct (Rle_lt_or_eq_dec _ _ Hd) as [L|E].
      + pose proof (cross_power a b c d v) as Hx.
        assert (Hi : I a b c d <= 0).
        { destruct Hl as [-> |[-> | ->]]; [|rewrite <- I_rot|rewrite <- I_rot2]; apply I_none; auto. }
        assert (Q1 := mnn _ _ Hd Hi). assert (Q2 := spp _ _ Hh Pu). apply (div_gt _ (D a b c) Hp). lra.
      + apply chord_inside; [exact Pu|]. apply between_sym, (inside_chord a b c); auto.
    - apply hit_ghost; [exact Hu|]. rewrite (D_swap a b v). destruct (Rle_lt_or_eq_dec _ _ Hd) as [L|E]; [left; lra|].
      right. apply between_sym, (inside_chord a b c); auto.
  Qed.
  Lemma cross_ghost : forall u a b, In (Tri a b gv) (tris tr) -> In u (tris tr) -> strictly_between a b v -> side_of (b, a) u -> hitv u.
  Proof.
    intros u a b Ht Hu Hbt Su. destruct (ghost_shape a b Ht) as (Ha & Hb & Hn & _).
    assert (Gab : a <> gv /\ b <> gv) by (split; intros ->; apply ghost_not_S; assumption).
    destruct (view u b a Hu Su) as (_ & _ & Nab & [(d & Hd' & Lu & Pu)| ->]); try tauto.
    - apply (hit_solid u b a d); auto. apply chord_inside; [exact Pu|]. apply between_sym, Hbt.
    - apply hit_ghost; [exact Hu|]. right. apply between_sym, Hbt.
  Qed.

  (** [v] is strictly inside some circle or strictly sees some hull edge. *)
  Hypothesis Hstrict : exists t, In t (tris tr) /\ encircles t v = Inside.

  Lemma strict_cases : (exists a b c, In (Tri a b c) (tris tr) /\ In a S /\ In b S /\ In c S /\ 0 < D a b c) \/
    (exists a b, In (Tri a b gv) (tris tr) /\ 0 < D a b v).
  Proof.
    destruct Hstrict as (t & Ht & He). destruct (dl_shape _ _ HD t Ht) as [(x & y & z & -> & Hx & Hy & Hz & Hp)|(x & y & -> & Hx & Hy & Hn)].
    - left. exists x, y, z. auto.
    - right. exists x, y. split; [exact Ht|]. apply ccw_D; auto. unfold encircles, is_ghost in He. cbn in He. rewrite !orb_true_r in He. cbn in He.
      destruct (orientation x y v); [reflexivity|discriminate|discriminate].
  Qed.

  Lemma line3 : forall a b x y z, D a b x = 0 -> D a b y = 0 -> D a b z = 0 -> 0 < d2 a b -> D x y z = 0.
  Proof.
    intros a b x y z H1 H2 H3 Hp. apply (div_eq _ (d2 a b)); [lra|].
    assert (E : D x y z * d2 a b = D a b x * (dotp a b y z) + D a b y * (dotp a b z x) + D a b z * (dotp a b x y)).
    { unfold area2, d2, dotp. ring. }
    rewrite E, H1, H2, H3. ring.
  Qed.

  (** When [v] is on an open hull edge, something is off its line. *)
  Lemma edge_off : forall a b, In (Tri a b gv) (tris tr) -> strictly_between a b v -> exists p, In p S /\ D a b p < 0.
  Proof.
    intros a b Ht Hbt. destruct (ghost_shape a b Ht) as (Ha & Hb & Hn & Hh).
    destruct strict_cases as [(x & y & z & _ & Hx & Hy & Hz & Hp)|(x & y & Hg & Hp)].
    - destruct (Rlt_dec (D a b x) 0) as [L|N1]; [exists x; auto|]. destruct (Rlt_dec (D a b y) 0) as [L|N2]; [exists y; auto|].
      destruct (Rlt_dec (D a b z) 0) as [L|N3]; [exists z; auto|]. exfalso.
      pose proof (proj1 (Hh x Hx)). pose proof (proj1 (Hh y Hy)). pose proof (proj1 (Hh z Hz)).
      assert (D x y z = 0); [|lra]. apply (line3 a b); try lra. apply d2S; cbn [In]; auto.
    - exfalso. destruct (ghost_shape x y Hg) as (_ & _ & _ & Hh'). destruct (between_param _ _ _ Hbt) as (k & Hk & Hr).
      rewrite (ratio_D k a b v x y Hr) in Hp. pose proof (proj1 (Hh' a Ha)). pose proof (proj1 (Hh' b Hb)).
      assert (Q1 := mpn (1 - k) (D x y a)). assert (Q2 := mpn k (D x y b)). lra.
  Qed.

  (** Then no other outer face is in conflict. *)
  Lemma edge_alone : forall a b a' b', In (Tri a b gv) (tris tr) -> strictly_between a b v -> In (Tri a' b' gv) (tris tr) ->
    hitv (Tri a' b' gv) -> b' = b.
  Proof.
    intros a b a' b' Ht Hbt Ht' Hh'. destruct (edge_off a b Ht Hbt) as (p & Hp & Hpd).
    destruct (ghost_shape a b Ht) as (Ha & Hb & Hn & Hh). destruct (ghost_shape a' b' Ht') as (Ha' & Hb' & Hn' & Hg').
    destruct (between_param _ _ _ Hbt) as (k & Hk & Hr).
    pose proof (ratio_D k a b v a' b' Hr) as Ev. pose proof (proj1 (Hg' a Ha)) as L1. pose proof (proj1 (Hg' b Hb)) as L2.
    assert (Q1 := mpn (1 - k) (D a' b' a)). assert (Q2 := mpn k (D a' b' b)).
    apply hit_ghost in Hh'; [|exact Ht']. destruct Hh' as [Hh'|Hbt']; [lra|]. pose proof (proj1 Hbt') as Ez.
    assert (Z1 : D a' b' a = 0) by (apply (div_eq _ (1 - k)); lra).
    assert (Z2 : D a' b' b = 0) by (apply (div_eq _ k); lra).
    destruct (between_param _ _ _ Hbt') as (k' & Hk' & Hr').
    assert (Pd : 0 < d2 a b) by (apply d2S; cbn [In]; auto).
    (* the two edges are parallel *)
    set (s := dotp a b a' b' / d2 a b).
    assert (Es : s * d2 a b = dotp a b a' b') by (unfold s; field; lra).
    assert (Cr : (X b - X a) * (Y b' - Y a') = (Y b - Y a) * (X b' - X a')).
    { assert (E : D a' b' b - D a' b' a = (X b' - X a') * (Y b - Y a) - (Y b' - Y a') * (X b - X a)) by (unfold area2; ring). lra. }
    assert (Sx : X b' - X a' = s * (X b - X a)).
    { apply (Rmult_eq_reg_r (d2 a b)); [|lra]. replace (s * (X b - X a) * d2 a b) with (s * d2 a b * (X b - X a)) by ring. rewrite Es.
      unfold dotp, d2. replace (((X b - X a) * (X b' - X a') + (Y b - Y a) * (Y b' - Y a')) * (X b - X a)) with
        ((X b - X a) * (X b - X a) * (X b' - X a') + (Y b - Y a) * ((X b - X a) * (Y b' - Y a'))) by ring. rewrite Cr. ring. }
    assert (Sy : Y b' - Y a' = s * (Y b - Y a)).
    { apply (Rmult_eq_reg_r (d2 a b)); [|lra]. replace (s * (Y b - Y a) * d2 a b) with (s * d2 a b * (Y b - Y a)) by ring. rewrite Es.
      unfold dotp, d2. replace (((X b - X a) * (X b' - X a') + (Y b - Y a) * (Y b' - Y a')) * (Y b - Y a)) with
        ((X b - X a) * ((Y b - Y a) * (X b' - X a')) + (Y b - Y a) * (Y b - Y a) * (Y b' - Y a')) by ring. rewrite <- Cr. ring. }
    destruct Hr as [Rx Ry]. destruct Hr' as [Rx' Ry'].
    assert (Dp : D a' b' p = s * D a b p).
    { assert (E : D a' b' p = s * D a b p + s * ((X b - X a) * (Y a - Y a') - (Y b - Y a) * (X a - X a'))).
      { unfold area2. rewrite Sx, Sy. ring. }
      assert (Z : s * ((X b - X a) * (Y a - Y a') - (Y b - Y a) * (X a - X a')) = 0).
      { replace (s * ((X b - X a) * (Y a - Y a') - (Y b - Y a) * (X a - X a'))) with ((s * (X b - X a)) * (Y a - Y a') - (s * (Y b - Y a)) * (X a - X a')) by ring.
        rewrite <- Sx, <- Sy. unfold area2 in Z1. lra. }
      lra. }
    pose proof (proj1 (Hg' p Hp)) as L3. rewrite Dp in L3.
    assert (Ps : 0 < s).
    { destruct (Rtotal_order s 0) as [L|[L|L]]; [|exfalso|exact L].
      - assert (Q := snn s (D a b p)). lra.
      - rewrite L in Sx, Sy. apply (apartS a' b'); cbn [In]; auto. split; lra. }
    (* positions along the line *)
    destruct (Rtotal_order ((1 - k') * s) (1 - k)) as [L|[E|L]].
    - exfalso. apply (proj2 (Hh b' Hb')). apply (param_between a b b' (k + (1 - k') * s)).
      + apply apartS; cbn [In]; auto.
      + assert (Q := spp (1 - k') s). lra.
      + assert (K1 : k' * (X b' - X a') = k' * (s * (X b - X a))) by (rewrite Sx; reflexivity).
        assert (K2 : k' * (Y b' - Y a') = k' * (s * (Y b - Y a))) by (rewrite Sy; reflexivity). split; lra.
    - apply plain_coincide; [apply plainS, Hb'|apply plainS, Hb|]. 
      assert (K1 : k' * (X b' - X a') = k' * (s * (X b - X a))) by (rewrite Sx; reflexivity).
      assert (K2 : k' * (Y b' - Y a') = k' * (s * (Y b - Y a))) by (rewrite Sy; reflexivity).
      assert (K3 : (1 - k') * s * (X b - X a) = (1 - k) * (X b - X a)) by (rewrite E; reflexivity).
      assert (K4 : (1 - k') * s * (Y b - Y a) = (1 - k) * (Y b - Y a)) by (rewrite E; reflexivity). split; lra.
    - exfalso. apply (proj2 (Hg' b Hb)). set (j := (1 - k) / s). assert (Ej : j * s = 1 - k) by (unfold j; field; lra).
      assert (Pj : 0 < j) by (apply (div_gt _ s Ps); lra). assert (Lj : j < 1 - k').
      { apply (Rmult_lt_reg_r s); lra. }
      apply (param_between a' b' b (k' + j)).
      + apply apartS; cbn [In]; auto.
      + lra.
      + assert (K3 : j * s * (X b - X a) = (1 - k) * (X b - X a)) by (rewrite Ej; reflexivity).
        assert (K4 : j * s * (Y b - Y a) = (1 - k) * (Y b - Y a)) by (rewrite Ej; reflexivity).
        assert (K1 : j * (X b' - X a') = j * (s * (X b - X a))) by (rewrite Sx; reflexivity).
        assert (K2 : j * (Y b' - Y a') = j * (s * (Y b - Y a))) by (rewrite Sy; reflexivity). split; lra.
  Qed.

  (** ** The direction of each conflicting triangle *)
  Definition up (t : tri) (e : edge ArithR) : Prop :=
    if vghost (fst e) then False else if vghost (snd e) then ~ beyond v (tv1 t, tv2 t) else beyond v e.
  Lemma up_plain : forall t a b, In a S -> In b S -> (up t (a, b) <-> beyond v (a, b)).
  Proof. intros t a b Ha Hb. unfold up. cbn [fst snd]. rewrite (plainS a Ha), (plainS b Hb). reflexivity. Qed.
  Lemma up_gv1 : forall a b, In b S -> (up (Tri a b gv) (b, gv) <-> ~ beyond v (a, b)).
  Proof. intros a b Hb. unfold up. cbn [fst snd tv1 tv2]. rewrite (plainS b Hb). reflexivity. Qed.
  Lemma up_gv2 : forall t a, ~ up t (gv, a).
  Proof. intros t a. unfold up. cbn. tauto. Qed.
  Lemma ngv : forall w, In w S -> w <> gv.
  Proof. intros w Hw ->. exact (ghost_not_S Hw). Qed.

  (** A conflicting outer face with [v] on the wrong side has it on its edge. *)
  Lemma ghost_beyond : forall a b, In (Tri a b gv) (tris tr) -> hitv (Tri a b gv) -> beyond v (a, b) -> strictly_between a b v.
  Proof.
    intros a b Ht Hh Hb. apply hit_ghost in Hh; [|exact Ht]. apply beyond_le in Hb. destruct Hh; [lra|assumption].
  Qed.

  Lemma link : forall t u e, hitv t -> hitv u -> side_of e t -> side_of (flip e) u -> up t e \/ up u (flip e).
  Proof.
    intros t u e Ht Hu Se Sf. destruct (side_kind t e (proj1 Ht) Se) as [(a & b & -> & Ga & Gb)|[(b & ->)|(a & ->)]]; cbn [flip fst snd] in *.
    - destruct (view t a b (proj1 Ht) Se Ga Gb) as (Ha & Hb & Hn & _). rewrite !up_plain by assumption.
      apply beyond_one, apartS; cbn [In]; auto.
    - left. destruct (view_gv1 t b (proj1 Ht) Se) as (a & -> & Ha & Hb & Hn). apply up_gv1; [exact Hb|]. intros Hbe.
      pose proof (ghost_beyond a b (proj1 Ht) Ht Hbe) as Hbt. destruct (view_gv2 u b (proj1 Hu) Sf) as (c & -> & _ & Hc & Hn').
      apply Hn'. symmetry. exact (edge_alone a b b c (proj1 Ht) Hbt (proj1 Hu) Hu).
    - right. destruct (view_gv1 u a (proj1 Hu) Sf) as (x & -> & Hx & Ha & Hn). apply up_gv1; [exact Ha|]. intros Hbe.
      pose proof (ghost_beyond x a (proj1 Hu) Hu Hbe) as Hbt. destruct (view_gv2 t a (proj1 Ht) Se) as (c & -> & _ & Hc & Hn').
      apply Hn'. symmetry. exact (edge_alone x a a c (proj1 Hu) Hbt (proj1 Ht) Ht).
  Qed.

  (** Of the sides of a conflicting solid at most one has [v] on it or beyond. *)
  Lemma far_one : forall a b c, 0 < D a b c -> 0 < I a b c v -> D a b v <= 0 -> 0 < D b c v /\ 0 < D c a v.
  Proof.
    intros a b c Hp Hi Hd. split; apply Rnot_le_lt; intros L.
    - pose proof (beyond_two a b c v Hp Hd L). lra.
    - pose proof (beyond_two c a b v). rewrite I_rot2, D_rot2 in H. specialize (H Hp L Hd). lra.
  Qed.

  Lemma one : forall t e e', hitv t -> side_of e t -> side_of e' t -> up t e -> up t e' -> e = e'.
  Proof.
    intros t e e' Ht Se Se' U U'. destruct (dl_shape _ _ HD t (proj1 Ht)) as [(x & y & z & -> & Hx & Hy & Hz & Hp)|(x & y & -> & Hx & Hy & Hn)].
    - assert (Hi : 0 < I x y z v) by (apply (hit_solid (Tri x y z)); auto; [apply Ht|left; reflexivity]).
      assert (F1 := far_one x y z Hp Hi). assert (F2 := far_one y z x). rewrite I_rot, D_rot in F2. specialize (F2 Hp Hi).
      assert (F3 := far_one z x y). rewrite I_rot2, D_rot2 in F3. specialize (F3 Hp Hi).
      inversion Se; subst; inversion Se'; subst; try reflexivity; exfalso;
        apply up_plain in U; try assumption; apply up_plain in U'; try assumption; apply beyond_le in U, U'; lra.
    - inversion Se; subst; inversion Se'; subst; try reflexivity; exfalso; try (apply up_gv2 in U; exact U); try (apply up_gv2 in U'; exact U').
      + apply up_plain in U; try assumption. apply up_gv1 in U'; try assumption. tauto.
      + apply up_plain in U'; try assumption. apply up_gv1 in U; try assumption. tauto.
  Qed.

  (** ** The rank *)
  Definition arc (a b c : pnt) : nat := length (filter (fun w => Rltb (D a b w) 0 && Reqb (I a b c w) 0) S).
  Definition side_m (a b c : pnt) : nat :=
    if Rlt_dec (D a b v) 0 then 2 + arc a b c else if beyond_dec v (a, b) then 1 else 0.
  Definition tri_m (a b c : pnt) : nat := side_m a b c + side_m b c a + side_m c a b.
  Definition tri_key (t : tri) : key :=
    match t with Tri a b c =>
      if vghost c then ((if beyond_dec v (a, b) then 2 else 0)%nat, (0, length (filter (fun w => Rltb 0 (D v b w)) S)))
      else (1%nat, (- (I a b c v / D a b c), tri_m a b c))
    end.
  Definition rank (t : tri) : nat := krank tri_key (tris tr) t.

  Lemma key_solid : forall t a b c, looks t a b c -> In a S -> In b S -> In c S -> tri_key t = (1%nat, (- (I a b c v / D a b c), tri_m a b c)).
  Proof.
    intros t a b c Hl Ha Hb Hc. unfold tri_m. apply plainS in Ha, Hb, Hc. destruct Hl as [-> |[-> | ->]]; cbn [tri_key]; rewrite ?Ha, ?Hb, ?Hc; [reflexivity| |]; unfold tri_m.
    - rewrite (I_rot a b c v), (D_rot a b c). do 2 f_equal; lia.
    - rewrite (I_rot2 a b c v), (D_rot2 a b c). do 2 f_equal; lia.
  Qed.
  Lemma side_m_zero : forall a b c, ~ beyond v (a, b) -> side_m a b c = 0%nat.
  Proof.
    intros a b c Hn. unfold side_m. destruct (Rlt_dec (D a b v) 0); [exfalso; apply Hn; left; assumption|]. destruct (beyond_dec v (a, b)); tauto.
  Qed.
  Lemma beyond_pos : forall a b, 0 < D a b v -> ~ beyond v (a, b).
  Proof. intros a b Hp Hb. apply beyond_le in Hb. lra. Qed.
  Lemma tri_m_side : forall a b c, 0 < D a b c -> 0 < I a b c v -> D a b v <= 0 -> tri_m a b c = side_m a b c.
  Proof.
    intros a b c Hp Hi Hd. destruct (far_one a b c Hp Hi Hd) as [H1 H2]. unfold tri_m.
    rewrite (side_m_zero b c a), (side_m_zero c a b); [lia|apply beyond_pos, H2|apply beyond_pos, H1].
  Qed.

  Lemma arc_lt : forall (f g : pnt -> bool) d, (forall y, In y S -> f y = true -> g y = true) -> In d S -> g d = true -> f d = false ->
    (length (filter f S) < length (filter g S))%nat.
  Proof. intros f g d Hs Hd Hg Hf. exact (filter_lt _ f g S d Hs Hd Hg Hf). Qed.

  Lemma rank_solid : forall a b c d, In a S -> In b S -> In c S -> In d S -> 0 < D a b c -> 0 < D b a d -> 0 < I a b c v -> 0 < I b a d v ->
    I a b c d <= 0 -> beyond v (a, b) ->
    - (I b a d v / D b a d) < - (I a b c v / D a b c) \/
    (- (I b a d v / D b a d) = - (I a b c v / D a b c) /\ (tri_m b a d < tri_m a b c)%nat).
  Proof.
    intros a b c d Ha Hb Hc Hd Pt Pu It Iu Hi Hbe.
    pose proof (cross_power a b c d v) as Hx. pose proof (beyond_le _ _ _ Hbe) as Hl.
    assert (Eq : I a b c v / D a b c - I b a d v / D b a d = - D a b v * I a b c d / (D a b c * D b a d)).
    { rewrite <- Hx. field. lra. }
    assert (Pp : 0 < D a b c * D b a d) by (apply spp; assumption).
    assert (Nda : d <> a /\ d <> b /\ a <> b) by (destruct (D_neq _ _ _ Pu) as (? & ? & ?); auto). destruct Nda as (Nda & Ndb & Nab).
    rewrite (tri_m_side a b c Pt It Hl).
    destruct (Rle_lt_or_eq_dec _ _ Hl) as [L|E].
    - destruct (Rle_lt_or_eq_dec _ _ Hi) as [Li|Ei].
      + left. assert (Q := spp (- D a b v) (- I a b c d)).
        assert (0 < (- D a b v * - I a b c d) / (D a b c * D b a d)) by (apply Rdiv_lt_0_compat; [apply Q; lra|exact Pp]).
        replace (- D a b v * I a b c d / (D a b c * D b a d)) with (- ((- D a b v * - I a b c d) / (D a b c * D b a d))) in Eq by (field; lra). lra.
      + right. rewrite Ei in Eq. replace (- D a b v * 0 / (D a b c * D b a d)) with 0 in Eq by (field; lra). split; [lra|].
        unfold side_m at 1. destruct (Rlt_dec (D a b v) 0) as [_|]; [|lra].
        assert (Z0 : side_m b a d = 0%nat) by (apply side_m_zero, beyond_pos; rewrite D_swap; lra).
        assert (Pd : D a b d < 0) by (rewrite D_swap in Pu; lra).
        assert (Sc : forall w, I b a d w = 0 -> I a b c w = 0).
        { intros w Hw. pose proof (same_circle a b c d w Ei) as Q. rewrite Hw, Rmult_0_l in Q. apply (div_eq _ (D b a d)); [lra|exact Q]. }
        assert (Bd : Rltb (D a b d) 0 && Reqb (I a b c d) 0 = true).
        { destruct (Rltb_spec (D a b d) 0); [|lra]. destruct (Reqb_spec (I a b c d) 0); [reflexivity|lra]. }
        unfold tri_m. rewrite Z0. cbn [Nat.add].
        assert (K1 : (side_m a d b < 2 + arc a b c)%nat).
        { unfold side_m. destruct (Rlt_dec (D a d v) 0) as [Ld|Nd]; [|destruct (beyond_dec v (a, d)); lia].
          apply (proj1 (Nat.add_lt_mono_l _ _ 2)). unfold arc. apply (arc_lt _ _ d); auto.
          - intros w Hw Hf. apply andb_true_iff in Hf. destruct Hf as [F1 F2]. destruct (Rltb_spec (D a d w) 0) as [F1'|]; [|discriminate].
            destruct (Reqb_spec (I a d b w) 0) as [F2'|]; [|discriminate].
            assert (Iw : I b a d w = 0) by (rewrite <- I_rot; exact F2').
            destruct (Rltb_spec (D a b w) 0) as [|Nw]; [|exfalso; apply (Rlt_irrefl 0); apply Rle_lt_trans with (1 := Nw); apply (arc_first a b d w); [apply d2S; cbn [In]; auto|apply d2S; cbn [In]; auto|rewrite I_swap; lra|lra|exact F1']].
            destruct (Reqb_spec (I a b c w) 0) as [|Nw]; [reflexivity|exfalso; apply Nw, Sc, Iw].
          - rewrite D_ab_b. destruct (Rltb_spec 0 0); [lra|reflexivity]. }
        assert (K2 : (side_m d b a < 2 + arc a b c)%nat).
        { unfold side_m. destruct (Rlt_dec (D d b v) 0) as [Ld|Nd]; [|destruct (beyond_dec v (d, b)); lia].
          apply (proj1 (Nat.add_lt_mono_l _ _ 2)). unfold arc. apply (arc_lt _ _ d); auto.
          - intros w Hw Hf. apply andb_true_iff in Hf. destruct Hf as [F1 F2]. destruct (Rltb_spec (D d b w) 0) as [F1'|]; [|discriminate].
            destruct (Reqb_spec (I d b a w) 0) as [F2'|]; [|discriminate].
            assert (Iw : I b a d w = 0) by (rewrite <- I_rot2; exact F2').
            destruct (Rltb_spec (D a b w) 0) as [|Nw]; [|exfalso; apply (Rlt_irrefl 0); apply Rle_lt_trans with (1 := Nw); apply (arc_second a b d w); [apply d2S; cbn [In]; auto|apply d2S; cbn [In]; auto|rewrite I_swap; lra|lra|exact F1']].
            destruct (Reqb_spec (I a b c w) 0) as [|Nw]; [reflexivity|exfalso; apply Nw, Sc, Iw].
          - rewrite D_ab_a. destruct (Rltb_spec 0 0); [lra|reflexivity]. }
        destruct (beyond_dec v (a, d)) as [B1|B1].
        * assert (Z1 : side_m d b a = 0%nat).
          { apply side_m_zero, beyond_pos. destruct (far_one a d b) as [? _]; [rewrite <- D_rot2; exact Pu|rewrite <- I_rot2; exact Iu|apply beyond_le, B1|]; assumption. }
          rewrite Z1. lia.
        * rewrite (side_m_zero a d b B1). lia.
    - right. rewrite E in Eq. replace (- 0 * I a b c d / (D a b c * D b a d)) with 0 in Eq by (field; lra). split; [lra|].
      rewrite (tri_m_side b a d); [|assumption|assumption|rewrite D_swap; lra].
      unfold side_m. destruct (Rlt_dec (D b a v) 0) as [L|_]; [rewrite D_swap in L; lra|]. destruct (Rlt_dec (D a b v) 0) as [L|_]; [lra|].
      destruct (beyond_dec v (a, b)); [|tauto]. destruct (beyond_dec v (b, a)) as [Hb2|]; [destruct (beyond_not_both _ _ _ Hbe Hb2)|lia].
  Qed.

  Lemma I_none_looks : forall t a b c, In t (tris tr) -> looks t a b c -> In a S -> In b S -> In c S -> forall w, In w S -> I a b c w <= 0.
  Proof.
    intros t a b c Ht Hl Ha Hb Hc w Hw. destruct Hl as [-> |[-> | ->]]; [|rewrite <- I_rot|rewrite <- I_rot2]; apply I_none; auto.
  Qed.

  (** Two consecutive conflicting outer faces both strictly see [v]. *)
  Lemma ghost_pair : forall a b c, hitv (Tri a b gv) -> hitv (Tri b c gv) -> 0 < D a b v /\ 0 < D b c v.
  Proof.
    intros a b c Ht Hu. destruct (ghost_shape a b (proj1 Ht)) as (_ & _ & Hn & _). destruct (ghost_shape b c (proj1 Hu)) as (_ & _ & Hn' & _). split.
    - destruct (proj1 (hit_ghost a b (proj1 Ht)) Ht) as [|Hb]; [assumption|]. destruct Hn'. symmetry. exact (edge_alone a b b c (proj1 Ht) Hb (proj1 Hu) Hu).
    - destruct (proj1 (hit_ghost b c (proj1 Hu)) Hu) as [|Hb]; [assumption|]. exfalso. apply Hn'. exact (edge_alone b c a b (proj1 Hu) Hb (proj1 Ht) Ht).
  Qed.

  Lemma rank_up : forall t u e, hitv t -> hitv u -> side_of e t -> side_of (flip e) u -> up t e -> (rank u < rank t)%nat.
  Proof.
    intros t u e Ht Hu Se Sf U. apply krank_lt; [apply Hu|].
    destruct (side_kind t e (proj1 Ht) Se) as [(a & b & -> & Ga & Gb)|[(b & ->)|(a & ->)]]; cbn [flip fst snd] in *.
    - destruct (view t a b (proj1 Ht) Se Ga Gb) as (Ha & Hb & Hn & Vt). destruct (view u b a (proj1 Hu) Sf Gb Ga) as (_ & _ & _ & Vu).
      apply up_plain in U; try assumption.
      assert (Hnb : ~ beyond v (b, a)) by (intros Hb2; exact (beyond_not_both _ _ _ U Hb2)).
      destruct Vt as [(c & Hc & Lt & Pt)| ->].
      + rewrite (key_solid t a b c) by assumption. destruct Vu as [(d & Hd & Lu & Pu)| ->].
        * rewrite (key_solid u b a d) by assumption. right. split; [reflexivity|]. cbn [fst snd].
          apply rank_solid; auto; [apply (hit_solid t a b c); auto; apply Ht|apply (hit_solid u b a d); auto; apply Hu|].
          apply (I_none_looks t); auto. apply Ht.
        * left. cbn [tri_key fst]. replace (vghost gv) with true by reflexivity. destruct (beyond_dec v (b, a)); [tauto|]. cbn. lia.
      + left. cbn [tri_key fst]. replace (vghost gv) with true by reflexivity. destruct (beyond_dec v (a, b)); [|tauto]. cbn [fst].
        destruct Vu as [(d & Hd & Lu & Pu)| ->].
        * rewrite (key_solid u b a d) by assumption. cbn. lia.
        * cbn [tri_key fst]. replace (vghost gv) with true by reflexivity. destruct (beyond_dec v (b, a)); [tauto|]. cbn. lia.
    - destruct (view_gv1 t b (proj1 Ht) Se) as (a & -> & Ha & Hb & Hn). destruct (view_gv2 u b (proj1 Hu) Sf) as (c & -> & _ & Hc & Hn').
      apply up_gv1 in U; [|assumption]. destruct (ghost_pair a b c Ht Hu) as [P1 P2]. destruct (ghost_shape b c (proj1 Hu)) as (_ & _ & _ & Hh).
      right. cbn [tri_key]. replace (vghost gv) with true by reflexivity. destruct (beyond_dec v (a, b)); [tauto|].
      destruct (beyond_dec v (b, c)) as [B|_]; [apply beyond_le in B; lra|]. cbn [fst snd]. split; [reflexivity|]. right. split; [reflexivity|].
      assert (Ebc : D v b c = D b c v) by (symmetry; apply D_rot).
      apply (arc_lt _ _ c); auto.
      + intros w Hw Hf. destruct (Rltb_spec 0 (D v c w)) as [Lw|]; [|discriminate]. destruct (Rltb_spec 0 (D v b w)) as [|Nw]; [reflexivity|].
        exfalso. pose proof (proj1 (Hh w Hw)) as L. 
        assert (E : D b c w = D v b c + D v c w - D v b w) by (unfold area2; ring). lra.
      + destruct (Rltb_spec 0 (D v b c)); [reflexivity|lra].
      + rewrite D_ab_b. destruct (Rltb_spec 0 0); [lra|reflexivity].
    - destruct (up_gv2 _ _ U).
  Qed.

  (** ** The last triangle *)
  Definition rootv (r : tri) : Prop :=
    hitv r /\ forall e u, side_of e r -> up r e -> In u (tris tr) -> side_of (flip e) u -> ~ hitv u.

  Lemma root_solid : forall r a b c, rootv r -> looks r a b c -> In a S -> In b S -> In c S -> 0 < D a b c ->
    ~ beyond v (a, b) /\ ~ beyond v (b, c) /\ ~ beyond v (c, a).
  Proof.
    intros r a b c [Hr Hn] Hl Ha Hb Hc Hp.
    assert (K : forall x y z, looks r x y z -> In x S -> In y S -> In z S -> 0 < D x y z -> ~ beyond v (x, y)).
    { intros x y z Hl' Hx Hy Hz Hp' Hbe. assert (Se : side_of (x, y) r) by (apply (looks_sides r x y z Hl'); auto).
      destruct (dl_closed _ _ HD r (x, y) (proj1 Hr) Se) as (u & Hu & Su).
      apply (Hn (x, y) u Se); auto; [apply up_plain; assumption|].
      apply (cross_solid r u x y z); auto; [apply Hr|apply beyond_le, Hbe]. }
    split; [|split]; [apply (K a b c)|apply (K b c a)|apply (K c a b)]; auto; [apply looks_rot, Hl|rewrite D_rot; exact Hp|apply looks_rot, looks_rot, Hl|rewrite D_rot2; exact Hp].
  Qed.
  Lemma root_ghost : forall a b, rootv (Tri a b gv) -> ~ beyond v (a, b) /\
    exists c, In (Tri b c gv) (tris tr) /\ ~ hitv (Tri b c gv).
  Proof.
    intros a b [Hr Hn]. destruct (ghost_shape a b (proj1 Hr)) as (Ha & Hb & Hne & _).
    assert (Nb : ~ beyond v (a, b)).
    { intros Hbe. assert (Se : side_of (a, b) (Tri a b gv)) by constructor. destruct (dl_closed _ _ HD _ _ (proj1 Hr) Se) as (u & Hu & Su).
      apply (Hn (a, b) u Se); auto; [apply up_plain; assumption|].
      apply (cross_ghost u a b); auto; [apply Hr|apply ghost_beyond; auto; apply Hr]. }
    split; [exact Nb|]. assert (Se : side_of (b, gv) (Tri a b gv)) by constructor. destruct (dl_closed _ _ HD _ _ (proj1 Hr) Se) as (u & Hu & Su).
    cbn [flip fst snd] in Su. destruct (view_gv2 u b Hu Su) as (c & -> & _). exists c. split; [exact Hu|].
    apply (Hn (b, gv) _ Se); auto. apply up_gv1; assumption.
  Qed.

  Lemma nodup3 : forall X (x y z : X), x <> y -> y <> z -> z <> x -> NoDup [x; y; z].
  Proof.
    intros X x y z N1 N2 N3. apply NoDup_cons; [cbn; intuition congruence|]. apply NoDup_cons; [cbn; intuition congruence|].
    apply NoDup_cons; [cbn; tauto|apply NoDup_nil].
  Qed.
  Lemma plain_tr : plain_mesh S (tris tr).
  Proof.
    split.
    - exact plainS.
    - exact (dl_nodup _ _ HD).
    - exact (dl_shape _ _ HD).
    - intros f Hf. rewrite <- sides_sum. apply anti_zero; [exact Hf| |].
      + apply sides_NoDup; [exact (dl_nodup _ _ HD)| |].
        * intros t Ht. destruct (dl_shape _ _ HD t Ht) as [(x & y & z & -> & Hx & Hy & Hz & Hp)|(x & y & -> & Hx & Hy & Hn)].
          -- destruct (D_neq _ _ _ Hp) as (N1 & N2 & N3). apply nodup3; unfold te1, te2, te3; cbn; congruence.
          -- pose proof (ngv x Hx). pose proof (ngv y Hy). apply nodup3; unfold te1, te2, te3; cbn; congruence.
        * intros t t' e Ht Ht' H1 H2. exact (excl t t' e Ht Ht' H1 H2).
      + intros e He. apply sides_In in He. destruct He as (t & Ht & Se). apply sides_In. exact (dl_closed _ _ HD t e Ht Se).
    - intros a b Ht. apply (dl_hull _ _ HD), Ht.
    - intros a a' b Ht Ht'. assert (E : Tri a b gv = Tri a' b gv) by (apply (excl _ _ (b, gv)); auto; constructor). injection E as ->. reflexivity.
  Qed.

  (** Parallel directions are ordered alike. *)
  Lemma dir_lex : forall a b x y z, 0 < d2 a b -> D a b x = 0 -> D a b y = 0 -> D a b z < 0 -> 0 < D x y z -> lex_lt b a -> lex_lt x y.
  Proof.
    intros a b x y z Pd Hx Hy Hz Hp Hl. set (s := dotp a b x y / d2 a b).
    assert (Es : s * d2 a b = dotp a b x y) by (unfold s; field; lra).
    assert (Cr : (X b - X a) * (Y y - Y x) = (Y b - Y a) * (X y - X x)).
    { assert (E : D a b y - D a b x = (X b - X a) * (Y y - Y x) - (Y b - Y a) * (X y - X x)) by (unfold area2; ring). lra. }
    assert (Sx : X y - X x = s * (X b - X a)).
    { apply (Rmult_eq_reg_r (d2 a b)); [|lra]. replace (s * (X b - X a) * d2 a b) with (s * d2 a b * (X b - X a)) by ring. rewrite Es.
      unfold dotp, d2. replace (((X b - X a) * (X y - X x) + (Y b - Y a) * (Y y - Y x)) * (X b - X a)) with
        ((X b - X a) * (X b - X a) * (X y - X x) + (Y b - Y a) * ((X b - X a) * (Y y - Y x))) by ring. rewrite Cr. ring. }
    assert (Sy : Y y - Y x = s * (Y b - Y a)).
    { apply (Rmult_eq_reg_r (d2 a b)); [|lra]. replace (s * (Y b - Y a) * d2 a b) with (s * d2 a b * (Y b - Y a)) by ring. rewrite Es.
      unfold dotp, d2. replace (((X b - X a) * (X y - X x) + (Y b - Y a) * (Y y - Y x)) * (Y b - Y a)) with
        ((X b - X a) * ((Y b - Y a) * (X y - X x)) + (Y b - Y a) * (Y b - Y a) * (Y y - Y x)) by ring. rewrite <- Cr. ring. }
    assert (Dz : D x y z = s * D a b z).
    { assert (E : D x y z = s * D a b z - s * D a b x) by (unfold area2; rewrite Sx, Sy; ring). rewrite Hx in E. lra. }
    assert (Ns : s < 0).
    { apply Rnot_le_lt. intros L. assert (Q := mpn s (D a b z)). lra. }
    unfold lex_lt in *. destruct Hl as [L|[E L]].
    - left. assert (Q := snn s (X b - X a)). lra.
    - right. rewrite E in Sx. replace (X a - X a) with 0 in Sx by ring. rewrite Rmult_0_r in Sx. assert (Q := snn s (Y b - Y a)). split; lra.
  Qed.

  Lemma root_mixed : forall r a b c x y, rootv r -> looks r a b c -> In a S -> In b S -> In c S -> 0 < D a b c -> rootv (Tri x y gv) -> False.
  Proof.
    intros r a b c x y Hr Hl Ha Hb Hc Hp Hg. destruct (root_solid r a b c Hr Hl Ha Hb Hc Hp) as (N1 & N2 & N3).
    destruct (root_ghost x y Hg) as (Ng & _). destruct (ghost_shape x y (proj1 (proj1 Hg))) as (Hx & Hy & Hn & Hh).
    pose proof (not_beyond_ge _ _ _ N1) as P1. pose proof (not_beyond_ge _ _ _ N2) as P2. pose proof (not_beyond_ge _ _ _ N3) as P3.
    pose proof (proj1 (Hh a Ha)) as L1. pose proof (proj1 (Hh b Hb)) as L2. pose proof (proj1 (Hh c Hc)) as L3.
    assert (Bary : D a b c * D x y v = D b c v * D x y a + D c a v * D x y b + D a b v * D x y c) by (unfold area2; ring).
    assert (Q1 := mpn _ _ P2 L1). assert (Q2 := mpn _ _ P3 L2). assert (Q3 := mpn _ _ P1 L3).
    destruct (proj1 (hit_ghost x y (proj1 (proj1 Hg))) (proj1 Hg)) as [L|Hbt].
    { assert (Q := spp _ _ Hp L). lra. }
    pose proof (proj1 Hbt) as Ez. rewrite Ez, Rmult_0_r in Bary.
    assert (Lxy : lex_lt y x).
    { destruct (lex_total x y) as [L|L]; [apply apartS; cbn [In]; auto| |exact L]. exfalso. apply Ng. right. auto. }
    pose proof (d2S x y (or_intror Hx) (or_intror Hy) Hn) as Pd.
    assert (K : forall a b c, In a S -> In b S -> 0 < D a b c -> ~ beyond v (a, b) -> 0 <= D a b v -> 0 <= D b c v -> 0 <= D c a v ->
      D b c v * D x y a = 0 -> D c a v * D x y b = 0 -> D a b v * D x y c = 0 -> D x y c < 0 -> False).
    { clear - HR Hv Pd Lxy. intros a b c Ha Hb Hp N1 P1 P2 P3 Z1 Z2 Z3 Lc.
      assert (E0 : D a b v = 0) by (apply (div_eq _ (D x y c)); lra). pose proof (area_sum a b c v) as As.
      assert (Nab : lex_lt a b -> False) by (intros L; apply N1; right; auto).
      apply Nab. apply (dir_lex x y a b c); auto.
      - destruct (Rle_lt_or_eq_dec _ _ P2) as [L|E]; [apply (div_eq _ (D b c v)); lra|]. exfalso.
        apply (apartS b v); cbn [In]; auto; [intros ->; contradiction|].
        pose proof (area_x a b c v) as Ax. pose proof (area_y a b c v) as Ay. assert (E2 : D c a v = D a b c) by lra. rewrite E2, E0, <- E in Ax, Ay. split; apply (Rmult_eq_reg_l (D a b c)); lra.
      - destruct (Rle_lt_or_eq_dec _ _ P3) as [L|E]; [apply (div_eq _ (D c a v)); lra|]. exfalso.
        apply (apartS a v); cbn [In]; auto; [intros ->; contradiction|].
        pose proof (area_x a b c v) as Ax. pose proof (area_y a b c v) as Ay. assert (E2 : D b c v = D a b c) by lra. rewrite E2, E0, <- E in Ax, Ay. split; apply (Rmult_eq_reg_l (D a b c)); lra. }
    destruct (Rle_lt_or_eq_dec _ _ L3) as [Lc|Ec]; [apply (K a b c); auto; lra|].
    destruct (Rle_lt_or_eq_dec _ _ L1) as [La|Ea]; [apply (K b c a); auto; [rewrite D_rot; exact Hp|lra|lra|lra]|].
    destruct (Rle_lt_or_eq_dec _ _ L2) as [Lb|Eb]; [apply (K c a b); auto; [rewrite D_rot2; exact Hp|lra|lra|lra]|].
    pose proof (line3 x y a b c Ea Eb Ec Pd). lra.
  Qed.

  (** Two consecutive hull edges on one line turn back. *)
  Lemma turn_back : forall p q r, In p S -> In q S -> In r S -> p <> q -> q <> r -> hull_edge S p q -> hull_edge S q r -> D p q r = 0 ->
    (0 < D p q v /\ D q r v <= 0) \/ (0 < D q r v /\ D p q v <= 0) -> r = p.
  Proof.
    intros a b c Ha Hb Hcs Hn Hn' Hh Hh' E Hs. pose proof (d2S a b (or_intror Ha) (or_intror Hb) Hn) as Pd.
    set (k := dotp b a b c / d2 a b). assert (Ek : k * d2 a b = dotp b a b c) by (unfold k; field; lra).
    assert (Kx : X c - X b = k * (X a - X b)).
    { apply (Rmult_eq_reg_r (d2 a b)); [|lra]. replace (k * (X a - X b) * d2 a b) with (k * d2 a b * (X a - X b)) by ring. rewrite Ek.
      assert (K : (X c - X b) * d2 a b = dotp b a b c * (X a - X b) - D a b c * (Y b - Y a)) by (unfold d2, dotp, area2; ring). rewrite E in K. lra. }
    assert (Ky : Y c - Y b = k * (Y a - Y b)).
    { apply (Rmult_eq_reg_r (d2 a b)); [|lra]. replace (k * (Y a - Y b) * d2 a b) with (k * d2 a b * (Y a - Y b)) by ring. rewrite Ek.
      assert (K : (Y c - Y b) * d2 a b = dotp b a b c * (Y a - Y b) + D a b c * (X b - X a)) by (unfold d2, dotp, area2; ring). rewrite E in K. lra. }
    assert (Dv : D b c v = - k * D a b v) by (unfold area2; rewrite Kx, Ky; ring).
    assert (Pk : 0 < k).
    { destruct (Rtotal_order k 0) as [L|[L|L]]; [exfalso| |exact L].
      - destruct Hs as [[P1 P2]|[P1 P2]]; [assert (Q := spp (- k) (D a b v)); lra|assert (Q := mpn (- k) (D a b v)); lra].
      - exfalso. apply (apartS b c); cbn [In]; auto. rewrite L in Kx, Ky. split; lra. }
    destruct (Rtotal_order k 1) as [L|[L|L]].
    + exfalso. apply (proj2 (Hh c Hcs)). apply (param_between a b c (1 - k)); [apply apartS; cbn [In]; auto|lra|split; lra].
    + apply plain_coincide; [apply plainS, Hcs|apply plainS, Ha|]. rewrite L in Kx, Ky. split; lra.
    + exfalso. apply (proj2 (Hh' a Ha)). assert (Pi : 0 < / k) by (apply Rinv_0_lt_compat; lra).
      assert (Pi' : / k < 1) by (rewrite <- Rinv_1; apply Rinv_lt_contravar; lra).
      apply (param_between b c a (/ k)); [apply apartS; cbn [In]; auto|lra|]. split.
      * rewrite Kx. field_simplify; lra.
      * rewrite Ky. field_simplify; lra.
  Qed.

  (** The two ends of the chain of outer faces are the extreme points seen from [v]. *)
  Lemma extreme_last : forall a b c, In (Tri a b gv) (tris tr) -> 0 < D a b v -> In (Tri b c gv) (tris tr) -> ~ hitv (Tri b c gv) ->
    forall w, In w S -> D v b w <= 0.
  Proof.
    intros a b c Ht Hp Hc Nc w Hw. destruct (ghost_shape a b Ht) as (Ha & Hb & Hn & Hh). destruct (ghost_shape b c Hc) as (_ & Hcs & Hn' & Hh').
    assert (Pc : D b c v <= 0) by (apply Rnot_lt_le; intros L; apply Nc, hit_ghost; auto).
    pose proof (proj1 (Hh c Hcs)) as H1. pose proof (proj1 (Hh w Hw)) as H2. pose proof (proj1 (Hh' w Hw)) as H3.
    assert (Pl : D a b c * D v b w = - D a b v * D b c w + D a b w * D b c v) by (unfold area2; ring).
    assert (Q1 := mnn (- D a b v) (D b c w)). assert (Q2 := mnn (D a b w) (D b c v)).
    destruct (Rle_lt_or_eq_dec _ _ H1) as [L|E].
    { apply (div_n_le _ (D a b c) L). lra. }
    assert (Ea : c = a) by (apply (turn_back a b c); auto).
    subst c. destruct (dl_flat _ _ HD a b Ht Hc w Hw) as [-> | ->].
    - rewrite D_swap2. assert (D v a b = D a b v) by (symmetry; apply D_rot). lra.
    - rewrite D_ab_b. lra.
  Qed.
  Lemma extreme_first : forall a b c, In (Tri a b gv) (tris tr) -> 0 < D a b v -> In (Tri c a gv) (tris tr) -> ~ hitv (Tri c a gv) ->
    forall w, In w S -> D a v w <= 0.
  Proof.
    intros a b c Ht Hp Hc Nc w Hw. destruct (ghost_shape a b Ht) as (Ha & Hb & Hn & Hh). destruct (ghost_shape c a Hc) as (Hcs & _ & Hn' & Hh').
    assert (Pc : D c a v <= 0) by (apply Rnot_lt_le; intros L; apply Nc, hit_ghost; auto).
    pose proof (proj1 (Hh c Hcs)) as H1. pose proof (proj1 (Hh w Hw)) as H2. pose proof (proj1 (Hh' w Hw)) as H3.
    assert (Pl : D a b c * D a v w = - D a b v * D c a w + D a b w * D c a v) by (unfold area2; ring).
    assert (Q1 := mnn (- D a b v) (D c a w)). assert (Q2 := mnn (D a b w) (D c a v)).
    destruct (Rle_lt_or_eq_dec _ _ H1) as [L|E].
    { apply (div_n_le _ (D a b c) L). lra. }
    assert (Ea : b = c) by (apply (turn_back c a b); auto; rewrite D_rot2; exact E).
    subst c. destruct (dl_flat _ _ HD a b Ht Hc w Hw) as [-> | ->].
    - rewrite D_ab_a. lra.
    - rewrite D_swap2. lra.
  Qed.
  Lemma root_extreme : forall a b, rootv (Tri a b gv) -> 0 < D a b v -> forall w, In w S -> D v b w <= 0.
  Proof.
    intros a b Hr Hp. destruct (root_ghost a b Hr) as (_ & c & Hc & Nc). exact (extreme_last a b c (proj1 (proj1 Hr)) Hp Hc Nc).
  Qed.

  Lemma root_one : forall r r', rootv r -> rootv r' -> r = r'.
  Proof.
    intros r r' Hr Hr'.
    destruct (dl_shape _ _ HD r (proj1 (proj1 Hr))) as [(x & y & z & -> & Hx & Hy & Hz & Hp)|(x & y & -> & Hx & Hy & Hn)];
    destruct (dl_shape _ _ HD r' (proj1 (proj1 Hr'))) as [(x' & y' & z' & -> & Hx' & Hy' & Hz' & Hp')|(x' & y' & -> & Hx' & Hy' & Hn')].
    - destruct (root_solid _ x y z Hr) as (N1 & N2 & N3); auto; [left; reflexivity|].
      destruct (root_solid _ x' y' z' Hr') as (N1' & N2' & N3'); auto; [left; reflexivity|].
      apply (no_overlap S (tris tr) plain_tr v); [apply Hr|apply Hr'|apply plainS, Hz|apply plainS, Hz'| |].
      + apply tw_ccw; auto.
      + apply tw_ccw; auto.
    - exfalso. apply (root_mixed _ x y z x' y' Hr); auto. left. reflexivity.
    - exfalso. apply (root_mixed _ x' y' z' x y Hr'); auto. left. reflexivity.
    - assert (E : y = y').
      { destruct (proj1 (hit_ghost x y (proj1 (proj1 Hr))) (proj1 Hr)) as [P|Hb];
          [|symmetry; exact (edge_alone x y x' y' (proj1 (proj1 Hr)) Hb (proj1 (proj1 Hr')) (proj1 Hr'))].
        destruct (proj1 (hit_ghost x' y' (proj1 (proj1 Hr'))) (proj1 Hr')) as [P'|Hb];
          [|exact (edge_alone x' y' x y (proj1 (proj1 Hr')) Hb (proj1 (proj1 Hr)) (proj1 Hr))].
        pose proof (root_extreme x y Hr P y' Hy') as L1. pose proof (root_extreme x' y' Hr' P' y Hy) as L2. rewrite D_swap2 in L2.
        assert (Z : D v y y' = 0) by lra.
        destruct (ghost_shape x y (proj1 (proj1 Hr))) as (_ & _ & _ & Hh). destruct (ghost_shape x' y' (proj1 (proj1 Hr'))) as (_ & _ & _ & Hh').
        pose proof (d2S v y (or_introl eq_refl) (or_intror Hy) (fun E => neqv y Hy (eq_sym E))) as Pd.
        set (k := dotp v y v y' / d2 v y). assert (Ek : k * d2 v y = dotp v y v y') by (unfold k; field; lra).
        assert (Kx : X y' - X v = k * (X y - X v)).
        { apply (Rmult_eq_reg_r (d2 v y)); [|lra]. replace (k * (X y - X v) * d2 v y) with (k * d2 v y * (X y - X v)) by ring. rewrite Ek.
          assert (K : (X y' - X v) * d2 v y = dotp v y v y' * (X y - X v) - D v y y' * (Y y - Y v)) by (unfold d2, dotp, area2; ring). rewrite Z in K. lra. }
        assert (Ky : Y y' - Y v = k * (Y y - Y v)).
        { apply (Rmult_eq_reg_r (d2 v y)); [|lra]. replace (k * (Y y - Y v) * d2 v y) with (k * d2 v y * (Y y - Y v)) by ring. rewrite Ek.
          assert (K : (Y y' - Y v) * d2 v y = dotp v y v y' * (Y y - Y v) + D v y y' * (X y - X v)) by (unfold d2, dotp, area2; ring). rewrite Z in K. lra. }
        assert (H1 : D x y y' = (1 - k) * D x y v).
        { assert (K : D x y y' = D x y v + (X y - X x) * (Y y' - Y v) - (Y y - Y x) * (X y' - X v)) by (unfold area2; ring). rewrite K, Kx, Ky. unfold area2. ring. }
        assert (H2 : k * D x' y' y = (k - 1) * D x' y' v).
        { assert (K : k * D x' y' y = k * D x' y' v + (X y' - X x') * (k * (Y y - Y v)) - (Y y' - Y x') * (k * (X y - X v))) by (unfold area2; ring).
          rewrite K, <- Kx, <- Ky. unfold area2. ring. }
        pose proof (proj1 (Hh y' Hy')) as M1. pose proof (proj1 (Hh' y Hy)) as M2. rewrite H1 in M1.
        assert (K1 : 1 <= k) by (apply Rnot_lt_le; intros L; assert (Q := spp (1 - k) (D x y v)); lra).
        assert (K2 : k <= 1).
        { apply Rnot_lt_le. intros L. assert (Q := spp (k - 1) (D x' y' v)). assert (Q' := mpn k (D x' y' y)). lra. }
        assert (K : k = 1) by lra. rewrite K in Kx, Ky. apply plain_coincide; [apply plainS, Hy|apply plainS, Hy'|split; lra]. }
      subst y'. apply (excl _ _ (y, gv)); [apply Hr|apply Hr'|constructor|constructor].
  Qed.

  (** ** The border of the conflicting region *)
  Notation bd := (border tr v).

  Lemma border_plain : forall x y, bd (x, y) -> x <> gv -> y <> gv -> In x S /\ In y S /\ x <> y /\ 0 < D x y v /\
    forall w, In w (v :: S) -> I x y v w <= 0.
  Proof.
    intros x y [(t & Ht & St) (u & Hu & Su & Nu)] Gx Gy. cbn [flip fst snd] in Su.
    destruct (view t x y (proj1 Ht) St Gx Gy) as (Hx & Hy & Hn & Vt). destruct (view u y x Hu Su Gy Gx) as (_ & _ & _ & Vu).
    assert (Hp : 0 < D x y v).
    { apply Rnot_le_lt. intros L. apply Nu. destruct Vt as [(c & Hc & Lt & Pt)| ->].
      - apply (cross_solid t u x y c); auto. apply Ht.
      - apply (cross_ghost u x y); auto; [apply Ht|]. destruct (proj1 (hit_ghost x y (proj1 Ht)) Ht); [lra|assumption]. }
    repeat (split; [assumption|]). intros w [<-|Hw]; [rewrite I_c; lra|].
    destruct Vt as [(c & Hc & Lt & Pt)| ->].
    - assert (Iv : 0 < I x y c v) by (apply (hit_solid t x y c); auto; apply Ht).
      assert (Iw : I x y c w <= 0) by (apply (I_none_looks t); auto; apply Ht).
      destruct (Rle_lt_dec 0 (D x y w)) as [L|L]; [apply (new_empty_left x y c); assumption|].
      destruct Vu as [(d & Hd & Lu & Pu)| ->].
      + apply (new_empty_right x y d); auto; [|apply (I_none_looks u); auto|lra].
        apply Rnot_lt_le. intros Li. apply Nu, (hit_solid u y x d); auto.
      + exfalso. destruct (ghost_shape y x Hu) as (_ & _ & _ & Hh). pose proof (proj1 (Hh w Hw)) as L'. rewrite D_swap in L'. lra.
    - destruct (ghost_shape x y (proj1 Ht)) as (_ & _ & _ & Ht'). destruct (Ht' w Hw) as [L1 L2].
      destruct Vu as [(d & Hd & Lu & Pu)| ->].
      + apply (new_empty_right x y d); auto; [|apply (I_none_looks u); auto].
        apply Rnot_lt_le. intros Li. apply Nu, (hit_solid u y x d); auto.
      + destruct (ghost_shape y x Hu) as (_ & _ & _ & Hh). pose proof (proj1 (Hh w Hw)) as L'. rewrite D_swap in L'.
        assert (Z : D x y w = 0) by lra. apply line_empty; auto. apply Rnot_lt_le. intros Lq. apply L2. split; assumption.
  Qed.

  Lemma border_last : forall b, bd (b, gv) -> In b S /\ hull_edge (v :: S) v b /\
    exists a, hitv (Tri a b gv) /\ In a S.
  Proof.
    intros b [(t & Ht & St) (u & Hu & Su & Nu)]. cbn [flip fst snd] in Su.
    destruct (view_gv1 t b (proj1 Ht) St) as (a & -> & Ha & Hb & Hn). destruct (view_gv2 u b Hu Su) as (c & -> & _ & Hc & Hn').
    destruct (ghost_shape a b (proj1 Ht)) as (_ & _ & _ & Hh). split; [exact Hb|]. split; [|exists a; split; [exact Ht|exact Ha]].
    pose proof (neqv b Hb) as Nbv.
    intros w [<-|Hw].
    { split; [rewrite D_ab_a; lra|]. intros [_ L]. unfold dotp in L. replace (X v - X v) with 0 in L by ring. replace (Y v - Y v) with 0 in L by ring. lra. }
    destruct (proj1 (hit_ghost a b (proj1 Ht)) Ht) as [P|Hbt].
    - split; [apply (extreme_last a b c (proj1 Ht) P Hu Nu w Hw)|]. intros Hw2. destruct (between_param _ _ _ Hw2) as (k & Hk & Hr).
      pose proof (ratio_D k v b w a b Hr) as E. rewrite D_ab_b in E. pose proof (proj1 (Hh w Hw)). assert (Q := spp (1 - k) (D a b v)). lra.
    - destruct (between_param _ _ _ Hbt) as (k & Hk & [Rx Ry]). destruct (Hh w Hw) as [L1 L2]. split.
      + assert (E : D v b w = (1 - k) * D a b w) by (unfold area2; rewrite Rx, Ry; ring). rewrite E. apply mpn; lra.
      + intros Hw2. apply L2. destruct (between_param _ _ _ Hw2) as (j & Hj & [Wx Wy]).
        apply (param_between a b w (k + j * (1 - k))); [apply apartS; cbn [In]; auto| |split; [rewrite Wx, Rx|rewrite Wy, Ry]; ring].
        assert (Q1 := spp j (1 - k)). assert (Q2 := spp (1 - j) (1 - k)). lra.
  Qed.
  Lemma border_first : forall a, bd (gv, a) -> In a S /\ hull_edge (v :: S) a v /\
    exists b, hitv (Tri a b gv) /\ In b S.
  Proof.
    intros a [(t & Ht & St) (u & Hu & Su & Nu)]. cbn [flip fst snd] in Su.
    destruct (view_gv2 t a (proj1 Ht) St) as (b & -> & Ha & Hb & Hn). destruct (view_gv1 u a Hu Su) as (c & -> & Hc & _ & Hn').
    destruct (ghost_shape a b (proj1 Ht)) as (_ & _ & _ & Hh). split; [exact Ha|]. split; [|exists b; split; [exact Ht|exact Hb]].
    intros w [<-|Hw].
    { split; [rewrite D_ab_b; lra|]. intros [_ L]. unfold dotp in L. replace (X v - X v) with 0 in L by ring. replace (Y v - Y v) with 0 in L by ring. lra. }
    destruct (proj1 (hit_ghost a b (proj1 Ht)) Ht) as [P|Hbt].
    - split; [apply (extreme_first a b c (proj1 Ht) P Hu Nu w Hw)|]. intros Hw2. destruct (between_param _ _ _ Hw2) as (k & Hk & Hr).
      pose proof (ratio_D k a v w a b Hr) as E. rewrite D_ab_a in E. pose proof (proj1 (Hh w Hw)). assert (Q := spp k (D a b v)). lra.
    - destruct (between_param _ _ _ Hbt) as (k & Hk & [Rx Ry]). destruct (Hh w Hw) as [L1 L2]. split.
      + assert (E : D a v w = k * D a b w) by (unfold area2; rewrite Rx, Ry; ring). rewrite E. apply mpn; lra.
      + intros Hw2. apply L2. destruct (between_param _ _ _ Hw2) as (j & Hj & [Wx Wy]).
        apply (param_between a b w (j * k)); [apply apartS; cbn [In]; auto| |split; [rewrite Wx, Rx|rewrite Wy, Ry]; ring].
        assert (Q1 := spp j k). assert (Q2 := spp (1 - j) k). lra.
  Qed.

  Lemma border_kind : forall e, bd e ->
    (exists a b, e = (a, b) /\ a <> gv /\ b <> gv) \/ (exists b, e = (b, gv)) \/ (exists a, e = (gv, a)).
  Proof. intros e [(t & Ht & St) _]. exact (side_kind t e (proj1 Ht) St). Qed.

  (** The two points of a line through [v] that bound the same hull. *)
  Lemma same_end : forall b b', In b S -> In b' S -> D v b b' = 0 -> ~ strictly_between v b b' -> ~ strictly_between v b' b ->
    ~ strictly_between b b' v -> b = b'.
  Proof.
    intros y y' Hy Hy' Z N1 N2 N3.
    pose proof (d2S v y (or_introl eq_refl) (or_intror Hy) (fun E => neqv y Hy (eq_sym E))) as Pd.
    set (k := dotp v y v y' / d2 v y). assert (Ek : k * d2 v y = dotp v y v y') by (unfold k; field; lra).
    assert (Kx : X y' - X v = k * (X y - X v)).
    { apply (Rmult_eq_reg_r (d2 v y)); [|lra]. replace (k * (X y - X v) * d2 v y) with (k * d2 v y * (X y - X v)) by ring. rewrite Ek.
      assert (K : (X y' - X v) * d2 v y = dotp v y v y' * (X y - X v) - D v y y' * (Y y - Y v)) by (unfold d2, dotp, area2; ring). rewrite Z in K. lra. }
    assert (Ky : Y y' - Y v = k * (Y y - Y v)).
    { apply (Rmult_eq_reg_r (d2 v y)); [|lra]. replace (k * (Y y - Y v) * d2 v y) with (k * d2 v y * (Y y - Y v)) by ring. rewrite Ek.
      assert (K : (Y y' - Y v) * d2 v y = dotp v y v y' * (Y y - Y v) + D v y y' * (X y - X v)) by (unfold d2, dotp, area2; ring). rewrite Z in K. lra. }
    assert (Nv : ~ coincide v y) by (apply apartS; cbn [In]; auto; intros E; apply (neqv y Hy); auto).
    assert (Nv' : ~ coincide v y') by (apply apartS; cbn [In]; auto; intros E; apply (neqv y' Hy'); auto).
    destruct (Rtotal_order k 0) as [L|[L|L]]; [exfalso|exfalso|].
    - apply N3. split; [unfold area2; replace (X y') with (X v + k * (X y - X v)) by lra; replace (Y y') with (Y v + k * (Y y - Y v)) by lra; ring|].
      replace (dotp v y v y') with (k * d2 v y) by lra. apply snp; assumption.
    - apply Nv'. rewrite L in Kx, Ky. split; lra.
    - destruct (Rtotal_order k 1) as [L1|[L1|L1]]; [exfalso| |exfalso].
      + apply N1. apply (param_between v y y' k); auto. split; lra.
      + rewrite L1 in Kx, Ky. apply plain_coincide; [apply plainS, Hy|apply plainS, Hy'|split; lra].
      + apply N2. assert (Pi : 0 < / k) by (apply Rinv_0_lt_compat; lra).
        assert (Pi' : / k < 1) by (rewrite <- Rinv_1; apply Rinv_lt_contravar; lra).
        apply (param_between v y' y (/ k)); auto. split.
        * rewrite Kx. field_simplify; lra.
        * rewrite Ky. field_simplify; lra.
  Qed.
  Lemma not_across : forall a b w, In w S -> hitv (Tri a b gv) -> 0 < D a b v -> (w = a \/ w = b) -> forall w', In w' S -> ~ strictly_between w w' v.
  Proof.
    intros a b w Hw Ht P Hab w' Hw' Hbt. destruct (ghost_shape a b (proj1 Ht)) as (Ha & Hb & Hn & Hh).
    destruct (between_param _ _ _ Hbt) as (k & Hk & Hr). pose proof (ratio_D k w w' v a b Hr) as E.
    assert (Z : D a b w = 0) by (destruct Hab as [-> | ->]; [apply D_ab_a|apply D_ab_b]). pose proof (proj1 (Hh w' Hw')) as L.
    assert (Q := mpn k (D a b w')). rewrite Z in E. lra.
  Qed.
  Lemma last_one : forall b b', bd (b, gv) -> bd (b', gv) -> b = b'.
  Proof.
    intros b b' Hb Hb'. destruct (border_last b Hb) as (Sb & Hh & a & Ht & Sa). destruct (border_last b' Hb') as (Sb' & Hh' & a' & Ht' & Sa').
    destruct (proj1 (hit_ghost a b (proj1 Ht)) Ht) as [P|Hbt]; [|symmetry; exact (edge_alone a b a' b' (proj1 Ht) Hbt (proj1 Ht') Ht')].
    destruct (Hh b' (or_intror Sb')) as [L1 N1]. destruct (Hh' b (or_intror Sb)) as [L2 N2]. rewrite D_swap2 in L2.
    apply same_end; auto; [lra|]. apply (not_across a b b); auto.
  Qed.
  Lemma first_one : forall a a', bd (gv, a) -> bd (gv, a') -> a = a'.
  Proof.
    intros a a' Hb Hb'. destruct (border_first a Hb) as (Sb & Hh & b & Ht & Sa). destruct (border_first a' Hb') as (Sb' & Hh' & b' & Ht' & Sa').
    destruct (proj1 (hit_ghost a b (proj1 Ht)) Ht) as [P|Hbt].
    - destruct (Hh a' (or_intror Sb')) as [L1 N1]. destruct (Hh' a (or_intror Sb)) as [L2 N2].
      assert (E1 : D a v a' = - D v a a') by (apply D_swap). assert (E2 : D a' v a = D v a a') by (symmetry; apply D_rot).
      apply same_end; auto; [lra|intros B; apply N1, between_sym, B|intros B; apply N2, between_sym, B|]. apply (not_across a b a); auto.
    - pose proof (edge_alone a b a' b' (proj1 Ht) Hbt (proj1 Ht') Ht') as E. subst b'.
      assert (Et : Tri a b gv = Tri a' b gv) by (apply (excl _ _ (b, gv)); [apply Ht|apply Ht'|constructor|constructor]). injection Et as ->. reflexivity.
  Qed.

  (** ** The new mesh *)
  Lemma new_looks : forall p q, bd (p, q) -> looks (new_triangle (p, q) v) p q v.
  Proof.
    intros p q Hb. unfold new_triangle, ev1, ev2, looks. cbn [fst snd]. destruct (vghost p); [auto|]. destruct (vghost q); auto.
  Qed.
  Definition conf (t : tri) : bool := is_conflicting t v.
  Definition kept : list tri := filter (fun t => negb (conf t)) (tris tr).
  Definition gone : list tri := filter conf (tris tr).
  Definition bord : list (edge ArithR) := rim (sides gone).
  Definition fan : list tri := map (fun e => new_triangle e v) bord.

  Lemma gone_In : forall t, In t gone <-> hitv t.
  Proof. intros t. unfold gone, conf, hitv, hit. rewrite filter_In. reflexivity. Qed.
  Lemma kept_In : forall t, In t kept <-> In t (tris tr) /\ is_conflicting t v = false.
  Proof. intros t. unfold kept, conf. rewrite filter_In, negb_true_iff. reflexivity. Qed.
  Lemma bord_In : forall e, In e bord <-> bd e.
  Proof.
    intros e. unfold bord. rewrite rim_In, !sides_In. split.
    - intros [(t & Ht & St) Hn]. apply gone_In in Ht. split; [exists t; auto|].
      destruct (dl_closed _ _ HD t e (proj1 Ht) St) as (u & Hu & Su). exists u. repeat (split; [assumption|]).
      intros Hh. apply Hn. exists u. rewrite gone_In. auto.
    - intros [(t & Ht & St) (u & Hu & Su & Nu)]. split; [exists t; rewrite gone_In; auto|]. intros (u' & Hu' & Su'). apply gone_In in Hu'.
      apply Nu. rewrite (excl u u' (flip e)); auto. apply Hu'.
  Qed.
  Lemma sides3 : forall t, In t (tris tr) -> te1 t <> te2 t /\ te2 t <> te3 t /\ te3 t <> te1 t.
  Proof.
    intros t Ht. unfold te1, te2, te3. destruct (dl_shape _ _ HD t Ht) as [(x & y & z & -> & Hx & Hy & Hz & Hp)|(x & y & -> & Hx & Hy & Hn)]; cbn.
    - destruct (D_neq _ _ _ Hp) as (N1 & N2 & N3). repeat split; congruence.
    - pose proof (ngv x Hx). pose proof (ngv y Hy). repeat split; congruence.
  Qed.
  Lemma gone_sides_NoDup : NoDup (sides gone).
  Proof.
    apply sides_NoDup; [apply NoDup_filter, (dl_nodup _ _ HD)| |].
    - intros t Ht. apply gone_In in Ht. destruct (sides3 t (proj1 Ht)) as (N1 & N2 & N3). apply nodup3; assumption.
    - intros t t' e Ht Ht' H1 H2. apply gone_In in Ht, Ht'. exact (excl t t' e (proj1 Ht) (proj1 Ht') H1 H2).
  Qed.

  Lemma tsum_looks : forall f (t : tri) a b c, looks t a b c -> tsum f t = (f (a, b) + f (b, c) + f (c, a))%Z.
  Proof. intros f t a b c [-> |[-> | ->]]; rewrite tsum_eq; lia. Qed.

  Lemma bord_sum : forall f, anti f -> zsum f bord = zsum (tsum f) gone.
  Proof. intros f Hf. unfold bord. rewrite <- rim_sum, sides_sum; [reflexivity|exact Hf|exact gone_sides_NoDup]. Qed.

  Lemma fan_sum : forall f, anti f -> zsum (tsum f) fan = zsum (tsum f) gone.
  Proof.
    intros f Hf. unfold fan. rewrite zsum_map. set (g := fun e : edge ArithR => (f e + f (snd e, v) - f (fst e, v))%Z).
    rewrite (zsum_ext _ _ g).
    - assert (Hg : anti g) by (intros [p q]; unfold g; pose proof (Hf (p, q)); cbn [flip fst snd] in *; lia).
      rewrite (bord_sum g Hg). apply zsum_ext. intros [a b c] _. rewrite !tsum_eq. unfold g. cbn [fst snd]. lia.
    - intros [p q] Hb. apply bord_In in Hb. rewrite (tsum_looks f _ p q v (new_looks p q Hb)). unfold g. cbn [fst snd].
      pose proof (Hf (p, v)) as E. cbn [flip fst snd] in E. lia.
  Qed.

  Lemma mesh_balanced : balanced (kept ++ fan).
  Proof.
    intros f Hf. rewrite zsum_app, (fan_sum f Hf). pose proof (pm_balanced _ _ plain_tr f Hf) as E.
    rewrite (zsum_split _ _ conf) in E. fold gone in E. fold kept in E. lia.
  Qed.

  Lemma new_inj : forall e e', bd e -> bd e' -> new_triangle e v = new_triangle e' v -> e = e'.
  Proof.
    intros e e' He He'. destruct (border_kind e He) as [(a & b & -> & Ga & Gb)|[(b & ->)|(a & ->)]];
    destruct (border_kind e' He') as [(a' & b' & -> & Ga' & Gb')|[(b' & ->)|(a' & ->)]].
    - destruct (border_plain a b He Ga Gb) as (Ha & Hb & _). destruct (border_plain a' b' He' Ga' Gb') as (Ha' & Hb' & _).
      unfold new_triangle, ev1, ev2. cbn [fst snd]. rewrite (plainS a Ha), (plainS b Hb), (plainS a' Ha'), (plainS b' Hb'). intros E. injection E as -> ->. reflexivity.
    - destruct (border_plain a b He Ga Gb) as (Ha & Hb & _). destruct (border_last b' He') as (Hb' & _).
      unfold new_triangle, ev1, ev2. cbn [fst snd]. rewrite (plainS a Ha), (plainS b Hb), (plainS b' Hb'). cbn. intros E. injection E as -> -> _. contradiction.
    - destruct (border_plain a b He Ga Gb) as (Ha & Hb & _). destruct (border_first a' He') as (Ha' & _).
      unfold new_triangle, ev1, ev2. cbn [fst snd]. rewrite (plainS a Ha), (plainS b Hb). cbn. intros E. injection E as -> -> _. contradiction.
    - destruct (border_last b He) as (Hb & _). destruct (border_plain a' b' He' Ga' Gb') as (Ha' & Hb' & _).
      unfold new_triangle, ev1, ev2. cbn [fst snd]. rewrite (plainS b Hb), (plainS a' Ha'), (plainS b' Hb'). cbn. intros E. injection E as <- <- _. contradiction.
    - destruct (border_last b He) as (Hb & _). destruct (border_last b' He') as (Hb' & _).
      unfold new_triangle, ev1, ev2. cbn [fst snd]. rewrite (plainS b Hb), (plainS b' Hb'). cbn. intros E. injection E as ->. reflexivity.
    - destruct (border_last b He) as (Hb & _). destruct (border_first a' He') as (Ha' & _).
      unfold new_triangle, ev1, ev2. cbn [fst snd]. rewrite (plainS b Hb). cbn. intros E. injection E as <- <-. contradiction.
    - destruct (border_first a He) as (Ha & _). destruct (border_plain a' b' He' Ga' Gb') as (Ha' & Hb' & _).
      unfold new_triangle, ev1, ev2. cbn [fst snd]. rewrite (plainS a' Ha'), (plainS b' Hb'). cbn. intros E. injection E as <- <- _. contradiction.
    - destruct (border_first a He) as (Ha & _). destruct (border_last b' He') as (Hb' & _).
      unfold new_triangle, ev1, ev2. cbn [fst snd]. rewrite (plainS b' Hb'). cbn. intros E. injection E as -> <-. contradiction.
    - destruct (border_first a He) as (Ha & _). destruct (border_first a' He') as (Ha' & _).
      unfold new_triangle, ev1, ev2. cbn. intros E. injection E as ->. reflexivity.
  Qed.

  Lemma new_shape : forall e, bd e ->
    (exists a b, e = (a, b) /\ new_triangle e v = Tri a b v /\ In a S /\ In b S /\ 0 < D a b v) \/
    (exists b, e = (b, gv) /\ new_triangle e v = Tri v b gv /\ In b S) \/
    (exists a, e = (gv, a) /\ new_triangle e v = Tri a v gv /\ In a S).
  Proof.
    intros e He. destruct (border_kind e He) as [(a & b & -> & Ga & Gb)|[(b & ->)|(a & ->)]].
    - left. destruct (border_plain a b He Ga Gb) as (Ha & Hb & _ & Hp & _). exists a, b. split; [reflexivity|]. split; [|auto].
      unfold new_triangle, ev1, ev2. cbn [fst snd]. rewrite (plainS a Ha), (plainS b Hb). reflexivity.
    - right; left. destruct (border_last b He) as (Hb & _). exists b. split; [reflexivity|]. split; [|exact Hb].
      unfold new_triangle, ev1, ev2. cbn [fst snd]. rewrite (plainS b Hb). reflexivity.
    - right; right. destruct (border_first a He) as (Ha & _). exists a. auto.
  Qed.
  Lemma vgv : v <> gv.
  Proof. intros E. pose proof plainv as P. rewrite E in P. discriminate. Qed.
  Lemma old_corner : forall t, In t (tris tr) -> ~ corner_of v t.
  Proof.
    pose proof vgv as Gv. intros t Ht Hc. destruct (dl_shape _ _ HD t Ht) as [(x & y & z & -> & Hx & Hy & Hz & Hp)|(x & y & -> & Hx & Hy & Hn)];
      inversion Hc; subst; first [contradiction | congruence].
  Qed.
  Lemma fan_In : forall t, In t fan <-> exists e, bd e /\ t = new_triangle e v.
  Proof.
    intros t. unfold fan. rewrite in_map_iff. split; intros (e & H1 & H2); exists e; rewrite bord_In in *; auto.
  Qed.

  Lemma solid_more : forall t, solid_over S t \/ ghost_over S t -> solid_over (v :: S) t \/ ghost_over (v :: S) t.
  Proof.
    intros t [(x & y & z & -> & Hx & Hy & Hz & Hp)|(x & y & -> & Hx & Hy & Hn)]; [left; exists x, y, z|right; exists x, y]; cbn [In]; auto 8.
  Qed.
  Lemma mesh_shape : forall t, In t (kept ++ fan) -> solid_over (v :: S) t \/ ghost_over (v :: S) t.
  Proof.
    intros t Ht. apply in_app_or in Ht. destruct Ht as [Ht|Ht].
    - apply kept_In in Ht. apply solid_more, (dl_shape _ _ HD), Ht.
    - apply fan_In in Ht. destruct Ht as (e & He & ->). destruct (new_shape e He) as [(a & b & -> & -> & Ha & Hb & Hp)|[(b & -> & -> & Hb)|(a & -> & -> & Ha)]].
      + left. exists a, b, v. cbn [In]. auto 8.
      + right. exists v, b. cbn [In]. repeat (split; [auto|]). intros E. apply (neqv b Hb). auto.
      + right. exists a, v. cbn [In]. repeat (split; [auto|]). apply neqv, Ha.
  Qed.
  Lemma mesh_NoDup : NoDup (kept ++ fan).
  Proof.
    apply nodup_app.
    - apply NoDup_filter, (dl_nodup _ _ HD).
    - unfold fan. assert (Hn : NoDup bord) by (apply NoDup_filter, gone_sides_NoDup).
      assert (Hi : forall e e', In e bord -> In e' bord -> new_triangle e v = new_triangle e' v -> e = e') by (intros e e' H1 H2; apply new_inj; apply bord_In; assumption).
      revert Hn Hi. generalize bord. induction l as [|x l IH]; intros Hn Hi; [constructor|]. inversion Hn as [|? ? Hx Hn']; subst. cbn. constructor.
      + rewrite in_map_iff. intros (y & Ey & Hy). apply Hx. rewrite (Hi x y); auto with datatypes.
      + apply IH; auto with datatypes.
    - intros t Ht Hf. apply kept_In in Ht. apply fan_In in Hf. destruct Hf as (e & _ & ->). exact (old_corner _ (proj1 Ht) (new_triangle_corner e v)).
  Qed.
  Lemma mesh_hull : forall a b, In (Tri a b gv) (kept ++ fan) -> hull_edge (v :: S) a b.
  Proof.
    intros a b Ht. apply in_app_or in Ht. destruct Ht as [Ht|Ht].
    - apply kept_In in Ht. destruct Ht as [Ht Hc]. destruct (ghost_shape a b Ht) as (Ha & Hb & Hn & Hh).
      assert (Nh : ~ hitv (Tri a b gv)) by (intros [_ E]; congruence). rewrite (hit_ghost a b Ht) in Nh.
      intros w [<-|Hw]; [|apply Hh, Hw]. split; [apply Rnot_lt_le; tauto|tauto].
    - apply fan_In in Ht. destruct Ht as (e & He & Et). destruct (new_shape e He) as [(x & y & -> & E & Ha & Hb & Hp)|[(y & -> & E & Hb)|(x & -> & E & Ha)]]; rewrite E in Et.
      + injection Et as _ _ Eg. exfalso; apply vgv; auto.
      + injection Et as -> ->. apply border_last, He.
      + injection Et as -> ->. apply border_first, He.
  Qed.
  Lemma mesh_tail : forall a a' b, In (Tri a b gv) (kept ++ fan) -> In (Tri a' b gv) (kept ++ fan) -> a = a'.
  Proof.
    assert (K : forall a a' b, In (Tri a b gv) kept -> In (Tri a' b gv) fan -> False).
    { intros a a' b Ht Hf. apply kept_In in Ht. destruct Ht as [Ht Hc]. apply fan_In in Hf. destruct Hf as (e & He & Et).
      destruct (new_shape e He) as [(x & y & -> & E & Ha & Hb & Hp)|[(y & -> & E & Hb)|(x & -> & E & Ha)]]; rewrite E in Et.
      - injection Et as _ _ Eg. exfalso; apply vgv; auto.
      - injection Et as -> ->. destruct (border_last y He) as (_ & _ & a0 & Hh & _).
        assert (Eq : Tri a y gv = Tri a0 y gv) by (apply (excl _ _ (y, gv)); auto; [apply Hh|constructor|constructor]). destruct Hh as [_ Hh]. congruence.
      - injection Et as -> ->. apply (old_corner _ Ht). constructor. }
    intros a a' b Ht Ht'. apply in_app_or in Ht, Ht'. destruct Ht as [Ht|Ht], Ht' as [Ht'|Ht'].
    - apply kept_In in Ht, Ht'. exact (pm_tail _ _ plain_tr a a' b (proj1 Ht) (proj1 Ht')).
    - destruct (K _ _ _ Ht Ht').
    - destruct (K _ _ _ Ht' Ht).
    - apply fan_In in Ht, Ht'. destruct Ht as (e & He & Et), Ht' as (e' & He' & Et').
      destruct (new_shape e He) as [(x & y & -> & E & Ha & Hb & Hp)|[(y & -> & E & Hb)|(x & -> & E & Ha)]]; rewrite E in Et;
      destruct (new_shape e' He') as [(x' & y' & -> & E' & Ha' & Hb' & Hp')|[(y' & -> & E' & Hb')|(x' & -> & E' & Ha')]]; rewrite E' in Et';
      try (injection Et as _ _ Eg; exfalso; apply vgv; auto; fail); try (injection Et' as _ _ Eg; exfalso; apply vgv; auto; fail).
      + injection Et as -> _. injection Et' as -> _. reflexivity.
      + injection Et as _ ->. injection Et' as _ Ev. subst. contradiction.
      + injection Et as _ ->. injection Et' as _ Ev. subst. contradiction.
      + injection Et as -> _. injection Et' as -> _. apply first_one; assumption.
  Qed.
  Lemma plain_new : plain_mesh (v :: S) (kept ++ fan).
  Proof.
    split; [exact (rs_plain _ HR)|exact mesh_NoDup|exact mesh_shape|exact mesh_balanced|exact mesh_hull|exact mesh_tail].
  Qed.

  (** New triangles sharing a side are the same. *)
  Lemma base_one : forall p q a b a' b' c c', In (Tri a b v) fan -> In (Tri a' b' v) fan -> looks (Tri a b v) p q c -> looks (Tri a' b' v) p q c' ->
    0 < D p q c -> 0 < D p q c' -> Tri a b v = Tri a' b' v.
  Proof.
    intros p q a b a' b' c c' Ht Ht' Hl Hl' Hp Hp'. destruct (common_side p q c c' Hp Hp') as (z & (Z1 & Z2 & Z3) & (Z1' & Z2' & Z3')).
    assert (K : forall x y w p q c, looks (Tri x y w) p q c -> 0 < D p q c -> 0 < D p q z -> 0 < D q c z -> 0 < D c p z -> tw x y w z = 1%Z).
    { clear. intros x y w p q c Hl Hp H1 H2 H3. pose proof (inside_tw p q c z Hp H1 H2 H3) as E.
      destruct Hl as [Et|[Et|Et]]; injection Et as -> -> ->; [exact E|rewrite tw_rot; exact E|rewrite (tw_rot q c p), (tw_rot p q c); exact E]. }
    apply (no_overlap (v :: S) (kept ++ fan) plain_new z).
    - apply in_or_app; auto.
    - apply in_or_app; auto.
    - exact plainv.
    - exact plainv.
    - apply (K a b v p q c); assumption.
    - apply (K a' b' v p q c'); assumption.
  Qed.

  Lemma new_excl : forall e e' x, bd e -> bd e' -> side_of x (new_triangle e v) -> side_of x (new_triangle e' v) -> new_triangle e v = new_triangle e' v.
  Proof.
    intros e e' x He He'. 
    assert (Fe : In (new_triangle e v) fan) by (apply fan_In; eauto). assert (Fe' : In (new_triangle e' v) fan) by (apply fan_In; eauto).
    destruct (new_shape e He) as [(a & b & Ee & E & Ha & Hb & Hp)|[(b & Ee & E & Hb)|(a & Ee & E & Ha)]]; rewrite E in *;
    destruct (new_shape e' He') as [(a' & b' & Ee' & E' & Ha' & Hb' & Hp')|[(b' & Ee' & E' & Hb')|(a' & Ee' & E' & Ha')]]; rewrite E' in *;
    intros S1 S2.
    - inversion S1; subst; inversion S2; subst; try contradiction; try reflexivity.
      + apply (base_one b' v a b' a' b' a a'); auto; [right; right; reflexivity|right; right; reflexivity|rewrite D_rot; assumption|rewrite D_rot; assumption].
      + apply (base_one v a' a' b a' b' b b'); auto; [right; left; reflexivity|right; left; reflexivity|rewrite D_rot2; assumption|rewrite D_rot2; assumption].
    - exfalso. subst e'. destruct (border_last b' He') as (_ & Hh & _). pose proof (ngv a Ha). pose proof (ngv b Hb). pose proof vgv.
      inversion S1; subst; inversion S2; subst; try contradiction; try congruence.
      pose proof (proj1 (Hh b (or_intror Hb))) as L. rewrite D_rot2 in L. lra.
    - exfalso. subst e'. destruct (border_first a' He') as (_ & Hh & _). pose proof (ngv a Ha). pose proof (ngv b Hb). pose proof vgv.
      inversion S1; subst; inversion S2; subst; try contradiction; try congruence.
      pose proof (proj1 (Hh a (or_intror Ha))) as L. rewrite D_rot in L. lra.
    - exfalso. subst e. destruct (border_last b He) as (_ & Hh & _). pose proof (ngv a' Ha'). pose proof (ngv b' Hb'). pose proof vgv.
      inversion S1; subst; inversion S2; subst; try contradiction; try congruence.
      pose proof (proj1 (Hh b' (or_intror Hb'))) as L. rewrite D_rot2 in L. lra.
    - subst e e'. rewrite (last_one b b' He He'). reflexivity.
    - exfalso. pose proof (ngv b Hb). pose proof (ngv a' Ha'). pose proof vgv.
      inversion S1; subst; inversion S2; subst; try contradiction; congruence.
    - exfalso. subst e. destruct (border_first a He) as (_ & Hh & _). pose proof (ngv a' Ha'). pose proof (ngv b' Hb'). pose proof vgv.
      inversion S1; subst; inversion S2; subst; try contradiction; try congruence.
      pose proof (proj1 (Hh a' (or_intror Ha'))) as L. rewrite D_rot in L. lra.
    - exfalso. pose proof (ngv a Ha). pose proof (ngv b' Hb'). pose proof vgv.
      inversion S1; subst; inversion S2; subst; try contradiction; congruence.
    - subst e e'. rewrite (first_one a a' He He'). reflexivity.
  Qed.

  Lemma new_fresh : forall e x, bd e -> side_of x (new_triangle e v) -> x = e \/ forall t, In t (tris tr) -> ~ side_of x t.
  Proof.
    intros [p q] x He Sx. apply (looks_sides _ p q v (new_looks p q He)) in Sx. destruct Sx as [-> |[-> | ->]]; [auto| |]; right; intros t Ht St;
      apply (old_corner t Ht); [apply (side_corner2 _ _ St)|apply (side_corner1 _ _ St)].
  Qed.

  (** ** Closedness *)
  Lemma zsum_one : forall X (f : X -> Z) l x, (forall z, In z l -> (0 <= f z)%Z) -> In x l -> (1 <= f x)%Z -> (1 <= zsum f l)%Z.
  Proof.
    intros X f l x Hf Hx Fx. apply in_split in Hx. destruct Hx as (l1 & l2 & ->). rewrite zsum_app, zsum_cons.
    assert (0 <= zsum f l1)%Z by (apply zsum_nonneg; intros; apply Hf, in_or_app; auto).
    assert (0 <= zsum f l2)%Z by (apply zsum_nonneg; intros; apply Hf, in_or_app; right; right; auto). lia.
  Qed.
  Lemma border_irrefl : forall p, ~ bd (p, p).
  Proof.
    intros p Hb. destruct (border_kind _ Hb) as [(a & b & E & Ga & Gb)|[(b & E)|(a & E)]]; injection E as E1 E2.
    - subst a b. destruct (border_plain p p Hb Ga Gb) as (_ & _ & Hn & _). congruence.
    - subst b. rewrite E2 in Hb. destruct (border_last _ Hb) as (Hg & _). exact (ghost_not_S Hg).
    - subst a. rewrite E1 in Hb. destruct (border_first _ Hb) as (Hg & _). exact (ghost_not_S Hg).
  Qed.
  Definition ind (x y : pnt) : Z := if vdec x y then 1%Z else 0%Z.
  Lemma ind_anti : forall x, anti (fun e : edge ArithR => (ind x (snd e) - ind x (fst e))%Z).
  Proof. intros x [p q]. cbn [flip fst snd]. lia. Qed.
  Lemma ind_zero : forall x, zsum (fun e : edge ArithR => (ind x (snd e) - ind x (fst e))%Z) bord = 0%Z.
  Proof.
    intros x. rewrite (bord_sum _ (ind_anti x)). rewrite (zsum_ext _ _ (fun _ => 0%Z)).
    - clear. induction gone as [|t l IH]; [reflexivity|]. rewrite zsum_cons, IH. reflexivity.
    - intros [a b c] _. rewrite tsum_eq. cbn [fst snd]. lia.
  Qed.
  Lemma border_next : forall p q, bd (p, q) -> exists r, bd (q, r).
  Proof.
    intros p q Hb. destruct (in_dec vdec q (map fst bord)) as [Hi|Hn].
    - apply in_map_iff in Hi. destruct Hi as ([x r] & E & Hr). cbn in E. subst x. exists r. apply bord_In, Hr.
    - exfalso. pose proof (ind_zero q) as Z.
      assert (1 <= zsum (fun e : edge ArithR => (ind q (snd e) - ind q (fst e))%Z) bord)%Z; [|lia].
      apply (zsum_one _ _ _ (p, q)).
      + intros [x y] Hx. cbn [fst snd]. unfold ind. destruct (vdec q x) as [E|_]; [|destruct (vdec q y); lia].
        exfalso. apply Hn. apply in_map_iff. exists (x, y). auto.
      + apply bord_In, Hb.
      + cbn [fst snd]. unfold ind. destruct (vdec q q); [|congruence]. destruct (vdec q p) as [E|_]; [|lia].
        subst q. destruct (border_irrefl p Hb).
  Qed.
  Lemma border_prev : forall p q, bd (p, q) -> exists o, bd (o, p).
  Proof.
    intros p q Hb. destruct (in_dec vdec p (map snd bord)) as [Hi|Hn].
    - apply in_map_iff in Hi. destruct Hi as ([o x] & E & Hr). cbn in E. subst x. exists o. apply bord_In, Hr.
    - exfalso. pose proof (ind_zero p) as Z. pose proof (zsum_opp _ (fun e : edge ArithR => (ind p (snd e) - ind p (fst e))%Z) bord) as Zo. rewrite Z in Zo.
      assert (1 <= zsum (fun e : edge ArithR => (- (ind p (snd e) - ind p (fst e)))%Z) bord)%Z; [|lia].
      apply (zsum_one _ _ _ (p, q)).
      + intros [x y] Hx. cbn [fst snd]. unfold ind. destruct (vdec p y) as [E|_]; [|destruct (vdec p x); lia].
        exfalso. apply Hn. apply in_map_iff. exists (x, y). auto.
      + apply bord_In, Hb.
      + cbn [fst snd]. unfold ind. destruct (vdec p p); [|congruence]. destruct (vdec p q) as [E|_]; [|lia].
        subst q. destruct (border_irrefl p Hb).
  Qed.

  Lemma mesh_closed : forall t e, In t (kept ++ fan) -> side_of e t -> exists t', In t' (kept ++ fan) /\ side_of (flip e) t'.
  Proof.
    intros t e Ht Se. apply in_app_or in Ht. destruct Ht as [Ht|Ht].
    - apply kept_In in Ht. destruct Ht as [Ht Hc]. destruct (dl_closed _ _ HD t e Ht Se) as (u & Hu & Su).
      destruct (is_conflicting u v) eqn:Cu.
      + exists (new_triangle (flip e) v). split; [|apply new_triangle_side]. apply in_or_app. right. apply fan_In. exists (flip e). split; [|reflexivity].
        split; [exists u; split; [split; assumption|exact Su]|]. exists t. rewrite flip_flip. repeat (split; [assumption|]). intros [_ E]. congruence.
      + exists u. split; [apply in_or_app; left; apply kept_In; auto|exact Su].
    - apply fan_In in Ht. destruct Ht as ([p q] & He & ->). apply (looks_sides _ p q v (new_looks p q He)) in Se. destruct Se as [-> |[-> | ->]].
      + destruct He as [_ (u & Hu & Su & Nu)]. exists u. split; [|exact Su]. apply in_or_app. left. apply kept_In. split; [exact Hu|].
        destruct (is_conflicting u v) eqn:Cu; [|reflexivity]. destruct Nu. split; assumption.
      + destruct (border_next p q He) as (r & Hr). exists (new_triangle (q, r) v). split; [apply in_or_app; right; apply fan_In; eauto|].
        apply (looks_sides _ q r v (new_looks q r Hr)). auto.
      + destruct (border_prev p q He) as (o & Ho). exists (new_triangle (o, p) v). split; [apply in_or_app; right; apply fan_In; eauto|].
        apply (looks_sides _ o p v (new_looks o p Ho)). auto.
  Qed.

  (** Every corner of a conflicting triangle is on the border. *)
  Lemma max_rank : forall (P : tri -> bool) l, (exists t, In t l /\ P t = true) -> exists t, In t l /\ P t = true /\ forall u, In u l -> P u = true -> (rank u <= rank t)%nat.
  Proof.
    intros P l. induction l as [|x l IH]; intros (t & Ht & Pt); [destruct Ht|].
    destruct (existsb P l) eqn:Ex.
    - apply existsb_exists in Ex. destruct (IH Ex) as (m & Hm & Pm & Hmax). destruct (P x) eqn:Px.
      + destruct (le_lt_dec (rank m) (rank x)) as [L|L].
        * exists x. split; [left; reflexivity|]. split; [exact Px|]. intros u [<-|Hu] Pu; [lia|]. specialize (Hmax u Hu Pu). lia.
        * exists m. split; [right; exact Hm|]. split; [exact Pm|]. intros u [<-|Hu] Pu; [lia|auto].
      + exists m. split; [right; exact Hm|]. split; [exact Pm|]. intros u [<-|Hu] Pu; [congruence|auto].
    - assert (Nx : forall u, In u l -> P u = true -> False).
      { intros u Hu Pu. assert (existsb P l = true) by (apply existsb_exists; eauto). congruence. }
      exists x. destruct Ht as [<-|Ht]; [|destruct (Nx t Ht Pt)]. split; [left; reflexivity|]. split; [exact Pt|].
      intros u [<-|Hu] Pu; [lia|destruct (Nx u Hu Pu)].
  Qed.
  Lemma corner_sides : forall (t : tri) w, In t (tris tr) -> corner_of w t -> exists x y, side_of (w, x) t /\ side_of (y, w) t /\ (w, x) <> (y, w).
  Proof.
    intros t w Ht Hc. destruct (sides3 t Ht) as (N1 & N2 & N3). unfold te1, te2, te3 in *. inversion Hc; subst; cbn in *.
    - exists b, c. repeat split; [constructor|constructor|congruence].
    - exists c, a. repeat split; [constructor|constructor|congruence].
    - exists a, b. repeat split; [constructor|constructor|congruence].
  Qed.
  Lemma border_at : forall t w, hitv t -> corner_of w t -> exists e, bd e /\ (w = fst e \/ w = snd e).
  Proof.
    intros t w Ht Hc. set (P := fun u : tri => if in_dec vdec w (tverts u) then true else false).
    assert (HP : forall u, P u = true <-> corner_of w u).
    { intros u. unfold P. rewrite corner_of_tverts. destruct (in_dec vdec w (tverts u)); intuition congruence. }
    destruct (max_rank P gone) as (m & Hm & Pm & Hmax); [exists t; rewrite gone_In, HP; auto|]. apply gone_In in Hm. apply HP in Pm.
    destruct (corner_sides m w (proj1 Hm) Pm) as (x & y & S1 & S2 & Hne).
    destruct (dl_closed _ _ HD m (w, x) (proj1 Hm) S1) as (u1 & Hu1 & Su1). destruct (dl_closed _ _ HD m (y, w) (proj1 Hm) S2) as (u2 & Hu2 & Su2).
    destruct (is_conflicting u1 v) eqn:C1.
    2:{ exists (w, x). split; [|auto]. split; [exists m; auto|]. exists u1. repeat (split; [assumption|]). intros [_ E]. congruence. }
    destruct (is_conflicting u2 v) eqn:C2.
    2:{ exists (y, w). split; [|auto]. split; [exists m; auto|]. exists u2. repeat (split; [assumption|]). intros [_ E]. congruence. }
    exfalso. apply Hne. assert (H1 : hitv u1) by (split; assumption). assert (H2 : hitv u2) by (split; assumption). apply (one m); auto.
    - destruct (link m u1 (w, x) Hm H1 S1 Su1) as [U|U]; [exact U|]. exfalso.
      assert (L : (rank m < rank u1)%nat) by (apply (rank_up u1 m (flip (w, x))); auto).
      assert (L' : (rank u1 <= rank m)%nat) by (apply Hmax; [apply gone_In, H1|apply HP; exact (side_corner2 _ _ Su1)]). lia.
    - destruct (link m u2 (y, w) Hm H2 S2 Su2) as [U|U]; [exact U|]. exfalso.
      assert (L : (rank m < rank u2)%nat) by (apply (rank_up u2 m (flip (y, w))); auto).
      assert (L' : (rank u2 <= rank m)%nat) by (apply Hmax; [apply gone_In, H2|apply HP; exact (side_corner1 _ _ Su2)]). lia.
  Qed.

  (** ** Any mesh made of these triangles is Delaunay for one more point *)
  Lemma mesh_delaunay : forall tr' : mesh, adj_sound tr' -> adj_complete tr' -> NoDup (tris tr') ->
    (forall x, In x (tris tr') <-> (In x (tris tr) /\ is_conflicting x v = false) \/ exists e, bd e /\ x = new_triangle e v) ->
    delaunay (v :: S) tr'.
  Proof.
    intros tr' A1 A2 A3 Hx.
    assert (HI : forall x, In x (tris tr') <-> In x (kept ++ fan)).
    { intros x. rewrite in_app_iff, Hx, kept_In, fan_In. reflexivity. }
    assert (Hh0 : exists t, hitv t).
    { destruct Hstrict as (t & Ht & He). exists t. split; [exact Ht|]. unfold is_conflicting. rewrite He. reflexivity. }
    split; auto.
    - intros t Ht. apply mesh_shape, HI, Ht.
    - intros t e Ht Se. destruct (mesh_closed t e (proj1 (HI t) Ht) Se) as (t' & Ht' & Se'). exists t'. rewrite HI. auto.
    - intros a b c Ht Gc o w Hw E1 E2. 
      assert (Ii : 0 < D a b c /\ I a b c w <= 0).
      { apply Hx in Ht. destruct Ht as [[Ht Hc]|(e & He & Et)].
        - destruct (dl_shape _ _ HD _ Ht) as [(x & y & z & E & Ha & Hb & Hcs & Hp)|(x & y & E & _)]; [|injection E as _ _ ->; discriminate].
          injection E as <- <- <-. split; [exact Hp|]. destruct Hw as [<-|Hw]; [|apply I_none; auto].
          apply Rnot_lt_le. intros L. assert (hitv (Tri a b c)) by (apply (hit_solid (Tri a b c) a b c); auto; left; reflexivity). destruct H as [_ H]. congruence.
        - destruct (new_shape e He) as [(x & y & -> & E & Ha & Hb & Hp)|[(y & -> & E & Hb)|(x & -> & E & Ha)]]; rewrite E in Et; injection Et as -> -> ->; try discriminate.
          split; [exact Hp|]. apply (border_plain x y He); [apply ngv, Ha|apply ngv, Hb|exact Hw]. }
      destruct Ii as [Hp Hi]. rewrite (incircle_power a b c w o E1 E2) in Hi. apply Rnot_lt_le. intros L. assert (Q := spp (D a b c) (d2 o a - d2 o w)). lra.
    - intros a b Ht. apply mesh_hull, HI, Ht.
    - assert (Hfan : forall e, bd e -> In (new_triangle e v) (tris tr')) by (intros e He; apply Hx; eauto).
      intros w [<-|Hw].
      + destruct Hh0 as (t & Ht). destruct t as [x y z]. destruct (border_at _ x Ht) as (e & He & _); [constructor|].
        exists (new_triangle e v). split; [apply Hfan, He|apply new_triangle_corner].
      + destruct (dl_used _ _ HD w Hw) as (t & Ht & Hc). destruct (is_conflicting t v) eqn:Ct.
        * destruct (border_at t w (conj Ht Ct) Hc) as (e & He & Hwe). exists (new_triangle e v). split; [apply Hfan, He|].
          pose proof (new_triangle_side e v) as Se. destruct Hwe as [-> | ->]; [apply (side_corner1 _ _ Se)|apply (side_corner2 _ _ Se)].
        * exists t. split; [apply Hx; auto|exact Hc].
    - intros a b Ht Ht'. exfalso. apply HI in Ht, Ht'. pose proof (mesh_hull a b Ht) as H1. pose proof (mesh_hull b a Ht') as H2.
      assert (Z : forall w, In w (v :: S) -> D a b w = 0).
      { intros w Hw. pose proof (proj1 (H1 w Hw)). pose proof (proj1 (H2 w Hw)) as L. rewrite D_swap in L. lra. }
      assert (Pd : 0 < d2 a b).
      { destruct (mesh_shape _ Ht) as [(x & y & z & E & Ha & Hb & Hc & _)|(x & y & E & Ha & Hb & Hn)].
        - injection E as -> -> <-. apply (rs_plain _ HR) in Hc. discriminate.
        - injection E as <- <-. apply d2S; assumption. }
      destruct strict_cases as [(x & y & z & _ & Ha & Hb & Hc & Hp)|(x & y & Hg & Hp)].
      + pose proof (line3 a b x y z (Z x (or_intror Ha)) (Z y (or_intror Hb)) (Z z (or_intror Hc)) Pd). lra.
      + destruct (ghost_shape x y Hg) as (Ha & Hb & _). pose proof (line3 a b x y v (Z x (or_intror Ha)) (Z y (or_intror Hb)) (Z v (or_introl eq_refl)) Pd). lra.
    - intros E. destruct Hh0 as ([x y z] & Ht). destruct (border_at _ x Ht) as (e & He & _); [constructor|].
      assert (Hi : In (new_triangle e v) (tris tr')) by (apply Hx; eauto). rewrite E in Hi. destruct Hi.
  Qed.
End Local.
