(** P_D3.v — sums over the sides of a mesh, and the degree argument: the
    counterclockwise triangles of a balanced mesh with a convex rim do not
    overlap. *)

From Coq Require Import Reals List ZArith Lra Lia Psatz Bool Permutation.
From Verif Require Import Base Arith Geometry Elements ArithR Spec SpecR SpecD P_Base P_Trn P_R1 P_R5 P_D1 P_D2.
Import ListNotations.

Section Sums.
  Context {A : Arith}.
  Notation edge := (edge A).
  Notation triangle := (triangle A).
  Local Open Scope Z_scope.

  Definition zsum {X} (f : X -> Z) (l : list X) : Z := fold_right Z.add 0 (map f l).
  Lemma zsum_cons : forall X (f : X -> Z) x l, zsum f (x :: l) = f x + zsum f l.
  Proof. reflexivity. Qed.
  Lemma zsum_app : forall X (f : X -> Z) l l', zsum f (l ++ l') = zsum f l + zsum f l'.
  Proof. intros X f l l'. induction l as [|x l IH]; [reflexivity|]. cbn [app]. rewrite !zsum_cons, IH. lia. Qed.
  Lemma zsum_perm : forall X (f : X -> Z) l l', Permutation l l' -> zsum f l = zsum f l'.
  Proof. intros X f l l' Hp. induction Hp; rewrite ?zsum_cons; try lia. Qed.
  Lemma zsum_map : forall X Y (g : X -> Y) (f : Y -> Z) l, zsum f (map g l) = zsum (fun x => f (g x)) l.
  Proof. intros. unfold zsum. rewrite map_map. reflexivity. Qed.
  Lemma zsum_ext : forall X (f g : X -> Z) l, (forall x, In x l -> f x = g x) -> zsum f l = zsum g l.
  Proof.
    intros X f g l He. induction l as [|x l IH]; [reflexivity|]. rewrite !zsum_cons, IH, He; auto with datatypes.
  Qed.
  Lemma zsum_opp : forall X (f : X -> Z) l, zsum (fun x => - f x) l = - zsum f l.
  Proof. intros X f l. induction l as [|x l IH]; [reflexivity|]. rewrite !zsum_cons, IH. lia. Qed.
  Lemma zsum_add : forall X (f g : X -> Z) l, zsum (fun x => f x + g x) l = zsum f l + zsum g l.
  Proof. intros X f g l. induction l as [|x l IH]; [reflexivity|]. rewrite !zsum_cons, IH. lia. Qed.
  Lemma zsum_split : forall X (f : X -> Z) (p : X -> bool) l,
    zsum f l = zsum f (filter p l) + zsum f (filter (fun x => negb (p x)) l).
  Proof.
    intros X f p l. induction l as [|x l IH]; [reflexivity|]. cbn [filter]. destruct (p x); cbn [negb]; rewrite !zsum_cons, IH; lia.
  Qed.
  Lemma zsum_nonneg : forall X (f : X -> Z) l, (forall x, In x l -> 0 <= f x) -> 0 <= zsum f l.
  Proof.
    intros X f l Hf. induction l as [|x l IH]; [cbn; lia|]. rewrite zsum_cons.
    pose proof (Hf x (or_introl eq_refl)). assert (0 <= zsum f l) by (apply IH; auto with datatypes). lia.
  Qed.
  Lemma zsum_nonpos : forall X (f : X -> Z) l, (forall x, In x l -> f x <= 0) -> zsum f l <= 0.
  Proof.
    intros X f l Hf. induction l as [|x l IH]; [cbn; lia|]. rewrite zsum_cons.
    pose proof (Hf x (or_introl eq_refl)). assert (zsum f l <= 0) by (apply IH; auto with datatypes). lia.
  Qed.
  (** At most one positive term. *)
  Lemma zsum_le_one : forall X (f : X -> Z) l, NoDup l -> (forall x, In x l -> f x <= 1) ->
    (forall x y, In x l -> In y l -> 0 < f x -> 0 < f y -> x = y) -> zsum f l <= 1.
  Proof.
    intros X f l Hn Hf Hu. induction l as [|x l IH]; [cbn; lia|]. rewrite zsum_cons. inversion Hn as [|? ? Hx Hn']; subst.
    pose proof (Hf x (or_introl eq_refl)) as Hx1. destruct (Z_lt_le_dec 0 (f x)) as [Hp|Hp].
    - assert (zsum f l <= 0); [|lia]. apply zsum_nonpos. intros y Hy. destruct (Z_lt_le_dec 0 (f y)) as [Hq|Hq]; [|exact Hq].
      exfalso. apply Hx. rewrite (Hu x y); auto with datatypes.
    - assert (zsum f l <= 1); [|lia]. apply IH; auto with datatypes.
  Qed.
  (** Two positive terms. *)
  Lemma zsum_ge_two : forall X (f : X -> Z) l x y, (forall z, In z l -> 0 <= f z) -> In x l -> In y l -> x <> y ->
    1 <= f x -> 1 <= f y -> 2 <= zsum f l.
  Proof.
    intros X f l x y Hf. induction l as [|z l IH]; intros Hx Hy Hn Fx Fy; [destruct Hx|]. rewrite zsum_cons.
    assert (Hl : 0 <= zsum f l) by (apply zsum_nonneg; auto with datatypes).
    assert (One : forall w, In w l -> 1 <= f w -> 1 <= zsum f l).
    { intros w Hw Fw. apply in_split in Hw. destruct Hw as (l1 & l2 & ->). rewrite zsum_app, zsum_cons.
      assert (0 <= zsum f l1) by (apply zsum_nonneg; intros; apply Hf; right; apply in_or_app; auto).
      assert (0 <= zsum f l2) by (apply zsum_nonneg; intros; apply Hf; right; apply in_or_app; right; right; auto). lia. }
    pose proof (Hf z (or_introl eq_refl)). destruct Hx as [<-|Hx], Hy as [<-|Hy].
    - congruence.
    - pose proof (One y Hy Fy). lia.
    - pose proof (One x Hx Fx). lia.
    - assert (2 <= zsum f l) by (apply IH; auto with datatypes). lia.
  Qed.

  (** All sides of a list of triangles. *)
  Definition sides (l : list triangle) : list edge := flat_map inner_edges l.
  Lemma sides_In : forall l e, In e (sides l) <-> exists t, In t l /\ side_of e t.
  Proof.
    intros l e. unfold sides. rewrite in_flat_map. split; intros (t & Ht & He); exists t; rewrite side_of_inner in *; auto.
  Qed.
  Definition anti (f : edge -> Z) : Prop := forall e, f (flip e) = - f e.

  Lemma flip_inj : forall e e' : edge, flip e = flip e' -> e = e'.
  Proof. intros e e' He. rewrite <- (flip_flip e), He. apply flip_flip. Qed.
  Lemma NoDup_map_flip : forall l : list edge, NoDup l -> NoDup (map flip l).
  Proof. intros l Hn. apply FinFun.Injective_map_NoDup; [intros e e'; apply flip_inj|exact Hn]. Qed.

  (** A set of edges closed under reversal has sum zero. *)
  Lemma anti_zero : forall f l, anti f -> NoDup l -> (forall e, In e l -> In (flip e) l) -> zsum f l = 0.
  Proof.
    intros f l Ha Hn Hc. assert (Hp : Permutation (map flip l) l).
    { apply NoDup_Permutation; [apply NoDup_map_flip, Hn|exact Hn|]. intros e. rewrite in_map_iff. split.
      - intros (e' & <- & He'). apply Hc, He'.
      - intros He. exists (flip e). split; [apply flip_flip|apply Hc, He]. }
    apply (zsum_perm _ f) in Hp. rewrite zsum_map in Hp.
    rewrite (zsum_ext _ (fun x => f (flip x)) (fun x => - f x)) in Hp by (intros; apply Ha). rewrite zsum_opp in Hp. lia.
  Qed.

  (** The sides whose reversal is not a side. *)
  Definition rim (l : list edge) : list edge := filter (fun e => negb (if in_dec edec (flip e) l then true else false)) l.
  Lemma rim_In : forall l e, In e (rim l) <-> In e l /\ ~ In (flip e) l.
  Proof.
    intros l e. unfold rim. rewrite filter_In. destruct (in_dec edec (flip e) l); cbn; intuition congruence.
  Qed.
  Lemma rim_sum : forall f l, anti f -> NoDup l -> zsum f l = zsum f (rim l).
  Proof.
    intros f l Ha Hn. rewrite (zsum_split _ f (fun e => if in_dec edec (flip e) l then true else false)). fold (rim l).
    rewrite anti_zero; [lia|exact Ha|apply NoDup_filter, Hn|]. intros e He. rewrite filter_In in *. destruct He as [He Hf].
    destruct (in_dec edec (flip e) l) as [Hi|]; [|discriminate]. split; [exact Hi|]. rewrite flip_flip.
    destruct (in_dec edec e l); [reflexivity|contradiction].
  Qed.

  Lemma sides_NoDup : forall l, NoDup l -> (forall t, In t l -> NoDup (inner_edges t)) ->
    (forall t t' e, In t l -> In t' l -> side_of e t -> side_of e t' -> t = t') -> NoDup (sides l).
  Proof.
    intros l Hn Hp Hx. induction l as [|t l IH]; [constructor|]. cbn [sides flat_map]. inversion Hn as [|? ? Ht Hn']; subst.
    assert (Hd : forall e, In e (inner_edges t) -> ~ In e (sides l)).
    { intros e He Hs. apply sides_In in Hs. destruct Hs as (t' & Ht' & He'). apply Ht.
      rewrite (Hx t t' e); auto with datatypes. apply side_of_inner, He. }
    assert (IHl : NoDup (sides l)) by (apply IH; [exact Hn'|auto with datatypes|intros; eapply Hx; eauto with datatypes]).
    clear IH. pose proof (Hp t (or_introl eq_refl)) as Nt. revert Nt Hd. generalize (inner_edges t).
    induction l0 as [|x l0 IH0]; intros Nt Hd; [exact IHl|]. cbn. inversion Nt as [|? ? Hx0 Nt']; subst. constructor.
    - intros Hi. apply in_app_or in Hi. destruct Hi as [Hi|Hi]; [contradiction|]. apply (Hd x); [left; reflexivity|exact Hi].
    - apply IH0; [exact Nt'|]. intros e He. apply Hd. right. exact He.
  Qed.

  (** Sum over the sides of the triangles. *)
  Definition tsum (f : edge -> Z) (t : triangle) : Z := zsum f (inner_edges t).
  Lemma sides_sum : forall f l, zsum f (sides l) = zsum (tsum f) l.
  Proof.
    intros f l. induction l as [|t l IH]; [reflexivity|]. cbn [sides flat_map]. rewrite zsum_app, zsum_cons. fold (sides l).
    rewrite IH. reflexivity.
  Qed.
  Lemma tsum_eq : forall f a b c, tsum f (Tri a b c) = f (a, b) + f (b, c) + f (c, a).
  Proof. intros. unfold tsum, zsum, inner_edges, te1, te2, te3. cbn. lia. Qed.

  Definition balanced (l : list triangle) : Prop := forall f, anti f -> zsum (tsum f) l = 0.
End Sums.

Local Open Scope R_scope.

(** ** Convex rims *)
Notation gv := (ghost_vertex (A:=ArithR)).

(** Two hull edges that cross the same vertical line leftwards end at the same
    vertex. *)
Lemma hull_end_le : forall S a b a' b' x, In a S -> In b S -> In a' S -> In b' S -> hull_edge S a b -> hull_edge S a' b' ->
  X b <= x < X a -> X b' <= x < X a' -> X b < X b' -> False.
Proof.
  intros S a b a' b' x Sa Sb Sa' Sb' He He' Hx Hx' Hlt.
  destruct (He b' Sb') as [E1 N1]. destruct (He a' Sa') as [E2 _]. destruct (He' a Sa) as [E3 _]. destruct (He' b Sb) as [E4 _].
  set (p := X a - X b). set (p' := X a' - X b').
  assert (Hp : 0 < p) by (unfold p; lra). assert (Hp' : 0 < p') by (unfold p'; lra).
  (* heights of the two lines above x, times p * p' *)
  set (h := fun t : R => p' * (Y a * (t - X b) + Y b * (X a - t))).
  set (h' := fun t : R => p * (Y a' * (t - X b') + Y b' * (X a' - t))).
  assert (V : forall t, h t = p' * (Y a * (t - X b) + Y b * (X a - t))) by reflexivity.
  assert (V' : forall t, h' t = p * (Y a' * (t - X b') + Y b' * (X a' - t))) by reflexivity.
  assert (Db' : h' (X b') - h (X b') = - p' * D a b b') by (rewrite V, V'; unfold p, p', area2; ring).
  assert (Da' : h' (X a') - h (X a') = - p' * D a b a') by (rewrite V, V'; unfold p, p', area2; ring).
  assert (Da : h (X a) - h' (X a) = - p * D a' b' a) by (rewrite V, V'; unfold p, p', area2; ring).
  assert (Db : h (X b) - h' (X b) = - p * D a' b' b) by (rewrite V, V'; unfold p, p', area2; ring).
  (* affine in t *)
  assert (Aff : (h' x - h x) * p = (h' (X a) - h (X a)) * (x - X b) + (h' (X b) - h (X b)) * (X a - x)).
  { rewrite !V, !V'. unfold p, p'. ring. }
  assert (Aff' : (h' x - h x) * p' = (h' (X a') - h (X a')) * (x - X b') + (h' (X b') - h (X b')) * (X a' - x)).
  { rewrite !V, !V'. unfold p, p'. ring. }
  assert (Q1 := mpn p _ (Rlt_le _ _ Hp) E3). assert (Q2 := mpn p _ (Rlt_le _ _ Hp) E4).
  assert (Q3 := mpn p' _ (Rlt_le _ _ Hp') E2). assert (Q4 := mpn p' _ (Rlt_le _ _ Hp') E1).
  assert (U1 : (h' (X a) - h (X a)) * (x - X b) <= 0) by (apply mnp; lra).
  assert (U2 : (h' (X b) - h (X b)) * (X a - x) <= 0) by (apply mnp; lra).
  assert (U : h' x - h x <= 0) by (apply (div_le _ p Hp); lra).
  assert (W1 : 0 <= (h' (X a') - h (X a')) * (x - X b')) by (apply mpp; lra).
  destruct (Req_dec (D a b b') 0) as [Ez|Nz].
  - (* then [b'] would be strictly between [a] and [b] *)
    apply N1. split; [exact Ez|]. clear - Ez Hlt Hx Hx'.
    assert (K : dotp b' a b' b * ((X a - X b) * (X a - X b)) = (X a - X b') * (X b - X b') * ((X a - X b) * (X a - X b) + (Y a - Y b) * (Y a - Y b)) ).
    { assert (E1 : (X a - X b) * (Y a - Y b') = (Y a - Y b) * (X a - X b')) by (unfold area2 in Ez; lra).
      assert (E2 : (X a - X b) * (Y b - Y b') = (Y a - Y b) * (X b - X b')) by (unfold area2 in Ez; lra).
      unfold dotp. replace ((X a - X b') * (X b - X b') * ((X a - X b) * (X a - X b) + (Y a - Y b) * (Y a - Y b))) with
        ((X a - X b') * (X b - X b') * ((X a - X b) * (X a - X b)) + ((Y a - Y b) * (X a - X b')) * ((Y a - Y b) * (X b - X b'))) by ring.
      rewrite <- E1, <- E2. ring. }
    assert (S1 : 0 < (X a - X b) * (X a - X b)) by (apply spp; lra).
    assert (S2 : 0 <= (Y a - Y b) * (Y a - Y b)) by apply Rle_0_sqr.
    assert (S3 : (X a - X b') * (X b - X b') < 0) by (apply spn; lra).
    apply (div_lt _ _ S1). rewrite K. apply snp; [exact S3|lra].
  - assert (Q5 : p' * D a b b' < 0) by (apply spn; lra).
    assert (W2 : 0 < (h' (X b') - h (X b')) * (X a' - x)) by (apply spp; lra).
    assert (W : 0 < h' x - h x) by (apply (div_gt _ p' Hp'); lra). lra.
Qed.

Lemma hull_end_eq : forall S a b a' b' x, (forall w, In w S -> vghost w = false) -> In a S -> In b S -> In a' S -> In b' S ->
  hull_edge S a b -> hull_edge S a' b' -> X b <= x < X a -> X b' <= x < X a' -> b = b'.
Proof.
  intros S a b a' b' x Hpl Sa Sb Sa' Sb' He He' Hx Hx'.
  destruct (Rtotal_order (X b) (X b')) as [L|[E|L]].
  - exfalso. exact (hull_end_le S a b a' b' x Sa Sb Sa' Sb' He He' Hx Hx' L).
  - apply plain_coincide; [apply Hpl, Sb|apply Hpl, Sb'|]. split; [exact E|].
    destruct (He b' Sb') as [E1 _]. destruct (He' b Sb) as [E2 _]. unfold area2 in E1, E2. rewrite <- E in E1. rewrite <- E in E2.
    assert (F1 : (X b - X a) * (Y b' - Y b) <= 0) by lra. assert (F2 : (X b - X a') * (Y b - Y b') <= 0) by lra.
    apply Rle_antisym.
    + apply Rnot_lt_le. intros L. assert (Q := snn (X b - X a) (Y b' - Y b)). lra.
    + apply Rnot_lt_le. intros L. assert (Q := snn (X b - X a') (Y b - Y b')). lra.
  - exfalso. apply (hull_end_le S a' b' a b x); auto.
Qed.

(** ** No overlap *)
(** The crossing function on plain edges, zero on edges with a ghost end. *)
Definition pc (q : pnt) (e : edge ArithR) : Z := if vghost (fst e) || vghost (snd e) then 0%Z else rc q e.
Lemma pc_anti : forall q, anti (pc q).
Proof.
  intros q [a b]. unfold pc. cbn [flip fst snd]. rewrite (orb_comm (vghost b)). destruct (vghost a || vghost b); [reflexivity|apply rc_flip].
Qed.
Lemma pc_plain : forall q a b, vghost a = false -> vghost b = false -> pc q (a, b) = rc q (a, b).
Proof. intros q a b Ha Hb. unfold pc. cbn. rewrite Ha, Hb. reflexivity. Qed.

Record plain_mesh (S : list pnt) (M : list tri) : Prop := {
  pm_plain : forall w, In w S -> vghost w = false;
  pm_nodup : NoDup M;
  pm_shape : forall t, In t M -> solid_over S t \/ ghost_over S t;
  pm_balanced : balanced M;
  pm_hull : forall a b, In (Tri a b gv) M -> hull_edge S a b;
  pm_tail : forall a a' b, In (Tri a b gv) M -> In (Tri a' b gv) M -> a = a'
}.

Lemma no_overlap : forall S M, plain_mesh S M -> forall q a b c a' b' c', In (Tri a b c) M -> In (Tri a' b' c') M ->
  vghost c = false -> vghost c' = false -> tw a b c q = 1%Z -> tw a' b' c' q = 1%Z -> Tri a b c = Tri a' b' c'.
Proof.
  intros S M HM q a b c a' b' c' Ht Ht' Gc Gc' W W'.
  pose proof (pm_balanced _ _ HM (pc q) (pc_anti q)) as Hb.
  rewrite (zsum_split _ _ (fun t => vghost (tv3 t))) in Hb.
  set (gh := filter (fun t => vghost (tv3 t)) M) in *. set (so := filter (fun t => negb (vghost (tv3 t))) M) in *.
  assert (Hso : forall t, In t so -> exists x y z, t = Tri x y z /\ In x S /\ In y S /\ In z S /\ 0 < D x y z /\ tsum (pc q) t = tw x y z q).
  { intros t Hin. apply filter_In in Hin. destruct Hin as [Hin Hg]. apply negb_true_iff in Hg.
    destruct (pm_shape _ _ HM t Hin) as [(x & y & z & -> & Hx & Hy & Hz & Hd)|(x & y & -> & _)]; [|discriminate].
    exists x, y, z. repeat (split; [auto|]). rewrite tsum_eq.
    pose proof (pm_plain _ _ HM x Hx). pose proof (pm_plain _ _ HM y Hy). pose proof (pm_plain _ _ HM z Hz).
    rewrite !pc_plain by assumption. unfold tw. lia. }
  assert (Hgh : forall t, In t gh -> exists x y, t = Tri x y gv /\ In x S /\ In y S /\ In t M /\ tsum (pc q) t = rc q (x, y)).
  { intros t Hin. apply filter_In in Hin. destruct Hin as [Hin Hg].
    destruct (pm_shape _ _ HM t Hin) as [(x & y & z & -> & Hx & Hy & Hz & Hd)|(x & y & -> & Hx & Hy & _)].
    - cbn in Hg. rewrite (pm_plain _ _ HM z Hz) in Hg. discriminate.
    - exists x, y. repeat (split; [auto|]). rewrite tsum_eq. unfold pc. cbn.
      rewrite (pm_plain _ _ HM x Hx), (pm_plain _ _ HM y Hy). cbn. lia. }
  assert (Hle : (zsum (fun t => - tsum (pc q) t) gh <= 1)%Z).
  { apply zsum_le_one.
    - apply NoDup_filter, (pm_nodup _ _ HM).
    - intros t Hin. destruct (Hgh t Hin) as (x & y & _ & _ & _ & _ & ->). unfold rc, ray_crossing.
      repeat match goal with |- context [Rle_dec ?x ?y] => destruct (Rle_dec x y) | |- context [Rlt_dec ?x ?y] => destruct (Rlt_dec x y) end; lia.
    - intros t u Hin Hiu Pt Pu. destruct (Hgh t Hin) as (x & y & -> & Hx & Hy & Hm & E). destruct (Hgh u Hiu) as (x' & y' & -> & Hx' & Hy' & Hm' & E').
      rewrite E in Pt. rewrite E' in Pu.
      assert (K : forall x y, (0 < - rc q (x, y))%Z -> X y <= X q < X x).
      { clear. intros x y Hp. unfold rc, ray_crossing in Hp.
        destruct (Rle_dec (X x) (X q)); [destruct (Rlt_dec (X q) (X y)); [destruct (Rlt_dec 0 (D x y q))|]; lia|].
        destruct (Rle_dec (X y) (X q)); [lra|lia]. }
      assert (Ey : y = y').
      { apply (hull_end_eq S x y x' y' (X q)); auto; [apply (pm_plain _ _ HM)|apply (pm_hull _ _ HM), Hm|apply (pm_hull _ _ HM), Hm']. }
      subst y'. rewrite (pm_tail _ _ HM x x' y Hm Hm'). reflexivity. }
  rewrite zsum_opp in Hle.
  destruct (tdec (Tri a b c) (Tri a' b' c')) as [E|Hne]; [exact E|]. exfalso.
  assert (2 <= zsum (tsum (pc q)) so)%Z; [|lia].
  apply (zsum_ge_two _ _ _ (Tri a b c) (Tri a' b' c')); auto.
  - intros t Hin. destruct (Hso t Hin) as (x & y & z & -> & _ & _ & _ & Hd & ->). apply tw_ccw, Hd.
  - apply filter_In. split; [exact Ht|]. cbn. rewrite Gc. reflexivity.
  - apply filter_In. split; [exact Ht'|]. cbn. rewrite Gc'. reflexivity.
  - destruct (Hso (Tri a b c)) as (x & y & z & Ei & _ & _ & _ & _ & ->); [apply filter_In; split; [exact Ht|]; cbn; rewrite Gc; reflexivity|].
    injection Ei as <- <- <-. lia.
  - destruct (Hso (Tri a' b' c')) as (x & y & z & Ei & _ & _ & _ & _ & ->); [apply filter_In; split; [exact Ht'|]; cbn; rewrite Gc'; reflexivity|].
    injection Ei as <- <- <-. lia.
Qed.

(** Two counterclockwise triangles on the same side of a common base overlap. *)
Lemma small_one : forall k l, 0 < k -> exists e, 0 < e /\ forall x, 0 < x <= e -> 0 < k + x * l.
Proof.
  intros k l Hk. exists (k / (2 * (1 + Rabs l))). pose proof (Rabs_pos l) as Ha.
  assert (He : 0 < k / (2 * (1 + Rabs l))) by (apply Rdiv_lt_0_compat; lra). split; [exact He|]. intros x [Hx1 Hx2].
  assert (Hle : x * (2 * (1 + Rabs l)) <= k).
  { apply (Rmult_le_compat_r (2 * (1 + Rabs l))) in Hx2; [|lra]. unfold Rdiv in Hx2. rewrite Rmult_assoc, Rinv_l in Hx2 by lra. lra. }
  assert (Hl : - Rabs l <= l) by (pose proof (Rle_abs (- l)); rewrite Rabs_Ropp in *; lra).
  assert (Q : x * (- Rabs l) <= x * l) by (apply Rmult_le_compat_l; lra). lra.
Qed.
Lemma common_side : forall p q c c' : pnt, 0 < D p q c -> 0 < D p q c' -> exists z : pnt,
  (0 < D p q z /\ 0 < D q c z /\ 0 < D c p z) /\ (0 < D p q z /\ 0 < D q c' z /\ 0 < D c' p z).
Proof.
  intros p q c c' Hc Hc'.
  set (z := fun e : R => (V (A:=ArithR) ((X p + X q) / 2 - e * (Y q - Y p)) ((Y p + Y q) / 2 + e * (X q - X p)) false)).
  assert (E0 : forall e, D p q (z e) = e * d2 p q) by (intros e; unfold z, area2, d2, X, Y; cbn; field).
  assert (E1 : forall c e, D q c (z e) = D p q c / 2 + e * dotp q c p q) by (intros d e; unfold z, area2, dotp, X, Y; cbn; field).
  assert (E2 : forall c e, D c p (z e) = D p q c / 2 + e * dotp c p p q) by (intros d e; unfold z, area2, dotp, X, Y; cbn; field).
  destruct (small_one (D p q c / 2) (dotp q c p q)) as (e1 & P1 & F1); [lra|].
  destruct (small_one (D p q c / 2) (dotp c p p q)) as (e2 & P2 & F2); [lra|].
  destruct (small_one (D p q c' / 2) (dotp q c' p q)) as (e3 & P3 & F3); [lra|].
  destruct (small_one (D p q c' / 2) (dotp c' p p q)) as (e4 & P4 & F4); [lra|].
  set (e := Rmin (Rmin e1 e2) (Rmin e3 e4)).
  assert (Pe : 0 < e) by (unfold e; repeat apply Rmin_glb_lt; assumption).
  assert (L : e <= e1 /\ e <= e2 /\ e <= e3 /\ e <= e4).
  { unfold e. pose proof (Rmin_l (Rmin e1 e2) (Rmin e3 e4)). pose proof (Rmin_r (Rmin e1 e2) (Rmin e3 e4)).
    pose proof (Rmin_l e1 e2). pose proof (Rmin_r e1 e2). pose proof (Rmin_l e3 e4). pose proof (Rmin_r e3 e4). lra. }
  destruct L as (L1 & L2 & L3 & L4). exists (z e).
  assert (Hd : 0 < d2 p q).
  { destruct (d2_nonneg p q) as [Hp|Hz]; [exact Hp|]. exfalso. symmetry in Hz. apply d2_zero in Hz. destruct Hz as [Z1 Z2].
    unfold area2 in Hc. rewrite Z1, Z2 in Hc. lra. }
  rewrite E0, !E1, !E2. assert (0 < e * d2 p q) by (apply spp; assumption).
  repeat split; auto.
Qed.
Lemma inside_tw : forall a b c z, 0 < D a b c -> 0 < D a b z -> 0 < D b c z -> 0 < D c a z -> tw a b c z = 1%Z.
Proof. intros a b c z Hc H1 H2 H3. apply (tw_ccw a b c z Hc); unfold beyond; lra. Qed.
