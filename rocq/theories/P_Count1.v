(** P_Count1.v — how many triangles a Delaunay mesh has: each triangle has one
    corner that is neither its leftmost nor its rightmost, and above or below
    each point of the mesh there is one triangle with that point in the middle. *)

From Coq Require Import Reals List ZArith Lra Lia Psatz Bool Permutation Classical_Prop.
From Verif Require Import Base Arith Geometry Elements Polyline Procedures ArithR Spec SpecR SpecD
  P_Base P_Trn P_R1 P_R2 P_D1 P_D2 P_D3 P_D4 P_D5 P_D6 P_D7 P_D8.
Import ListNotations.
Local Open Scope R_scope.

(** ** Lists *)
Lemma relation_le : forall {X Y} (R : X -> Y -> Prop) l m, NoDup l -> (forall x, In x l -> exists y, In y m /\ R x y) ->
  (forall x x' y, In x l -> In x' l -> R x y -> R x' y -> x = x') -> (length l <= length m)%nat.
Proof.
  intros X Y R l. induction l as [|x l IH]; intros m Hl Hex Hun; [cbn; lia|]. apply NoDup_cons_iff in Hl as [Hx Hl].
  destruct (Hex x (or_introl eq_refl)) as (y & Hy & Rxy). apply in_split in Hy as (m1 & m2 & ->).
  assert (length l <= length (m1 ++ m2))%nat; [|rewrite app_length in *; cbn in *; lia].
  apply IH; [exact Hl| |].
  - intros x' Hx'. destruct (Hex x' (or_intror Hx')) as (y' & Hy' & R'). exists y'. split; [|exact R']. apply in_app_iff in Hy'. apply in_app_iff. destruct Hy' as [? |[E|?]]; [auto| |auto].
    subst y'. exfalso. apply Hx. rewrite (Hun x x' y (or_introl eq_refl) (or_intror Hx') Rxy R'). exact Hx'.
  - intros a b c Ha Hb. apply Hun; right; assumption.
Qed.

Lemma filtered : forall {X} (P : X -> Prop) l, exists m, forall x, In x m <-> In x l /\ P x.
Proof.
  intros X P l. induction l as [|a l [m IH]]; [exists []; firstorder|]. destruct (classic (P a)) as [Pa|Pa].
  - exists (a :: m). intros x. cbn. rewrite IH. split; [intros [<-|[? ?]]; auto|intros [[<-|?] ?]; auto].
  - exists m. intros x. cbn. rewrite IH. split; [intros [? ?]; auto|intros [[<-|?] ?]; [contradiction|auto]].
Qed.

(** ** Projections of the points on a line *)
Definition pr (k h : R) (a : pnt) : R := k * X a + h * Y a.

Lemma pr_turn : forall k h v a b c, (pr k h a - pr k h v) * D v b c = (pr k h b - pr k h v) * D v a c - (pr k h c - pr k h v) * D v a b.
Proof. intros. unfold pr, area2. ring. Qed.

Definition told_apart (k h : R) (S : list pnt) : Prop := forall a b, In a S -> In b S -> a <> b -> pr k h a <> pr k h b.

Lemma slopes : forall l : list (pnt * pnt), exists h, forall a b, In (a, b) l -> ~ coincide a b -> pr 1 h a <> pr 1 h b.
Proof.
  assert (Hb : forall l : list (pnt * pnt), exists h0, forall h, h0 < h -> forall a b, In (a, b) l -> ~ coincide a b -> pr 1 h a <> pr 1 h b).
  { induction l as [|[a b] l [h0 IH]]; [exists 0; intros h _ a b []|].
    destruct (Req_dec (Y a) (Y b)) as [E|E].
    - exists h0. intros h Hh c d [Ec|Hc] Hn; [|apply IH; assumption]. injection Ec as -> ->. unfold pr. intros Eq. apply Hn. split; [|exact E]. rewrite E in Eq. lra.
    - exists (Rmax h0 ((X b - X a) / (Y a - Y b))). intros h Hh c d [Ec|Hc] Hn.
      + injection Ec as -> ->. unfold pr. intros Eq. pose proof (Rmax_r h0 ((X d - X c) / (Y c - Y d))).
        assert (h = (X d - X c) / (Y c - Y d)); [|lra]. apply Rmult_eq_reg_r with (Y c - Y d); [|lra]. unfold Rdiv. rewrite Rmult_assoc, Rinv_l by lra. lra.
      + apply IH; try assumption. pose proof (Rmax_l h0 ((X b - X a) / (Y a - Y b))). lra. }
  intros l. destruct (Hb l) as [h0 Hh]. exists (h0 + 1). apply Hh. lra.
Qed.

Lemma apart_exists : forall S, (forall a : pnt, In a S -> vghost a = false) -> exists h, told_apart 1 h S /\ told_apart (-1) (- h) S.
Proof.
  intros S HP. destruct (slopes (list_prod S S)) as [h Hh]. exists h.
  assert (Ha : told_apart 1 h S) by (intros a b Ia Ib Hn; apply Hh; [apply in_prod; assumption|]; intros Hc; apply Hn; apply plain_coincide; auto).
  split; [exact Ha|]. intros a b Ia Ib Hn E. apply (Ha a b Ia Ib Hn). unfold pr in *. lra.
Qed.

(** Two points on the same ray from [v], neither before the other. *)
Lemma same_ray : forall k h v b c, vghost b = false -> vghost c = false -> D v b c = 0 -> pr k h b < pr k h v -> pr k h c < pr k h v ->
  ~ strictly_between v b c -> ~ strictly_between c v b -> b = c.
Proof.
  intros k h v b c Gb Gc Z Fb Fc B1 B2. set (s := (pr k h c - pr k h v) / (pr k h b - pr k h v)).
  assert (Es : s * (pr k h b - pr k h v) = pr k h c - pr k h v) by (unfold s; field; lra).
  assert (Ps : 0 < s) by (apply Rmult_lt_reg_r with (pr k h v - pr k h b); nra).
  assert (EX : X c = X v + s * (X b - X v)).
  { apply Rmult_eq_reg_r with (pr k h b - pr k h v); [|lra]. rewrite Rmult_plus_distr_r. replace (s * (X b - X v) * (pr k h b - pr k h v)) with ((X b - X v) * (pr k h c - pr k h v)) by (rewrite <- Es; ring).
    assert (E : X c * (pr k h b - pr k h v) - (X v * (pr k h b - pr k h v) + (X b - X v) * (pr k h c - pr k h v)) = - h * D v b c) by (unfold pr, area2; ring). rewrite Z in E. lra. }
  assert (EY : Y c = Y v + s * (Y b - Y v)).
  { apply Rmult_eq_reg_r with (pr k h b - pr k h v); [|lra]. rewrite Rmult_plus_distr_r. replace (s * (Y b - Y v) * (pr k h b - pr k h v)) with ((Y b - Y v) * (pr k h c - pr k h v)) by (rewrite <- Es; ring).
    assert (E : Y c * (pr k h b - pr k h v) - (Y v * (pr k h b - pr k h v) + (Y b - Y v) * (pr k h c - pr k h v)) = k * D v b c) by (unfold pr, area2; ring). rewrite Z in E. lra. }
  assert (Nvb : ~ coincide v b) by (intros [E1 E2]; unfold pr in Fb; rewrite E1, E2 in Fb; lra).
  assert (Nvc : ~ coincide c v) by (intros [E1 E2]; unfold pr in Fc; rewrite E1, E2 in Fc; lra).
  destruct (Rtotal_order s 1) as [L|[E|L]].
  - exfalso. apply B1. apply (param_between v b c s Nvb); [lra|]. split; assumption.
  - apply plain_coincide; [assumption|assumption|]. rewrite E in *. split; lra.
  - exfalso. apply B2. apply between_sym. apply (param_between v c b (/ s)).
    + intros [E1 E2]. apply Nvc. split; auto.
    + split; [apply Rinv_0_lt_compat; lra|]. rewrite <- Rinv_1. apply Rinv_lt_contravar; lra.
    + split; [rewrite EX|rewrite EY]; field; lra.
Qed.

(** Among finitely many directions to one side, a last one. *)
Lemma last_direction : forall k h v (l : list pnt), (forall b, In b l -> pr k h v < pr k h b) -> l <> [] ->
  exists m, In m l /\ forall b, In b l -> D v m b <= 0.
Proof.
  intros k h v l. induction l as [|a l IH]; intros Hp Hn; [contradiction|]. destruct l as [|a' l'].
  - exists a. split; [left; reflexivity|]. intros b [<-|[]]. unfold area2. lra.
  - destruct IH as (m & Hm & Hmax); [intros b Hb; apply Hp; right; exact Hb|discriminate|].
    destruct (Rle_dec (D v m a) 0) as [L|L].
    + exists m. split; [right; exact Hm|]. intros b [<-|Hb]; [exact L|apply Hmax; exact Hb].
    + exists a. split; [left; reflexivity|]. intros b [<-|Hb]; [unfold area2; lra|].
      pose proof (Hmax b Hb) as L2. pose proof (Hp a (or_introl eq_refl)) as Pa. pose proof (Hp m (or_intror Hm)) as Pm. pose proof (Hp b (or_intror Hb)) as Pb.
      pose proof (pr_turn k h v m a b) as E. assert (Ea : D v m a = - D v a m) by (unfold area2; ring). apply Rnot_lt_le. intros L3.
      assert (0 < (pr k h m - pr k h v) * D v a b) by (apply Rmult_lt_0_compat; lra).
      assert ((pr k h a - pr k h v) * D v m b <= 0) by nra. assert (0 < (pr k h b - pr k h v) * D v m a) by (apply Rmult_lt_0_compat; lra). lra.
Qed.

Lemma first_direction : forall k h v (l : list pnt), (forall b, In b l -> pr k h v < pr k h b) -> l <> [] ->
  exists m, In m l /\ forall b, In b l -> 0 <= D v m b.
Proof.
  intros k h v l. induction l as [|a l IH]; intros Hp Hn; [contradiction|]. destruct l as [|a' l'].
  - exists a. split; [left; reflexivity|]. intros b [<-|[]]. unfold area2. lra.
  - destruct IH as (m & Hm & Hmax); [intros b Hb; apply Hp; right; exact Hb|discriminate|].
    destruct (Rle_dec 0 (D v m a)) as [L|L].
    + exists m. split; [right; exact Hm|]. intros b [<-|Hb]; [exact L|apply Hmax; exact Hb].
    + exists a. split; [left; reflexivity|]. intros b [<-|Hb]; [unfold area2; lra|].
      pose proof (Hmax b Hb) as L2. pose proof (Hp a (or_introl eq_refl)) as Pa. pose proof (Hp m (or_intror Hm)) as Pm. pose proof (Hp b (or_intror Hb)) as Pb.
      pose proof (pr_turn k h v m a b) as E. apply Rnot_lt_le. intros L3.
      assert (0 < (pr k h m - pr k h v) * - D v a b) by (apply Rmult_lt_0_compat; lra).
      assert (0 <= (pr k h a - pr k h v) * D v m b) by nra. assert (0 < (pr k h b - pr k h v) * - D v m a) by (apply Rmult_lt_0_compat; lra). lra.
Qed.

(** ** The triangle on one side of a point *)
Section Side.
  Variables (S : list pnt) (tr : mesh) (k h : R).
  Hypothesis HD : delaunay S tr.
  Hypothesis HR : resolved S.
  Hypothesis HA : told_apart k h S.
  Let f := pr k h.

  (** [v] is the middle corner of [t], which is on the positive side of it; or
      [t] is the outer face to the positive side of [v]. *)
  Definition over (t : tri) (v : pnt) : Prop :=
    (exists b c, looks t v b c /\ vghost c = false /\ vghost b = false /\ f c < f v < f b) \/ (exists b, t = Tri v b gv /\ f v < f b).

  Lemma pieces : forall t v b c, In t (tris tr) -> looks t v b c -> In v S ->
    (In b S /\ In c S /\ 0 < D v b c) \/ (In b S /\ c = gv /\ t = Tri v b gv) \/ (In c S /\ b = gv /\ t = Tri c v gv).
  Proof.
    intros t v b c Ht Hl Hv. pose proof (rs_plain _ HR) as HP. pose proof (HP v Hv) as Gv.
    destruct (dl_shape _ _ HD t Ht) as [(x & y & z & -> & Hx & Hy & Hz & P0)|(x & y & -> & Hx & Hy & Hn)].
    - left. destruct Hl as [E|[E|E]]; injection E as -> -> ->; (split; [assumption|]); (split; [assumption|]); unfold area2 in *; lra.
    - right. destruct Hl as [E|[E|E]]; injection E as -> -> Eg.
      + left. subst c. auto.
      + subst v. cbn in Gv. discriminate Gv.
      + right. subst b. auto.
  Qed.

  Lemma outer_alone : forall a b b', In (Tri a b gv) (tris tr) -> In (Tri a b' gv) (tris tr) -> b = b'.
  Proof.
    intros a b b' H1 H2. assert (E : Tri a b' gv = Tri a b gv); [|injection E; congruence].
    apply (proj1 (closed_surface S tr HD HR (Tri a b gv) (gv, a) H1 ltac:(apply (looks_sides _ a b gv (or_introl eq_refl)); auto))); [exact H2|]. apply (looks_sides _ a b' gv (or_introl eq_refl)); auto.
  Qed.

  Definition beside (v b : pnt) : Prop := In b S /\ exists t, In t (tris tr) /\ side_of (v, b) t.
  Lemma beside_back : forall v b, In v S -> beside v b -> beside b v.
  Proof. intros v b Hv (Hb & t & Ht & Hs). split; [exact Hv|]. destruct (dl_closed _ _ HD t (v, b) Ht Hs) as (u & Hu & Su). exists u. split; [exact Hu|exact Su]. Qed.


  (** With a neighbour of larger projection there is a triangle over [v]. *)
  Lemma over_exists : forall v b, In v S -> beside v b -> f v < f b -> exists t, In t (tris tr) /\ over t v.
  Proof.
    intros v b Hv Hb Fb. pose proof (rs_plain _ HR) as HP.
    destruct (filtered (fun b => beside v b /\ f v < f b) S) as [l Hl].
    destruct (last_direction k h v l) as (m & Hm & Hmax).
    - intros x Hx. apply Hl in Hx. apply Hx.
    - intros E. assert (In b l) by (apply Hl; split; [apply Hb|auto]). rewrite E in *. contradiction.
    - apply Hl in Hm as (Sm & (_ & t & Ht & Hs) & Fm). destruct (side_looks _ _ _ Hs) as (c & Hc).
      exists t. split; [exact Ht|]. destruct (pieces t v m c Ht Hc Hv) as [(_ & Sc & P0)|[(_ & -> & ->)|(_ & -> & _)]].
      + left. exists m, c. split; [exact Hc|]. split; [apply HP; exact Sc|]. split; [apply HP; exact Sm|]. split; [|exact Fm].
        destruct (Rtotal_order (f c) (f v)) as [L|[E|L]]; [exact L| |].
        * exfalso. apply (HA c v Sc Hv); [|exact E]. intros ->. unfold area2 in P0. lra.
        * exfalso. assert (Ic : In c l); [|specialize (Hmax c Ic); lra]. apply Hl. split; [exact Sc|]. split; [|exact L].
          apply beside_back; [exact Sc|]. split; [exact Hv|]. exists t. split; [exact Ht|]. apply (looks_sides _ _ _ _ Hc). auto.
      + right. exists m. auto.
      + cbn in Sm. pose proof (HP _ Sm) as G. discriminate G.
  Qed.
End Side.

(** The same read from the other end: an outer face that ends at [v]. *)
Section Reach.
  Variables (S : list pnt) (tr : mesh) (k h : R).
  Hypothesis HD : delaunay S tr.
  Hypothesis HR : resolved S.
  Hypothesis HA : told_apart k h S.
  Let f := pr k h.

  (** Only the last point has no neighbour with a larger projection. *)
  Lemma reaches : forall v w, In v S -> In w S -> f v < f w -> exists b, beside S tr v b /\ f v < f b.
  Proof.
    intros v w Hv Hw Fw. pose proof (rs_plain _ HR) as HP. apply NNPP. intros Hno.
    assert (Hless : forall b, beside S tr v b -> f b < f v).
    { intros b Hb. destruct (Rtotal_order (f b) (f v)) as [L|[E|L]]; [exact L| |exfalso; apply Hno; exists b; auto].
      exfalso. destruct (classic (b = v)) as [->|N]; [|apply (HA b v (proj1 Hb) Hv N E)].
      destruct Hb as (_ & t & Ht & Hs). destruct (side_looks _ _ _ Hs) as (c & Hc).
      destruct (pieces S tr HD HR t v v c Ht Hc Hv) as [(_ & _ & P0)|[(_ & -> & ->)|(_ & E' & _)]]; [unfold area2 in P0; lra| |subst v; pose proof (HP _ Hv) as G; discriminate G].
      destruct (dl_shape _ _ HD _ Ht) as [(x & y & z & E0 & _ & _ & Hz & _)|(x & y & E0 & _ & _ & N)]; [injection E0 as _ _ <-; pose proof (HP _ Hz) as G; discriminate G|injection E0 as <- <-; contradiction]. }
    destruct (filtered (fun b => beside S tr v b) S) as [l Hl].
    assert (Hne : l <> []).
    { destruct (dl_used _ _ HD v Hv) as (t & Ht & Hc). assert (exists b c, looks t v b c) as (b & c & Hlk).
      { destruct t as [x y z]. inversion Hc; subst; eexists _, _; [left|right; right|right; left]; reflexivity. }
      assert (Hb : beside S tr v b \/ beside S tr v c).
      { destruct (pieces S tr HD HR t v b c Ht Hlk Hv) as [(Sb & Sc & P0)|[(Sb & _ & _)|(Sc & _ & _)]].
        - left. split; [exact Sb|]. exists t. split; [exact Ht|]. apply (looks_sides _ _ _ _ Hlk). auto.
        - left. split; [exact Sb|]. exists t. split; [exact Ht|]. apply (looks_sides _ _ _ _ Hlk). auto.
        - right. apply (beside_back S tr); [exact HD|exact Sc|]. split; [exact Hv|]. exists t. split; [exact Ht|]. apply (looks_sides _ _ _ _ Hlk). auto. }
      intros E. destruct Hb as [Hb|Hb]; (assert (HI := Hb); apply (fun X => proj2 (Hl _) (conj (proj1 X) X)) in HI; rewrite E in HI; exact HI). }
    (* the last neighbour counterclockwise *)
    destruct (last_direction (- k) (- h) v l) as (b & Hb & Hbm); [|exact Hne|].
    { intros b Hb. apply Hl in Hb as [_ Hb]. specialize (Hless b Hb). unfold f, pr in *. lra. }
    apply Hl in Hb as (Sb & Bb). destruct Bb as (_ & t & Ht & Hs). destruct (side_looks _ _ _ Hs) as (c & Hc).
    assert (Hg : In (Tri v b gv) (tris tr)).
    { destruct (pieces S tr HD HR t v b c Ht Hc Hv) as [(_ & Sc & P0)|[(_ & -> & ->)|(_ & -> & _)]]; [exfalso|exact Ht|pose proof (HP _ Sb) as G; discriminate G].
      assert (Ic : In c l); [|specialize (Hbm c Ic); lra]. apply Hl. split; [exact Sc|]. apply (beside_back S tr); [exact HD|exact Sc|]. split; [exact Hv|]. exists t. split; [exact Ht|]. apply (looks_sides _ _ _ _ Hc). auto. }
    (* the last neighbour clockwise *)
    destruct (first_direction (- k) (- h) v l) as (c' & Hc' & Hcm); [|exact Hne|].
    { intros x Hx. apply Hl in Hx as [_ Hx]. specialize (Hless x Hx). unfold f, pr in *. lra. }
    pose proof (proj1 (Hl _) Hc') as (Sc & Bc). destruct (beside_back S tr HD v c' Hv Bc) as (_ & u & Hu & Su). destruct (side_looks _ _ _ Su) as (d & Hd). apply looks_rot in Hd.
    assert (Hg' : In (Tri c' v gv) (tris tr)).
    { destruct (pieces S tr HD HR u v d c' Hu Hd Hv) as [(Sd & _ & P0)|[(_ & -> & ->)|(_ & -> & ->)]]; [exfalso|pose proof (HP _ Sc) as G; discriminate G|exact Hu].
      assert (Ic : In d l); [|specialize (Hcm d Ic); assert (D v c' d = - D v d c') by (unfold area2; ring); lra]. apply Hl. split; [exact Sd|]. split; [exact Sd|]. exists u. split; [exact Hu|]. apply (looks_sides _ _ _ _ Hd). auto. }
    destruct (dl_hull _ _ HD _ _ Hg w Hw) as [W1 _]. destruct (dl_hull _ _ HD _ _ Hg' w Hw) as [W2 _].
    assert (Hbc : D v b c' <= 0) by (apply Hbm; exact Hc').
    assert (Fb : f b < f v) by (apply Hless; split; [exact Sb|exists t; auto]). assert (Fc : f c' < f v) by (apply Hless; exact Bc).
    assert (E : (f w - f v) * D v b c' = (f b - f v) * D v w c' - (f c' - f v) * D v w b) by apply pr_turn.
    assert (E1 : D v w c' = D c' v w) by (unfold area2; ring). assert (E2 : D v w b = - D v b w) by (unfold area2; ring).
    assert (Z1 : 0 <= (f b - f v) * D v w c') by (rewrite E1; nra). assert (Z2 : (f c' - f v) * D v w b <= 0) by (rewrite E2; nra).
    assert (Z3 : (f w - f v) * D v b c' <= 0) by nra. assert (Z0 : (f w - f v) * D v b c' = 0) by lra. apply Rmult_integral in Z0 as [Z0|Z0]; [lra|].
    assert (b = c') as ->.
    { apply NNPP. intros N. destruct (dl_hull _ _ HD _ _ Hg c' Sc) as [_ B1]. destruct (dl_hull _ _ HD _ _ Hg' b Sb) as [_ B2].
      apply N. apply (same_ray k h v); auto. }
    destruct (dl_flat _ _ HD _ _ Hg Hg' w Hw) as [-> | ->]; lra.
  Qed.
End Reach.

(** ** One triangle over each point *)
Definition beyond_by (k h : R) (v : pnt) (s : R) : pnt := V (A:=ArithR) (X v - s * h) (Y v + s * k) false.

Lemma step_in : forall k h a b c, 0 < D a b c -> pr k h c < pr k h a -> pr k h a < pr k h b ->
  exists e, 0 < e /\ forall s, 0 < s <= e -> inside_triangle a b c (beyond_by k h a s).
Proof.
  intros k h a b c P0 Fc Fb. set (g := pr k h c - pr k h b).
  assert (Ed : forall s, D b c (beyond_by k h a s) = D a b c + s * g) by (intros s; unfold g, pr, area2, beyond_by, X, Y; cbn [vx vy]; ring).
  exists (D a b c / (2 * (pr k h b - pr k h c))). split; [apply Rdiv_lt_0_compat; lra|]. intros s [S0 S1]. split; [|split].
  - replace (D a b (beyond_by k h a s)) with (s * (pr k h b - pr k h a)) by (unfold pr, area2, beyond_by, X, Y; cbn [vx vy]; ring). apply Rmult_lt_0_compat; lra.
  - rewrite Ed. assert (s * (pr k h b - pr k h c) <= D a b c / 2); [|unfold g; lra].
    replace (D a b c / 2) with (D a b c / (2 * (pr k h b - pr k h c)) * (pr k h b - pr k h c)) by (field; lra). apply Rmult_le_compat_r; lra.
  - replace (D c a (beyond_by k h a s)) with (s * (pr k h a - pr k h c)) by (unfold pr, area2, beyond_by, X, Y; cbn [vx vy]; ring). apply Rmult_lt_0_compat; lra.
Qed.

Lemma inside_rot : forall a b c q, inside_triangle a b c q -> inside_triangle b c a q.
Proof. intros a b c q (H1 & H2 & H3). split; [|split]; assumption. Qed.

Section One.
  Variables (S : list pnt) (tr : mesh).
  Hypothesis HD : delaunay S tr.
  Hypothesis HR : resolved S.

  Lemma over_one : forall k h v t u, In t (tris tr) -> In u (tris tr) -> In v S -> over k h t v -> over k h u v -> t = u.
  Proof.
    intros k h v t u Ht Hu Hv O1 O2. pose proof (rs_plain _ HR) as HP.
    assert (Mix : forall t u b c b', In t (tris tr) -> In u (tris tr) -> looks t v b c -> vghost c = false -> vghost b = false -> pr k h c < pr k h v < pr k h b -> u = Tri v b' gv -> pr k h v < pr k h b' -> False).
    { clear t u Ht Hu O1 O2. intros t u b c b' Ht Hu Hl Gc Gb [Fc Fb] -> Fb'.
      destruct (pieces S tr HD HR t v b c Ht Hl Hv) as [(Sb & Sc & P0)|[(_ & -> & _)|(_ & -> & _)]]; [|discriminate Gc|discriminate Gb].
      destruct (dl_hull _ _ HD _ _ Hu b Sb) as [W1 _]. destruct (dl_hull _ _ HD _ _ Hu c Sc) as [W2 _].
      pose proof (pr_turn k h v b' b c) as E. assert (0 < (pr k h b' - pr k h v) * D v b c) by (apply Rmult_lt_0_compat; lra).
      assert ((pr k h b - pr k h v) * D v b' c <= 0) by nra. assert (0 <= (pr k h c - pr k h v) * D v b' b) by nra. lra. }
    destruct O1 as [(b & c & Hl & Gc & Gb & [Fc Fb])|(b & -> & Fb)]; destruct O2 as [(b' & c' & Hl' & Gc' & Gb' & [Fc' Fb'])|(b' & -> & Fb')].
    - destruct (pieces S tr HD HR t v b c Ht Hl Hv) as [(Sb & Sc & P0)|[(_ & -> & _)|(_ & -> & _)]]; [|discriminate Gc|discriminate Gb].
      destruct (pieces S tr HD HR u v b' c' Hu Hl' Hv) as [(Sb' & Sc' & P0')|[(_ & -> & _)|(_ & -> & _)]]; [|discriminate Gc'|discriminate Gb'].
      destruct (step_in k h v b c P0 Fc Fb) as (e & He & Hin). destruct (step_in k h v b' c' P0' Fc' Fb') as (e' & He' & Hin').
      set (q := beyond_by k h v (Rmin e e')). assert (Q : inside_triangle v b c q) by (apply Hin; split; [apply Rmin_glb_lt; assumption|apply Rmin_l]).
      assert (Q' : inside_triangle v b' c' q) by (apply Hin'; split; [apply Rmin_glb_lt; assumption|apply Rmin_r]). pose proof (HP v Hv) as Gv.
      destruct Hl as [-> |[-> | ->]]; destruct Hl' as [-> |[-> | ->]]; apply (tiles_once S tr q); try assumption; auto using inside_rot.
    - exfalso. apply (Mix t (Tri v b' gv) b c b'); auto.
    - exfalso. apply (Mix u (Tri v b gv) b' c' b); auto.
    - rewrite (outer_alone S tr HD HR v b b' Ht Hu). reflexivity.
  Qed.

  Lemma over_less : forall k h t v, In t (tris tr) -> In v S -> over k h t v -> exists w, In w S /\ pr k h v < pr k h w.
  Proof.
    intros k h t v Ht Hv [(b & c & Hl & Gc & Gb & [Fc Fb])|(b & -> & Fb)].
    - destruct (pieces S tr HD HR t v b c Ht Hl Hv) as [(Sb & Sc & P0)|[(_ & -> & _)|(_ & -> & _)]]; [|discriminate Gc|discriminate Gb]. eauto.
    - destruct (pieces S tr HD HR _ v b gv Ht (or_introl eq_refl) Hv) as [(Sb & _)|[(Sb & _)|(Sg & _)]]; [eauto|eauto|]. pose proof (rs_plain _ HR _ Sg) as G. discriminate G.
  Qed.

  Variable h : R.
  Hypothesis HA : told_apart 1 h S.
  Hypothesis HB : told_apart (-1) (- h) S.
  Definition sided (t : tri) (vd : pnt * bool) : Prop := In (fst vd) S /\ if snd vd then over 1 h t (fst vd) else over (-1) (- h) t (fst vd).

  Lemma pr_opp : forall a, pr (-1) (- h) a = - pr 1 h a.
  Proof. intros a. unfold pr. ring. Qed.

  Lemma sided_some : forall t, In t (tris tr) -> exists vd, sided t vd.
  Proof.
    intros t Ht. pose proof (rs_plain _ HR) as HP. destruct (dl_shape _ _ HD t Ht) as [(a & b & c & -> & Ha & Hb & Hc & P0)|(a & b & -> & Ha & Hb & Hn)].
    - assert (Nab : pr 1 h a <> pr 1 h b) by (apply HA; auto; intros ->; unfold area2 in P0; lra).
      assert (Nbc : pr 1 h b <> pr 1 h c) by (apply HA; auto; intros ->; unfold area2 in P0; lra).
      assert (Nca : pr 1 h c <> pr 1 h a) by (apply HA; auto; intros ->; unfold area2 in P0; lra).
      pose proof (HP a Ha) as Ga. pose proof (HP b Hb) as Gb. pose proof (HP c Hc) as Gc.
      assert (K : forall x y z, looks (Tri a b c) x y z -> In x S -> vghost y = false -> vghost z = false -> pr 1 h z < pr 1 h x < pr 1 h y -> exists vd, sided (Tri a b c) vd).
      { intros x y z Hl Hx Gy Gz F. exists (x, true). split; [exact Hx|]. left. exists y, z. auto. }
      assert (K' : forall x y z, looks (Tri a b c) x y z -> In x S -> vghost y = false -> vghost z = false -> pr 1 h y < pr 1 h x < pr 1 h z -> exists vd, sided (Tri a b c) vd).
      { intros x y z Hl Hx Gy Gz F. exists (x, false). split; [exact Hx|]. left. exists y, z. rewrite !pr_opp. repeat split; auto; cbn [fst]; lra. }
      assert (L1 : looks (Tri a b c) a b c) by (left; reflexivity). pose proof (looks_rot _ _ _ _ L1) as L2. pose proof (looks_rot _ _ _ _ L2) as L3.
      destruct (Rtotal_order (pr 1 h a) (pr 1 h b)) as [A|[A|A]]; [|contradiction|]; (destruct (Rtotal_order (pr 1 h b) (pr 1 h c)) as [B|[B|B]]; [|contradiction|]); (destruct (Rtotal_order (pr 1 h c) (pr 1 h a)) as [C|[C|C]]; [|contradiction|]); try lra.
      + apply (K b c a); auto. 
      + apply (K a b c); auto.
      + apply (K' c a b); auto.
      + apply (K c a b); auto.
      + apply (K' a b c); auto.
      + apply (K' b c a); auto.
    - assert (Nab : pr 1 h a <> pr 1 h b) by (apply HA; auto). destruct (Rtotal_order (pr 1 h a) (pr 1 h b)) as [A|[A|A]]; [|contradiction|].
      + exists (a, true). split; [exact Ha|]. right. exists b. auto.
      + exists (a, false). split; [exact Ha|]. right. exists b. split; [reflexivity|]. rewrite !pr_opp. cbn [fst]. lra.
  Qed.

  Lemma sided_one : forall t vd vd', In t (tris tr) -> sided t vd -> sided t vd' -> vd = vd'.
  Proof.
    intros t [v d] [v' d'] Ht [Hv O] [Hv' O']. cbn [fst snd] in *. pose proof (rs_plain _ HR) as HP.
    destruct (dl_shape _ _ HD t Ht) as [(a & b & c & -> & Ha & Hb & Hc & P0)|(a & b & -> & Ha & Hb & Hn)].
    - pose proof (HP c Hc) as Gc.
      assert (N : forall (k g : R) x, over k g (Tri a b c) x -> exists y z, looks (Tri a b c) x y z /\ pr k g z < pr k g x < pr k g y).
      { intros k g x [(y & z & Hl & _ & _ & F)|(y & E & _)]; [eauto|]. injection E as _ _ ->. discriminate Gc. }
      destruct d; destruct d'; apply N in O as (y & z & Hl & F); apply N in O' as (y' & z' & Hl' & F'); rewrite ?pr_opp in *;
        destruct Hl as [E|[E|E]]; injection E as -> -> ->; destruct Hl' as [E|[E|E]]; injection E as -> -> ->; try reflexivity; exfalso; lra.
    - assert (N : forall (k g : R) x, In x S -> over k g (Tri a b gv) x -> x = a /\ pr k g a < pr k g b).
      { intros k g x Hx [(y & z & Hl & Gz & Gy & F)|(y & E & F)].
        - exfalso. destruct Hl as [E|[E|E]]; injection E; intros; subst; try discriminate. pose proof (HP _ Hx) as G. discriminate G.
        - injection E as -> ->. auto. }
      destruct d; destruct d'; apply N in O as [-> F]; try exact Hv; apply N in O' as [-> F']; try exact Hv'; rewrite ?pr_opp in *; try reflexivity; exfalso; lra.
  Qed.
End One.

Lemma pair_out : forall {X} (l : list X) x y, In x l -> In y l -> x <> y -> exists m, Permutation l (x :: y :: m).
Proof.
  intros X l x y Hx Hy N. apply in_split in Hx as (l1 & l2 & ->). assert (Hy' : In y (l1 ++ l2)) by (apply in_app_iff in Hy; apply in_app_iff; destruct Hy as [?|[?|?]]; [auto|congruence|auto]).
  apply in_split in Hy' as (m1 & m2 & E). exists (m1 ++ m2). rewrite <- Permutation_middle, E, <- Permutation_middle. reflexivity.
Qed.

Lemma NoDup_both : forall {X} (l : list X), NoDup l -> NoDup (list_prod l [true; false]).
Proof.
  intros X l Hl. induction Hl as [|x l Hx Hl IH]; cbn; [constructor|]. constructor.
  - cbn. intros [E|H]; [congruence|]. apply in_prod_iff in H. apply Hx, H.
  - constructor; [|exact IH]. intros H. apply in_prod_iff in H. apply Hx, H.
Qed.

(** A Delaunay mesh of n points has 2n - 2 triangles, outer faces included. *)
Lemma mesh_count : forall S (tr : mesh), delaunay S tr -> resolved S -> NoDup S -> (length (tris tr) + 2 = 2 * length S)%nat.
Proof.
  intros S tr HD HR HN. pose proof (rs_plain _ HR) as HP. destruct (apart_exists S HP) as (h & HA & HB).
  destruct (has_two S tr HD) as (s & Hs). destruct (list_max _ (pr 1 h) S s Hs) as (M & HM & Mx). destruct (list_max _ (pr (-1) (- h)) S s Hs) as (m & Hm & Mn).
  destruct (pair_out (list_prod S [true; false]) (M, true) (m, false)) as (L & HL); [apply in_prod; cbn; auto|apply in_prod; cbn; auto|congruence|].
  assert (EL : length (list_prod S [true; false]) = (2 * length S)%nat) by (rewrite prod_length; cbn; lia).
  assert (NL : NoDup ((M, true) :: (m, false) :: L)).
  { apply (Permutation_NoDup HL). apply NoDup_both. exact HN. }
  apply Permutation_length in HL as El. cbn [length] in El. assert (length (tris tr) = length L); [|lia].
  apply NoDup_cons_iff in NL as [N1 NL]. apply NoDup_cons_iff in NL as [N2 NL].
  assert (HI : forall v d, In (v, d) L <-> In v S /\ (v, d) <> (M, true) /\ (v, d) <> (m, false)).
  { intros v d. split.
    - intros Hv. split; [|split; intros E; rewrite E in Hv; [apply N1; right; exact Hv|contradiction]].
      assert (In (v, d) (list_prod S [true; false])) by (apply (Permutation_in _ (Permutation_sym HL)); right; right; exact Hv). apply in_prod_iff in H. apply H.
    - intros (Hv & Q1 & Q2). assert (Hp : In (v, d) (list_prod S [true; false])) by (apply in_prod; [exact Hv|destruct d; cbn; auto]). apply (Permutation_in _ HL) in Hp. destruct Hp as [E|[E|E]]; [congruence|congruence|exact E]. }
  apply Nat.le_antisymm.
  - apply (relation_le (sided S h)); [apply (dl_nodup _ _ HD)| |].
    + intros t Ht. destruct (sided_some S tr HD HR h HA t Ht) as ([v d] & Hs'). exists (v, d). split; [|exact Hs'].
      apply HI. destruct Hs' as [Hv O]. cbn [fst snd] in *. split; [exact Hv|]. split; intros E; injection E as -> ->.
      * destruct (over_less S tr HD HR _ _ t M Ht HM O) as (w & Hw & F). specialize (Mx w Hw). lra.
      * destruct (over_less S tr HD HR _ _ t m Ht Hm O) as (w & Hw & F). specialize (Mn w Hw). lra.
    + intros t u [v d] Ht Hu [Hv O] [_ O']. cbn [fst snd] in *. destruct d; eapply (over_one S tr HD HR); eauto.
  - apply (relation_le (fun vd t => In t (tris tr) /\ sided S h t vd)); [exact NL| |].
    + intros [v d] Hv. apply HI in Hv as (Hv & Q1 & Q2). destruct d.
      * destruct (reaches S tr 1 h HD HR HA v M Hv HM) as (b & Hb & Fb).
        { destruct (Mx v Hv) as [L'|E]; [exact L'|]. exfalso. apply (HA v M Hv HM); [congruence|exact E]. }
        destruct (over_exists S tr 1 h HD HR HA v b Hv Hb Fb) as (t & Ht & O). exists t. split; [exact Ht|]. split; [exact Ht|]. split; assumption.
      * destruct (reaches S tr (-1) (- h) HD HR HB v m Hv Hm) as (b & Hb & Fb).
        { destruct (Mn v Hv) as [L'|E]; [exact L'|]. exfalso. apply (HB v m Hv Hm); [congruence|exact E]. }
        destruct (over_exists S tr (-1) (- h) HD HR HB v b Hv Hb Fb) as (t & Ht & O). exists t. split; [exact Ht|]. split; [exact Ht|]. split; assumption.
    + intros vd vd' t _ _ [Ht O] [_ O']. exact (sided_one S tr HD HR h t vd vd' Ht O O').
Qed.
