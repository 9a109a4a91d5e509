(** P_Region2.v — a polygon whose sides are sides of a Delaunay triangulation
    separates its left side from its right side. *)

From Coq Require Import Reals List ZArith Lra Lia Psatz Bool Permutation.
From Verif Require Import Base Arith Geometry Elements Polyline Procedures ArithR Spec SpecR SpecD SpecP
  P_Base P_R1 P_R5 P_D1 P_D2 P_D3 P_D4 P_D5 P_D6 P_D7 P_D8 P_RX P_Fill P_Fill2 P_Slide P_Region.
Import ListNotations.
Local Open Scope R_scope.

Lemma zsum_zero : forall (T : Type) (f : T -> Z) l, (forall x, In x l -> f x = 0%Z) -> zsum f l = 0%Z.
Proof.
  intros T f l H. induction l as [|x l IH]; [reflexivity|]. rewrite zsum_cons, (H x (or_introl eq_refl)), IH; [reflexivity|]. intros y Hy. apply H. right. exact Hy.
Qed.
Lemma bounded_X : forall l : list pnt, exists M, forall w, In w l -> X w <= M.
Proof.
  induction l as [|a l [M IH]]; [exists 0; intros w []|]. exists (Rmax M (X a)). intros w [<-|Hw]; [apply Rmax_r|].
  apply Rle_trans with M; [apply IH, Hw|apply Rmax_l].
Qed.
Lemma small_mix : forall P r, 0 < P -> exists e, 0 < e < 1 /\ forall k, - e <= k <= e -> 0 < (1 - k) * P + k * r.
Proof.
  intros P r HP. set (m := Rabs r + P). assert (Hm : 0 < m) by (unfold m; pose proof (Rabs_pos r); lra).
  exists (P / (2 * m)). assert (E : P / (2 * m) * m = P / 2) by (field; lra). set (e := P / (2 * m)) in *.
  assert (He : 0 < e) by (unfold e; apply Rmult_lt_0_compat; [exact HP|apply Rinv_0_lt_compat; lra]).
  split.
  - split; [exact He|]. apply Rnot_le_lt. intros L. pose proof (Rmult_le_compat_r m 1 e ltac:(lra) L). unfold m in *. pose proof (Rabs_pos r). lra.
  - intros k Hk. assert (Hr : Rabs (r - P) <= m). { unfold m. unfold Rabs. destruct (Rcase_abs r), (Rcase_abs (r - P)); lra. }
    assert (Hk' : Rabs k <= e) by (unfold Rabs; destruct (Rcase_abs k); lra).
    pose proof (Rmult_le_compat (Rabs k) e (Rabs (r - P)) m (Rabs_pos _) (Rabs_pos _) Hk' Hr) as Q. rewrite <- Rabs_mult in Q.
    pose proof (Rle_abs (- (k * (r - P)))). rewrite Rabs_Ropp in H. lra.
Qed.

(** ** Towards a corner *)
Definition toward (b q : pnt) (s : R) : pnt := at_ (X b + s * (X q - X b)) (Y b + s * (Y q - Y b)).
Lemma toward_D : forall b q s x y, D x y (toward b q s) = (1 - s) * D x y b + s * D x y q.
Proof. intros. unfold toward, area2. rewrite X_at, Y_at. ring. Qed.
Lemma toward_segment : forall b q0 q1 s z, on_segment (toward b q0 s) (toward b q1 s) z -> exists z0, on_segment q0 q1 z0 /\ coincide z (toward b z0 s).
Proof.
  intros b q0 q1 s z (k & Hk & [Kx Ky]). exists (at_ (X q0 + k * (X q1 - X q0)) (Y q0 + k * (Y q1 - Y q0))). split.
  - exists k. split; [exact Hk|]. split; [apply X_at|apply Y_at].
  - unfold toward in *. rewrite X_at in Kx. rewrite Y_at in Ky. rewrite X_at in Kx. rewrite Y_at in Ky. split; rewrite ?X_at, ?Y_at; rewrite ?X_at, ?Y_at; lra.
Qed.
Lemma on_segment_coincide : forall x y z z', coincide z z' -> on_segment x y z -> on_segment x y z'.
Proof. intros x y z z' [E1 E2] (k & Hk & [Kx Ky]). exists k. split; [exact Hk|]. split; lra. Qed.
(** A line separates a point from a segment that misses it. *)
Lemma separated : forall x y b, ~ coincide x y -> ~ on_segment x y b -> exists al be ga, al * X b + be * Y b + ga < 0 /\ 0 <= al * X x + be * Y x + ga /\ 0 <= al * X y + be * Y y + ga.
Proof.
  intros x y b Hco Hno. destruct (D_affine x y) as (al & be & ga & E). destruct (Rtotal_order (D x y b) 0) as [L|[Z|L]].
  - exists al, be, ga. rewrite <- !E, D_ab_a, D_ab_b. lra.
  - destruct (ratio_of_line x y b Hco Z) as (k & [Kx Ky]). set (u := X y - X x) in *. set (w := Y y - Y x) in *.
    assert (P : 0 < u * u + w * w).
    { pose proof (Rle_0_sqr u). pose proof (Rle_0_sqr w). unfold Rsqr in *. destruct (Req_dec u 0) as [Eu|Nu].
      - destruct (Req_dec w 0) as [Ew|Nw]; [exfalso; apply Hco; unfold u, w in *; split; lra|]. pose proof (Rsqr_pos_lt w Nw). unfold Rsqr in *. lra.
      - pose proof (Rsqr_pos_lt u Nu). unfold Rsqr in *. lra. }
    assert (Hx : X y = X x + u) by (unfold u; lra). assert (Hy : Y y = Y x + w) by (unfold w; lra).
    destruct (Rlt_dec k 0) as [L|L].
    + exists u, w, (- (u * X x + w * Y x)). rewrite Kx, Ky, Hx, Hy. pose proof (spp (- k) _ ltac:(lra) P). repeat split; lra.
    + assert (L1 : 1 < k) by (apply Rnot_le_lt; intros L1; apply Hno; exists k; split; [lra|split; assumption]).
      exists (- u), (- w), (u * X y + w * Y y). rewrite Kx, Ky, Hx, Hy. pose proof (spp (k - 1) _ ltac:(lra) P). repeat split; lra.
  - exists (- al), (- be), (- ga). pose proof (E b). pose proof (E x). pose proof (E y). rewrite D_ab_a in *. rewrite D_ab_b in *. lra.
Qed.
Lemma avoid_one : forall x y b q0 q1, ~ coincide x y -> ~ on_segment x y b -> exists e, 0 < e < 1 /\ forall s z, 0 <= s <= e -> on_segment q0 q1 z -> ~ on_segment x y (toward b z s).
Proof.
  intros x y b q0 q1 Hco Hno. destruct (separated x y b Hco Hno) as (al & be & ga & Hb & Hx & Hy).
  set (f := fun p : pnt => al * X p + be * Y p + ga) in *.
  destruct (small_mix (- f b) (- f q0)) as (e0 & He0 & S0); [unfold f; lra|]. destruct (small_mix (- f b) (- f q1)) as (e1 & He1 & S1); [unfold f; lra|].
  exists (Rmin e0 e1). split; [unfold Rmin; destruct (Rle_dec e0 e1); lra|]. intros s z Hs (k & Hk & [Kx Ky]) (j & Hj & [Jx Jy]).
  assert (Hs0 : - e0 <= s <= e0 /\ - e1 <= s <= e1) by (unfold Rmin in Hs; destruct (Rle_dec e0 e1); lra).
  pose proof (S0 s (proj1 Hs0)) as Q0. pose proof (S1 s (proj2 Hs0)) as Q1. unfold toward in Jx, Jy. rewrite X_at in Jx. rewrite Y_at in Jy.
  assert (Fz : (1 - s) * f b + s * f z = (1 - j) * f x + j * f y).
  { unfold f. replace (al * X z + be * Y z + ga) with (al * X z + be * Y z + ga) by ring.
    assert (Ea : (1 - s) * X b + s * X z = (1 - j) * X x + j * X y) by lra. assert (Eb : (1 - s) * Y b + s * Y z = (1 - j) * Y x + j * Y y) by lra.
    replace ((1 - s) * (al * X b + be * Y b + ga) + s * (al * X z + be * Y z + ga)) with (al * ((1 - s) * X b + s * X z) + be * ((1 - s) * Y b + s * Y z) + ga) by ring.
    rewrite Ea, Eb. ring. }
  assert (Fk : f z = (1 - k) * f q0 + k * f q1) by (unfold f; rewrite Kx, Ky; ring).
  pose proof (mpp (1 - j) (f x) ltac:(lra) Hx). pose proof (mpp j (f y) ltac:(lra) Hy).
  assert (A : (1 - s) * f b + s * f z = (1 - k) * ((1 - s) * f b + s * f q0) + k * ((1 - s) * f b + s * f q1)) by (rewrite Fk; ring).
  assert (B : (1 - k) * ((1 - s) * f b + s * f q0) + k * ((1 - s) * f b + s * f q1) < 0); [|lra].
  destruct (Rlt_dec 0 k) as [L|L].
  - pose proof (spn k ((1 - s) * f b + s * f q1) L ltac:(lra)). pose proof (mpn (1 - k) ((1 - s) * f b + s * f q0) ltac:(lra) ltac:(lra)). lra.
  - pose proof (spn (1 - k) ((1 - s) * f b + s * f q0) ltac:(lra) ltac:(lra)). pose proof (mpn k ((1 - s) * f b + s * f q1) ltac:(lra) ltac:(lra)). lra.
Qed.
Lemma avoid_all : forall (es : list (edge ArithR)) b q0 q1, (forall x y, In (x, y) es -> ~ coincide x y /\ ~ on_segment x y b) ->
  exists e, 0 < e < 1 /\ forall s z x y, 0 <= s <= e -> on_segment q0 q1 z -> In (x, y) es -> ~ on_segment x y (toward b z s).
Proof.
  intros es b q0 q1. induction es as [|[x y] es IH]; intros H; [exists (1/2); split; [lra|intros s z x y _ _ []]|].
  destruct IH as (e & He & Q); [intros x' y' Hi; apply H; right; exact Hi|]. destruct (H x y (or_introl eq_refl)) as [Hco Hno].
  destruct (avoid_one x y b q0 q1 Hco Hno) as (e' & He' & Q'). exists (Rmin e e'). split; [unfold Rmin; destruct (Rle_dec e e'); lra|].
  intros s z x' y' Hs Hz Hi. assert (Hs' : 0 <= s <= e /\ 0 <= s <= e') by (unfold Rmin in Hs; destruct (Rle_dec e e'); lra).
  destruct Hi as [E|Hi]; [injection E as <- <-; apply Q'; tauto|apply (Q s z x' y'); tauto].
Qed.

(** ** Sides of a polygon *)
Lemma NoDup_map_inj : forall (T U : Type) (f : T -> U) l x y, NoDup (map f l) -> In x l -> In y l -> f x = f y -> x = y.
Proof.
  intros T U f l x y. induction l as [|a l IH]; intros Hn Hx Hy E; [destruct Hx|]. cbn [map] in Hn. inversion Hn as [|? ? H1 H2]; subst.
  destruct Hx as [<-|Hx], Hy as [<-|Hy]; [reflexivity| | |apply IH; assumption]; exfalso; apply H1; [rewrite E|rewrite <- E]; apply in_map; assumption.
Qed.
Lemma polygon_snd : forall l : list pnt, NoDup l -> NoDup (map snd (polygon_sides l)).
Proof.
  intros [|a l] Hn; [constructor|]. change (polygon_sides (a :: l)) with (path_sides (a :: (l ++ [a]))). rewrite path_snd.
  apply (Permutation_NoDup (l := a :: l)); [|exact Hn]. apply Permutation_cons_append.
Qed.
Lemma one_out : forall (l : list pnt) a b c, NoDup l -> In (a, b) (polygon_sides l) -> In (a, c) (polygon_sides l) -> b = c.
Proof.
  intros l a b c Hn H1 H2. assert (E : (a, b) = (a, c)); [|congruence]. apply (NoDup_map_inj _ _ fst (polygon_sides l)); auto. rewrite polygon_fst. exact Hn.
Qed.
Lemma one_in : forall (l : list pnt) a b c, NoDup l -> In (a, c) (polygon_sides l) -> In (b, c) (polygon_sides l) -> a = b.
Proof.
  intros l a b c Hn H1 H2. assert (E : (a, c) = (b, c)); [|congruence]. apply (NoDup_map_inj _ _ snd (polygon_sides l)); auto. apply polygon_snd, Hn.
Qed.
Lemma path_In : forall (p : list pnt) a b, In (a, b) (path_sides p) -> exists p1 p2, p = p1 ++ a :: b :: p2.
Proof.
  induction p as [|x p IH]; intros a b H; [destruct H|]. destruct p as [|y p]; [destruct H|]. change (path_sides (x :: y :: p)) with ((x, y) :: path_sides (y :: p)) in H.
  destruct H as [E|H]; [injection E as -> ->; exists [], p; reflexivity|]. destruct (IH a b H) as (p1 & p2 & E). exists (x :: p1), p2. rewrite E. reflexivity.
Qed.
(** Both directions of a side: the polygon has two corners. *)
Lemma both_ways : forall (l : list pnt) a b, NoDup l -> In (a, b) (polygon_sides l) -> In (b, a) (polygon_sides l) -> shoelace (polygon_sides l) = 0.
Proof.
  assert (K : forall (l : list pnt) a b, NoDup l -> In (a, b) (polygon_sides l) -> In (b, a) (polygon_sides l) -> l = [a] \/ l = [a; b] \/ l = [b; a]).
  { intros l a b Hn H1 H2. destruct l as [|h l]; [destruct H1|].
    change (polygon_sides (h :: l)) with (path_sides (h :: (l ++ [h]))) in H1, H2.
    destruct (path_In _ _ _ H1) as (p1 & p2 & E1). destruct (path_In _ _ _ H2) as (p3 & p4 & E2).
    assert (Hh : forall x y p q, h :: l ++ [h] = p ++ x :: y :: q -> (q = [] /\ y = h /\ h :: l = p ++ [x]) \/ exists q', q = q' ++ [h] /\ h :: l = p ++ x :: y :: q').
    { intros x y p q E. destruct (exists_last (l := x :: y :: q) ltac:(discriminate)) as (r & z & Er).
      change (h :: l ++ [h]) with ((h :: l) ++ [h]) in E. rewrite Er, app_assoc in E. apply app_inj_tail in E. destruct E as [E <-].
      destruct q as [|w q].
      - left. destruct r as [|r0 [|r1 r]]; try discriminate. injection Er as <- <-. auto. destruct r; discriminate.
      - right. destruct (exists_last (l := w :: q) ltac:(discriminate)) as (q' & z & Eq). exists q'. rewrite Eq in Er.
        change (x :: y :: q' ++ [z]) with ((x :: y :: q') ++ [z]) in Er. apply app_inj_tail in Er. destruct Er as [<- <-]. rewrite Eq. auto. }
    assert (Two : forall p q p' q' : list pnt, h :: l = p ++ a :: b :: q -> h :: l = p' ++ b :: a :: q' -> False).
    { intros p q p' q' Ea Eb. rewrite Ea in Hn. assert (Na : ~ In b p /\ ~ In a q /\ a <> b).
      { apply NoDup_remove in Hn as Hr. destruct Hr as [Hr Hna]. split; [|split].
        - intros Hb. change (a :: b :: q) with ([a] ++ b :: q) in Hn. rewrite app_assoc in Hn. apply NoDup_remove_2 in Hn. apply Hn. rewrite !in_app_iff. auto.
        - intros Ha. apply Hna. rewrite in_app_iff. right. right. exact Ha.
        - intros ->. apply Hna. rewrite in_app_iff. right. left. reflexivity. }
      rewrite Ea in Eb. clear Hn Ea. revert p' Eb Na. induction p as [|x p IH]; intros p' Eb (N1 & N2 & N3).
      - destruct p' as [|y p']; cbn [app] in Eb; [injection Eb; intros; congruence|]. injection Eb as -> Eb. destruct p' as [|y' p']; cbn [app] in Eb; [injection Eb as Eb; apply N2; rewrite Eb; left; reflexivity|].
        injection Eb as -> Eb. apply N2. rewrite Eb, in_app_iff. right. right. left. reflexivity.
      - destruct p' as [|y p']; cbn [app] in Eb; [injection Eb as -> Eb; apply N1; left; reflexivity|]. injection Eb as -> Eb. apply (IH p' Eb). split; [intros Hb; apply N1; right; exact Hb|auto]. }
    destruct (Hh _ _ _ _ E1) as [(-> & -> & F1)|(q1 & -> & F1)], (Hh _ _ _ _ E2) as [(-> & E & F2)|(q2 & -> & F2)].
    - subst a. destruct p1 as [|x p1]; [left; exact F1|]. cbn [app] in F1. injection F1 as -> F1. rewrite F1 in Hn. inversion Hn as [|? ? Hx _]. exfalso. apply Hx. rewrite in_app_iff. right. left. reflexivity.
    - destruct p1 as [|x p1]; [left; exact F1|]. cbn [app] in F1. injection F1 as -> F1. destruct p3 as [|y p3].
      + cbn [app] in F2. injection F2 as F2. rewrite F1 in F2, Hn |- *. destruct p1 as [|y p1]; [right; right; reflexivity|]. cbn [app] in F2. injection F2 as -> F2. exfalso.
        inversion Hn as [|? ? _ Hn']. cbn [app] in Hn'. inversion Hn' as [|? ? Hx _]. apply Hx. rewrite in_app_iff. right. left. reflexivity.
      + cbn [app] in F2. injection F2 as -> F2. exfalso. inversion Hn as [|? ? Hx _]. apply Hx. rewrite F2, in_app_iff. right. left. reflexivity.
    - subst a. destruct p3 as [|x p3].
      + cbn [app] in F2. injection F2 as -> F2. exfalso. destruct p1 as [|x p1]; cbn [app] in F1; injection F1; intros; subst; [discriminate|]. destruct p1; discriminate.
      + cbn [app] in F2. injection F2 as -> F2. destruct p1 as [|y p1].
        * cbn [app] in F1. injection F1 as F1. rewrite F2 in F1. destruct p3 as [|z p3]; [cbn [app] in F1; injection F1 as F1; right; left; rewrite F2; reflexivity|].
          cbn [app] in F1. injection F1 as -> F1. exfalso. rewrite F2 in Hn. inversion Hn as [|? ? _ Hn']. cbn [app] in Hn'. inversion Hn' as [|? ? Hx _]. apply Hx. rewrite in_app_iff. right. left. reflexivity.
        * cbn [app] in F1. injection F1 as -> F1. exfalso. inversion Hn as [|? ? Hx _]. apply Hx. rewrite F1, in_app_iff. right. left. reflexivity.
    - exfalso. exact (Two _ _ _ _ F1 F2). }
  intros l a b Hn H1 H2. destruct (K l a b Hn H1 H2) as [-> |[-> | ->]]; unfold shoelace; cbn; lra.
Qed.
