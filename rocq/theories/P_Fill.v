(** P_Fill.v — the part of a Delaunay triangulation cut out along a closed chain
    of its sides is the polygon bounded by the chain. *)

From Coq Require Import Reals List ZArith Lra Lia Psatz Bool Permutation.
From Verif Require Import Base Arith Geometry Elements Polyline Procedures ArithR Spec SpecR SpecD
  P_Base P_Trn P_Fuel P_Vertices P_Cavity P_R1 P_R2 P_R5 P_D1 P_D2 P_D3 P_D4 P_D5 P_D6 P_D7 P_D8 P_RX.
Import ListNotations.
Local Open Scope R_scope.

(** ** Real sums over sides *)
Section RSums.
  Notation edge := (edge ArithR).
  Definition rsum {X} (f : X -> R) (l : list X) : R := total (map f l).
  Lemma rsum_cons : forall X (f : X -> R) x l, rsum f (x :: l) = f x + rsum f l.
  Proof. reflexivity. Qed.
  Lemma rsum_app : forall X (f : X -> R) l l', rsum f (l ++ l') = rsum f l + rsum f l'.
  Proof. intros X f l l'. induction l as [|x l IH]; [unfold rsum at 2; cbn [map total fold_right app]; ring|]. cbn [app]. rewrite !rsum_cons, IH. ring. Qed.
  Lemma rsum_perm : forall X (f : X -> R) l l', Permutation l l' -> rsum f l = rsum f l'.
  Proof. intros X f l l' Hp. induction Hp; rewrite ?rsum_cons; lra. Qed.
  Lemma rsum_map : forall X Y (g : X -> Y) (f : Y -> R) l, rsum f (map g l) = rsum (fun x => f (g x)) l.
  Proof. intros. unfold rsum. rewrite map_map. reflexivity. Qed.
  Lemma rsum_ext : forall X (f g : X -> R) l, (forall x, In x l -> f x = g x) -> rsum f l = rsum g l.
  Proof. intros X f g l He. induction l as [|x l IH]; [reflexivity|]. rewrite !rsum_cons, IH, He; auto with datatypes. Qed.
  Lemma rsum_opp : forall X (f : X -> R) l, rsum (fun x => - f x) l = - rsum f l.
  Proof. intros X f l. induction l as [|x l IH]; [unfold rsum; cbn; ring|]. rewrite !rsum_cons, IH. ring. Qed.
  Lemma rsum_split : forall X (f : X -> R) (p : X -> bool) l, rsum f l = rsum f (filter p l) + rsum f (filter (fun x => negb (p x)) l).
  Proof.
    intros X f p l. induction l as [|x l IH]; [unfold rsum; cbn; ring|]. cbn [filter]. destruct (p x); cbn [negb]; rewrite !rsum_cons, IH; ring.
  Qed.
  Lemma rsum_nonneg : forall X (f : X -> R) l, (forall x, In x l -> 0 <= f x) -> 0 <= rsum f l.
  Proof.
    intros X f l Hf. induction l as [|x l IH]; [unfold rsum; cbn; lra|]. rewrite rsum_cons.
    pose proof (Hf x (or_introl eq_refl)). assert (0 <= rsum f l) by (apply IH; auto with datatypes). lra.
  Qed.
  Definition ranti (f : edge -> R) : Prop := forall e, f (flip e) = - f e.
  Lemma ranti_zero : forall f l, ranti f -> NoDup l -> (forall e, In e l -> In (flip e) l) -> rsum f l = 0.
  Proof.
    intros f l Ha Hn Hc. assert (Hp : Permutation (map flip l) l).
    { apply NoDup_Permutation; [apply NoDup_map_flip, Hn|exact Hn|]. intros e. rewrite in_map_iff. split.
      - intros (e' & <- & He'). apply Hc, He'.
      - intros He. exists (flip e). split; [apply flip_flip|apply Hc, He]. }
    apply (rsum_perm _ f) in Hp. rewrite rsum_map in Hp.
    rewrite (rsum_ext _ (fun x => f (flip x)) (fun x => - f x)) in Hp by (intros; apply Ha). rewrite rsum_opp in Hp. lra.
  Qed.
  Lemma rrim_sum : forall f l, ranti f -> NoDup l -> rsum f l = rsum f (rim l).
  Proof.
    intros f l Ha Hn. rewrite (rsum_split _ f (fun e => if in_dec edec (flip e) l then true else false)). fold (rim l).
    rewrite ranti_zero; [ring|exact Ha|apply NoDup_filter, Hn|]. intros e He. rewrite filter_In in *. destruct He as [He Hf].
    destruct (in_dec edec (flip e) l) as [Hi|]; [|discriminate]. split; [exact Hi|]. rewrite flip_flip.
    destruct (in_dec edec e l); [reflexivity|contradiction].
  Qed.
  Lemma rsides_sum : forall f (l : list tri), rsum f (sides l) = rsum (fun t => rsum f (inner_edges t)) l.
  Proof.
    intros f l. induction l as [|t l IH]; [reflexivity|]. cbn [sides flat_map]. rewrite rsum_app, rsum_cons. fold (sides l). rewrite IH. reflexivity.
  Qed.
End RSums.

(** ** The outer faces form one cycle *)
(** A vertex with both hull neighbours to its right is the leftmost. *)
Lemma local_leftmost : forall S a m c w, (forall w, In w S -> vghost w = false) -> In a S -> In m S -> In c S -> In w S ->
  hull_edge S a m -> hull_edge S m c -> (a = c -> w = a \/ w = m) -> lex_lt m a -> lex_lt m c -> ~ lex_lt w m.
Proof.
  intros S a m c w Hpl Ha Hm Hc Hw H1 H2 Hf La Lc Lw.
  destruct (H1 w Hw) as [E1 _]. destruct (H2 w Hw) as [E2 _]. destruct (H1 c Hc) as [E3 N3]. destruct (H2 a Ha) as [_ N4].
  set (ax := X a - X m). set (ay := Y a - Y m). set (cx := X c - X m). set (cy := Y c - Y m). set (wx := X w - X m). set (wy := Y w - Y m).
  assert (F1 : 0 <= ax * wy - ay * wx) by (unfold area2 in E1; unfold ax, ay, wx, wy; lra).
  assert (F2 : 0 <= wx * cy - wy * cx) by (unfold area2 in E2; unfold cx, cy, wx, wy; lra).
  assert (F3 : 0 <= ax * cy - ay * cx) by (unfold area2 in E3; unfold ax, ay, cx, cy; lra).
  assert (Pa : 0 < ax \/ (ax = 0 /\ 0 < ay)) by (unfold lex_lt in La; unfold ax, ay; lra).
  assert (Pc : 0 < cx \/ (cx = 0 /\ 0 < cy)) by (unfold lex_lt in Lc; unfold cx, cy; lra).
  assert (Pw : wx < 0 \/ (wx = 0 /\ wy < 0)) by (unfold lex_lt in Lw; unfold wx, wy; lra).
  assert (Ix : wx * (ax * cy - ay * cx) = ax * (wx * cy - wy * cx) + cx * (ax * wy - ay * wx)) by ring.
  assert (Iy : wy * (ax * cy - ay * cx) = ay * (wx * cy - wy * cx) + cy * (ax * wy - ay * wx)) by ring.
  destruct (Rle_lt_or_eq_dec _ _ F3) as [K|K].
  - set (k := ax * cy - ay * cx) in *. set (al := wx * cy - wy * cx) in *. set (ga := ax * wy - ay * wx) in *.
    assert (Q1 := mpp ax al ltac:(lra) F2). assert (Q2 := mpp cx ga ltac:(lra) F1).
    assert (wx = 0).
    { destruct Pw as [Pw|[Pw _]]; [|exact Pw]. assert (Q := snp wx k Pw K). lra. }
    assert (Pw' : wy < 0) by lra. clear Pw. rewrite H in Ix. assert (Z1 : ax * al = 0) by lra. assert (Z2 : cx * ga = 0) by lra.
    assert (Q3 : 0 <= ay * al).
    { apply Rmult_integral in Z1. destruct Z1 as [Z1|Z1]; [apply mpp; lra|rewrite Z1; lra]. }
    assert (Q4 : 0 <= cy * ga).
    { apply Rmult_integral in Z2. destruct Z2 as [Z2|Z2]; [apply mpp; lra|rewrite Z2; lra]. }
    assert (Q := snp wy k Pw' K). lra.
  - (* parallel: [c = m + r (a - m)] with [0 < r] *)
    assert (Hr : exists r, 0 < r /\ cx = r * ax /\ cy = r * ay).
    { destruct Pa as [Pa|[Pa Pa']].
      - destruct Pc as [Pc|[Pc Pc']].
        + exists (cx / ax). split; [apply Rdiv_lt_0_compat; assumption|]. split; [field; lra|].
          apply (Rmult_eq_reg_l ax); [|lra]. replace (ax * (cx / ax * ay)) with (ay * cx) by (field; lra). lra.
        + exfalso. rewrite Pc in K. assert (Q := spp ax cy Pa Pc'). lra.
      - destruct Pc as [Pc|[Pc Pc']].
        + exfalso. rewrite Pa in K. assert (Q := spp ay cx Pa' Pc). lra.
        + exists (cy / ay). split; [apply Rdiv_lt_0_compat; assumption|]. rewrite Pc, Pa. split; [ring|field; lra]. }
    destruct Hr as (r & Pr & Rx & Ry).
    assert (Ga := Hpl a Ha). assert (Gm := Hpl m Hm). assert (Gc := Hpl c Hc).
    assert (Nc : forall x y, lex_lt x y -> ~ coincide x y) by (unfold lex_lt, coincide; intros; lra).
    destruct (Rtotal_order r 1) as [L|[E|L]].
    + apply N3. apply (param_between a m c (1 - r)); [|lra|].
      * intros Hco. apply (Nc m a La). unfold coincide in *. lra.
      * split; unfold cx, cy, ax, ay in *; lra.
    + assert (Ec : a = c) by (apply plain_coincide; auto; split; unfold cx, cy, ax, ay in *; subst r; lra).
      destruct (Hf Ec) as [-> | ->]; unfold lex_lt in *; lra.
    + apply N4. apply (param_between m c a (/ r)); [apply Nc, Lc| |].
      * split; [apply Rinv_0_lt_compat, Pr|]. rewrite <- Rinv_1. apply Rinv_lt_contravar; lra.
      * assert (Hi : forall x y, y = r * x -> x = / r * y) by (intros x y ->; field; lra).
        apply Hi in Rx, Ry. split; unfold cx, cy, ax, ay in *; lra.
Qed.

Lemma lex_least : forall l : list pnt, l <> [] -> exists m, In m l /\ forall w, In w l -> ~ lex_lt w m.
Proof.
  intros l Hn. induction l as [|x l IH]; [congruence|]. destruct l as [|y l'].
  - exists x. split; [left; reflexivity|]. intros w [<-|[]]. unfold lex_lt. lra.
  - destruct IH as (m & Hm & Hl); [discriminate|]. destruct (lex_dec x m) as [L|N].
    + exists x. split; [left; reflexivity|]. intros w [<-|Hw]; [unfold lex_lt; lra|]. intros Lw. apply (Hl w Hw). unfold lex_lt in *. lra.
    + exists m. split; [right; exact Hm|]. intros w [<-|Hw]; [exact N|apply Hl, Hw].
Qed.

Section Cycle.
  Variables (S : list pnt) (tr : mesh).
  Hypothesis HD : delaunay S tr.
  Hypothesis HR : resolved S.
  Let pl := rs_plain S HR.

  Lemma HRv : exists v, resolved (v :: S).
  Proof. destruct (has_two S tr HD) as [s Hs]. exists s. exact (resolved_dup S s HR Hs). Qed.
  Lemma next_face : forall a b, In (Tri a b gv) (tris tr) -> exists c, In (Tri b c gv) (tris tr).
  Proof.
    intros a b Ht. destruct HRv as [v Hv]. destruct (dl_closed _ _ HD _ (b, gv) Ht) as (u & Hu & Su); [constructor|]. cbn [flip fst snd] in Su.
    destruct (view_gv2 S tr v HD Hv u b Hu Su) as (c & -> & _). exists c. exact Hu.
  Qed.
  Lemma prev_face : forall b c, In (Tri b c gv) (tris tr) -> exists a, In (Tri a b gv) (tris tr).
  Proof.
    intros b c Ht. destruct HRv as [v Hv]. destruct (dl_closed _ _ HD _ (gv, b) Ht) as (u & Hu & Su); [constructor|]. cbn [flip fst snd] in Su.
    destruct (view_gv1 S tr v HD Hv u b Hu Su) as (a & -> & _). exists a. exact Hu.
  Qed.

  (** A property of the outer faces that neighbours share is shared by all. *)
  Variable B : tri -> bool.
  Hypothesis HB : forall a b c, In (Tri a b gv) (tris tr) -> In (Tri b c gv) (tris tr) -> B (Tri a b gv) = B (Tri b c gv).

  Lemma face_leftmost : forall a0 b0 m, In (Tri a0 b0 gv) (tris tr) -> In m S -> (forall w, In w S -> ~ lex_lt w m) ->
    exists a, In (Tri a m gv) (tris tr) /\ B (Tri a m gv) = B (Tri a0 b0 gv).
  Proof.
    intros a0 b0 m Ht Sm Hm. destruct HRv as [v Hv].
    set (cls := filter (fun t => vghost (tv3 t) && Bool.eqb (B t) (B (Tri a0 b0 gv))) (tris tr)).
    assert (C : forall t, In t cls -> exists a b, t = Tri a b gv /\ In t (tris tr) /\ B t = B (Tri a0 b0 gv)).
    { intros t Hi. apply filter_In in Hi. destruct Hi as [Hi Hg]. apply andb_true_iff in Hg. destruct Hg as [Hg Hb]. apply eqb_prop in Hb.
      destruct (dl_shape _ _ HD t Hi) as [(x & y & z & -> & _ & _ & Hz & _)|(x & y & -> & _)].
      - cbn in Hg. rewrite (pl z Hz) in Hg. discriminate.
      - exists x, y. auto. }
    assert (C' : forall a b, In (Tri a b gv) (tris tr) -> B (Tri a b gv) = B (Tri a0 b0 gv) -> In b (map tv2 cls)).
    { intros a b Hi Hb. apply in_map_iff. exists (Tri a b gv). split; [reflexivity|]. apply filter_In. split; [exact Hi|]. rewrite Hb, eqb_reflx. reflexivity. }
    destruct (lex_least (map tv2 cls)) as (n & Hn & Hl).
    { intros E. pose proof (C' a0 b0 Ht eq_refl) as Hi. rewrite E in Hi. destruct Hi. }
    apply in_map_iff in Hn. destruct Hn as (t & E & Hi). destruct (C t Hi) as (a & b & -> & Ha & Hb). cbn [tv2] in E. subst b.
    destruct (next_face a n Ha) as [c Hc]. destruct (prev_face a n Ha) as [d Hd].
    destruct (ghost_shape S tr v HD Hv a n Ha) as (Sa & Sn & Nan & He). destruct (ghost_shape S tr v HD Hv n c Hc) as (_ & Sc & Nnc & Hf).
    assert (Ln : forall w, In w S -> ~ lex_lt w n).
    { intros w Sw. assert (L : forall x, In x S -> x <> n -> In x (map tv2 cls) -> lex_lt n x).
      { intros x Sx Nx Hx. destruct (lex_total n x) as [L|L]; [|exact L|exfalso; exact (Hl x Hx L)].
        intros Hco. apply Nx. symmetry. apply plain_coincide; auto. }
      apply (local_leftmost S a n c w); auto.
      - intros <-. apply (dl_flat _ _ HD a n Ha Hc w Sw).
      - apply L; auto. apply (C' d a Hd). rewrite (HB d a n Hd Ha). exact Hb.
      - apply L; auto. apply (C' n c Hc). rewrite <- (HB a n c Ha Hc). exact Hb. }
    assert (En : n = m).
    { destruct (vdec n m) as [E|N]; [exact E|]. destruct (lex_total n m) as [L|L].
      - intros Hco. apply N. apply plain_coincide; auto.
      - destruct (Hm n Sn L).
      - destruct (Ln m Sm L). }
    subst n. exists a. auto.
  Qed.

  Lemma faces_alike : forall a b a' b', In (Tri a b gv) (tris tr) -> In (Tri a' b' gv) (tris tr) -> B (Tri a b gv) = B (Tri a' b' gv).
  Proof.
    intros a b a' b' Ht Ht'. destruct HRv as [v Hv]. destruct (has_two S tr HD) as [s Hs].
    destruct (lex_least S) as (m & Sm & Hm); [intros E; rewrite E in Hs; destruct Hs|].
    destruct (face_leftmost a b m Ht Sm Hm) as (x & Hx & <-). destruct (face_leftmost a' b' m Ht' Sm Hm) as (x' & Hx' & <-).
    rewrite (excl S tr HD _ _ (m, gv) Hx Hx') by constructor. reflexivity.
  Qed.
End Cycle.

(** ** Cutting along a chain of sides *)
Section Fill.
  Variables (S : list pnt) (tr : mesh) (es : list (edge ArithR)) (N : tri -> bool).
  Hypothesis HD : delaunay S tr.
  Hypothesis HR : resolved S.
  Hypothesis Hnd : NoDup es.
  (** [N] holds on the kept triangles: nothing but a chain edge separates them from
      the others, the other side of a chain edge is not kept, its own side is. *)
  Hypothesis HN1 : forall t t' x, In t (tris tr) -> In t' (tris tr) -> N t = true -> side_of x t' -> side_of (flip x) t ->
    ~ In x (map flip es) -> N t' = true.
  Hypothesis HN2 : forall e t, In e es -> In t (tris tr) -> side_of (flip e) t -> N t = false.
  Hypothesis HN3 : forall e, In e es -> exists u, In u (tris tr) /\ side_of e u /\ N u = true.
  Hypothesis chain_plain : forall e, In e es -> In (fst e) S /\ In (snd e) S.
  (** The chain goes counterclockwise. *)
  Hypothesis Harea : 0 < shoelace es \/ exists q, (0 < winding q es)%Z.

  Definition solids (B : tri -> bool) : list tri := filter (fun t => negb (vghost (tv3 t)) && B t) (tris tr).
  Lemma solids_In : forall B t, In t (solids B) <-> In t (tris tr) /\ vghost (tv3 t) = false /\ B t = true.
  Proof. clear. intros B t. unfold solids. rewrite filter_In, andb_true_iff, negb_true_iff. tauto. Qed.
  Lemma solid_shape : forall t, In t (tris tr) -> vghost (tv3 t) = false ->
    exists a b c, t = Tri a b c /\ In a S /\ In b S /\ In c S /\ 0 < D a b c.
  Proof.
    intros t Ht G. destruct (dl_shape _ _ HD t Ht) as [Hs|(a & b & -> & _)]; [exact Hs|discriminate].
  Qed.
  Lemma ghost_face : forall t, In t (tris tr) -> vghost (tv3 t) = true -> exists a b, t = Tri a b gv /\ In a S /\ In b S.
  Proof.
    intros t Ht G. destruct (dl_shape _ _ HD t Ht) as [(a & b & c & -> & Ha & Hb & Hc & _)|(a & b & -> & Ha & Hb & _)].
    - cbn in G. rewrite (rs_plain _ HR c Hc) in G. discriminate.
    - exists a, b. auto.
  Qed.
  Lemma solid_sides_NoDup : forall B, NoDup (sides (solids B)).
  Proof.
    intros B. apply sides_NoDup.
    - apply NoDup_filter, (dl_nodup _ _ HD).
    - intros t Ht. apply solids_In in Ht. destruct Ht as (Ht & G & _). destruct (solid_shape t Ht G) as (a & b & c & -> & _ & _ & _ & Hp).
      destruct (D_neq _ _ _ Hp) as (n1 & n2 & n3). unfold inner_edges, te1, te2, te3. cbn. repeat constructor; cbn [In]; intuition congruence.
    - intros t t' e Ht Ht'. apply solids_In in Ht, Ht'. apply (excl S tr HD); tauto.
  Qed.
  Lemma chain_no_ghost : forall x, In x (map flip es) -> fst x <> gv /\ snd x <> gv.
  Proof.
    intros x Hx. apply in_map_iff in Hx. destruct Hx as ([a b] & <- & He). destruct (chain_plain _ He) as [Ha Hb]. cbn [flip fst snd] in *.
    split; intros ->; [apply (rs_plain _ HR) in Hb|apply (rs_plain _ HR) in Ha]; discriminate.
  Qed.
  Lemma chain_not_both : forall e, In e es -> ~ In (flip e) es.
  Proof.
    intros e He Hf. destruct (HN3 _ Hf) as (u & Hu & Su & Nu). rewrite (HN2 e u He Hu Su) in Nu. discriminate.
  Qed.

  Lemma faces_same : forall a b a' b', In (Tri a b gv) (tris tr) -> In (Tri a' b' gv) (tris tr) -> N (Tri a b gv) = N (Tri a' b' gv).
  Proof.
    apply (faces_alike S tr HD HR). intros a b c H1 H2. destruct (N (Tri a b gv)) eqn:E1.
    - symmetry. apply (HN1 _ _ (gv, b) H1 H2 E1); [constructor|constructor|]. intros Hi. apply chain_no_ghost in Hi. destruct Hi as [Hi _]. apply Hi. reflexivity.
    - destruct (N (Tri b c gv)) eqn:E2; [|reflexivity]. rewrite <- E1.
      apply (HN1 _ _ (b, gv) H2 H1 E2); [constructor|constructor|]. intros Hi. apply chain_no_ghost in Hi. destruct Hi as [_ Hi]. apply Hi. reflexivity.
  Qed.

  Definition cross2 (s : edge ArithR) : R := (X (fst s) * Y (snd s) - X (snd s) * Y (fst s)) / 2.
  Lemma cross2_anti : ranti cross2.
  Proof. intros [a b]. unfold cross2. cbn [flip fst snd]. field. Qed.
  Lemma tri_cross2 : forall a b c : pnt, rsum cross2 (inner_edges (Tri a b c)) = D a b c / 2.
  Proof. intros a b c. unfold inner_edges, te1, te2, te3, rsum, cross2, area2. cbn. field. Qed.

  Lemma rc_anti : forall q, anti (rc q).
  Proof. intros q [a b]. apply rc_flip. Qed.
  Lemma tsum_tw : forall q a b c, tsum (rc q) (Tri a b c) = tw a b c q.
  Proof. intros. rewrite tsum_eq. unfold tw. lia. Qed.
  (** The outer faces are not kept. *)
  Lemma faces_out : forall t, In t (tris tr) -> vghost (tv3 t) = true -> N t = false.
  Proof.
    intros t Ht G. destruct (N t) eqn:En; [exfalso|reflexivity]. destruct (ghost_face t Ht G) as (a0 & b0 & -> & _).
    assert (All : forall u, In u (tris tr) -> vghost (tv3 u) = true -> N u = true).
    { intros u Hu Gu. destruct (ghost_face u Hu Gu) as (a & b & -> & _). rewrite <- En. apply faces_same; assumption. }
    set (Sw := solids (fun t => negb (N t))).
    assert (Hp : Permutation (rim (sides Sw)) (map flip es)).
    { apply NoDup_Permutation; [apply NoDup_filter, solid_sides_NoDup|apply NoDup_map_flip, Hnd|]. intros e. rewrite rim_In, !sides_In. split.
      - intros [(u & Hu & Su) Hno]. apply solids_In in Hu. destruct Hu as (Hu & Gu & Nu). apply negb_true_iff in Nu.
        destruct (in_dec edec e (map flip es)) as [Hi|Hi]; [exact Hi|exfalso].
        destruct (dl_closed _ _ HD u e Hu Su) as (u' & Hu' & Su'). destruct (N u') eqn:Eu'.
        + rewrite (HN1 u' u e Hu' Hu Eu' Su Su' Hi) in Nu. discriminate.
        + apply Hno. exists u'. split; [|exact Su']. apply solids_In. rewrite Eu'. split; [exact Hu'|]. split; [|reflexivity].
          destruct (vghost (tv3 u')) eqn:Gu'; [|reflexivity]. rewrite (All u' Hu' Gu') in Eu'. discriminate.
      - intros Hi. apply in_map_iff in Hi. destruct Hi as (e0 & <- & He0). destruct (HN3 e0 He0) as (u & Hu & Su & Nu). rewrite flip_flip. split.
        + destruct (dl_closed _ _ HD u e0 Hu Su) as (u' & Hu' & Su'). exists u'. split; [|exact Su']. pose proof (HN2 e0 u' He0 Hu' Su') as Nu'.
          apply solids_In. rewrite Nu'. split; [exact Hu'|]. split; [|reflexivity].
          destruct (vghost (tv3 u')) eqn:Gu'; [|reflexivity]. rewrite (All u' Hu' Gu') in Nu'. discriminate.
        + intros (u' & Hu' & Su'). apply solids_In in Hu'. destruct Hu' as (Hu' & _ & Nu'). rewrite (excl S tr HD u' u e0 Hu' Hu Su' Su), Nu in Nu'. discriminate. }
    destruct Harea as [Ha|[q Hq]].
    - apply (rsum_perm _ cross2) in Hp. rewrite <- (rrim_sum cross2 (sides Sw) cross2_anti (solid_sides_NoDup _)), rsides_sum, rsum_map in Hp.
      rewrite (rsum_ext _ (fun x => cross2 (flip x)) (fun x => - cross2 x)), rsum_opp in Hp by (intros; apply cross2_anti).
      change (rsum cross2 es) with (shoelace es) in Hp.
      assert (0 <= rsum (fun t => rsum cross2 (inner_edges t)) Sw); [|lra]. apply rsum_nonneg. intros u Hu. apply solids_In in Hu. destruct Hu as (Hu & Gu & _).
      destruct (solid_shape u Hu Gu) as (a & b & c & -> & _ & _ & _ & Hp'). rewrite tri_cross2. lra.
    - apply (zsum_perm _ (rc q)) in Hp. unfold Sw in Hp. rewrite <- (rim_sum (rc q) _ (rc_anti q) (solid_sides_NoDup _)), sides_sum, zsum_map in Hp.
      rewrite (zsum_ext _ (fun x => rc q (flip x)) (fun x => (- rc q x)%Z)), zsum_opp in Hp by (intros; apply rc_anti).
      change (zsum (rc q) es) with (winding q es) in Hp.
      assert (0 <= zsum (tsum (rc q)) Sw)%Z; [|unfold Sw in *; lia]. apply zsum_nonneg. intros u Hu. apply solids_In in Hu. destruct Hu as (Hu & Gu & _).
      destruct (solid_shape u Hu Gu) as (a & b & c & -> & _ & _ & _ & Hp'). rewrite tsum_tw. apply tw_ccw, Hp'.
  Qed.

  Definition kept := solids N.
  Lemma kept_rim : Permutation (rim (sides kept)) es.
  Proof.
    apply NoDup_Permutation; [apply NoDup_filter, solid_sides_NoDup|exact Hnd|]. intros e. rewrite rim_In, !sides_In. split.
    - intros [(u & Hu & Su) Hno]. apply solids_In in Hu. destruct Hu as (Hu & Gu & Nu).
      destruct (dl_closed _ _ HD u e Hu Su) as (u' & Hu' & Su'). destruct (in_dec edec e es) as [Hi|Hi]; [exact Hi|exfalso].
      assert (Nu' : N u' = true).
      { apply (HN1 u u' (flip e) Hu Hu' Nu Su'); [rewrite flip_flip; exact Su|]. intros Hf. apply in_map_iff in Hf. destruct Hf as (e' & E & He').
        apply flip_inj in E. subst e'. contradiction. }
      apply Hno. exists u'. split; [|exact Su']. apply solids_In. split; [exact Hu'|]. split; [|exact Nu'].
      destruct (vghost (tv3 u')) eqn:Gu'; [|reflexivity]. rewrite (faces_out u' Hu' Gu') in Nu'. discriminate.
    - intros He. destruct (HN3 e He) as (u & Hu & Su & Nu).
      assert (Gu : vghost (tv3 u) = false) by (destruct (vghost (tv3 u)) eqn:Gu; [rewrite (faces_out u Hu Gu) in Nu; discriminate|reflexivity]). split; [exists u; split; [apply solids_In; auto|exact Su]|].
      intros (u' & Hu' & Su'). apply solids_In in Hu'. destruct Hu' as (Hu' & _ & Nu'). rewrite (HN2 e u' He Hu' Su') in Nu'. discriminate.
  Qed.

  Lemma kept_winding : forall q, zsum (tsum (rc q)) kept = winding q es.
  Proof.
    intros q. unfold kept. rewrite <- sides_sum, (rim_sum _ _ (rc_anti q) (solid_sides_NoDup N)). apply (zsum_perm _ (rc q)), kept_rim.
  Qed.
  Lemma kept_tw : forall q t, In t kept -> exists a b c, t = Tri a b c /\ In a S /\ In b S /\ In c S /\ 0 < D a b c /\ tsum (rc q) t = tw a b c q /\ (0 <= tw a b c q)%Z.
  Proof.
    intros q t Ht. apply solids_In in Ht. destruct Ht as (Ht & G & _). destruct (solid_shape t Ht G) as (a & b & c & -> & Ha & Hb & Hc & Hp).
    exists a, b, c. repeat (split; [assumption||reflexivity|]). split; [apply tsum_tw|apply tw_ccw, Hp].
  Qed.

  (** The winding number of the chain is one or zero. *)
  Lemma tw_le_one : forall a b c q, 0 < D a b c -> (tw a b c q <= 1)%Z.
  Proof.
    intros a b c q Hp. unfold tw, rc, ray_crossing.
    repeat match goal with |- context [Rle_dec ?x ?y] => destruct (Rle_dec x y) | |- context [Rlt_dec ?x ?y] => destruct (Rlt_dec x y) end; try lia; try lra.
  Qed.
  Lemma kept_01 : forall q, winding q es = 0%Z \/ winding q es = 1%Z.
  Proof.
    intros q. rewrite <- kept_winding.
    assert (0 <= zsum (tsum (rc q)) kept)%Z by (apply zsum_nonneg; intros t Ht; destruct (kept_tw q t Ht) as (a & b & c & _ & _ & _ & _ & _ & -> & Hz); exact Hz).
    assert (zsum (tsum (rc q)) kept <= 1)%Z; [|lia]. apply zsum_le_one.
    - apply NoDup_filter, (dl_nodup _ _ HD).
    - intros t Ht. destruct (kept_tw q t Ht) as (a & b & c & _ & _ & _ & _ & Hp & -> & _). apply tw_le_one, Hp.
    - intros t u Ht Hu Pt Pu. destruct (kept_tw q t Ht) as (a & b & c & -> & _ & _ & Sc & Hp & Et & _). destruct (kept_tw q u Hu) as (a' & b' & c' & -> & _ & _ & Sc' & Hp' & Eu & _).
      pose proof (tw_le_one a b c q Hp). pose proof (tw_le_one a' b' c' q Hp'). destruct (HRv S tr HD HR) as [v Hv].
      apply solids_In in Ht, Hu.
      apply (no_overlap S (tris tr) (plain_tr S tr v HD Hv) q); try tauto; lia.
  Qed.
  Lemma kept_one : forall q a b c, In (Tri a b c) kept -> tw a b c q = 1%Z -> winding q es = 1%Z.
  Proof.
    intros q a b c Ht Hw. destruct (kept_01 q) as [E|E]; [exfalso|exact E]. rewrite <- kept_winding in E.
    apply in_split in Ht. destruct Ht as (l1 & l2 & El). assert (Hin : forall t, In t l1 \/ In t l2 -> In t kept) by (intros t Hi; rewrite El, in_app_iff; cbn [In]; tauto).
    rewrite El, zsum_app, zsum_cons, tsum_tw, Hw in E.
    assert (0 <= zsum (tsum (rc q)) l1)%Z by (apply zsum_nonneg; intros t Hi; destruct (kept_tw q t (Hin t (or_introl Hi))) as (? & ? & ? & _ & _ & _ & _ & _ & -> & Hz); exact Hz).
    assert (0 <= zsum (tsum (rc q)) l2)%Z by (apply zsum_nonneg; intros t Hi; destruct (kept_tw q t (Hin t (or_intror Hi))) as (? & ? & ? & _ & _ & _ & _ & _ & -> & Hz); exact Hz). lia.
  Qed.

  (** Points with winding number one are in a kept triangle. *)
  Lemma tw_pos_in : forall a b c q, 0 < D a b c -> (0 < tw a b c q)%Z -> in_triangle a b c q.
  Proof.
    clear. intros a b c q Hp Ht. pose proof (area_sum a b c q) as Hs. pose proof (area_x a b c q) as Hx.
    unfold tw, rc, ray_crossing in Ht. unfold in_triangle.
    repeat match type of Ht with context [Rle_dec ?x ?y] => destruct (Rle_dec x y) | context [Rlt_dec ?x ?y] => destruct (Rlt_dec x y) end; try lia;
      try (exfalso; lra); repeat split; try lra;
      repeat match goal with H : ~ _ |- _ => first [apply Rnot_le_lt in H | apply Rnot_lt_le in H] end; apply Rnot_lt_le; intros L; nra.
  Qed.
  Lemma kept_covers : forall q, winding q es = 1%Z -> exists a b c, In (Tri a b c) kept /\ in_triangle a b c q.
  Proof.
    intros q Hw. rewrite <- kept_winding in Hw.
    destruct (existsb (fun t => Z.ltb 0 (tsum (rc q) t)) kept) eqn:Ex.
    - apply existsb_exists in Ex. destruct Ex as (t & Ht & L). apply Z.ltb_lt in L. destruct (kept_tw q t Ht) as (a & b & c & -> & _ & _ & _ & Hp & E & _).
      exists a, b, c. split; [exact Ht|]. apply tw_pos_in; [exact Hp|lia].
    - exfalso. assert (zsum (tsum (rc q)) kept <= 0)%Z; [|lia]. apply zsum_nonpos. intros t Ht. apply Z.nlt_ge. intros L.
      assert (existsb (fun t => Z.ltb 0 (tsum (rc q) t)) kept = true); [|congruence]. apply existsb_exists. exists t. split; [exact Ht|]. apply Z.ltb_lt, L.
  Qed.
  Lemma kept_inside : forall q a b c, In (Tri a b c) kept -> inside_triangle a b c q -> winding q es = 1%Z.
  Proof.
    intros q a b c Ht (H1 & H2 & H3). apply (kept_one q a b c Ht). destruct (kept_tw q _ Ht) as (x & y & z & E & _ & _ & _ & Hp & _). injection E as <- <- <-.
    apply inside_tw; assumption.
  Qed.

  (** The areas add up. *)
  Lemma kept_area : rsum (fun t => D (tv1 t) (tv2 t) (tv3 t) / 2) kept = shoelace es.
  Proof.
    change (shoelace es) with (rsum cross2 es). rewrite <- (rsum_perm _ cross2 _ _ kept_rim). unfold kept. rewrite <- (rrim_sum cross2 _ cross2_anti (solid_sides_NoDup N)), rsides_sum.
    apply rsum_ext. intros [a b c] _. rewrite tri_cross2. reflexivity.
  Qed.

  (** A point of a closed kept triangle is inside the chain or on one of its edges. *)
  Hypothesis Hvs : forall w, In w S -> exists e, In e es /\ fst e = w.
  Definition on_chain (q : pnt) : Prop := exists e, In e es /\ on_segment (fst e) (snd e) q.
  Lemma corner_on_chain : forall w q, In w S -> coincide w q -> on_chain q.
  Proof.
    intros w q Hw [Ex Ey]. destruct (Hvs w Hw) as (e & He & <-). exists e. split; [exact He|]. exists 0. split; [lra|]. split; lra.
  Qed.
  Lemma looks_kept : forall q t a b c, In t kept -> looks t a b c -> tw a b c q = 1%Z -> winding q es = 1%Z.
  Proof.
    intros q t a b c Ht [-> |[-> | ->]] Hw; [apply (kept_one q a b c Ht Hw)|apply (kept_one q b c a Ht)|apply (kept_one q c a b Ht)]; rewrite <- Hw; unfold tw; lia.
  Qed.
  Lemma kept_closed_side : forall q t a b c, In t kept -> looks t a b c -> In a S -> In b S -> In c S -> 0 < D a b c ->
    D a b q = 0 -> 0 <= D b c q -> 0 <= D c a q -> winding q es = 1%Z \/ on_chain q.
  Proof.
    intros q t a b c Ht Hl Ha Hb Hc Hp E1 E2 E3. pose proof (area_sum a b c q) as Hs. rewrite E1 in Hs.
    set (k := D c a q / D a b c).
    assert (Hk : at_ratio k a b q).
    { assert (Ix : D a b c * (X q - X a) = D c a q * (X b - X a) + D a b q * (X c - X a)) by (unfold area2; ring).
      assert (Iy : D a b c * (Y q - Y a) = D c a q * (Y b - Y a) + D a b q * (Y c - Y a)) by (unfold area2; ring).
      rewrite E1 in Ix, Iy. split.
      - apply (Rmult_eq_reg_l (D a b c)); [|lra]. unfold k. replace (D a b c * (X a + D c a q / D a b c * (X b - X a))) with (D a b c * X a + D c a q * (X b - X a)) by (field; lra). lra.
      - apply (Rmult_eq_reg_l (D a b c)); [|lra]. unfold k. replace (D a b c * (Y a + D c a q / D a b c * (Y b - Y a))) with (D a b c * Y a + D c a q * (Y b - Y a)) by (field; lra). lra. }
    assert (Hk01 : 0 <= k <= 1).
    { unfold k. split; [apply Rmult_le_pos; [exact E3|left; apply Rinv_0_lt_compat, Hp]|]. apply (Rmult_le_reg_r (D a b c)); [exact Hp|].
      unfold Rdiv. rewrite Rmult_assoc, Rinv_l by lra. lra. }
    destruct (in_dec edec (a, b) es) as [Hi|Hi].
    { right. exists (a, b). split; [exact Hi|]. exists k. split; [exact Hk01|exact Hk]. }
    destruct (Rle_lt_or_eq_dec _ _ (proj1 Hk01)) as [L0|Z0].
    2:{ right. apply (corner_on_chain a q Ha). destruct Hk as [Kx Ky]. rewrite <- Z0 in Kx, Ky. split; lra. }
    destruct (Rle_lt_or_eq_dec _ _ (proj2 Hk01)) as [L1|Z1].
    2:{ right. apply (corner_on_chain b q Hb). destruct Hk as [Kx Ky]. rewrite Z1 in Kx, Ky. split; lra. }
    left. destruct (D_neq _ _ _ Hp) as (n1 & n2 & n3).
    assert (Hco : ~ coincide a b) by (intros Hco; apply n1, plain_coincide; auto; apply (rs_plain _ HR); assumption).
    destruct (beyond_dec q (a, b)) as [By|By].
    - (* the neighbour across [ab] holds it *)
      assert (Hr : exists u, In u kept /\ side_of (b, a) u).
      { destruct (in_dec edec (a, b) (rim (sides kept))) as [Hm|Hm]; [exfalso; apply Hi, (Permutation_in _ kept_rim Hm)|].
        rewrite rim_In, !sides_In in Hm. cbn [flip fst snd] in Hm.
        destruct (in_dec edec (b, a) (sides kept)) as [Hin|Hin]; [apply sides_In, Hin|]. exfalso. apply Hm. split.
        - exists t. split; [exact Ht|]. apply (looks_sides _ _ _ _ Hl). auto.
        - intros Hex. apply Hin, sides_In, Hex. }
      destruct Hr as (u & Hu & Su). pose proof Hu as Hu'. apply solids_In in Hu'. destruct Hu' as (Hu' & Gu & _).
      assert (Gab : a <> gv /\ b <> gv) by (split; intros ->; [apply (rs_plain _ HR) in Ha|apply (rs_plain _ HR) in Hb]; discriminate).
      destruct (view S tr HD u b a Hu' Su) as (_ & _ & _ & [(d & Hd & Lu & Pu)| ->]); [tauto|tauto| |discriminate].
      apply (looks_kept q u b a d Hu Lu). apply tw_ccw; [exact Pu| | |].
      + intros By'. exact (beyond_not_both q a b By By').
      + intros By'. apply beyond_le in By'. rewrite (ratio_D k a b q a d Hk) in By'. rewrite D_ab_a in By'. pose proof (D_rot b a d).
        assert (Q := spp k (D a d b) L0 ltac:(lra)). lra.
      + intros By'. apply beyond_le in By'. rewrite (ratio_D k a b q d b Hk) in By'. rewrite D_ab_b in By'. pose proof (D_rot2 b a d).
        assert (Q := spp (1 - k) (D d b a) ltac:(lra) ltac:(lra)). lra.
    - apply (looks_kept q t a b c Ht Hl). apply tw_ccw; [exact Hp|exact By| |].
      + intros By'. apply beyond_le in By'. rewrite (ratio_D k a b q b c Hk) in By'. rewrite D_ab_a in By'. pose proof (D_rot a b c).
        assert (Q := spp (1 - k) (D b c a) ltac:(lra) ltac:(lra)). lra.
      + intros By'. apply beyond_le in By'. rewrite (ratio_D k a b q c a Hk) in By'. rewrite D_ab_b in By'. pose proof (D_rot2 a b c).
        assert (Q := spp k (D c a b) L0 ltac:(lra)). lra.
  Qed.
  Lemma kept_closed : forall q a b c, In (Tri a b c) kept -> in_triangle a b c q -> winding q es = 1%Z \/ on_chain q.
  Proof.
    intros q a b c Ht (H1 & H2 & H3). destruct (kept_tw q _ Ht) as (x & y & z & E & Ha & Hb & Hc & Hp & _). injection E as <- <- <-.
    destruct (Rle_lt_or_eq_dec _ _ H1) as [L1|Z1]; [|apply (kept_closed_side q (Tri a b c) a b c); auto; left; reflexivity].
    destruct (Rle_lt_or_eq_dec _ _ H2) as [L2|Z2]; [|apply (kept_closed_side q (Tri a b c) b c a); auto; [right; right; reflexivity|rewrite D_rot; exact Hp]].
    destruct (Rle_lt_or_eq_dec _ _ H3) as [L3|Z3]; [|apply (kept_closed_side q (Tri a b c) c a b); auto; [right; left; reflexivity|rewrite D_rot2; exact Hp]].
    left. apply (kept_inside q a b c Ht). split; auto.
  Qed.
End Fill.
