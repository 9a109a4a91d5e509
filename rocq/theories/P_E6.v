(** P_E6.v — the loops of a refinement inside a convex polygon. *)

From Coq Require Import Reals List ZArith Lra Lia Psatz Bool Permutation.
From Verif Require Import Base Arith Geometry Elements Polyline Procedures Refine Triangulator ArithR Spec SpecM SpecR SpecD SpecP SpecC SpecE
  P_Base P_Trn P_Fuel P_Poly P_Vertices P_Cavity P_Refine P_Worked P_R1 P_R2 P_R3 P_R5 P_R6 P_D1 P_D2 P_D3 P_D4 P_D5 P_D6 P_D7 P_Fill P_Fill2 P_Region P_E1 P_E2 P_E3 P_E4 P_E5.
Import ListNotations.
Local Open Scope R_scope.

(** ** What changed since a first mesh *)
Definition within (S : list pnt) (t : tri) : Prop := forall c, corner_of c t -> In c S \/ c = gv.
Lemma delaunay_within : forall S (tr : mesh) t, delaunay S tr -> In t (tris tr) -> within S t.
Proof.
  intros S tr t HD Ht c Hc. destruct (dl_shape _ _ HD t Ht) as [(x & y & z & -> & Hx & Hy & Hz & _)|(x & y & -> & Hx & Hy & _)]; inversion Hc; subst; auto.
Qed.

Record tracks (tr0 : mesh) (S : list pnt) (tr : mesh) (inc del : list tri) : Prop := {
  tk_inc : forall x, In x inc -> In x (tris tr);
  tk_old : forall x, In x (tris tr0) -> In x del \/ In x (tris tr);
  tk_new : forall x, In x (tris tr) -> In x (tris tr0) \/ In x inc;
  tk_del : forall x, In x del -> ~ In x (tris tr);
  tk_in : forall x, In x del -> within S x
}.
Lemma tracks_start : forall S tr, tracks tr S tr [] [].
Proof. intros S tr. split; cbn; auto; intros x []. Qed.
Lemma tracks_same : forall S tr tr', (forall x, In x (tris tr') <-> In x (tris tr)) -> tracks tr S tr' [] [].
Proof. intros S tr tr' E. split; cbn; try (intros x []); intros x Hx; rewrite E in *; auto. Qed.

Lemma tracks_step : forall S (tr tr' tr0 : mesh) v new old inc del, delaunay S tr -> resolved (v :: S) -> ~ In v S -> effect S tr v tr' new old ->
  tracks tr0 S tr inc del ->
  tracks tr0 (v :: S) tr' (hset tdec (filter (fun t => negb (hmem tdec t old)) (inc ++ new))) (hset tdec (del ++ old)).
Proof.
  intros S tr tr' tr0 v new old inc del HD HR Hv (_ & Hx & Hn & Ho) [T1 T2 T3 T4 T5].
  assert (Hinc : forall x, In x (hset tdec (filter (fun t => negb (hmem tdec t old)) (inc ++ new))) <-> (In x inc \/ In x new) /\ ~ In x old).
  { intros x. rewrite hset_In, filter_In, in_app_iff, negb_true_iff, hmem_false. reflexivity. }
  assert (Hdel : forall x, In x (hset tdec (del ++ old)) <-> In x del \/ In x old) by (intros x; rewrite hset_In, in_app_iff; reflexivity).
  assert (Hv' : forall x, within S x -> ~ corner_of v x).
  { intros x Hw Hc. destruct (Hw v Hc) as [Hi|E]; [contradiction|]. pose proof (rs_plain _ HR v (or_introl eq_refl)) as G. rewrite E in G. discriminate. }
  assert (Hkeep : forall x, In x (tris tr) -> ~ In x old -> In x (tris tr')).
  { intros x Hi Ni. apply Hx. left. split; [exact Hi|]. destruct (is_conflicting x v) eqn:E; [|reflexivity]. exfalso. apply Ni, Ho. auto. }
  assert (Hgone : forall x, within S x -> In x (tris tr') -> In x (tris tr) /\ ~ In x old).
  { intros x Hw Hi. apply Hx in Hi. destruct Hi as [[Hi Hc]|(e & _ & ->)]; [|exfalso; exact (Hv' _ Hw (new_triangle_corner _ _))]. split; [exact Hi|]. intros Hin. apply Ho in Hin. destruct Hin. congruence. }
  split.
  - intros x Hi. apply Hinc in Hi. destruct Hi as [[Hi|Hi] Ni]; [apply Hkeep; auto|]. apply Hn in Hi. apply Hi.
  - intros x Hi. rewrite Hdel. destruct (T2 x Hi) as [Hd|Hd]; [auto|]. destruct (in_dec tdec x old) as [Hin|Nin]; [auto|]. right. apply Hkeep; assumption.
  - intros x Hi. rewrite Hinc. destruct (in_dec tdec x (tris tr)) as [Hin|Nin].
    + destruct (Hgone x (delaunay_within S tr x HD Hin) Hi) as [_ No]. destruct (T3 x Hin) as [Q|Q]; [auto|]. right. auto.
    + right. split; [right; apply Hn; auto|]. intros Hol. apply Ho in Hol. tauto.
  - intros x Hi Hin. apply Hdel in Hi. destruct Hi as [Hi|Hi].
    + destruct (Hgone x (T5 x Hi) Hin) as [Q _]. exact (T4 x Hi Q).
    + pose proof (proj1 (proj1 (Ho x) Hi)) as Q. destruct (Hgone x (delaunay_within S tr x HD Q) Hin) as [_ No]. contradiction.
  - intros x Hi c Hc. apply Hdel in Hi. destruct Hi as [Hi|Hi].
    + destruct (T5 x Hi c Hc); [left; right; assumption|auto].
    + destruct (delaunay_within S tr x HD (proj1 (proj1 (Ho x) Hi)) c Hc); [left; right; assumption|auto].
Qed.

Lemma nodup_mid : forall {X} (A B C : list X), NoDup (A ++ B ++ C) -> NoDup B /\ forall x, In x B -> ~ In x C.
Proof.
  intros X A B C. induction A as [|a A IH]; cbn [app]; [|intros Hn; apply NoDup_cons_iff in Hn; apply IH, Hn].
  induction B as [|b B IH]; cbn [app]; intros Hn; [split; [constructor|intros x []]|]. apply NoDup_cons_iff in Hn. destruct Hn as [N Hn]. destruct (IH Hn) as [I1 I2]. rewrite in_app_iff in N.
  split; [constructor; [tauto|exact I1]|]. intros x [<-|Hx]; [tauto|apply I2, Hx].
Qed.

(** ** Ratios on one side *)
Lemma ratio_same : forall x y i j c, ~ coincide x y -> at_ratio i x y c -> at_ratio j x y c -> i = j.
Proof.
  intros x y i j c Nc [E1 E2] [F1 F2]. assert (G1 : (i - j) * (X y - X x) = 0) by lra. assert (G2 : (i - j) * (Y y - Y x) = 0) by lra.
  apply Rmult_integral in G1. apply Rmult_integral in G2. destruct G1 as [G1|G1]; [lra|]. destruct G2 as [G2|G2]; [lra|]. exfalso. apply Nc. unfold coincide. lra.
Qed.
Lemma ratio_between : forall x y i j k a b c, ~ coincide x y -> at_ratio i x y a -> at_ratio j x y b -> at_ratio k x y c -> i < k < j -> strictly_between a b c.
Proof.
  intros x y i j k a b c Nc [Ax Ay] [Bx By] [Cx Cy] Hk. apply (param_between a b c ((k - i) / (j - i))).
  - intros [E1 E2]. assert (G1 : (j - i) * (X y - X x) = 0) by lra. assert (G2 : (j - i) * (Y y - Y x) = 0) by lra.
    apply Rmult_integral in G1. apply Rmult_integral in G2. destruct G1 as [G1|G1]; [lra|]. destruct G2 as [G2|G2]; [lra|]. apply Nc. unfold coincide. lra.
  - split; [apply Rdiv_lt_0_compat; lra|]. apply (Rmult_lt_reg_r (j - i)); [lra|]. unfold Rdiv. rewrite Rmult_assoc, Rinv_l by lra. lra.
  - split; rewrite ?Ax, ?Ay, ?Bx, ?By, ?Cx, ?Cy; field; lra.
Qed.

Section Loops.
  Variables (l : list pnt) (H : HashOrder).
  Hypothesis HC : convex_polygon l.
  Let bd := Some (Poly (A:=ArithR) l false).

  Lemma part_view : forall S s, part l S s -> exists x y i j, In (x, y) (polygon_sides l) /\ ~ coincide x y /\ at_ratio i x y (fst s) /\ at_ratio j x y (snd s) /\ i < j.
  Proof. intros S s [_ (x & y & i & j & Hxy & Hi & Hj & L)]. exists x, y, i, j. split; [exact Hxy|]. split; [apply (cx_apart l HC x y Hxy)|]. auto. Qed.
  Lemma forward_pos : forall e, forward l e -> exists x y k, In (x, y) (polygon_sides l) /\ 0 < k /\ forall c, D (fst e) (snd e) c = k * D x y c.
  Proof.
    intros e (x & y & i & j & Hxy & [Ex Ey] & [Fx Fy] & L). exists x, y, (j - i). split; [exact Hxy|]. split; [lra|].
    intros c. unfold area2. rewrite Ex, Ey, Fx, Fy. ring.
  Qed.
  Lemma forward_one : forall e, forward l e -> ~ forward l (flip e).
  Proof.
    intros [a b] He Hf. destruct (forward_pos _ He) as (x & y & k & Hxy & Pk & Ek). destruct (forward_pos _ Hf) as (x' & y' & k' & Hxy' & Pk' & Ek'). cbn [fst snd flip] in *.
    destruct (third_of l x y (cp_nodup _ HC) (cp_three _ HC)) as (z & Hz & N1 & N2). pose proof (cx_pos l HC x y z Hxy Hz N1 N2) as P.
    pose proof (Ek z) as Q. pose proof (Ek' z) as Q'. rewrite (D_swap a b z) in Q'.
    assert (P' : 0 <= D x' y' z) by (destruct (placed_pos l x' y' z Hxy' (corner_placed l HC z Hz)) as [[-> _]|P']; lra).
    assert (M := spp k (D x y z) Pk P). assert (M' := mpp k' (D x' y' z)). lra.
  Qed.

  Local Notation exact_parts := (exact_parts l).
  Lemma exact_perm : forall S L L', Permutation L L' -> exact_parts S L -> exact_parts S L'.
  Proof. intros S L L' HP [Hn He]. split; [apply (Permutation_NoDup HP Hn)|]. intros e. rewrite <- He. split; apply Permutation_in; [apply Permutation_sym|]; exact HP. Qed.
  Lemma exact_apart : forall S s R, exact_parts S (s :: R) -> forall e, In e R -> apart e s.
  Proof.
    intros S s R [Hn He] e Hi. split.
    - intros ->. apply NoDup_cons_iff in Hn. tauto.
    - intros E. pose proof (proj1 (He s) (or_introl eq_refl)) as [_ F]. pose proof (proj1 (He e) (or_intror Hi)) as [_ F']. rewrite E in F'. exact (forward_one s F F').
  Qed.

  Section Cut.
    Variables (S : list pnt) (s : edge ArithR) (R : list (edge ArithR)).
    Let w := edge_midpoint s.
    Hypothesis HR : resolved (w :: S).
    Hypothesis HE : exact_parts S (s :: R).
    Lemma cut_part : part l S s.
    Proof. apply HE. left. reflexivity. Qed.
    Let Hs : piece l S s := proj1 cut_part.

    Lemma exact_cut : exact_parts (w :: S) ((w, snd s) :: (fst s, w) :: R).
    Proof.
      pose proof HE as [Hn He]. destruct (part_view S s cut_part) as (x & y & i & j & Hxy & Nc & Ri & Rj & L).
      assert (Rw : at_ratio ((i + j) / 2) x y w).
      { destruct (edge_midpoint_spec s) as [[Mx My] _]. fold w in Mx, My. destruct Ri as [Ex Ey]. destruct Rj as [Fx Fy]. split; rewrite ?Mx, ?My, ?Ex, ?Ey, ?Fx, ?Fy; field. }
      pose proof (mid_fresh l S s HR Hs) as Nw. fold w in Nw. destruct (pc_along _ _ _ Hs) as (Hp & Hq & _).
      assert (Hold : forall e, In e R -> along l S e) by (intros e Hi; apply (pc_along _ _ _ (proj1 (proj1 (He e) (or_intror Hi))))).
      assert (Nin : forall e, In e R -> e <> (w, snd s) /\ e <> (fst s, w)).
      { intros e Hi. destruct (half_apart l S s HR Hs e (Hold e Hi)) as [[A1 _] [A2 _]]. fold w in A1, A2. split; intros E; [apply A2|apply A1]; auto. }
      split.
      - apply NoDup_cons_iff in Hn. destruct Hn as [_ Hn]. constructor; [|constructor; [|exact Hn]].
        + intros [E|Hi]; [|exact (proj1 (Nin _ Hi) eq_refl)]. apply (proj1 (halves_apart l S s HR Hs)). fold w. auto.
        + intros Hi. exact (proj2 (Nin _ Hi) eq_refl).
      - intros e. split.
        + intros [<-|[<-|Hi]].
          * split; [exact (piece_half2 l HC S s HR Hs)|]. exists x, y, ((i + j) / 2), j. cbn [fst snd]. repeat (split; [assumption|]). lra.
          * split; [exact (piece_half1 l HC S s HR Hs)|]. exists x, y, i, ((i + j) / 2). cbn [fst snd]. repeat (split; [assumption|]). lra.
          * destruct (proj1 (He e) (or_intror Hi)) as [Pe Fe]. split; [|exact Fe]. apply (piece_stays l HC S s HR Hs e Pe). apply (exact_apart S s R HE e Hi).
        + intros [Pe Fe]. pose proof (pc_along _ _ _ Pe) as (Ha & Hb & _).
          assert (Side : forall x' y', In (x', y') (polygon_sides l) -> D x' y' w = 0 -> (x', y') = (x, y)).
          { intros x' y' Hxy' Z. destruct (mid_on l HC S s HR Hs) as (x0 & y0 & Hxy0 & _ & _ & Bw). fold w in Bw.
            assert (E1 : (x', y') = (x0, y0)) by (apply (cx_one l HC x0 y0 x' y' w); auto; lra).
            assert (E2 : (x, y) = (x0, y0)) by (apply (cx_one l HC x0 y0 x y w); auto; rewrite (ratio_D _ _ _ _ _ _ Rw), D_ab_a, D_ab_b; lra). congruence. }
          assert (App : forall a b k, In a S -> In b S -> at_ratio k x y a -> at_ratio k x y b -> a = b).
          { intros a b k Ia Ib [A1 A2] [B1 B2]. apply (same_place S s HR a b Ia Ib). unfold coincide. lra. }
          destruct Fe as (x' & y' & i' & j' & Hxy' & Ri' & Rj' & L'). destruct e as [a b]. cbn [fst snd] in *.
          destruct Ha as [<-|Ha]; [|destruct Hb as [<-|Hb]].
          * (* from the middle *) destruct Hb as [E|Hb]; [exfalso; apply (pc_proper _ _ _ Pe); cbn [fst snd]; exact E|]. left.
            assert (E : (x', y') = (x, y)) by (apply (Side x' y' Hxy'); rewrite (ratio_D _ _ _ _ _ _ Ri'), D_ab_a, D_ab_b; ring). injection E as -> ->.
            pose proof (ratio_same x y _ _ w Nc Ri' Rw) as ->.
            assert (Ej : j' = j).
            { apply Rle_antisym; apply Rnot_lt_le; intros Lt.
              - apply (pc_empty _ _ _ Pe (snd s)); [right; exact Hq|]. cbn [fst snd]. apply (ratio_between x y ((i + j) / 2) j' j); auto. lra.
              - apply (pc_empty _ _ _ Hs b Hb). apply (ratio_between x y i j j'); auto. lra. }
            subst j'. rewrite (App b (snd s) j); auto.
          * (* to the middle *) right. left.
            assert (E : (x', y') = (x, y)) by (apply (Side x' y' Hxy'); rewrite (ratio_D _ _ _ _ _ _ Rj'), D_ab_a, D_ab_b; ring). injection E as -> ->.
            pose proof (ratio_same x y _ _ w Nc Rj' Rw) as ->.
            assert (Ei : i' = i).
            { apply Rle_antisym; apply Rnot_lt_le; intros Lt.
              - apply (pc_empty _ _ _ Hs a Ha). apply (ratio_between x y i j i'); auto. lra.
              - apply (pc_empty _ _ _ Pe (fst s)); [right; exact Hp|]. cbn [fst snd]. apply (ratio_between x y i' ((i + j) / 2) i); auto. lra. }
            subst i'. rewrite (App a (fst s) i); auto.
          * right. right. assert (Po : part l S (a, b)).
            { split; [split|].
              - destruct (pc_along _ _ _ Pe) as (_ & _ & Q). split; [exact Ha|]. split; [exact Hb|exact Q].
              - apply (pc_proper _ _ _ Pe).
              - intros z Hz. apply (pc_empty _ _ _ Pe). right. exact Hz.
              - exists x', y', i', j'. auto. }
            apply He in Po. destruct Po as [E|Hi]; [|exact Hi]. exfalso. apply (pc_empty _ _ _ Pe w (or_introl eq_refl)). rewrite <- E. apply (mid_of l S s HR Hs).
    Qed.
  End Cut.
  Lemma exact_deep : forall S o L, deep l o -> exact_parts S L -> exact_parts (o :: S) L.
  Proof.
    intros S o L Ho [Hn He]. split; [exact Hn|]. intros e. rewrite He. split; intros [Pe Fe]; (split; [|exact Fe]).
    - apply piece_deep; assumption.
    - assert (No : forall x y c, In (x, y) (polygon_sides l) -> on_side x y c -> c <> o).
      { intros x y c Hxy Oc ->. pose proof (deep_pos l o Ho x y Hxy) as P. rewrite (on_side_D _ _ _ Oc) in P. lra. }
      destruct Pe as [(Ha & Hb & x & y & Hxy & Oa & Ob) P1 P2]. split; [|exact P1|].
      + split; [destruct Ha as [E|Ha]; [exfalso; exact (No x y _ Hxy Oa (eq_sym E))|exact Ha]|]. split; [destruct Hb as [E|Hb]; [exfalso; exact (No x y _ Hxy Ob (eq_sym E))|exact Hb]|].
        exists x, y. auto.
      + intros z Hz. apply P2. right. exact Hz.
  Qed.

  (** ** One segment *)
  Local Notation stage := (stage l).

  Lemma hadd_perm : forall (e : edge ArithR) L, ~ In e L -> Permutation (hadd edec e L) (e :: L).
  Proof. intros e L Hn. unfold hadd. apply hmem_false with (dec := edec) in Hn. rewrite Hn. apply Permutation_sym, Permutation_cons_append. Qed.

  Lemma loop_stage : forall fuel p K pending others tr vs ne inc del S tr0 tr' vs' ne' inc' del',
    stage S tr (pending ++ ne ++ others) -> (forall e, In e K -> along l S e) -> tracks tr0 S tr inc del ->
    (forall a, In a (loop_attempts H bd [] fuel p K pending tr vs) -> sound_attempt l a) ->
    unencroach_loop H fuel p K bd [] pending tr vs ne inc del = Ok (tr', vs', ne', inc', del') ->
    exists S', stage S' tr' (ne' ++ others) /\ (forall w, In w S -> In w S') /\ tracks tr0 S' tr' inc' del' /\ (pending <> [] \/ ne <> [] -> ne' <> []).
  Proof.
    intros fuel. induction fuel as [|fuel IH]; intros p K pending others tr vs ne inc del S tr0 tr' vs' ne' inc' del' (HF & HR & HX) HK HT Hat Hl; cbn [unencroach_loop] in Hl; [discriminate|].
    destruct pending as [|s pending].
    { injection Hl as <- <- <- <- <-. exists S. split; [split; auto|]. split; [auto|]. split; [exact HT|]. intros [Q|Q]; [congruence|exact Q]. }
    apply bind_ok in Hl. destruct Hl as ([[h1 h2] [[tr1 new] old]] & Hsp & Hl). cbn [loop_attempts] in Hat. rewrite Hsp in Hat.
    destruct (Hat _ (or_introl eq_refl)) as [HRm HPm]. apply (points_resolved S tr _ (fr_delaunay _ _ _ HF) HR) in HRm.
    change ((s :: pending) ++ ne ++ others) with (s :: (pending ++ ne ++ others)) in HX.
    assert (Hs : piece l S s) by (apply (proj2 HX); left; reflexivity).
    destruct (split_step l HC H S tr s K fuel (1%nat :: p) h1 h2 tr1 new old HF HRm Hs HPm HK Hsp) as (E1 & E2 & HE & HF1).
    pose proof (exact_cut S s (pending ++ ne ++ others) HRm HX) as HX1. rewrite <- E1, <- E2 in HX1.
    pose proof (tracks_step S tr tr1 tr0 _ new old inc del (fr_delaunay _ _ _ HF) HRm (mid_fresh l S s HRm Hs) HE HT) as HT1.
    assert (HK1 : forall e, In e K -> along l (edge_midpoint s :: S) e) by (intros e He; apply (along_incl l S); [intros z Hz; right; exact Hz|apply HK, He]).
    set (b1 := existsb (fun v => cont_eqb (edge_encroach h1 v) Inside) vs) in *.
    set (b2 := existsb (fun v => cont_eqb (edge_encroach h2 v) Inside) vs) in *.
    set (ne1 := if b1 then ne else hadd edec h1 ne) in *. set (pe1 := if b1 then h1 :: pending else pending) in *.
    pose proof HX1 as [Hnd _]. rewrite !NoDup_cons_iff in Hnd. cbn [In] in Hnd. rewrite !in_app_iff in Hnd. destruct Hnd as (Q2 & Q1 & _).
    assert (P1 : Permutation (h1 :: pending ++ ne ++ others) (pe1 ++ ne1 ++ others)).
    { unfold pe1, ne1. destruct b1; [reflexivity|]. rewrite (hadd_perm h1 ne) by tauto. apply Permutation_cons_app. reflexivity. }
    assert (N2 : ~ In h2 ne1) by (unfold ne1; destruct b1; [tauto|]; rewrite hadd_In; intros [E|E]; [apply Q2; left; symmetry; exact E|tauto]).
    assert (P2 : Permutation (h2 :: h1 :: pending ++ ne ++ others) ((if b2 then h2 :: pe1 else pe1) ++ (if b2 then ne1 else hadd edec h2 ne1) ++ others)).
    { rewrite P1. destruct b2; [reflexivity|]. rewrite (hadd_perm h2 ne1 N2). apply Permutation_cons_app. reflexivity. }
    apply (exact_perm _ _ _ P2) in HX1.
    destruct (IH _ _ _ _ _ _ _ _ _ _ tr0 _ _ _ _ _ (conj HF1 (conj HRm HX1)) HK1 HT1 (fun a Ha => Hat a (or_intror Ha)) Hl) as (S' & HS' & Hin & HT' & Hne).
    exists S'. split; [exact HS'|]. split; [intros z Hz; apply Hin; right; exact Hz|]. split; [exact HT'|]. intros _. apply Hne.
    destruct b2; [left; discriminate|]. right. intros E. assert (Hi : In h2 (hadd edec h2 ne1)) by (apply hadd_In; auto). rewrite E in Hi. exact Hi.
  Qed.

  Lemma segment_stage : forall fuel p K e others tr vs S tr' vs' ne' inc' del',
    stage S tr (e :: others) -> (forall e, In e K -> along l S e) ->
    (forall a, In a (segment_attempts H bd [] fuel p tr e vs K) -> sound_attempt l a) ->
    unencroach_segment H fuel p tr e vs K bd [] = Ok (tr', vs', ne', inc', del') ->
    exists S', stage S' tr' (ne' ++ others) /\ (forall w, In w S -> In w S') /\ tracks tr S' tr' inc' del' /\ ne' <> [].
  Proof.
    intros fuel p K e others tr vs S tr' vs' ne' inc' del' HS HK Hat Hu.
    destruct (loop_stage fuel p K [e] others tr vs [] [] [] S tr tr' vs' ne' inc' del' HS HK (tracks_start S tr) Hat Hu) as (S' & H1 & H2 & H3 & H4).
    exists S'. split; [exact H1|]. split; [exact H2|]. split; [exact H3|]. apply H4. left. discriminate.
  Qed.

  (** ** The encroached segments, one after the other *)
  Lemma mdel_perm : forall (V : Type) (em : list (edge ArithR * V)) e, NoDup (map fst em) -> In e (map fst em) -> Permutation (map fst em) (e :: map fst (mdel edec e em)).
  Proof.
    intros V em e Hn Hi. apply NoDup_Permutation; [exact Hn| |].
    - constructor; [|apply mdel_NoDup, Hn]. rewrite mdel_keys. tauto.
    - intros x. cbn [In]. rewrite mdel_keys. destruct (edec x e) as [->|N]; [tauto|]. intuition congruence.
  Qed.

  (** [R] is what is not in the map any more or never was. *)
  Definition accounts (K : list (edge ArithR)) (keys : list (edge ArithR)) (sm : list (edge ArithR * edge ArithR)) (R : list (edge ArithR)) : Prop :=
    (forall e, In e R <-> (In e K /\ ~ In e keys /\ ~ In e (map snd sm)) \/ In e (map fst sm)) /\
    (forall e, In e (map snd sm) -> In e K).

  Lemma fold_mset_keys : forall (ne : list (edge ArithR)) (e : edge ArithR) sm, (forall x, In x ne -> ~ In x (map fst sm)) -> NoDup ne ->
    let sm' := fold_left (fun m s => mset edec s e m) ne sm in
    (forall x, In x (map fst sm') <-> In x ne \/ In x (map fst sm)) /\ (forall x, In x (map snd sm') <-> In x (map snd sm) \/ (x = e /\ ne <> [])).
  Proof.
    induction ne as [|n ne IH]; intros e sm Hf Hn sm'.
    - cbn in sm'. subst sm'. cbn. split; intros x; intuition.
    - apply NoDup_cons_iff in Hn. destruct Hn as [Hn0 Hn]. cbn in sm'.
      assert (Em : mdel edec n sm = sm).
      { assert (Nf := Hf n (or_introl eq_refl)). clear -Nf. induction sm as [|[k v] sm IH]; [reflexivity|]. cbn [mdel filter fst] in *. cbn [map fst In] in Nf.
        destruct (edec n k) as [->|Ne]; [exfalso; auto|]. f_equal. apply IH. auto. }
      destruct (IH e (mset edec n e sm)) as [I1 I2].
      + intros x Hx. rewrite mset_keys. intros [->|Hi]; [contradiction|]. exact (Hf x (or_intror Hx) Hi).
      + exact Hn.
      + subst sm'. split; intros x.
        * rewrite I1, mset_keys. cbn [In]. intuition congruence.
        * rewrite I2. unfold mset. rewrite Em. cbn [map snd In]. intuition congruence.
  Qed.

  Lemma all_stage : forall fuel p K em tr sm inc del S R tr' sm' inc' del',
    stage S tr (map fst em ++ R) -> NoDup (map fst em) -> (forall e, In e K -> along l S e) -> accounts K (map fst em) sm R -> (forall e, In e (map fst em) -> In e K /\ ~ In e (map snd sm)) ->
    (forall a, In a (all_attempts H bd [] fuel p K em tr) -> sound_attempt l a) ->
    unencroach_all H fuel p K bd [] em tr sm inc del = Ok (tr', sm', inc', del') ->
    exists S' R', stage S' tr' R' /\ (forall w, In w S -> In w S') /\ accounts K [] sm' R'.
  Proof.
    intros fuel. induction fuel as [|fuel IH]; intros p K em tr sm inc del S R tr' sm' inc' del' HS Hn HK HA Hem Hat Hu; cbn [unencroach_all] in Hu; [discriminate|].
    cbn [all_attempts] in Hat. pose proof (ho_In H (1%nat :: p) _ (map fst em)) as HI. destruct (ho H (1%nat :: p) _ (map fst em)) as [|e es].
    - injection Hu as <- <- <- <-. assert (E : map fst em = []) by (destruct (map fst em) as [|k ks]; [reflexivity|]; exfalso; apply (HI k); left; reflexivity).
      rewrite E in *. exists S, R. cbn [app] in HS. auto.
    - assert (Hk : In e (map fst em)) by (apply HI; left; reflexivity). destruct (mget edec e em) as [vs|] eqn:Eg; [|discriminate]. cbn [unwrap bind] in Hu.
      apply bind_ok in Hu. destruct Hu as ([[[[tr1 vs1] ne] new] old] & Hseg & Hu). rewrite Hseg in Hat.
      destruct HS as (HF & HR & HX).
      assert (HX1 : exact_parts S (e :: map fst (mdel edec e em) ++ R)).
      { apply (exact_perm _ (map fst em ++ R)); [|exact HX]. rewrite (mdel_perm _ em e Hn Hk) at 1. reflexivity. }
      destruct (segment_stage _ _ _ _ _ _ _ _ _ _ _ _ _ (conj HF (conj HR HX1)) HK (fun a Ha => Hat a (in_or_app _ _ _ (or_introl Ha))) Hseg) as (S1 & HS1 & Hin1 & _ & Hne).
      assert (P : Permutation (ne ++ map fst (mdel edec e em) ++ R) (map fst (mdel edec e em) ++ (ne ++ R))).
      { rewrite !app_assoc. apply Permutation_app_tail, Permutation_app_comm. }
      destruct HS1 as (HF1 & HR1 & HX2). apply (exact_perm _ _ _ P) in HX2.
      destruct (nodup_mid _ _ _ (proj1 HX2)) as [Hnn Hnr].
      assert (Hd : forall x, In x ne -> ~ In x (map fst sm)) by (intros x Hx Hi; apply (Hnr x Hx), (proj1 HA); auto).
      destruct (fold_mset_keys ne e sm Hd Hnn) as [F1 F2]. set (sm1 := fold_left (fun m s => mset edec s e m) ne sm) in *.
      destruct (Hem e Hk) as [HeK Hesm].
      assert (HA1 : accounts K (map fst (mdel edec e em)) sm1 (ne ++ R)).
      { destruct HA as [A1 A2]. split.
        - intros x. rewrite in_app_iff, A1, mdel_keys, F1, F2. split.
          + intros [Hx|[(Hx1 & Hx2 & Hx3)|Hx]]; [auto| |auto]. destruct (edec x e) as [->|Nx]; [contradiction|]. left. intuition.
          + intros [(Hx1 & Hx2 & Hx3)|[Hx|Hx]]; [|auto|auto]. right. left. split; [exact Hx1|]. split; [|tauto]. intros Hx. apply Hx2. split; [exact Hx|]. intros ->. apply Hx3. auto.
        - intros x Hx. apply F2 in Hx. destruct Hx as [Hx|[-> _]]; auto. }
      assert (Hem1 : forall x, In x (map fst (mdel edec e em)) -> In x K /\ ~ In x (map snd sm1)).
      { intros x Hx. apply mdel_keys in Hx. destruct Hx as [Hx Nx]. destruct (Hem x Hx) as [G1 G2]. split; [exact G1|]. rewrite F2. intros [Q|[Q _]]; auto. }
      destruct (IH (0%nat :: p) K _ tr1 sm1 _ _ S1 (ne ++ R) _ _ _ _ (conj HF1 (conj HR1 HX2)) (mdel_NoDup edec em e Hn)
        (fun x Hx => along_incl l S S1 x Hin1 (HK x Hx)) HA1 Hem1 (fun a Ha => Hat a (in_or_app _ _ _ (or_intror Ha))) Hu) as (S' & R' & HS' & Hin' & HA').
      exists S', R'. auto.
  Qed.

  Lemma distribute_keys : forall segments (vs : list pnt) (m : list (edge ArithR * list pnt)), NoDup (map fst m) ->
    NoDup (map fst (distribute_encroachments segments vs m)) /\ forall e, In e (map fst (distribute_encroachments segments vs m)) -> In e (map fst m) \/ In e segments.
  Proof.
    intros segments vs. induction segments as [|s segments IH]; intros m Hn; cbn [distribute_encroachments fold_left]; [auto|].
    set (f := filter _ vs). destruct f as [|v f'].
    - destruct (IH m Hn) as [I1 I2]. split; [exact I1|]. intros e He. destruct (I2 e He); cbn; auto.
    - destruct (IH (mset edec s (v :: f') m) (mset_NoDup edec m s (v :: f') Hn)) as [I1 I2]. split; [exact I1|].
      intros e He. destruct (I2 e He) as [Hi|Hi]; [apply mset_keys in Hi; destruct Hi as [->|Hi]|]; cbn; auto.
  Qed.

  Lemma unencroach_stage : forall fuel p K tr S tr' sm inc del,
    stage S tr K -> (forall a, In a (unencroach_attempts H bd [] fuel p tr K) -> sound_attempt l a) ->
    unencroach H fuel p tr K bd [] = Ok (tr', sm, inc, del) ->
    exists S', stage S' tr' (replace_split sm K) /\ (forall w, In w S -> In w S').
  Proof.
    intros fuel p K tr S tr' sm inc del (HF & HR & HX) Hat Hu. unfold unencroach in Hu. unfold unencroach_attempts in Hat.
    set (em := distribute_encroachments K (trn_vertices tr) []) in *. destruct (distribute_keys K (trn_vertices tr) [] (NoDup_nil _)) as [Hnd Hsub]. fold em in Hnd, Hsub.
    set (R := filter (fun e => negb (hmem edec e (map fst em))) K).
    assert (HRi : forall e, In e R <-> In e K /\ ~ In e (map fst em)) by (intros e; unfold R; rewrite filter_In, negb_true_iff, hmem_false; reflexivity).
    assert (P : Permutation K (map fst em ++ R)).
    { apply NoDup_Permutation; [apply HX| |].
      - assert (HRn : NoDup R) by apply NoDup_filter, HX. assert (Hdis : forall e, In e (map fst em) -> ~ In e R) by (intros e He Hi; apply HRi in Hi; tauto).
        revert Hnd Hdis HRn. generalize (map fst em). clear. intros ks. induction ks as [|k ks IH]; cbn; [auto|]. intros Hn Hd HRn. apply NoDup_cons_iff in Hn. destruct Hn as [Hk Hn].
        constructor; [rewrite in_app_iff; intros [Q|Q]; [contradiction|exact (Hd k (or_introl eq_refl) Q)]|]. apply IH; auto.
      - intros e. rewrite in_app_iff, HRi. split; [|intros [Q|Q]; [destruct (Hsub e Q) as [[]|Q']; exact Q'|tauto]].
        intros Q. destruct (in_dec edec e (map fst em)); auto. }
    assert (HKa : forall e, In e K -> along l S e) by (intros e He; apply (pc_along _ _ _ (proj1 (proj1 (proj2 HX e) He)))).
    assert (HA0 : accounts K (map fst em) [] R) by (split; [intros e; rewrite HRi; cbn; tauto|intros e []]).
    assert (Hem0 : forall e, In e (map fst em) -> In e K /\ ~ In e (map snd (@nil (edge ArithR * edge ArithR)))) by (intros e He; split; [|intros []]; destruct (Hsub e He) as [[]|Q]; exact Q).
    destruct (all_stage _ _ _ _ _ _ _ _ S R _ _ _ _ (conj HF (conj HR (exact_perm _ _ _ P HX))) Hnd HKa HA0 Hem0 Hat Hu) as (S' & R' & (HF' & HR' & HX') & Hin & HA).
    exists S'. split; [|exact Hin]. split; [exact HF'|]. split; [exact HR'|]. destruct HA as [A1 A2]. split; [apply hset_NoDup|].
    intros e. rewrite <- (proj2 HX' e), A1. unfold replace_split. rewrite hset_In, in_app_iff, filter_In, andb_true_iff, !negb_true_iff, !hmem_false, !hset_In, opposite_flip. cbn [In].
    split; [|intros [(Q1 & _ & Q2)|Q]; [left; split; [exact Q1|]; split; [exact Q2|]|auto]].
    - intros [[Q1 [Q2 _]]|Q]; [left; auto|auto].
    - intros Q3. apply A2 in Q3. apply (proj2 HX) in Q1. apply (proj2 HX) in Q3. exact (forward_one e (proj2 Q1) (proj2 Q3)).
  Qed.
End Loops.
