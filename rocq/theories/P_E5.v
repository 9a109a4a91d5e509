(** P_E5.v — the pieces of the sides of a convex polygon, and the two steps of a
    refinement: the middle of a piece, the circumcentre of a triangle. *)

From Coq Require Import Reals List ZArith Lra Lia Psatz Bool Permutation.
From Verif Require Import Base Arith Geometry Elements Polyline Procedures Refine Triangulator ArithR Spec SpecR SpecD SpecP SpecC SpecE
  P_Base P_Trn P_Fuel P_Poly P_Vertices P_Cavity P_Refine P_R1 P_R2 P_R3 P_R5 P_R6 P_D1 P_D2 P_D3 P_D4 P_D5 P_D6 P_D7 P_Fill P_Fill2 P_Region P_E1 P_E2 P_E3 P_E4.
Import ListNotations.
Local Open Scope R_scope.

(** Two intervals between neighbouring points of a line that share an inner point. *)
Lemma interval_unique : forall S p q a b w, resolved S -> In p S -> In q S -> In a S -> In b S -> p <> q -> a <> b -> D a b p = 0 -> D a b q = 0 ->
  (forall z, In z S -> ~ strictly_between p q z) -> (forall z, In z S -> ~ strictly_between a b z) ->
  strictly_between p q w -> strictly_between a b w -> (a, b) = (p, q) \/ (a, b) = (q, p).
Proof.
  intros S p q a b w HR Hp Hq Ha Hb Npq Nab Zp Zq Epq Eab Bpq Bab.
  assert (App : forall x y, In x S -> In y S -> coincide x y -> x = y).
  { intros x y Hx Hy [E1 E2]. apply (rs_apart _ HR); auto. unfold close. rewrite E1, E2. pose proof eps_pos. split; lra. }
  assert (Nc : ~ coincide p q) by (intros E; apply Npq, App; auto). assert (Ncab : ~ coincide a b) by (intros E; apply Nab, App; auto).
  assert (P2 : 0 < d2 a b) by (apply Rnot_le_lt; intros L; apply Ncab; unfold d2 in L; apply squares_zero in L; unfold coincide; lra).
  assert (Za : D p q a = 0) by (apply (line3 a b p q a Zp Zq (D_ab_a a b) P2)). assert (Zb : D p q b = 0) by (apply (line3 a b p q b Zp Zq (D_ab_b a b) P2)).
  destruct (line_ratio p q a Nc Za) as (al & Ax & Ay). destruct (line_ratio p q b Nc Zb) as (be & Bx & By).
  assert (Nal : al <> be) by (intros E; apply Ncab; unfold coincide; rewrite Ax, Ay, Bx, By, E; auto).
  assert (Bt : forall k, al < k < be \/ be < k < al -> forall z, at_ratio k p q z -> strictly_between a b z).
  { intros k Hk z [Ex Ey]. apply (param_between a b z ((k - al) / (be - al))); [exact Ncab| |].
    - destruct Hk as [Hk|Hk].
      + split; [apply Rdiv_lt_0_compat; lra|]. apply (Rmult_lt_reg_r (be - al)); [lra|]. unfold Rdiv. rewrite Rmult_assoc, Rinv_l by lra. lra.
      + assert (E : (k - al) / (be - al) = (al - k) / (al - be)) by (field; lra). rewrite E. split; [apply Rdiv_lt_0_compat; lra|]. apply (Rmult_lt_reg_r (al - be)); [lra|]. unfold Rdiv. rewrite Rmult_assoc, Rinv_l by lra. lra.
    - split; rewrite ?Ex, ?Ey, ?Ax, ?Ay, ?Bx, ?By; field; lra. }
  assert (R0 : at_ratio 0 p q p) by (split; lra). assert (R1 : at_ratio 1 p q q) by (split; lra).
  assert (Ea : ~ (0 < al < 1)) by (intros Hk; apply (Epq a Ha); apply (param_between p q a al); [exact Nc|exact Hk|split; assumption]).
  assert (Eb : ~ (0 < be < 1)) by (intros Hk; apply (Epq b Hb); apply (param_between p q b be); [exact Nc|exact Hk|split; assumption]).
  destruct (between_param a b w Bab) as (k & Hk & Wx & Wy). destruct (between_param p q w Bpq) as (h & Hh & Mx & My).
  assert (Ew : (1 - k) * al + k * be = h).
  { assert (E1 : ((1 - k) * al + k * be - h) * (X q - X p) = 0) by (rewrite Ax, Bx in Wx; lra). assert (E2 : ((1 - k) * al + k * be - h) * (Y q - Y p) = 0) by (rewrite Ay, By in Wy; lra).
    apply Rmult_integral in E1. apply Rmult_integral in E2. destruct E1 as [E1|E1]; [lra|]. destruct E2 as [E2|E2]; [lra|]. exfalso. apply Nc. unfold coincide. lra. }
  destruct (Rlt_dec al be) as [L|L].
  - left. assert (La : al < h) by (assert (Q := spp k (be - al)); lra). assert (Lb : h < be) by (assert (Q := spp (1 - k) (be - al)); lra).
    assert (E0 : al = 0). { apply Rle_antisym; [lra|]. apply Rnot_lt_le. intros L0. apply (Eab p Hp). apply (Bt 0); [lra|exact R0]. }
    assert (E1 : be = 1). { apply Rle_antisym; [|lra]. apply Rnot_lt_le. intros L0. apply (Eab q Hq). apply (Bt 1); [lra|exact R1]. }
    rewrite E0 in *. rewrite E1 in *. f_equal; apply App; auto; unfold coincide; lra.
  - right. assert (La : h < al) by (assert (Q := spp k (al - be)); lra). assert (Lb : be < h) by (assert (Q := spp (1 - k) (al - be)); lra).
    assert (E0 : be = 0). { apply Rle_antisym; [lra|]. apply Rnot_lt_le. intros L0. apply (Eab p Hp). apply (Bt 0); [lra|exact R0]. }
    assert (E1 : al = 1). { apply Rle_antisym; [|lra]. apply Rnot_lt_le. intros L0. apply (Eab q Hq). apply (Bt 1); [lra|exact R1]. }
    rewrite E0 in *. rewrite E1 in *. f_equal; apply App; auto; unfold coincide; lra.
Qed.

Definition apart (e e' : edge ArithR) : Prop := e <> e' /\ e <> flip e'.

Section Pieces.
  Variable l : list pnt.
  Hypothesis HC : convex_polygon l.

  Lemma along_incl : forall S S' e, (forall w, In w S -> In w S') -> along l S e -> along l S' e.
  Proof. intros S S' e Hi (Ha & Hb & He). split; [|split]; auto. Qed.

  (** A point well inside cuts no piece. *)
  Lemma piece_deep : forall S o e, deep l o -> piece l S e -> piece l (o :: S) e.
  Proof.
    intros S o e Ho [Hl Hp He]. split; [apply (along_incl S); [intros w Hw; right; exact Hw|exact Hl]|exact Hp|].
    intros w [<-|Hw] Hb; [|exact (He w Hw Hb)]. destruct Hl as (_ & _ & x & y & Hxy & Oa & Ob). pose proof (deep_pos l o Ho x y Hxy) as P.
    apply on_side_D in Oa. apply on_side_D in Ob. destruct (between_param _ _ _ Hb) as (k & _ & Rk). rewrite (ratio_D k _ _ o x y Rk), Oa, Ob in P. lra.
  Qed.

  Section Cut.
    Variables (S : list pnt) (s : edge ArithR).
    Let w := edge_midpoint s.
    Hypothesis HR : resolved (w :: S).
    Hypothesis Hs : piece l S s.
    Let HRS : resolved S := resolved_incl (w :: S) S HR (fun z Hz => or_intror Hz).

    Lemma piece_stays : forall e, piece l S e -> apart e s -> piece l (w :: S) e.
    Proof.
      intros e [Hl Hp He] [N1 N2]. split; [apply (along_incl S); [intros z Hz; right; exact Hz|exact Hl]|exact Hp|].
      intros z [<-|Hz] Hb; [|exact (He z Hz Hb)]. destruct Hl as (Ha & Hb' & x' & y' & Hxy' & Oa & Ob). destruct (mid_on l HC S s HR Hs) as (x & y & Hxy & Op & Oq & Bw).
      destruct (pc_along _ _ _ Hs) as (Hps & Hqs & _).
      assert (E : (x', y') = (x, y)).
      { apply (cx_one l HC x y x' y' w Hxy Hxy' Bw). destruct (between_param _ _ _ Hb) as (k & _ & Rk). rewrite (ratio_D k _ _ w x' y' Rk), (on_side_D _ _ _ Oa), (on_side_D _ _ _ Ob). lra. }
      injection E as -> ->. destruct (along_D (fst e) (snd e) x y Oa Ob) as (k & Hk).
      destruct (interval_unique S (fst s) (snd s) (fst e) (snd e) w HRS) as [E|E]; auto.
      - apply (pc_proper _ _ _ Hs).
      - rewrite Hk, (on_side_D _ _ _ Op). ring.
      - rewrite Hk, (on_side_D _ _ _ Oq). ring.
      - intros z Hz. apply (pc_empty _ _ _ Hs z Hz).
      - apply (mid_of l S s HR Hs).
      - apply N1. destruct e, s. exact E.
      - apply N2. destruct e, s. exact E.
    Qed.
    Lemma piece_half1 : piece l (w :: S) (fst s, w).
    Proof.
      destruct (mid_on l HC S s HR Hs) as (x & y & Hxy & Op & Oq & Bw). destruct (pc_along _ _ _ Hs) as (Hps & Hqs & _). split; cbn [fst snd].
      - split; [right; exact Hps|]. split; [left; reflexivity|]. exists x, y. split; [exact Hxy|]. split; [exact Op|]. right. right. exact Bw.
      - intros E. apply (mid_fresh l S s HR Hs). fold w. rewrite <- E. exact Hps.
      - intros z [<-|Hz] Hb; [exact (proj2 (between_irrefl _ _) Hb)|]. apply (pc_empty _ _ _ Hs z Hz). destruct (between_param _ _ _ Hb) as (k & Hk & Kx & Ky).
        destruct (edge_midpoint_spec s) as [[Mx My] _]. fold w in Mx, My. apply (param_between (fst s) (snd s) z (k / 2)); [apply (seg_apart l S s HR Hs)|lra|].
        split; rewrite ?Kx, ?Ky, ?Mx, ?My; field.
    Qed.
    Lemma piece_half2 : piece l (w :: S) (w, snd s).
    Proof.
      destruct (mid_on l HC S s HR Hs) as (x & y & Hxy & Op & Oq & Bw). destruct (pc_along _ _ _ Hs) as (Hps & Hqs & _). split; cbn [fst snd].
      - split; [left; reflexivity|]. split; [right; exact Hqs|]. exists x, y. split; [exact Hxy|]. split; [right; right; exact Bw|exact Oq].
      - intros E. apply (mid_fresh l S s HR Hs). fold w. rewrite E. exact Hqs.
      - intros z [<-|Hz] Hb; [exact (proj1 (between_irrefl _ _) Hb)|]. apply (pc_empty _ _ _ Hs z Hz). destruct (between_param _ _ _ Hb) as (k & Hk & Kx & Ky).
        destruct (edge_midpoint_spec s) as [[Mx My] _]. fold w in Mx, My. apply (param_between (fst s) (snd s) z ((1 + k) / 2)); [apply (seg_apart l S s HR Hs)|lra|].
        split; rewrite ?Kx, ?Ky, ?Mx, ?My; field.
    Qed.
    Lemma halves_apart : apart (w, snd s) (fst s, w).
    Proof.
      destruct (pc_along _ _ _ Hs) as (Hps & Hqs & _). split; intros E; cbn [flip] in E.
      - apply (f_equal fst) in E. cbn [fst] in E. apply (mid_fresh l S s HR Hs). fold w. rewrite E. exact Hps.
      - apply (f_equal snd) in E. cbn [snd] in E. exact (pc_proper _ _ _ Hs (eq_sym E)).
    Qed.
    Lemma half_apart : forall e, along l S e -> apart (fst s, w) e /\ apart (w, snd s) e.
    Proof.
      intros [a b] (Ha & Hb & _). cbn [fst snd] in *. assert (Nw := mid_fresh l S s HR Hs). fold w in Nw.
      split; (split; intros E; cbn [flip] in E; pose proof (f_equal fst E) as E1; pose proof (f_equal snd E) as E2; cbn [fst snd] in E1, E2; apply Nw; first [rewrite E1; assumption|rewrite E2; assumption]).
    Qed.
  End Cut.

  (** ** The middle of a piece *)
  Lemma points_resolved : forall S (tr : mesh) w, delaunay S tr -> resolved S -> (resolved (w :: trn_vertices tr) <-> resolved (w :: S)).
  Proof.
    intros S tr w HD HR. pose proof (delaunay_points S tr HD (rs_plain _ HR)) as Hp.
    split; intros Hw; (eapply resolved_incl; [exact Hw|]); intros z [<-|Hz]; [left; reflexivity|right; apply Hp, Hz|left; reflexivity|right; apply Hp, Hz].
  Qed.

  Lemma split_step : forall (H : HashOrder) S (tr : mesh) s K fuel p h1 h2 tr' inc del,
    framed l S tr -> resolved (edge_midpoint s :: S) -> piece l S s -> placed l (edge_midpoint s) -> (forall e, In e K -> along l S e) ->
    split_segment H fuel p tr s K (Some (Poly l false)) [] = Ok (h1, h2, (tr', inc, del)) ->
    h1 = (fst s, edge_midpoint s) /\ h2 = (edge_midpoint s, snd s) /\ effect S tr (edge_midpoint s) tr' inc del /\ framed l (edge_midpoint s :: S) tr'.
  Proof.
    intros H S tr s K fuel p h1 h2 tr' inc del HF HR Hs Hw HK Hsp. unfold split_segment in Hsp. apply bind_ok in Hsp. destruct Hsp as (r & Hi & Hsp). injection Hsp as <- <- ->.
    set (K' := filter _ K) in Hi. assert (HK' : forall e, In e K' -> along l S e) by (intros e He; apply filter_In in He; apply HK, He).
    assert (N1 : ~ In s K').
    { intros Hin. apply filter_In in Hin. destruct Hin as [_ E]. unfold eeqb in E. rewrite !veqb_refl in E. discriminate. }
    assert (N2 : ~ In (flip s) K').
    { intros Hin. apply filter_In in Hin. destruct Hin as [_ E]. rewrite (opposite_flip s) in E. unfold eeqb in E. rewrite !veqb_refl, andb_false_r in E. discriminate. }
    assert (HE : effect S tr (edge_midpoint s) tr' inc del).
    { apply (include_effect H S tr (edge_midpoint s) K' (Some (Poly l false))) with (fuel := fuel) (p := p).
      - exact (fr_delaunay _ _ _ HF).
      - exact HR.
      - exact (mid_fresh l S s HR Hs).
      - intros e He. destruct (HK' e He) as (Ha & Hb & _). split; apply (rs_plain _ HR); right; assumption.
      - intros t f q m. apply (mid_yes l HC S tr s HF HR Hs Hw H).
      - apply (mid_bar l S tr s HF HR Hs Hw K' HK' N1 N2).
      - apply (mid_hit l HC S tr s HF HR Hs).
      - exact Hi. }
    split; [reflexivity|]. split; [reflexivity|]. split; [exact HE|]. destruct HE as (HD' & _). split; [exact HD'| |].
    - intros z Hz. right. apply (fr_corners _ _ _ HF z Hz).
    - intros z [<-|Hz]; [exact Hw|apply (fr_placed _ _ _ HF z Hz)].
  Qed.

  (** ** The centre of a triangle *)
  Lemma side_piece : forall S (tr : mesh) t e, delaunay S tr -> resolved S -> In t (tris tr) -> side_of e t -> along l S e -> piece l S e.
  Proof.
    intros S tr t e HD HR Ht Se Ha. pose proof Ha as (H1 & H2 & _). destruct e as [a b]. cbn [fst snd] in *. split; [exact Ha| |].
    - assert (Na : a <> gv) by (intros ->; pose proof (rs_plain _ HR gv H1); discriminate). assert (Nb : b <> gv) by (intros ->; pose proof (rs_plain _ HR gv H2); discriminate).
      cbn [fst snd]. apply (view S tr HD t a b Ht Se Na Nb).
    - cbn [fst snd]. intros w Hw. apply (no_vertex_on S tr HD HR a b w); [|exact Hw]. exists t. auto.
  Qed.

  Lemma centre_step : forall (H : HashOrder) S (tr : mesh) t o K fuel p tr' r,
    framed l S tr -> resolved (o :: S) -> In t (tris tr) -> is_ghost t = false -> tri_circumcenter t = Some o -> deep l o -> (forall e, In e K -> along l S e) ->
    try_circumcenter H fuel p tr t K (Some (Poly l false)) [] = Ok (tr', r) ->
    match r with
    | inl (inc, del) => effect S tr o tr' inc del /\ framed l (o :: S) tr' /\ In t del /\ forall e, ~ encroached tr o K e
    | inr enc => framed l S tr' /\ (forall x, In x (tris tr') <-> In x (tris tr)) /\ enc <> [] /\ NoDup enc /\ (forall e, In e enc <-> encroached tr o K e) /\
        (forall e, In e enc -> piece l S e) /\ forall e e', In e enc -> In e' enc -> e <> flip e'
    end.
  Proof.
    intros H S tr t o K fuel p tr' r HF HR Ht Hg Ho Hd HK Htry. pose proof (fr_delaunay _ _ _ HF) as HD.
    assert (HRS : resolved S) by (apply (resolved_incl (o :: S)); [exact HR|]; intros z Hz; right; exact Hz).
    destruct (centre_facts S tr t o HD HR Ht Hg Ho) as [Hn Hc].
    pose proof (try_effect H S tr t o K (Some (Poly l false)) HD HR Ht Hg Ho) as TE.
    specialize (TE ltac:(intros e He; destruct (HK e He) as (Ha & Hb & _); split; apply (rs_plain _ HRS); assumption)
      ltac:(intros t0 f q m; apply (inner_yes l HC S tr o HF HR Hn H Hd)) (inner_bar l HC S tr o HF HR Hn K Hd HK) fuel p tr' r Htry).
    destruct r as [[inc del]|enc].
    - destruct TE as [HE Hno]. split; [exact HE|]. pose proof HE as (HD' & _ & _ & Hdel). split; [|split; [|exact Hno]].
      + split; [exact HD'| |].
        * intros z Hz. right. apply (fr_corners _ _ _ HF z Hz).
        * intros z [<-|Hz]; [apply deep_placed, Hd|apply (fr_placed _ _ _ HF z Hz)].
      + apply Hdel. split; [exact Ht|]. unfold is_conflicting. rewrite Hc. reflexivity.
    - destruct TE as (HD' & Hx & Hne & Hnd & Henc). split; [split; [exact HD'|exact (fr_corners _ _ _ HF)|exact (fr_placed _ _ _ HF)]|].
      assert (HA : forall e, constrained K e -> along l S e) by (intros e [He|He]; [apply HK, He|]; apply HK, along_flip in He; destruct e; exact He).
      repeat (split; [assumption|]). split.
      + intros e He. apply Henc in He. destruct He as (((t' & [Ht' _] & Se) & _) & Hk & _). apply (side_piece S tr t' e HD HRS Ht' Se (HA e Hk)).
      + intros e e' He He' E. apply Henc in He. apply Henc in He'. destruct He as (((u & Hu & Su) & _) & _). destruct He' as ((_ & u' & Hu' & Su' & Nu') & _). rewrite <- E in Su'.
        apply Nu'. rewrite (excl S tr HD u' u e Hu' (proj1 Hu) Su' Su). exact Hu.
  Qed.
End Pieces.
