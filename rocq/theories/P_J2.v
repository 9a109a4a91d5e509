(** P_J2.v — a hole is cut out of a convex polygon. *)

From Coq Require Import Reals List ZArith Lra Lia Psatz Bool Permutation.
From Verif Require Import Base Arith Geometry Elements Polyline Procedures Refine Triangulator ArithR Spec SpecM SpecR SpecD SpecP SpecC SpecE SpecJ
  P_Base P_Trn P_Fuel P_Poly P_Vertices P_Cavity P_Flood P_Refine P_Worked P_R1 P_R2 P_R3 P_R4 P_R5 P_R6 P_RX P_D1 P_D2 P_D3 P_D4 P_D5 P_D6 P_D7 P_D8 P_Fill P_Fill2 P_Slide P_Region P_Region2 P_Region3 P_Polygon
  P_Polygon2 P_C1 P_C2 P_C3 P_C4 P_C5 P_C6 P_C7 P_C8 P_C9 P_E1 P_E2 P_E3 P_E4 P_E5 P_E6 P_E7 P_E8 P_J1.
Import ListNotations.
Local Open Scope R_scope.

(** ** The adjacency map after opening a hole *)
Section Opening.
  Context {A : Arith}.
  Notation edge := (edge A).
  Notation triangulation := (triangulation A).
  Lemma open_complete : forall frontier (es : list edge) (tr : triangulation) pending tr' pending', open_hole frontier es tr pending = (tr', pending') ->
    adj_complete tr -> NoDup es -> (forall e, In e es -> fst e <> ghost_vertex /\ snd e <> ghost_vertex) ->
    (forall e e', In e es -> In e' es -> fst e = fst e' \/ snd e = snd e' -> e = e') ->
    (forall e t, In e es -> In t (tris tr) -> ~ side_of (snd e, ghost_vertex) t /\ ~ side_of (ghost_vertex, fst e) t) -> adj_complete tr'.
  Proof.
    intros frontier es. induction es as [|e es IH]; intros tr pending tr' pending' Ho Hc Hnd Hg Hu Hf; [injection Ho as <- _; exact Hc|].
    assert (Hstep : forall act, adj_complete act -> (forall t, In t (tris act) -> In t (tris tr)) -> (forall t, In t (tris act) -> ~ side_of e t) ->
      adj_complete (incl_tri (ghost_on e) act) /\
      forall e' t, In e' es -> In t (tris (incl_tri (ghost_on e) act)) -> ~ side_of (snd e', ghost_vertex) t /\ ~ side_of (ghost_vertex, fst e') t).
    { intros act Ha Hsub Hno. split.
      - apply adj_complete_incl; [exact Ha|]. intros t' x Ht' S1 S2. exfalso. apply ghost_on_sides in S1. destruct (Hf e t' (or_introl eq_refl) (Hsub t' Ht')) as [F1 F2].
        destruct S1 as [-> |[-> | ->]]; [apply (Hno t' Ht' S2)|apply F1, S2|apply F2, S2].
      - intros e' t He' Ht. apply incl_tri_In in Ht. destruct Ht as [-> |Ht]; [|apply (Hf e' t); [right; exact He'|apply Hsub, Ht]].
        destruct (Hg e (or_introl eq_refl)) as [G1 G2]. destruct (Hg e' (or_intror He')) as [G1' G2'].
        assert (Ne : e <> e') by (intros ->; inversion Hnd; contradiction).
        split; intros Sx; apply ghost_on_sides in Sx; destruct Sx as [E|[E|E]].
        + rewrite <- E in G2. cbn in G2. congruence.
        + injection E as E. apply Ne, Hu; [left; reflexivity|right; exact He'|right; congruence].
        + injection E as E1 E2. congruence.
        + rewrite <- E in G1. cbn in G1. congruence.
        + injection E as E1 E2. congruence.
        + injection E as E. apply Ne, Hu; [left; reflexivity|right; exact He'|left; congruence]. }
    cbn [open_hole] in Ho. inversion Hnd as [|? ? Hn1 Hn2]; subst. destruct (adj_get e tr) as [t|] eqn:Ea.
    - destruct (Hstep (rem_tri t tr)) as [S1 S2].
      + apply adj_complete_rem, Hc.
      + intros x Hx. apply rem_tri_In in Hx. apply Hx.
      + intros x Hx Sx. apply rem_tri_In in Hx. destruct Hx as [Hx Nx]. rewrite (Hc e x Hx Sx) in Ea. congruence.
      + apply (IH _ _ _ _ Ho S1 Hn2); auto with datatypes.
    - destruct (Hstep tr Hc) as [S1 S2]; [auto| |].
      + intros x Hx Sx. rewrite (Hc e x Hx Sx) in Ea. discriminate.
      + apply (IH _ _ _ _ Ho S1 Hn2); auto with datatypes.
  Qed.
  Lemma open_NoDup : forall frontier (es : list edge) (tr : triangulation) pending tr' pending', open_hole frontier es tr pending = (tr', pending') -> NoDup (tris tr) -> NoDup (tris tr').
  Proof.
    intros frontier es. induction es as [|e es IH]; intros tr pending tr' pending' Ho Hn; [injection Ho as <- _; exact Hn|]. cbn [open_hole] in Ho.
    destruct (adj_get e tr); apply (IH _ _ _ _ Ho), incl_tri_NoDup; [apply rem_tri_NoDup|]; exact Hn.
  Qed.
  Lemma flood_sub : forall fuel frontier pending (tr tr' : triangulation), adj_sound tr -> flood_fill fuel frontier pending tr = Ok tr' -> adj_sound tr'.
  Proof.
    induction fuel as [|fuel IH]; intros fr pending tr tr' Hs Hf; [discriminate|]. cbn [flood_fill] in Hf. destruct pending as [|e pending]; [injection Hf as <-; exact Hs|].
    destruct (adj_get e tr); [apply (IH _ _ _ _ (adj_sound_rem _ _ Hs) Hf)|apply (IH _ _ _ _ Hs Hf)].
  Qed.
  Lemma flood_complete : forall fuel frontier pending (tr tr' : triangulation), flood_fill fuel frontier pending tr = Ok tr' -> adj_complete tr -> adj_complete tr'.
  Proof.
    induction fuel as [|fuel IH]; intros fr pending tr tr' Hf Hc; [discriminate|]. cbn [flood_fill] in Hf. destruct pending as [|e pending]; [injection Hf as <-; exact Hc|].
    destruct (adj_get e tr); [apply (IH _ _ _ _ Hf), adj_complete_rem, Hc|apply (IH _ _ _ _ Hf), Hc].
  Qed.
End Opening.

(** ** Vertices inserted well inside a convex polygon *)
Section Convex.
  Variable l : list pnt.
  Hypothesis HC : convex_polygon l.
  Notation K := (polygon_sides l).

  Lemma cod_placed : forall w, corner_or_deep l w -> placed l w.
  Proof.
    intros w [Hw|Hw] a b Hab; [|right; apply Hw, Hab].
    destruct (vdec w a) as [-> |Na]; [left; left; reflexivity|]. destruct (vdec w b) as [-> |Nb]; [left; right; left; reflexivity|]. right. apply (cp_away _ HC); assumption.
  Qed.
  Lemma deep_pos : forall w, deep l w -> forall a b, In (a, b) K -> 0 < D a b w.
  Proof. intros w Hw a b Hab. apply (spread_pos 3); [lra|apply Hw, Hab]. Qed.
  Lemma deep_corner : forall w, deep l w -> ~ In w l.
  Proof. intros w Hw Hi. destruct (polygon_starts l w Hi) as ([a b] & Hab & E). cbn in E. subst a. pose proof (deep_pos w Hw w b Hab) as P. rewrite D_ab_a in P. lra. Qed.
  Lemma cod_between : forall a b w, In (a, b) K -> corner_or_deep l w -> ~ strictly_between a b w.
  Proof.
    intros a b w Hab Hw [Z Hd]. destruct Hw as [Hw|Hw]; [|pose proof (deep_pos w Hw a b Hab); lra].
    destruct (vdec w a) as [-> |Na]; [unfold dotp in Hd; nra|].
    destruct (vdec w b) as [-> |Nb]; [unfold dotp in Hd; nra|].
    pose proof (spread_pos 3 a b w ltac:(lra) (cp_away _ HC a b w Hab Hw Na Nb)). lra.
  Qed.

  Definition settled (S : list pnt) (tr : mesh) : Prop := (forall w, In w l -> In w S) /\ forall x, In x S -> corner_or_deep l x.
  Lemma settled_framed : forall S (tr : mesh), constrained_delaunay S K tr -> settled S tr -> resolved S -> framed l S tr.
  Proof.
    intros S tr HCD [H1 H2] HR. apply constrained_framed; auto.
    - intros w Hw. apply cod_placed, H2, Hw.
    - intros a b w Hab Hw. apply cod_between; auto.
  Qed.
  Lemma third : forall a b, In (a, b) K -> exists c, In c l /\ 0 < D a b c.
  Proof.
    intros a b Hab. assert (E : exists c, In c l /\ c <> a /\ c <> b).
    { pose proof (cp_nodup _ HC) as Hn. pose proof (cp_three _ HC) as Ht. destruct l as [|x [|y [|z r]]]; cbn [length] in Ht; try lia.
      rewrite !NoDup_cons_iff in Hn. cbn [In] in Hn. destruct Hn as (N1 & N2 & _).
      assert (M1 : x <> y) by (intros ->; tauto). assert (M2 : x <> z) by (intros ->; tauto). assert (M3 : y <> z) by (intros ->; tauto).
      destruct (vdec x a) as [Ea|Ea]; [|destruct (vdec x b) as [Eb|Eb]; [|exists x; cbn; auto]]; subst.
      - destruct (vdec y b) as [Ey|Ey]; [subst; exists z; cbn; repeat split; auto|exists y; cbn; repeat split; auto].
      - destruct (vdec y a) as [Ey|Ey]; [subst; exists z; cbn; repeat split; auto|exists y; cbn; repeat split; auto]. }
    destruct E as (c & Hc & N1 & N2). exists c. split; [exact Hc|]. apply (spread_pos 3); [lra|]. apply (cp_away _ HC); assumption.
  Qed.
  Lemma settled_outer : forall S (tr : mesh) a b, constrained_delaunay S K tr -> settled S tr -> resolved S -> In (Tri a b gv) (tris tr) -> In (b, a) K.
  Proof.
    intros S tr a b HCD HS HR Ht. destruct (cd_outer _ _ _ HCD a b Ht) as [Hk|Hk]; [exfalso|exact Hk].
    pose proof (settled_framed S tr HCD HS HR) as HF. destruct (third a b Hk) as (c & Hc & P).
    pose proof (proj1 (dl_hull _ _ (fr_delaunay _ _ _ HF) a b Ht c (proj1 HS c Hc))). lra.
  Qed.
  Lemma settled_centroid : forall S (tr : mesh) a b c, settled S tr -> In a S -> In b S -> In c S -> 0 < D a b c -> forall x y, In (x, y) K -> 0 < D x y (centroid a b c).
  Proof.
    intros S tr a b c HS Ha Hb Hc P x y Hxy. destruct (positive_centroid x y a b c) as [L|[L1 L2]]; auto.
    1-3: apply (placed_nonneg l); auto; apply cod_placed, (proj2 HS); assumption.
    exfalso. destruct (third x y Hxy) as (z & _ & Pz). unfold area2 in Pz. rewrite L1, L2 in Pz. lra.
  Qed.
  Lemma settled_unscreened : forall S (tr : mesh) w, constrained_delaunay S K tr -> settled S tr -> deep l w -> resolved (w :: S) -> unscreened K tr w.
  Proof.
    intros S tr w HCD HS Hw HR t Ht He. assert (HRS : resolved S) by (apply (resolved_incl (w :: S)); [exact HR|]; intros x Hx; right; exact Hx).
    destruct (cd_shape _ _ _ HCD t Ht) as [(a & b & c & -> & Ha & Hb & Hc & Hp)|(a & b & -> & _)].
    - exists a, b, c, (centroid a b c). split; [reflexivity|]. split; [apply (rs_plain _ HRS), Hc|]. pose proof (centroid_inside a b c Hp) as Hq.
      split; [destruct Hq as (Q1 & Q2 & Q3); repeat split; apply Rlt_le; assumption|]. apply convex_sees; [|apply deep_pos, Hw]. apply (settled_centroid S tr); assumption.
    - exfalso. rewrite ghost_encircles in He. destruct (orientation a b w) eqn:E; try discriminate. apply orientation_spec in E. pose proof eps_pos.
      pose proof (deep_pos w Hw b a (settled_outer S tr a b HCD HS HRS Ht)) as P. rewrite (D_swap a b w) in P. lra.
  Qed.

  (** A batch of vertices without boundary nor holes: how [hole::include] inserts the vertices of the hole. *)
  Lemma deep_batch : forall (H : HashOrder) p S (tr : mesh) vs, constrained_delaunay S K tr -> settled S tr -> resolved (vs ++ S) -> NoDup vs -> (forall w, In w vs -> deep l w) ->
    exists n0 tr' inc del ins dropped, (forall fuel, (n0 <= fuel)%nat -> vertices_include H fuel p tr vs K None [] = Ok (tr', inc, del)) /\
      constrained_delaunay (ins ++ S) K tr' /\ settled (ins ++ S) tr' /\ Permutation (filter (fun v => negb (hmem vdec v (trn_vertices tr))) vs) (ins ++ dropped) /\
      (forall q, in_region tr q <-> in_region tr' q).
  Proof.
    intros H p S tr vs HCD HS HR Hnd Hvs.
    destruct (include_constrained H K None [] 0 (deep l) settled) with (p := p) (S := S) (tr := tr) (vs := vs)
      as (n0 & tr' & inc & del & ins & dropped & Hrun & HC' & HP' & Hperm & Hreg & Hne); auto.
    - intros w Hw. apply convex_off, deep_pos, Hw.
    - intros S0 tr0 w u fuel p' _ _ _ _ _ _ _. exists true. split; [apply may_insert_free|reflexivity].
    - intros S0 tr0 w u HC0 HS0 Hw Hn HRw Hu He _. apply (unscreened_zone S0 K tr0 w HC0 HRw); auto. apply (settled_unscreened S0); assumption.
    - intros S0 tr0 v fuel p' a b ws _ _ _ _ _ _ _ _ _. apply none_split.
    - intros S0 tr0 w tr' HC0 [H1 H2] Hw Hn HC' _ _. split.
      + intros x Hx. right. apply H1, Hx.
      + intros x [<-|Hx]; [right; exact Hw|apply H2, Hx].
    - exists n0, tr', inc, del, ins, dropped. auto 6.
  Qed.
End Convex.

(** ** Being on a polygon is decided *)
Lemma on_segment_dec : forall a b z, ~ coincide a b -> on_segment a b z \/ ~ on_segment a b z.
Proof.
  intros a b z Hco. destruct (Req_EM_T (D a b z) 0) as [E|E].
  - destruct (ratio_of_line a b z Hco E) as (i & Hi). destruct (Rle_lt_dec 0 i) as [L0|L0]; [destruct (Rle_lt_dec i 1) as [L1|L1]|]; [left; exists i; split; [lra|exact Hi]| |].
    all: right; intros (k & Hk & Rk); assert (i <> k) by lra; apply Hco; destruct Hi as [Ix Iy]; destruct Rk as [Kx Ky]; split; nra.
  - right. intros (k & Hk & [Kx Ky]). apply E. unfold area2. rewrite Kx, Ky. ring.
Qed.
Lemma on_polygon_dec : forall h q, (forall x y, In (x, y) (polygon_sides h) -> ~ coincide x y) -> on_polygon h q \/ ~ on_polygon h q.
Proof.
  intros h q. unfold on_polygon. generalize (polygon_sides h). induction l as [|[x y] l IH]; intros Hco; [right; intros (s & [] & _)|].
  destruct (on_segment_dec x y q) as [Hs|Hs]; [apply Hco; left; reflexivity|left; exists (x, y); split; [left; reflexivity|exact Hs]|].
  destruct IH as [(s & Hi & Hq)|IH]; [intros x' y' Hi; apply Hco; right; exact Hi|left; exists s; split; [right; exact Hi|exact Hq]|].
  right. intros (s & [<-|Hi] & Hq); [apply Hs, Hq|apply IH; exists s; auto].
Qed.

(** ** Cutting *)
Section Cut.
  Variables (l h S : list pnt) (tr1 : mesh).
  Notation K := (polygon_sides l).
  Notation es := (polygon_sides h).
  Hypothesis HC : convex_polygon l.
  Hypothesis HCD : constrained_delaunay S K tr1.
  Hypothesis HS : settled l S tr1.
  Hypothesis HR : resolved S.
  Hypothesis Hnd : NoDup h.
  Hypothesis Hin : forall w, In w h -> In w S.
  Hypothesis Hdeep : forall w, In w h -> deep l w.
  Hypothesis Harea : 0 < shoelace es.
  Hypothesis Hfree : forall a b, In (a, b) es -> free_side S a b.
  Hypothesis Hout : forall w, In w S -> In w h \/ winding w es = 0%Z.

  Let HF : framed l S tr1 := settled_framed l HC S tr1 HCD HS HR.
  Let HD : delaunay S tr1 := fr_delaunay _ _ _ HF.
  Lemma cut_solid : exists t, In t (tris tr1) /\ solid_over S t.
  Proof.
    destruct (sides_some l HC) as (a & b & Hab). destruct (polygon_ends l _ Hab) as [Ha _]. destruct (cd_used _ _ _ HCD a (proj1 HS a Ha)) as (t & [Ht G] & _).
    exists t. split; [exact Ht|]. destruct (cd_shape _ _ _ HCD t Ht) as [Hs|(x & y & -> & _)]; [exact Hs|]. unfold is_ghost in G. cbn in G. rewrite !orb_true_r in G. discriminate.
  Qed.
  Lemma es_differ : forall x y, In (x, y) es -> x <> y.
  Proof. intros x y Hxy <-. pose proof (both_ways h x x Hnd Hxy Hxy). lra. Qed.
  Lemma cut_edges : forall x y, In (x, y) es -> medge S tr1 x y.
  Proof.
    intros x y Hxy. destruct (polygon_ends h _ Hxy) as [Hx Hy]. cbn [fst snd] in *. apply (free_medge S tr1 S x y HD HR cut_solid); auto. apply es_differ, Hxy.
  Qed.
  Notation W := (W h).
  Lemma h_not_l : forall w, In w h -> ~ In w l.
  Proof. intros w Hw. apply (deep_corner l), Hdeep, Hw. Qed.
  Lemma ghost_ends : forall a b, In (Tri a b gv) (tris tr1) -> In a l /\ In b l.
  Proof. intros a b Ht. pose proof (settled_outer l HC S tr1 a b HCD HS HR Ht) as Hk. destruct (polygon_ends l _ Hk). auto. Qed.
  Lemma beyond_side : forall e, In e es -> exists t, solid_in tr1 t /\ side_of (flip e) t /\ W t = 0%Z.
  Proof.
    intros [x y] He. destruct (medge_flip S tr1 HD x y (cut_edges x y He)) as (t & Ht & St & _). exists t. split; [split; [exact Ht|]|split; [exact St|]].
    - destruct (is_ghost t) eqn:G; [exfalso|reflexivity]. destruct (cd_shape _ _ _ HCD t Ht) as [(a & b & c & -> & Ha & Hb & Hc & _)|(a & b & -> & Ha & Hb & _)].
      + unfold is_ghost in G. cbn [tv1 tv2 tv3] in G. rewrite (rs_plain _ HR a Ha), (rs_plain _ HR b Hb), (rs_plain _ HR c Hc) in G. discriminate.
      + destruct (ghost_ends a b Ht) as [La Lb]. destruct (polygon_ends h _ He) as [Hx Hy]. cbn [fst snd] in *.
        inversion St; subst; [eapply h_not_l; eassumption|apply Hin in Hx; apply (rs_plain _ HR) in Hx; discriminate|apply Hin in Hy; apply (rs_plain _ HR) in Hy; discriminate].
    - apply (right_zero S tr1 h HD HR cut_solid Hnd cut_edges Harea (x, y) t He Ht St).
  Qed.
  Lemma outer_side : forall a b, In (a, b) K -> In (Tri b a gv) (tris tr1) /\ exists t, solid_in tr1 t /\ side_of (a, b) t /\ W t = 0%Z.
  Proof.
    intros a b Hab. destruct (cd_bars _ _ _ HCD a b Hab) as (Ha & Hb & t & [Ht G] & St).
    assert (Hpos : forall c, In c S -> 0 <= D a b c) by (intros c Hc; apply (placed_nonneg l); auto; apply cod_placed; auto; apply (proj2 HS), Hc).
    assert (Sab : side_of (a, b) t).
    { destruct St as [St|St]; [exact St|exfalso]. destruct (cd_shape _ _ _ HCD t Ht) as [(x & y & z & -> & Hx & Hy & Hz & P)|(x & y & -> & _)].
      - pose proof (D_rot x y z) as R1. pose proof (D_rot2 x y z) as R2. inversion St; subst; [pose proof (Hpos z Hz) as Q|pose proof (Hpos x Hx) as Q|pose proof (Hpos y Hy) as Q]; rewrite D_swap in Q; lra.
      - unfold is_ghost in G. cbn in G. rewrite !orb_true_r in G. discriminate. }
    destruct (cd_closed _ _ _ HCD t (a, b) Ht Sab) as (t' & Ht' & Sf). cbn [flip fst snd] in Sf.
    assert (Eg : t' = Tri b a gv).
    { destruct (cd_shape _ _ _ HCD t' Ht') as [(x & y & z & -> & Hx & Hy & Hz & P)|(x & y & -> & Hx & Hy & _)].
      - exfalso. pose proof (D_rot x y z) as R1. pose proof (D_rot2 x y z) as R2. inversion Sf; subst; [pose proof (Hpos z Hz) as Q|pose proof (Hpos x Hx) as Q|pose proof (Hpos y Hy) as Q]; rewrite D_swap in Q; lra.
      - inversion Sf; subst; [reflexivity| |]; exfalso; [apply (rs_plain _ HR) in Ha|apply (rs_plain _ HR) in Hb]; discriminate. }
    subst t'. split; [exact Ht'|]. exists t. split; [split; assumption|]. split; [exact Sab|]. destruct (polygon_ends l _ Hab) as [La Lb]. cbn [fst snd] in *.
    rewrite (same_side S tr1 h HD HR cut_solid cut_edges t (Tri b a gv) (a, b) Ht Ht' Sab Sf); [apply W_ghost| |]; intros Hi; destruct (polygon_ends h _ Hi) as [Hx Hy]; cbn [flip fst snd] in *; apply (h_not_l a); assumption.
  Qed.
  Lemma on_edge_corner : forall w, In w S -> on_polygon h w -> In w h.
  Proof.
    intros w Hw ([x y] & Hxy & Hq). cbn [fst snd] in Hq. destruct (polygon_ends h _ Hxy) as [Hx Hy]. cbn [fst snd] in *.
    destruct (open_or_end x y w Hq) as [E|[E|(k & Hk & E)]].
    - rewrite <- (rs_apart _ HR x w); auto. pose proof eps_pos. destruct E as [E1 E2]. unfold close. rewrite E1, E2. lra.
    - rewrite <- (rs_apart _ HR y w); auto. pose proof eps_pos. destruct E as [E1 E2]. unfold close. rewrite E1, E2. lra.
    - exfalso. apply (no_vertex_on S tr1 HD HR x y w (cut_edges x y Hxy) Hw). apply param_between with (k := k); auto. apply (h_apart S tr1 h HD HR cut_edges x y Hxy).
  Qed.

  (** What [hole::include] leaves. *)
  Record cut (tr' : mesh) : Prop := {
    ct_sound : adj_sound tr';
    ct_complete : adj_complete tr';
    ct_nodup : NoDup (tris tr');
    ct_In : forall t, In t (tris tr') <-> (In t (tris tr1) /\ W t = 0%Z) \/ exists e, In e es /\ t = Tri (fst e) (snd e) gv
  }.
  Lemma cut_solid_in : forall tr' t, cut tr' -> (solid_in tr' t <-> solid_in tr1 t /\ W t = 0%Z).
  Proof.
    intros tr' t Hc. unfold solid_in. rewrite (ct_In _ Hc). split; [|tauto]. intros [[H1|(e & _ & ->)] G]; [tauto|]. unfold is_ghost in G. cbn in G. rewrite !orb_true_r in G. discriminate.
  Qed.
  Lemma solid_real : forall a b c, solid_in tr1 (Tri a b c) -> In a S /\ In b S /\ In c S /\ 0 < D a b c /\ vghost c = false.
  Proof.
    intros a b c [Ht G]. destruct (cd_shape _ _ _ HCD _ Ht) as [(x & y & z & E & Hx & Hy & Hz & P)|(x & y & E & _)]; injection E as -> -> ->.
    - repeat split; auto. apply (rs_plain _ HR z Hz).
    - unfold is_ghost in G. cbn in G. rewrite !orb_true_r in G. discriminate.
  Qed.
  Lemma side_in_closed : forall a b c x y q, 0 < D a b c -> side_of (x, y) (Tri a b c) -> on_segment x y q -> in_triangle a b c q.
  Proof.
    intros a b c x y q P Su Hq. pose proof (D_rot a b c) as R1. pose proof (D_rot2 a b c) as R2.
    assert (Z : D a b a = 0 /\ D a b b = 0 /\ D b c b = 0 /\ D b c c = 0 /\ D c a c = 0 /\ D c a a = 0) by (rewrite !D_ab_a, !D_ab_b; auto 6).
    destruct Z as (Z1 & Z2 & Z3 & Z4 & Z5 & Z6).
    assert (Q : forall a' b', exists t, 0 <= t <= 1 /\ D a' b' q = (1 - t) * D a' b' x + t * D a' b' y) by (intros a' b'; apply segment_D, Hq).
    destruct (Q a b) as (t1 & T1 & E1). destruct (Q b c) as (t2 & T2 & E2). destruct (Q c a) as (t3 & T3 & E3).
    assert (M : forall t k k', 0 <= t <= 1 -> 0 <= k -> 0 <= k' -> 0 <= (1 - t) * k + t * k').
    { intros t k k' Ht Hk Hk'. assert (M1 := mpp (1 - t) k). assert (M2 := mpp t k'). lra. }
    unfold in_triangle. rewrite E1, E2, E3. inversion Su; subst; repeat split; apply M; lra.
  Qed.
  Lemma corner_in_closed : forall a b c w, 0 < D a b c -> corner_of w (Tri a b c) -> in_triangle a b c w.
  Proof. intros a b c w P Hc. pose proof (D_rot a b c) as R1. pose proof (D_rot2 a b c) as R2. unfold in_triangle. inversion Hc; subst; rewrite ?D_ab_a, ?D_ab_b; repeat split; lra. Qed.

  Lemma cut_holed : forall tr', cut tr' -> holed l h S tr'.
  Proof.
    intros tr' Hc.
    assert (Circ : forall a b c, solid_in tr' (Tri a b c) -> empty_circle S a b c).
    { intros a b c Ht. apply cut_solid_in in Ht; [|exact Hc]. destruct Ht as [Ht _]. destruct (solid_real a b c Ht) as (_ & _ & _ & _ & G). apply (dl_circle _ _ HD); [apply Ht|exact G]. }
    split; [split|exact Circ| |].
    - apply (ct_sound _ Hc).
    - apply (ct_complete _ Hc).
    - apply (ct_nodup _ Hc).
    - intros t Ht. apply (ct_In _ Hc) in Ht. destruct Ht as [[Ht _]|([x y] & He & ->)]; [apply (cd_shape _ _ _ HCD), Ht|]. right. destruct (polygon_ends h _ He) as [Hx Hy]. cbn [fst snd] in *.
      exists x, y. repeat split; auto. apply es_differ, He.
    - intros t x Ht Sx. apply (ct_In _ Hc) in Ht. destruct Ht as [[Ht W0]|(e & He & ->)].
      + destruct (cd_closed _ _ _ HCD t x Ht Sx) as (t' & Ht' & Sf). destruct (in_dec edec (flip x) es) as [Hf|Hf].
        * exists (Tri (fst (flip x)) (snd (flip x)) gv). split; [apply (ct_In _ Hc); right; exists (flip x); auto|]. destruct x. constructor.
        * exists t'. split; [|exact Sf]. apply (ct_In _ Hc). left. split; [exact Ht'|]. rewrite <- W0. symmetry. apply (same_side S tr1 h HD HR cut_solid cut_edges t t' x); auto.
          intros Hx. rewrite (left_one S tr1 h HD HR cut_solid Hnd cut_edges Harea x t Hx Ht Sx) in W0. discriminate.
      + destruct (polygon_ends h e He) as [H1 H2]. apply ghost_on_sides in Sx. destruct Sx as [-> |[-> | ->]].
        * destruct (beyond_side e He) as (t & Ht & St & W0). exists t. split; [apply (ct_In _ Hc); left; split; [apply Ht|exact W0]|exact St].
        * destruct (polygon_starts h (snd e) H2) as (e' & He' & E). exists (Tri (fst e') (snd e') gv). split; [apply (ct_In _ Hc); right; exists e'; auto|]. rewrite <- E. cbn [flip fst snd]. constructor.
        * destruct (polygon_ends_in h (fst e) H1) as (e' & He' & E). exists (Tri (fst e') (snd e') gv). split; [apply (ct_In _ Hc); right; exists e'; auto|]. rewrite <- E. cbn [flip fst snd]. constructor.
    - intros a b Ht. apply (ct_In _ Hc) in Ht. destruct Ht as [[Ht _]|([x y] & He & E)].
      + destruct (cd_outer _ _ _ HCD a b Ht) as [Hk|Hk]; [left|right]; apply in_or_app; left; exact Hk.
      + cbn [fst snd] in E. injection E as -> ->. left. apply in_or_app. right. exact He.
    - intros a b Hab. apply in_app_or in Hab. destruct Hab as [Hab|Hab].
      + destruct (cd_bars _ _ _ HCD a b Hab) as (Ha & Hb & _). destruct (outer_side a b Hab) as (_ & t & Ht & St & W0). split; [exact Ha|]. split; [exact Hb|].
        exists t. split; [apply cut_solid_in; auto|left; exact St].
      + destruct (polygon_ends h _ Hab) as [Ha Hb]. cbn [fst snd] in *. destruct (beyond_side (a, b) Hab) as (t & Ht & St & W0). split; [auto|]. split; [auto|].
        exists t. split; [apply cut_solid_in; auto|right; exact St].
    - intros a b c d t u [Ht Rt] [Hu Ru] Gt Gu _ o E1 E2.
      assert (Hd : In d S).
      { assert (Hs : solid_in tr' u) by (split; assumption). apply cut_solid_in in Hs; [|exact Hc]. destruct Hs as [Hs _].
        destruct Ru as [-> |[-> | ->]]; destruct (solid_real _ _ _ Hs) as (Q1 & Q2 & Q3 & _); assumption. }
      assert (Hs : solid_in tr' t) by (split; assumption). destruct Rt as [-> |[-> | ->]]; pose proof (Circ _ _ _ Hs o d Hd) as Q; lra.
    - intros a b c a' b' c' q Ht Ht' Hi Hi'. apply cut_solid_in in Ht; [|exact Hc]. apply cut_solid_in in Ht'; [|exact Hc]. destruct Ht as [Ht _]. destruct Ht' as [Ht' _].
      destruct (solid_real _ _ _ Ht) as (_ & _ & _ & _ & G). destruct (solid_real _ _ _ Ht') as (_ & _ & _ & _ & G'). destruct Ht as [Ht _]. destruct Ht' as [Ht' _].
      apply (tiles_once S tr1 q a b c a' b' c' HD HR); assumption.
    - intros w Hw. destruct (in_dec vdec w h) as [Hh|Hh].
      + destruct (polygon_starts h w Hh) as (e & He & E). destruct (beyond_side e He) as (t & Ht & St & W0). exists t. split; [apply cut_solid_in; auto|]. rewrite <- E. destruct e as [x y]. exact (side_corner2 _ _ St).
      + destruct (Hout w Hw) as [Hi|W0]; [contradiction|]. destruct (cd_used _ _ _ HCD w Hw) as (t & Ht & Hcw). exists t. split; [|exact Hcw]. apply cut_solid_in; [exact Hc|]. split; [exact Ht|].
        destruct t as [a b c]. destruct (solid_real a b c Ht) as (_ & _ & _ & P & G). rewrite <- W0. symmetry.
        apply (closed_W S tr1 h HD HR cut_edges a b c w (proj1 Ht) G); [apply corner_in_closed; assumption|]. intros Ho. apply Hh, on_edge_corner; assumption.
    - intros q. split.
      + intros (a & b & c & Ht & Hq). apply cut_solid_in in Ht; [|exact Hc]. destruct Ht as [Ht W0]. split; [apply (region_exact l HC S tr1 q HF HR); exists a, b, c; auto|].
        destruct (solid_real a b c Ht) as (_ & _ & _ & _ & G).
        destruct (Z.eq_dec (winding q es) 0) as [E|E]; [left; exact E|right]. destruct (on_polygon_dec h q (h_apart S tr1 h HD HR cut_edges)) as [Ho|Ho]; [exact Ho|exfalso]. apply E. rewrite <- W0.
        apply (closed_W S tr1 h HD HR cut_edges a b c q (proj1 Ht) G); assumption.
      + intros [Hl Hw]. apply (region_exact l HC S tr1 q HF HR) in Hl. destruct Hl as (a & b & c & Ht & Hq). destruct (solid_real a b c Ht) as (_ & _ & _ & _ & G).
        destruct (Z.eq_dec (W (Tri a b c)) 0) as [W0|W0]; [exists a, b, c; split; [apply cut_solid_in; auto|exact Hq]|].
        assert (Ho : on_polygon h q).
        { destruct (on_polygon_dec h q (h_apart S tr1 h HD HR cut_edges)) as [Hn|Hn]; [exact Hn|exfalso]. apply W0. rewrite <- (closed_W S tr1 h HD HR cut_edges a b c q (proj1 Ht) G Hq Hn). destruct Hw as [Hw|Hw]; [exact Hw|contradiction]. }
        destruct Ho as ([x0 y0] & He & Hs). destruct (beyond_side (x0, y0) He) as ([x y z] & Ht' & St & W0'). destruct (solid_real x y z Ht') as (_ & _ & _ & P & _).
        exists x, y, z. split; [apply cut_solid_in; auto|]. apply (side_in_closed x y z y0 x0 q P St). apply on_segment_flip, Hs.
    - intros a b. rewrite (ct_In _ Hc). split.
      + intros [[Ht _]|([x y] & He & E)]; [left; apply (settled_outer l HC S tr1); assumption|right]. cbn [fst snd] in E. injection E as -> ->. exact He.
      + intros [Hk|He]; [left; split; [apply (outer_side b a), Hk|apply W_ghost]|right; exists (a, b); auto].
  Qed.

  (** The run of [hole::include] after its vertices. *)
  Lemma cut_missing : forall (H : HashOrder) fuel p cs, (1 <= fuel)%nat -> insert_missing H fuel p (hset edec es) cs tr1 = Ok tr1.
  Proof.
    intros H [|fuel] p cs Hf; [lia|]. cbn [insert_missing]. destruct (find _ _) as [e|] eqn:E; [exfalso|reflexivity]. apply find_some in E. destruct E as [Hi Hn].
    apply ho_In in Hi. apply hset_In in Hi. apply negb_true_iff in Hn. destruct e as [x y]. destruct (cut_edges x y Hi) as (t & Ht & St & _).
    assert (Hm : hmem edec (x, y) (trn_edges tr1) = true) by (apply hmem_In, trn_edges_In; exists t; auto). congruence.
  Qed.
  Lemma cut_ghost_free : forall e t, In e es -> In t (tris tr1) -> ~ side_of (snd e, gv) t /\ ~ side_of (gv, fst e) t.
  Proof.
    intros e t He Ht. destruct (polygon_ends h e He) as [H1 H2].
    destruct (cd_shape _ _ _ HCD t Ht) as [(a & b & c & -> & Ha & Hb & Hc & _)|(a & b & -> & Ha & Hb & _)].
    - split; intros Sx; inversion Sx; subst; match goal with Hx : In gv S |- _ => apply (rs_plain _ HR) in Hx; discriminate end.
    - destruct (ghost_ends a b Ht) as [La Lb]. split; intros Sx; inversion Sx; subst;
        try (match goal with Hx : In gv S |- _ => apply (rs_plain _ HR) in Hx; discriminate end); [apply (h_not_l _ H2)|apply (h_not_l _ H1)]; assumption.
  Qed.
  Lemma cut_run : forall (H : HashOrder) n0 p (tr : mesh) inc del, adj_sound tr ->
    (forall fuel, (n0 <= fuel)%nat -> vertices_include H fuel (1%nat :: p) tr h K None [] = Ok (tr1, inc, del)) ->
    exists n1 tr', (forall fuel, (n1 <= fuel)%nat -> hole_include H fuel p tr (Poly h false) K = Ok tr') /\ cut tr'.
  Proof.
    intros H n0 p tr inc del Hs Hv. set (n1 := (n0 + 8 + 7 * length es + 4 * length (tris tr1))%nat).
    assert (Hh : h <> []) by (intros ->; unfold shoelace in Harea; cbn in Harea; lra).
    pose proof (polygon_edges h Hh) as He. specialize (Hv n1 ltac:(lia)).
    destruct (hole_include_total H n1 p tr (Poly h false) K es tr1 inc del tr1 Hs He Hv) as (tr' & Ht'); [apply cut_missing; lia|lia|].
    exists n1, tr'. split; [intros fuel Hfu; exact (rle_ok _ _ _ _ (hole_include_mono H n1 fuel Hfu p tr (Poly h false) K) Ht')|].
    assert (Hndes : NoDup es) by (apply polygon_NoDup, Hnd).
    assert (Hreal : forall e, In e es -> fst e <> ghost_vertex /\ snd e <> ghost_vertex).
    { intros e Hi. destruct (polygon_ends h e Hi) as [H1 H2]. split; intros E; [rewrite E in H1; apply Hin, (rs_plain _ HR) in H1|rewrite E in H2; apply Hin, (rs_plain _ HR) in H2]; discriminate. }
    destruct (hole_include_spec H n1 p tr (Poly h false) K tr' Hs Ht') as (es' & tr1' & inc' & del' & tr2 & E1 & E2 & E3 & _ & _ & Q).
    rewrite He in E1. injection E1 as <-. cbn [pverts] in E2. rewrite Hv in E2. injection E2 as <- <- <-. rewrite cut_missing in E3 by lia. injection E3 as <-.
    assert (Ho : exists tr3 pending, open_hole es (ho H (3%nat :: p) _ es) tr1 [] = (tr3, pending) /\ flood_fill n1 [] pending tr3 = Ok tr').
    { unfold hole_include in Ht'. rewrite He in Ht'. cbn [bind pverts] in Ht'. rewrite Hv in Ht'. cbn [bind] in Ht'. rewrite cut_missing in Ht' by lia. cbn [bind] in Ht'.
      rewrite hset_NoDup_id in Ht' by exact Hndes. destruct (open_hole es (ho H (3%nat :: p) _ es) tr1 []) as [tr3 pending]. eauto. }
    destruct Ho as (tr3 & pending & Ho & Hff).
    assert (Hu : forall e e', In e es -> In e' es -> fst e = fst e' \/ snd e = snd e' -> e = e').
    { intros e e' Hi Hi' [E|E]; [apply (NoDup_map_inj _ _ fst es)|apply (NoDup_map_inj _ _ snd es)]; auto; [rewrite polygon_fst; exact Hnd|apply polygon_snd_NoDup, Hnd]. }
    assert (Hp : forall e, In e (ho H (3%nat :: p) _ es) -> In e es) by (intros e Hi; apply ho_In in Hi; exact Hi).
    assert (Hsw : forall t, swept (fun x => In x (tris tr1)) es es t -> In t (tris tr1) /\ W t = 1%Z) by (apply (swept_inside S); auto using cut_solid, cut_edges).
    split.
    - destruct (open_hole_sound es _ tr1 [] tr3 pending Ho (cd_sound _ _ _ HCD)) as (Hs3 & _). exact (flood_sub _ _ _ _ _ Hs3 Hff).
    - apply (flood_complete _ _ _ _ _ Hff). apply (open_complete _ _ _ _ _ _ Ho (cd_complete _ _ _ HCD)).
      + apply (Permutation_NoDup (ho_perm H (3%nat :: p) _ es)), Hndes.
      + intros e Hi. apply Hreal, Hp, Hi.
      + intros e e' Hi Hi'. apply Hu; apply Hp; assumption.
      + intros e t Hi. apply cut_ghost_free, Hp, Hi.
    - apply (flood_NoDup _ _ _ _ _ Hff), (open_NoDup _ _ _ _ _ _ Ho), (cd_nodup _ _ _ HCD).
    - intros t. rewrite Q; clear Q.
      + split; (intros [[Ht Hn]|Hg]; [left; split; [exact Ht|]|right; exact Hg]).
        * destruct (W_01 S tr1 h HD HR cut_solid Hnd cut_edges Harea t) as [E|E]; [exact E|exfalso]. apply (inside_swept S tr1 h HD HR cut_solid Hnd cut_edges Harea t Ht E). exact Hn.
        * intros Hw. destruct (Hsw t Hw) as [_ E]. congruence.
      + exact (cd_complete _ _ _ HCD).
      + exact Hreal.
      + exact cut_ghost_free.
      + intros e t' Hi Hw Sf. destruct (Hsw t' Hw) as [Ht E]. rewrite (right_zero S tr1 h HD HR cut_solid Hnd cut_edges Harea e t' Hi Ht Sf) in E. discriminate.
      + intros t' Hw Hg. destruct (Hsw t' Hw) as [Ht E]. destruct (cd_shape _ _ _ HCD t' Ht) as [(a & b & c & -> & Ha & Hb & Hc & _)|(a & b & -> & _)].
        * inversion Hg; subst; [apply (rs_plain _ HR) in Ha|apply (rs_plain _ HR) in Hb|apply (rs_plain _ HR) in Hc]; discriminate.
        * rewrite W_ghost in E. discriminate.
  Qed.
End Cut.

(** ** The stage *)
Lemma hole_cut_out : forall (H : HashOrder) p l S (tr : mesh) h, convex_polygon l -> constrained_delaunay S (polygon_sides l) tr -> (forall w, In w l -> In w S) ->
  (forall w, In w S -> corner_or_deep l w) -> NoDup h -> resolved (h ++ S) -> (forall w, In w h -> deep l w) -> 0 < shoelace (polygon_sides h) ->
  (forall a b, In (a, b) (polygon_sides h) -> free_side (h ++ S) a b) -> (forall w, In w S -> In w h \/ winding w (polygon_sides h) = 0%Z) ->
  exists n0 tr1 inc del, (forall fuel, (n0 <= fuel)%nat -> vertices_include H fuel (1%nat :: p) tr h (polygon_sides l) None [] = Ok (tr1, inc, del)) /\
    ((forall w, In w h -> In w (trn_vertices tr1)) ->
     exists n1 tr' S', (forall fuel, (n1 <= fuel)%nat -> hole_include H fuel p tr (Poly h false) (polygon_sides l) = Ok tr') /\
       (forall w, In w S' <-> In w S \/ In w h) /\ holed l h S' tr').
Proof.
  intros H p l S tr h HC HCD Hl HS Hnd HR Hdeep Harea Hfree Hout.
  destruct (deep_batch l HC H (1%nat :: p) S tr h HCD (conj Hl HS) HR Hnd Hdeep) as (n0 & tr1 & inc & del & ins & dropped & Hrun & HCD' & HS' & Hperm & Hreg).
  exists n0, tr1, inc, del. split; [exact Hrun|]. intros Hall.
  assert (Hins : forall w, In w ins -> In w h).
  { intros w Hw. assert (Hf : In w (filter (fun v => negb (hmem vdec v (trn_vertices tr))) h)) by (apply (Permutation_in _ (Permutation_sym Hperm)), in_or_app; auto). apply filter_In in Hf. apply Hf. }
  assert (HR' : resolved (ins ++ S)) by (apply (resolved_incl (h ++ S)); [exact HR|]; intros x Hx; apply in_app_or in Hx; apply in_or_app; destruct Hx; auto).
  assert (Hin : forall w, In w h -> In w (ins ++ S)) by (intros w Hw; apply (cd_points _ _ _ HCD' (rs_plain _ HR')), Hall, Hw).
  destruct (cut_run l h (ins ++ S) tr1 HC HCD' HS' HR' Hnd Hin Hdeep Harea) with (H := H) (n0 := n0) (p := p) (tr := tr) (inc := inc) (del := del) as (n1 & tr' & Hr & Hc).
  - intros a b Hab. destruct (Hfree a b Hab) as (o & E & Q). exists o. split; [exact E|]. intros w Hw. apply Q. apply in_app_or in Hw. apply in_or_app. destruct Hw; auto.
  - intros w Hw. apply in_app_or in Hw. destruct Hw; auto.
  - exact (cd_sound _ _ _ HCD).
  - exact Hrun.
  - exists n1, tr', (ins ++ S). split; [exact Hr|]. split.
    + intros w. rewrite in_app_iff. split; [intros [Hw|Hw]; auto|intros [Hw|Hw]; [auto|apply in_app_iff, Hin, Hw]].
    + apply (cut_holed l h (ins ++ S) tr1); auto.
      * intros a b Hab. destruct (Hfree a b Hab) as (o & E & Q). exists o. split; [exact E|]. intros w Hw. apply Q. apply in_app_or in Hw. apply in_or_app. destruct Hw; auto.
      * intros w Hw. apply in_app_or in Hw. destruct Hw; auto.
Qed.

(** When the vertices of the hole are there already. *)
Lemma hole_cut_present : forall (H : HashOrder) p l S (tr : mesh) h, convex_polygon l -> constrained_delaunay S (polygon_sides l) tr -> (forall w, In w l -> In w S) ->
  (forall w, In w S -> corner_or_deep l w) -> NoDup h -> resolved S -> (forall w, In w h -> In w S) -> (forall w, In w h -> deep l w) -> 0 < shoelace (polygon_sides h) ->
  (forall a b, In (a, b) (polygon_sides h) -> free_side S a b) -> (forall w, In w S -> In w h \/ winding w (polygon_sides h) = 0%Z) ->
  exists n1 tr', (forall fuel, (n1 <= fuel)%nat -> hole_include H fuel p tr (Poly h false) (polygon_sides l) = Ok tr') /\ holed l h S tr'.
Proof.
  intros H p l S tr h HC HCD Hl HS Hnd HR Hin Hdeep Harea Hfree Hout.
  destruct (cut_run l h S tr HC HCD (conj Hl HS) HR Hnd Hin Hdeep Harea Hfree Hout H 1%nat p tr [] []) as (n1 & tr' & Hr & Hc).
  - exact (cd_sound _ _ _ HCD).
  - intros fuel Hfu. apply include_present; [exact Hfu|]. intros v Hv. apply (cd_points _ _ _ HCD (rs_plain _ HR)), Hin, Hv.
  - exists n1, tr'. split; [exact Hr|]. apply (cut_holed l h S tr); auto. split; assumption.
Qed.

(** ** A case: a triangular hole in the kite *)
Lemma deep_insert : forall l S (tr : mesh) v, convex_polygon l -> constrained_delaunay S (polygon_sides l) tr -> settled l S tr -> resolved (v :: S) -> ~ In v S -> deep l v ->
  exists tr', constrained_delaunay (v :: S) (polygon_sides l) tr' /\ settled l (v :: S) tr'.
Proof.
  intros l S tr v HC HCD HS HR Hn Hv. assert (HRS : resolved S) by (apply (resolved_incl (v :: S)); [exact HR|]; intros x Hx; right; exact Hx).
  destruct (one_vertex ho_id [] S (polygon_sides l) tr v HCD HR Hn) as (n & tr' & inc & del & _ & HC' & _).
  - apply convex_off, deep_pos, Hv.
  - apply (region_exact l HC S tr v (settled_framed l HC S tr HCD HS HRS) HRS). intros a b Hab. apply Rlt_le, (deep_pos l v Hv a b Hab).
  - apply (settled_unscreened l HC S); assumption.
  - exists tr'. split; [exact HC'|]. split; [intros w Hw; right; apply (proj1 HS), Hw|]. intros x [<-|Hx]; [right; exact Hv|apply (proj2 HS), Hx].
Qed.
