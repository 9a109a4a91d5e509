(** P_Count4.v — the number of edges that are drawn. *)

From Coq Require Import Reals List ZArith Lra Lia Bool Permutation.
From Verif Require Import Base Arith Geometry Elements Polyline Procedures Refine Triangulator Interface ArithR Spec SpecI SpecR SpecD SpecP SpecC SpecE
  P_Base P_Trn P_Trn2 P_Interface P_R1 P_R2 P_D1 P_D2 P_D3 P_D4 P_D5 P_D6 P_D7 P_D8 P_Fill2 P_C5 P_E4 P_E9 P_F2 P_Count1 P_Count2 P_F3 P_Count3.
Import ListNotations.

Lemma two_apart : forall {X} (l m : list X), NoDup l -> NoDup m -> (forall x, In x l -> ~ In x m) -> NoDup (l ++ m).
Proof.
  intros X l m Hl Hm Hd. induction Hl as [|x l Hx Hl IH]; [exact Hm|]. cbn. constructor.
  - rewrite in_app_iff. intros [Hi|Hi]; [contradiction|]. apply (Hd x); [left; reflexivity|exact Hi].
  - apply IH. intros y Hy. apply Hd. right. exact Hy.
Qed.

Lemma NoDup_map_inj_in : forall {X Z} (f : X -> Z) l, NoDup l -> (forall x y, In x l -> In y l -> f x = f y -> x = y) -> NoDup (map f l).
Proof.
  intros X Z f l Hl Hi. induction Hl as [|x l Hx Hl IH]; [constructor|]. cbn. constructor.
  - intros Hm. apply in_map_iff in Hm as (y & E & Hy). apply Hx. rewrite (Hi x y); [exact Hy|left; reflexivity|right; exact Hy|symmetry; exact E].
  - apply IH. intros y z Hy Hz. apply Hi; right; assumption.
Qed.

Section Drawn.
  Context {A : Arith} (H : HashOrder) (tr : triangulation A).
  Notation gvx := (ghost_vertex (A:=A)).
  Hypothesis Hn : NoDup (tris tr).
  Hypothesis Hg : forall t, In t (tris tr) -> is_ghost t = true -> exists a b, t = Tri a b gvx /\ vghost a = false /\ vghost b = false.
  Hypothesis Hd : forall t, In t (tris tr) -> is_ghost t = false -> tv1 t <> tv2 t /\ tv2 t <> tv3 t /\ tv3 t <> tv1 t.
  Hypothesis Hu : forall t t' e, In t (tris tr) -> In t' (tris tr) -> side_of e t -> side_of e t' -> t = t'.
  Hypothesis Hc : forall t e, In t (tris tr) -> side_of e t -> exists t', In t' (tris tr) /\ side_of (flip e) t'.
  Hypothesis Hf : forall a b, In (Tri a b gvx) (tris tr) -> ~ In (Tri b a gvx) (tris tr).

  Let solid := filter (fun t => negb (is_ghost t)) (tris tr).
  Let outer := filter is_ghost (tris tr).
  Let rim := map (fun t : triangle A => (tv1 t, tv2 t)) outer.

  Lemma drawn_ghostly : forall t : triangle A, is_ghost t = false <-> ~ ghostly t.
  Proof.
    intros [a b c]. unfold is_ghost, ghostly. cbn [tv1 tv2 tv3]. rewrite !orb_false_iff. split.
    - intros ((E1 & E2) & E3) (v & Hv & G). inversion Hv; subst; congruence.
    - intros N. repeat split; apply not_true_iff_false; intros G; apply N; eexists; (split; [|exact G]); constructor.
  Qed.
  Lemma solid_plain : forall (t : triangle A) e, is_ghost t = false -> side_of e t -> vghost (fst e) = false /\ vghost (snd e) = false.
  Proof.
    intros t e G Se. destruct Se; unfold is_ghost in G; cbn [tv1 tv2 tv3] in G; apply orb_false_iff in G as [G G3]; apply orb_false_iff in G as [G1 G2]; cbn; tauto.
  Qed.
  Lemma solid_proper : forall t e, In t (tris tr) -> is_ghost t = false -> side_of e t -> flip e <> e.
  Proof. intros t e Ht G Se E. destruct (Hd t Ht G) as (D1 & D2 & D3). destruct Se; cbn [tv1 tv2 tv3] in *; unfold flip in E; cbn in E; congruence. Qed.
  Lemma rim_side : forall t e, In t (tris tr) -> is_ghost t = true -> side_of e t -> vghost (fst e) = false -> vghost (snd e) = false -> In e rim /\ e = (tv1 t, tv2 t).
  Proof.
    intros t e Ht G Se G1 G2. destruct (Hg t Ht G) as (a & b & -> & Ga & Gb). assert (E : e = (a, b)) by (inversion Se; subst; [reflexivity|discriminate G2|discriminate G1]).
    split; [|exact E]. subst e. unfold rim, outer. apply in_map_iff. exists (Tri a b gvx). split; [reflexivity|]. apply filter_In. auto.
  Qed.

  Lemma edges_balance : forall p, (2 * length (glium_edge_list H p tr) = 3 * length solid + length outer)%nat.
  Proof.
    intros p. destruct (glium_edges_spec H p tr) as (L1 & L2 & L3 & L4). set (L := glium_edge_list H p tr) in *.
    assert (Hp : Permutation (L ++ map flip L) (sides solid ++ rim)).
    { apply NoDup_Permutation.
      - apply two_apart; [exact L1|apply NoDup_map_flip, L1|]. intros e He Hi. apply in_map_iff in Hi as (e' & E & He'). assert (In (flip e) L) by (rewrite <- E, flip_flip; exact He').
        destruct (L3 e He) as (t & Ht & G & Se). apply drawn_ghostly in G. apply (solid_proper t e Ht G Se). symmetry. apply L2; assumption.
      - apply two_apart.
        + apply sides_NoDup; [apply NoDup_filter, Hn| |].
          * intros t Ht. apply filter_In in Ht as [Ht G]. apply negb_true_iff in G. destruct (Hd t Ht G) as (D1 & D2 & D3). destruct t as [a b c]. cbn [tv1 tv2 tv3] in *.
            unfold inner_edges, te1, te2, te3. cbn. repeat constructor; cbn [In]; intuition congruence.
          * intros t t' e Ht Ht'. apply filter_In in Ht, Ht'. apply Hu; tauto.
        + unfold rim. apply (NoDup_map_inj_in (fun t : triangle A => (tv1 t, tv2 t))); [apply NoDup_filter, Hn|].
          intros t t' Ht Ht' E. apply filter_In in Ht as [Ht G]. apply filter_In in Ht' as [Ht' G']. destruct (Hg t Ht G) as (a & b & -> & _). destruct (Hg t' Ht' G') as (a' & b' & -> & _).
          cbn [tv1 tv2] in E. congruence.
        + intros e He Hi. apply sides_In in He as (t & Ht & Se). apply filter_In in Ht as [Ht G]. apply negb_true_iff in G. unfold rim in Hi. apply in_map_iff in Hi as (u & E & Hi). apply filter_In in Hi as [Hi Gu].
          assert (Su : side_of e u) by (destruct u as [a b c]; cbn [tv1 tv2] in E; subst e; constructor). rewrite (Hu t u e Ht Hi Se Su) in G. congruence.
      - assert (K1 : forall e, In e L -> In e (sides solid)).
        { intros e He. destruct (L3 e He) as (t & Ht & G & Se). apply drawn_ghostly in G. apply sides_In. exists t. split; [apply filter_In; rewrite G; auto|exact Se]. }
        assert (K2 : forall e t, In t (tris tr) -> is_ghost t = false -> side_of e t -> In (flip e) (sides solid ++ rim)).
        { intros [ea eb] t Ht G Se. apply in_app_iff. destruct (Hc t _ Ht Se) as (u & Hui & Su). destruct (solid_plain t _ G Se) as (G1 & G2). destruct (is_ghost u) eqn:Gu.
          - right. exact (proj1 (rim_side u _ Hui Gu Su G2 G1)).
          - left. apply sides_In. exists u. split; [apply filter_In; rewrite Gu; auto|exact Su]. }
        assert (K3 : forall e t, In t (tris tr) -> is_ghost t = false -> side_of e t -> In e (L ++ map flip L) /\ In (flip e) (L ++ map flip L)).
        { intros e t Ht G Se. destruct (L4 e) as [Hi|Hi]; [exists t; split; [exact Ht|]; split; [apply drawn_ghostly, G|exact Se]| |].
          - split; apply in_app_iff; [left; exact Hi|right; apply in_map, Hi].
          - split; apply in_app_iff; [right; rewrite <- (flip_flip e); apply in_map, Hi|left; exact Hi]. }
        intros e. split.
        + intros Hi. apply in_app_iff in Hi as [Hi|Hi]; [apply in_app_iff; left; apply K1, Hi|]. apply in_map_iff in Hi as (e' & <- & He').
          destruct (L3 e' He') as (t & Ht & G & Se). apply drawn_ghostly in G. exact (K2 e' t Ht G Se).
        + intros Hi. apply in_app_iff in Hi as [Hi|Hi].
          * apply sides_In in Hi as (t & Ht & Se). apply filter_In in Ht as [Ht G]. apply negb_true_iff in G. apply (K3 e t Ht G Se).
          * unfold rim in Hi. apply in_map_iff in Hi as (t & <- & Ht). apply filter_In in Ht as [Ht G]. destruct (Hg t Ht G) as (a & b & -> & Ga & Gb). cbn [tv1 tv2].
            destruct (Hc _ _ Ht (side_ab a b gvx)) as (u & Hui & Su). destruct (is_ghost u) eqn:Gu.
            -- exfalso. destruct (rim_side u _ Hui Gu Su Gb Ga) as (_ & E). destruct (Hg u Hui Gu) as (a' & b' & -> & _). cbn [tv1 tv2] in E. unfold flip in E. cbn in E. injection E as <- <-. exact (Hf a b Ht Hui).
            -- destruct (K3 _ u Hui Gu Su) as (_ & Q). exact Q. }
    apply Permutation_length in Hp. rewrite !app_length, map_length in Hp. unfold rim in Hp. rewrite map_length in Hp.
    assert (E : forall l : list (triangle A), length (sides l) = (3 * length l)%nat) by (unfold sides; induction l as [|t l IH]; [reflexivity|]; cbn [flat_map]; rewrite app_length, IH; cbn [length inner_edges]; lia).
    rewrite E in Hp. lia.
  Qed.
End Drawn.

Local Open Scope R_scope.
Section Framed.
  Variables (l S : list pnt) (tr : mesh).
  Hypothesis HC : convex_polygon l.
  Hypothesis HF : framed l S tr.
  Hypothesis HR : resolved S.
  Let HD := fr_delaunay _ _ _ HF.

  Lemma framed_three : forall a b : pnt, ~ (forall w, In w S -> w = a \/ w = b).
  Proof.
    intros a b K. pose proof (cp_nodup _ HC) as Hn. pose proof (cp_three _ HC) as H3.
    assert (L : (length l <= length [a; b])%nat) by (apply NoDup_incl_length; [exact Hn|]; intros w Hw; destruct (K w (fr_corners _ _ _ HF w Hw)) as [-> | ->]; cbn; auto). cbn in L. lia.
  Qed.

  Lemma framed_sewn : NoDup (tris tr) /\
    (forall t, In t (tris tr) -> is_ghost t = true -> exists a b, t = Tri a b gv /\ vghost a = false /\ vghost b = false) /\
    (forall t, In t (tris tr) -> is_ghost t = false -> tv1 t <> tv2 t /\ tv2 t <> tv3 t /\ tv3 t <> tv1 t) /\
    (forall t t' e, In t (tris tr) -> In t' (tris tr) -> side_of e t -> side_of e t' -> t = t') /\
    (forall t e, In t (tris tr) -> side_of e t -> exists t', In t' (tris tr) /\ side_of (flip e) t') /\
    (forall a b, In (Tri a b gv) (tris tr) -> ~ In (Tri b a gv) (tris tr)).
  Proof.
    pose proof (rs_plain _ HR) as HP. split; [|split; [|split; [|split; [|split]]]].
    - exact (dl_nodup _ _ HD).
    - intros t Ht G. destruct (dl_shape _ _ HD t Ht) as [(a & b & c & -> & Ha & Hb & Hc & _)|(a & b & -> & Ha & Hb & _)]; [|exists a, b; auto].
      exfalso. unfold is_ghost in G. cbn [tv1 tv2 tv3] in G. rewrite (HP a Ha), (HP b Hb), (HP c Hc) in G. discriminate G.
    - intros t Ht G. destruct (dl_shape _ _ HD t Ht) as [(a & b & c & -> & _ & _ & _ & P0)|(a & b & -> & _)].
      + cbn [tv1 tv2 tv3]. repeat split; intros ->; unfold area2 in P0; lra.
      + exfalso. unfold is_ghost in G. cbn [tv1 tv2 tv3] in G. rewrite orb_true_r in G. discriminate G.
    - intros t t' e Ht Ht' Se Se'. symmetry. exact (proj1 (closed_surface S tr HD HR t e Ht Se) t' Ht' Se').
    - exact (dl_closed _ _ HD).
    - intros a b Ha Hb. exact (framed_three a b (dl_flat _ _ HD a b Ha Hb)).
  Qed.
  Lemma framed_balance : forall (H : HashOrder) p,
    (2 * length (glium_edge_list H p tr) = 3 * length (filter (fun t => negb (is_ghost t)) (tris tr)) + length (filter is_ghost (tris tr)))%nat.
  Proof. intros H p. destruct framed_sewn as (H1 & H2 & H3 & H4 & H5 & H6). apply edges_balance; assumption. Qed.

  Lemma edge_count : forall (H : HashOrder) p n B, NoDup n -> (forall w, In w n <-> In w S) -> NoDup B -> (forall w, In w B <-> In w S /\ on_polygon l w) ->
    (length (glium_edge_list H p tr) + 3 + length B = 3 * length n)%nat.
  Proof.
    intros H p n B Hn Hnn HB HBn. pose proof (framed_balance H p) as Q. pose proof (solid_count l S tr HC HF HR n B Hn Hnn HB HBn) as Q1.
    pose proof (split_count is_ghost (tris tr)) as Q2.
    assert (HDn : delaunay n tr) by (apply (delaunay_incl S); [exact HD|intros w; symmetry; apply Hnn]).
    assert (HRn : resolved n) by (apply (resolved_incl S); [exact HR|intros w; apply Hnn]).
    pose proof (mesh_count n tr HDn HRn Hn) as Q3. lia.
  Qed.

  Lemma drawn_count : forall (H : HashOrder) F32 (cast : T ArithR -> F32) p B, NoDup B -> (forall w, In w B <-> In w S /\ on_polygon l w) ->
    (length (glium_edges H cast p tr) + 6 + 2 * length B = 6 * length (trn_vertices tr))%nat.
  Proof.
    intros H F32 cast p B HB HBn. destruct (glium_counts H F32 cast p tr) as (_ & E). rewrite E.
    pose proof (edge_count H (1 :: p)%nat (trn_vertices tr) B (proj1 (trn_lists_NoDup _)) (delaunay_points S tr HD (rs_plain _ HR)) HB HBn). lia.
  Qed.
End Framed.

Lemma refined_drawn : forall (H : HashOrder) fuel p (t : triangulator ArithR) prm l S, convex_polygon l ->
  t_boundary t = Poly l false -> t_holes t = [] -> t_segments t = [] ->
  framed l S (t_trn t) -> resolved S -> (forall a b, In (a, b) (polygon_sides l) -> piece l S (a, b)) ->
  (forall a, In a (refine_attempts H fuel p t prm) -> sound_attempt l a) ->
  forall t' cs, refine H fuel p t prm = Ok (t', cs) ->
  forall F32 (cast : T ArithR -> F32) p' B, NoDup B -> (forall w, In w B <-> In w (trn_vertices (t_trn t')) /\ on_polygon l w) ->
    (length (glium_edges H cast p' (t_trn t')) + 6 + 2 * length B = 6 * length (trn_vertices (t_trn t')))%nat.
Proof.
  intros H fuel p t prm l S Hc Hb Hh Hs HF HR Hp Hat t' cs Hr F32 cast p' B HB HBn.
  destruct (refine_convex H fuel p t prm l S Hc Hb Hh Hs HF HR Hp Hat) as [_ Q]. destruct (Q t' cs Hr) as (S' & HF' & HR' & _).
  apply (drawn_count l S' (t_trn t') Hc HF' HR'); [exact HB|]. intros w. rewrite HBn, (delaunay_points S' _ (fr_delaunay _ _ _ HF') (rs_plain _ HR')). reflexivity.
Qed.

Lemma case_sewn : exists tr : mesh, length (filter is_ghost (tris tr)) = 4%nat /\ NoDup (tris tr) /\
  (forall t, In t (tris tr) -> is_ghost t = true -> exists a b, t = Tri a b gv /\ vghost a = false /\ vghost b = false) /\
  (forall t, In t (tris tr) -> is_ghost t = false -> tv1 t <> tv2 t /\ tv2 t <> tv3 t /\ tv3 t <> tv1 t) /\
  (forall t t' e, In t (tris tr) -> In t' (tris tr) -> side_of e t -> side_of e t' -> t = t') /\
  (forall t e, In t (tris tr) -> side_of e t -> exists t', In t' (tris tr) /\ side_of (flip e) t') /\
  (forall a b, In (Tri a b gv) (tris tr) -> ~ In (Tri b a gv) (tris tr)).
Proof.
  destruct case_five_count as (Hc & HR & Hn & (tr & HF) & H4 & Hw). exists tr. split; [|exact (framed_sewn four five tr Hc HF HR)].
  pose proof (solid_count four five tr Hc HF HR five four Hn (fun w => iff_refl _) H4 Hw) as Q.
  pose proof (mesh_count five tr (fr_delaunay _ _ _ HF) HR Hn) as Q1. pose proof (split_count is_ghost (tris tr)) as Q2. change (length four) with 4%nat in Q. lia.
Qed.
