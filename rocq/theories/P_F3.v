(** P_F3.v — a square whose refinement inserts its centre. *)

From Coq Require Import Reals List ZArith Lra Lia Psatz Bool Permutation.
From Verif Require Import Base Arith Geometry Elements Polyline Procedures Refine Triangulator ArithR Spec SpecM SpecR SpecD SpecP SpecC SpecE
  P_Base P_Trn P_Fuel P_Poly P_Vertices P_Cavity P_Refine P_Worked P_RX P_R1 P_R2 P_R3 P_R4 P_R5 P_R6 P_D1 P_D2 P_D3 P_D4 P_D5 P_D6 P_D7 P_D8 P_Fill P_Fill2 P_Region P_C1 P_C2 P_C3 P_C4 P_C5 P_C6 P_C7 P_C8 P_Polygon3 P_C9 P_E1 P_E2 P_E3 P_E4 P_E5 P_E6 P_E7 P_E8 P_E9 P_F1 P_F2.
Import ListNotations.
Local Open Scope R_scope.

Definition tA : pnt := at_ 0 0. Definition tB : pnt := at_ 8 0. Definition tC : pnt := at_ 8 8. Definition tD : pnt := at_ 0 8. Definition tO : pnt := at_ 4 4.
Definition four : list pnt := [tA; tB; tC; tD].
Definition four_params : refine_params ArithR := RP (A:=ArithR) (Some 25) 1000.

Lemma four_grid : grid (tO :: four).
Proof.
  intros w Hw. cbn [In four] in Hw. destruct Hw as [<-|[<-|[<-|[<-|[<-|[]]]]]]; (split; [reflexivity|]);
    [exists 4%Z, 4%Z|exists 0%Z, 0%Z|exists 8%Z, 0%Z|exists 8%Z, 8%Z|exists 0%Z, 8%Z]; split; reflexivity.
Qed.
Lemma four_resolved : resolved (tO :: four).
Proof. apply grid_resolved, four_grid. Qed.
Lemma four_sides : forall a b, In (a, b) (polygon_sides four) -> (a, b) = (tA, tB) \/ (a, b) = (tB, tC) \/ (a, b) = (tC, tD) \/ (a, b) = (tD, tA).
Proof. intros a b [E|[E|[E|[E|[]]]]]; auto. Qed.
Lemma four_spread : forall a b w, In (a, b) (polygon_sides four) -> In w (tO :: four) -> 0 < D a b w -> spread 3 a b w.
Proof.
  intros a b w Hab Hw P. pose proof (polygon_ends four _ Hab) as [Ha Hb]. cbn [fst snd] in *. apply spread_grid; [|clear Hw P|exact P].
  - intros x [<-|[<-|[<-|[]]]]; apply four_grid; [right; exact Ha|right; exact Hb|exact Hw].
  - destruct (four_sides a b Hab) as [E|[E|[E|E]]]; injection E as -> ->; unfold tA, tB, tC, tD; rewrite !X_at, !Y_at; unfold Rabs; repeat destruct (Rcase_abs _); lra.
Qed.
Lemma four_convex : convex_polygon four.
Proof.
  assert (N : forall x y x' y', x <> x' \/ y <> y' -> at_ x y <> at_ x' y') by (intros x y x' y' Hn E; injection E; intros; lra). split.
  - unfold four, tA, tB, tC, tD. repeat constructor; cbn [In]; repeat (intros [E|E]; [revert E; apply N; lra|revert E]); auto.
  - cbn. lia.
  - intros a b w Hab Hw N1 N2. apply four_spread; [exact Hab|right; exact Hw|]. destruct (four_sides a b Hab) as [E|[E|[E|E]]]; injection E as -> ->;
      destruct Hw as [<-|[<-|[<-|[<-|[]]]]]; try congruence; unfold tA, tB, tC, tD; geo.
Qed.
Lemma four_deep : deep four tO.
Proof.
  intros a b Hab. apply four_spread; [exact Hab|left; reflexivity|]. destruct (four_sides a b Hab) as [E|[E|[E|E]]]; injection E as -> ->; unfold tA, tB, tC, tD, tO; geo.
Qed.

Lemma four_mesh : exists tr : mesh, framed four four tr.
Proof.
  assert (G : forall w, In w four -> vghost w = false) by (intros w Hw; apply (rs_plain _ four_resolved); right; exact Hw).
  assert (N : tA <> tB) by (intros E; injection E; intros; lra).
  assert (H0 : delaunay [tA; tB] (from_initial_segment tA tB)) by (apply initial_delaunay; [reflexivity|reflexivity|exact N]).
  assert (HR : resolved (tC :: [tA; tB])) by (apply (resolved_incl _ _ four_resolved); cbn [In four]; tauto).
  destruct (include_one ho_id [] [tA; tB] _ tC H0 HR) as (_ & tr & _ & _ & _ & HD).
  { intros Hl. assert (E := Hl tA tB tC). cbn [In] in E. specialize (E ltac:(auto) ltac:(auto) ltac:(auto)). unfold tA, tB, tC, tD in E. unfold area2 in E. rewrite !X_at, !Y_at in E. lra. }
  assert (HR2 : resolved (tD :: [tC; tA; tB])) by (apply (resolved_incl _ _ four_resolved); cbn [In four]; tauto).
  destruct (include_one ho_id [] (tC :: [tA; tB]) _ tD HD HR2) as (_ & tr2 & _ & _ & _ & HD2).
  { intros Hl. assert (E := Hl tA tB tC). cbn [In] in E. specialize (E ltac:(auto) ltac:(auto) ltac:(auto)). unfold tA, tB, tC, tD in E. unfold area2 in E. rewrite !X_at, !Y_at in E. lra. }
  clear HD. rename HD2 into HD. exists tr2. pose proof four_convex as HC.
  assert (S1 : forall w, In w four <-> In w (tD :: tC :: [tA; tB])) by (cbn [In four]; tauto).
  split.
  - destruct HD as [D1 D2 D3 D4 D5 D6 D7 D8 D9 D10]. split; auto.
    + intros t Ht. destruct (D4 t Ht) as [(a & b & c & -> & Ha & Hb & Hc & P)|(a & b & -> & Ha & Hb & Nab)]; [left; exists a, b, c|right; exists a, b]; rewrite !S1; auto.
    + intros a b c Ht Hc o w Hw. apply (D6 a b c Ht Hc), S1, Hw.
    + intros a b Ht w Hw. apply (D7 a b Ht), S1, Hw.
    + intros w Hw. apply D8, S1, Hw.
    + intros a b H1 H2 w Hw. apply (D9 a b H1 H2), S1, Hw.
  - auto.
  - intros w Hw. apply (corner_placed four HC w Hw).
Qed.

(** ** The run *)
Section Run.
  Variables (tr : mesh) (H : HashOrder).
  Hypothesis HF : framed four four tr.
  Let HC := four_convex.
  Let bd := Some (Poly (A:=ArithR) four false).
  Let HR : resolved four.
  Proof. apply (resolved_incl _ _ four_resolved). intros w Hw. right. exact Hw. Qed.

  Lemma solid_centre : forall x o, solid_in tr x -> tri_circumcenter x = Some o -> o = tO.
  Proof.
    intros x o [Hx Hg] Ho. unfold tri_circumcenter in Ho. rewrite Hg in Ho.
    destruct (dl_shape _ _ (fr_delaunay _ _ _ HF) x Hx) as [(a & b & c & -> & Ha & Hb & Hc & P)|(a & b & -> & _)]; [|unfold is_ghost in Hg; cbn in Hg; rewrite !orb_true_r in Hg; discriminate].
    cbn [tv1 tv2 tv3] in Ho. clear Hx Hg. destruct (circumcenter_spec a b c) as [_ Q2].
    destruct (Q2 ltac:(lra)) as (o' & Eo & Go & _ & _ & Hu). rewrite Ho in Eo. injection Eo as <-. destruct (Hu tO) as [C1 C2];
      [| |destruct o as [xo yo go]; unfold tO, at_; cbn in C1, C2, Go; subst; reflexivity];
      clear - Ha Hb Hc; destruct Ha as [<-|[<-|[<-|[<-|[]]]]], Hb as [<-|[<-|[<-|[<-|[]]]]], Hc as [<-|[<-|[<-|[<-|[]]]]]; unfold d2, tA, tB, tC, tD, tO; rewrite !X_at, !Y_at; lra.
  Qed.

  Lemma free_sides : forall e w, In e (polygon_sides four) -> In w (tO :: four) -> edge_encroach e w <> Inside.
  Proof.
    intros [a b] w He Hw Hin. apply encroach_inside in Hin. unfold inside_diameter in Hin. cbn [fst snd] in Hin.
    destruct (four_sides a b He) as [E|[E|[E|E]]]; injection E as -> ->; destruct Hw as [<-|[<-|[<-|[<-|[<-|[]]]]]]; unfold tA, tB, tC, tD, tO in Hin; rewrite ?X_at, ?Y_at in Hin; lra.
  Qed.

  Lemma fine : forall x S (tr' : mesh), framed four S tr' -> (forall w, In w S -> In w (tO :: four)) -> In tO S -> solid_in tr' x -> ~ misses four_params x.
  Proof.
    intros x S tr' HF' Hi HO [Hx Hg]. destruct (dl_shape _ _ (fr_delaunay _ _ _ HF') x Hx) as [(a & b & c & -> & Ha & Hb & Hc & P)|(a & b & -> & _)];
      [|unfold is_ghost in Hg; cbn in Hg; rewrite !orb_true_r in Hg; discriminate].
    assert (Gc : vghost c = false) by (apply (rs_plain _ four_resolved), Hi, Hc).
    pose proof (dl_circle _ _ (fr_delaunay _ _ _ HF') a b c Hx Gc tO tO HO) as HE. apply Hi in Ha, Hb, Hc.
    assert (Q : 30 <= D a b c <= 34 /\ d2 a b <= 81 /\ d2 b c <= 81 /\ d2 c a <= 81).
    { unfold area2, d2 in *.
      destruct Ha as [<-|[<-|[<-|[<-|[<-|[]]]]]], Hb as [<-|[<-|[<-|[<-|[<-|[]]]]]], Hc as [<-|[<-|[<-|[<-|[<-|[]]]]]]; unfold tA, tB, tC, tD, tO in *; rewrite ?X_at, ?Y_at in *; try (exfalso; lra); try lra;
        exfalso; apply (Rle_not_lt _ _ (HE ltac:(lra) ltac:(lra))); lra. }
    destruct Q as (QD & Q1 & Q2 & Q3). pose proof eps_small. pose proof eps_pos.
    assert (Gs : vghost a || vghost b || vghost c = false) by (rewrite !(rs_plain _ four_resolved) by assumption; reflexivity).
    intros [(q & Hq & Hbad)|(s & m & Hs & Hm & Hbad)].
    - rewrite (quality_eq a b c Gs) in Hq. injection Hq as Hq.
      assert (Bd : forall u v, 0 <= u <= 9 -> 0 <= v <= 9 -> u * v / (INR 4 * area_triangle a b c) <= 3).
      { intros u v Hu Hv. rewrite area_triangle_spec. assert (E4 : INR 4 = 4) by (cbn; ring). rewrite E4. apply (Rmult_le_reg_r (4 * (D a b c / 2))); [lra|]. unfold Rdiv at 1. rewrite Rmult_assoc, Rinv_l by lra.
        assert (M := mpp (9 - u) v). assert (M2 := mpp (9 - v) 9). lra. }
      assert (Ds : forall u v, d2 u v <= 81 -> 0 <= dist u v <= 9).
      { intros u v Hd. unfold dist. split; [apply sqrt_pos|]. replace 9 with (sqrt 81); [apply sqrt_le_1_alt, Hd|]. replace 81 with (9 * 9) by lra. apply sqrt_square. lra. }
      pose proof (Ds a b Q1). pose proof (Ds b c Q2). pose proof (Ds c a Q3).
      assert (Lq : q <= 3) by (rewrite <- Hq; destruct (_ && _); [apply Bd; assumption|]; destruct (Rleb _ _); apply Bd; assumption).
      cbn [quality_ratio four_params] in Hbad. change (Raeq q 1000 = true \/ Rleb 1000 q = true) in Hbad. destruct Hbad as [Hb1|Hb1]; revert Hb1; rcase; intros; try discriminate; lra.
    - unfold tri_area in Hs. rewrite Hg in Hs. injection Hs as Hs. cbn [max_area four_params] in Hm. injection Hm as Hm. cbn [tv1 tv2 tv3] in Hs. pose proof (area_triangle_spec a b c) as Ea.
      change (Raeq s m = true \/ Rleb m s = true) in Hbad. assert (Es : s = D a b c / 2) by (rewrite <- Hs; exact Ea). rewrite <- Hm in Hbad. clear Hs.
      destruct Hbad as [Hb1|Hb1]; revert Hb1; rcase; intros; try discriminate; lra.
  Qed.
  Lemma sides_free : forall K, (forall e, In e K <-> In e (polygon_sides four)) -> distribute_encroachments K (trn_vertices tr) [] = [].
  Proof.
    intros K HK. destruct (distribute_encroachments K (trn_vertices tr) []) as [|[e vs] m] eqn:E; [reflexivity|exfalso].
    pose proof (distribute_encroachments_exact K (trn_vertices tr) e) as Q. rewrite E in Q. cbn [mget fst snd] in Q. destruct (edec e e); [|congruence].
    destruct Q as (Q1 & Q2 & Q3). destruct vs as [|v vs]; [congruence|]. destruct (proj1 (Q3 v) (or_introl eq_refl)) as [Hv Hin].
    apply (free_sides e v (proj1 (HK e) Q1)); [right; apply (delaunay_points _ _ (fr_delaunay _ _ _ HF) (rs_plain _ HR)), Hv|exact Hin].
  Qed.

  Lemma square_centres : forall K fuel p sm irr lrg a, stage four four tr K -> (forall e, In e K <-> In e (polygon_sides four)) ->
    (forall x, In x irr \/ In x lrg -> solid_in tr x /\ misses four_params x) ->
    In a (split_attempts H bd [] fuel p four_params tr K sm irr lrg) -> exists x, a = Centre tr x /\ solid_in tr x.
  Proof.
    intros K fuel p sm irr lrg a HS HK Hq. destruct fuel as [|fuel]; cbn [split_attempts]; [intros []|]. set (next := match ho H _ _ irr with [] => _ | _ => _ end).
    assert (HN : forall t i l, next = Some (t, i, l) -> (In t irr \/ In t lrg) /\ (forall x, In x i \/ In x l -> In x irr \/ In x lrg)).
    { intros t i l. unfold next. destruct (ho H (1%nat :: p) _ irr) as [|t0 q] eqn:E1.
      - destruct (ho H (2%nat :: p) _ lrg) as [|t0 q] eqn:E2; [discriminate|]. intros E; injection E as <- <- <-. split; [right; apply (ho_In H (2%nat :: p)); rewrite E2; left; reflexivity|].
        intros x [Hx|Hx]; [auto|right; apply hdel_In in Hx; tauto].
      - intros E; injection E as <- <- <-. split; [left; apply (ho_In H (1%nat :: p)); rewrite E1; left; reflexivity|]. intros x [Hx|Hx]; [left; apply hdel_In in Hx; tauto|auto]. }
    destruct next as [[[t i] l]|]; [|intros []]. destruct (HN t i l eq_refl) as [Ht Hi]. destruct (Hq t Ht) as [Hts Htm]. intros [<-|Ha]; [exists t; auto|exfalso].
    destruct (try_circumcenter H fuel (3%nat :: p) tr t K bd []) as [[tr' [[inc del]|enc]]| |] eqn:Etry; try (destruct Ha; fail).
    - assert (Eo : exists o, tri_circumcenter t = Some o) by (unfold try_circumcenter in Etry; apply bind_ok in Etry; destruct Etry as (o & Eo & _); destruct (tri_circumcenter t) as [o'|]; [exists o'; reflexivity|discriminate]).
      destruct Eo as (o & Eo). pose proof (solid_centre t o Hts Eo) as ->.
      destruct (centre_tried four H HC four tr t tO K fuel (3%nat :: p) HS four_resolved Hts Eo four_deep) as (_ & Q & _). destruct (Q tr' inc del Etry) as ((HF' & _) & (R1 & R2) & Hd & _). clear Q.
      destruct (update_queues four_params (i, l) inc del) as [[i' l']| |] eqn:Eu; try (destruct Ha; fail). destruct (update_queues_spec _ _ _ _ _ Eu) as (_ & _ & U).
      assert (Em : forall x, ~ (In x i' \/ In x l')).
      { intros x Hx. destruct (U x Hx) as [[Hx'|[Hx' Hm]] Hnd]; cbn [fst snd] in *.
        - destruct (Hq x (Hi x Hx')) as [[X1 X2] X3]. destruct (in_dec tdec x (tris tr')) as [X4|X4]; [|apply Hnd, R2; auto].
          apply (fine x (tO :: four) tr' HF' (fun w Hw => Hw) (or_introl eq_refl) (conj X4 X2) X3).
        - destruct Hm as [Hg Hm]. apply (fine x (tO :: four) tr' HF' (fun w Hw => Hw) (or_introl eq_refl) (conj (proj1 (proj1 (R1 x) Hx')) Hg) Hm). }
      destruct i' as [|x i']; [|apply (Em x); left; left; reflexivity]. destruct l' as [|x l']; [|apply (Em x); right; left; reflexivity].
      destruct fuel as [|fuel]; cbn [split_attempts] in Ha; [exact Ha|]. rewrite !ho_nil in Ha. exact Ha.
    - assert (Eo : exists o, tri_circumcenter t = Some o) by (unfold try_circumcenter in Etry; apply bind_ok in Etry; destruct Etry as (o & Eo & _); destruct (tri_circumcenter t) as [o'|]; [exists o'; reflexivity|discriminate]).
      destruct Eo as (o & Eo). pose proof (solid_centre t o Hts Eo) as ->.
      destruct (centre_tried four H HC four tr t tO K fuel (3%nat :: p) HS four_resolved Hts Eo four_deep) as (_ & _ & Q). destruct (Q tr' enc Etry) as (_ & _ & Hne & _ & He & _).
      destruct enc as [|e enc]; [congruence|]. destruct (He e (or_introl eq_refl)) as [Hp Hin]. destruct HS as (_ & _ & HX). apply HX, HK in Hp. destruct e as [x y].
      unfold inside_diameter in Hin. cbn [fst snd] in Hin. destruct (four_sides x y Hp) as [E|[E|[E|E]]]; injection E as -> ->; unfold tA, tB, tC, tD, tO in Hin; rewrite ?X_at, ?Y_at in Hin; lra.
  Qed.
End Run.

Lemma four_piece : forall a b, In (a, b) (polygon_sides four) -> piece four four (a, b).
Proof.
  intros a b Hab. pose proof (polygon_ends four _ Hab) as [Ha Hb]. cbn [fst snd] in *. split.
  - split; [exact Ha|]. split; [exact Hb|]. exists a, b. split; [exact Hab|]. split; [left; reflexivity|right; left; reflexivity].
  - cbn [fst snd]. destruct (cx_apart four four_convex a b Hab) as (_ & N & _). exact N.
  - cbn [fst snd]. intros w Hw. destruct (four_sides a b Hab) as [E|[E|[E|E]]]; injection E as -> ->; destruct Hw as [<-|[<-|[<-|[<-|[]]]]]; intros [Q1 Q2]; unfold dotp, area2, tA, tB, tC, tD in *; rewrite ?X_at, ?Y_at in *; lra.
Qed.

Lemma square_attempts : forall (H : HashOrder) fuel p (t : triangulator ArithR) a, t_boundary t = Poly four false -> t_holes t = [] -> t_segments t = [] -> framed four four (t_trn t) ->
  In a (refine_attempts H fuel p t four_params) -> sound_attempt four a.
Proof.
  intros H fuel p t a Eb Eh Es HF Ha. pose proof four_convex as HC.
  assert (HR : resolved four) by (apply (resolved_incl _ _ four_resolved); intros w Hw; right; exact Hw).
  assert (EK : refine_constraints t = Ok (hset edec (polygon_sides four))).
  { unfold refine_constraints. rewrite Eb, Eh, Es. unfold all_edges; cbn [foldM bind]. rewrite (polygon_edges four (cx_some four HC)). cbn [bind app]. rewrite ?app_nil_r. reflexivity. }
  set (K := hset edec (polygon_sides four)) in *. assert (HK : forall e, In e K <-> In e (polygon_sides four)) by (intros e; apply hset_In).
  unfold refine_attempts in Ha. rewrite EK, Eb, Eh in Ha. unfold unencroach_attempts, unencroach in Ha. rewrite (sides_free (t_trn t) HF K HK) in Ha.
  destruct fuel as [|fuel]; cbn [all_attempts unencroach_all map] in Ha; [destruct Ha|]. rewrite ho_nil in Ha. cbn [app] in Ha.
  assert (HK' : forall e, In e (replace_split [] K) <-> In e (polygon_sides four)).
  { intros e. unfold replace_split. cbn [map hset]. rewrite hset_In, app_nil_r, filter_In, HK. split; [tauto|]. intros He. split; [exact He|reflexivity]. }
  assert (HS : stage four four (t_trn t) (replace_split [] K)).
  { split; [exact HF|]. split; [exact HR|]. pose proof (sides_parts four HC four (t_trn t) HF HR four_piece) as [Hn Hx]. split; [apply hset_NoDup|]. intros e. rewrite HK'. apply Hx. }
  unfold irregular_attempts in Ha. destruct (filterM (is_irregular four_params) _) as [irr| |] eqn:E1; try (destruct Ha; fail). destruct (filterM (is_large four_params) _) as [lrg| |] eqn:E2; try (destruct Ha; fail).
  destruct (fun Q => square_centres (t_trn t) H HF _ (Datatypes.S fuel) (2%nat :: p) [] irr lrg a HS HK' Q Ha) as (x & -> & Hx).
  { intros x [Hx|Hx]; [apply (filterM_in _ _ _ _ E1) in Hx|apply (filterM_in _ _ _ _ E2) in Hx]; destruct Hx as [Hf Hm]; apply filter_In in Hf; destruct Hf as [Hf Hg]; apply negb_true_iff in Hg; (split; [split; assumption|]).
    - left. apply (thin_spec _ _ _ Hm). reflexivity.
    - right. apply (large_spec _ _ _ Hm). reflexivity. }
  intros o Ho. pose proof (solid_centre (t_trn t) HF x o Hx Ho) as ->. split; [|exact four_deep].
  apply (resolved_incl _ _ four_resolved). intros w [<-|Hw]; [left; reflexivity|right]. apply (delaunay_points _ _ (fr_delaunay _ _ _ HF) (rs_plain _ HR)), Hw.
Qed.


(** The start of the refinement of the square, and the two steps from it. *)
Definition square_of (tr : mesh) : triangulator ArithR := TR tr (Poly four false) [] [] [].
Lemma case_square : exists t : triangulator ArithR, t_boundary t = Poly four false /\ t_holes t = [] /\ t_segments t = [] /\ convex_polygon four /\ framed four four (t_trn t) /\ resolved four /\
  (forall a b, In (a, b) (polygon_sides four) -> piece four four (a, b)) /\
  (forall x, solid_in (t_trn t) x -> misses four_params x) /\
  forall (H : HashOrder) fuel p a, In a (refine_attempts H fuel p t four_params) -> sound_attempt four a.
Proof.
  destruct four_mesh as (tr & HF). exists (square_of tr). cbn [t_boundary t_holes t_segments t_trn square_of]. repeat (split; [reflexivity|]). split; [exact four_convex|]. split; [exact HF|].
  assert (HR : resolved four) by (apply (resolved_incl _ _ four_resolved); intros w Hw; right; exact Hw).
  split; [exact HR|]. split; [exact four_piece|]. split.
  - intros x [Hx Hg]. right. destruct (dl_shape _ _ (fr_delaunay _ _ _ HF) x Hx) as [(a & b & c & -> & Ha & Hb & Hc & P)|(a & b & -> & _)]; [|unfold is_ghost in Hg; cbn in Hg; rewrite !orb_true_r in Hg; discriminate].
    exists (area_triangle a b c), 25. unfold tri_area. rewrite Hg. split; [reflexivity|]. split; [reflexivity|]. right. rewrite area_triangle_spec. change (Rleb 25 (D a b c / 2) = true). revert P.
    destruct Ha as [<-|[<-|[<-|[<-|[]]]]], Hb as [<-|[<-|[<-|[<-|[]]]]], Hc as [<-|[<-|[<-|[<-|[]]]]]; unfold area2, tA, tB, tC, tD; rewrite !X_at, !Y_at; intros P; try (exfalso; lra); rcase; try reflexivity; exfalso; lra.
  - intros H fuel p a. apply square_attempts; try reflexivity. exact HF.
Qed.

Lemma case_side : exists (tr : mesh) s R, stage four four tr (s :: R) /\ resolved (edge_midpoint s :: four) /\ placed four (edge_midpoint s).
Proof.
  destruct four_mesh as (tr & HF). assert (HR : resolved four) by (apply (resolved_incl _ _ four_resolved); intros w Hw; right; exact Hw).
  exists tr, (tA, tB), [(tB, tC); (tC, tD); (tD, tA)]. split; [|assert (E : edge_midpoint (A:=ArithR) (tA, tB) = at_ 4 0); [|rewrite E; split]].
  - split; [exact HF|]. split; [exact HR|]. exact (sides_parts four four_convex four tr HF HR four_piece).
  - unfold edge_midpoint, tA, tB, at_. cbn. change (V (A:=ArithR) ((0 + 8) / INR 2) ((0 + 0) / INR 2) false = V (A:=ArithR) 4 0 false). cbn [INR]. f_equal; field.
  - apply grid_resolved. intros w [<-|Hw]; [|apply four_grid; right; exact Hw]. split; [reflexivity|]. exists 4%Z, 0%Z. split; reflexivity.
  - intros a b Hab. destruct (four_sides a b Hab) as [E'|[E'|[E'|E']]]; injection E' as -> ->;
      [left; right; right; split; unfold dotp, area2, tA, tB; rewrite !X_at, !Y_at; lra| | |]; right;
      (apply spread_grid; [intros x [<-|[<-|[<-|[]]]]; [apply four_grid; right; cbn; tauto|apply four_grid; right; cbn; tauto|split; [reflexivity|exists 4%Z, 0%Z; split; reflexivity]]|
        unfold tA, tB, tC, tD; rewrite !X_at, !Y_at; unfold Rabs; repeat destruct (Rcase_abs _); lra|unfold tA, tB, tC, tD; geo]).
Qed.

Lemma case_centre : exists (tr : mesh) K t o, stage four four tr K /\ resolved (o :: four) /\ solid_in tr t /\ tri_circumcenter t = Some o /\ deep four o.
Proof.
  destruct four_mesh as (tr & HF). assert (HR : resolved four) by (apply (resolved_incl _ _ four_resolved); intros w Hw; right; exact Hw).
  assert (HS : stage four four tr (polygon_sides four)) by (split; [exact HF|]; split; [exact HR|]; exact (sides_parts four four_convex four tr HF HR four_piece)).
  assert (He : part four four (tA, tB)) by (apply HS; left; reflexivity). destruct (part_solid four four tr _ four_convex HF HR He) as (t & Ht & _).
  assert (Ho : exists o, tri_circumcenter t = Some o).
  { destruct Ht as [Ht Hg]. unfold tri_circumcenter. rewrite Hg. destruct (dl_shape _ _ (fr_delaunay _ _ _ HF) t Ht) as [(a & b & c & -> & _ & _ & _ & P)|(a & b & -> & _)]; [|unfold is_ghost in Hg; cbn in Hg; rewrite !orb_true_r in Hg; discriminate].
    destruct (circumcenter_spec a b c) as [_ Q]. destruct (Q ltac:(lra)) as (o & Eo & _). exists o. exact Eo. }
  destruct Ho as (o & Ho). pose proof (solid_centre tr HF t o Ht Ho) as ->. exists tr, (polygon_sides four), t, tO.
  split; [exact HS|]. split; [exact four_resolved|]. split; [exact Ht|]. split; [exact Ho|exact four_deep].
Qed.

(** The square from its corners, with no free vertex: every attempt of every
    refinement of what was triangulated is sound. *)
Definition square_input : triangulator ArithR := TR trn_new (Poly four false) [] [] [].
Lemma case_square_whole : only_polygon square_input four /\ polygon_with square_input four [] /\ convex_polygon four /\ resolved ([] ++ four) /\ 0 < shoelace (polygon_sides four) /\
  exists n t', (forall fuel, (n <= fuel)%nat -> triangulate ho_id fuel [] square_input = Ok t') /\ (forall w, In w four -> exists u, solid_in (t_trn t') u /\ corner_of w u) /\
  forall (H : HashOrder) fuel p a, In a (refine_attempts H fuel p t' four_params) -> sound_attempt four a.
Proof.
  assert (HR : resolved four) by (apply (resolved_incl _ _ four_resolved); intros w Hw; right; exact Hw).
  assert (Ho : only_polygon square_input four) by (split; reflexivity). assert (Hw : polygon_with square_input four []) by (split; reflexivity).
  assert (Hs : 0 < shoelace (polygon_sides four)) by (unfold shoelace, four, polygon_sides, total, tA, tB, tC, tD; cbn [path_sides app map fold_right fst snd]; rewrite !X_at, !Y_at; lra).
  split; [exact Ho|]. split; [exact Hw|]. split; [exact four_convex|]. split; [exact HR|]. split; [exact Hs|].
  assert (P : 0 < area2 tA tB tC /\ 0 < area2 tB tC tD /\ 0 < area2 tC tD tA /\ 0 < area2 tD tA tB) by (unfold area2, tA, tB, tC, tD; rewrite !X_at, !Y_at; lra). destruct P as (P1 & P2 & P3 & P4).
  destruct (convex_quadrilateral_filled ho_id [] square_input tA tB tC tD Ho HR P1 P2 P3 P4) as (n & t' & Hr & HF). exists n, t'. split; [exact Hr|].
  assert (Hu : forall w, In w four -> exists u, solid_in (t_trn t') u /\ corner_of w u).
  { intros w Hi. destruct (polygon_starts four w Hi) as (e & He & <-). destruct (fl_border _ _ HF e He) as (u & Hu & Su). exists u. split; [exact Hu|apply side_corner1, Su]. }
  split; [exact Hu|]. intros H fuel p a.
  pose proof (polygon_constrained ho_id n [] square_input t' four Ho (cp_nodup _ four_convex) HR (Hr n (Nat.le_refl _)) HF) as HD.
  destruct (start_framed four [] (t_trn t') four_convex HR ltac:(intros w []) HD) as [HFr _]. destruct (triangulate_keeps ho_id n [] square_input t' (Hr n (Nat.le_refl _))) as (E1 & E2 & E3).
  apply square_attempts; assumption.
Qed.

(** The square with a vertex that encroaches its lower side. *)
Definition tP : pnt := at_ 4 1. Definition tM : pnt := at_ 4 0.
Definition five : list pnt := tP :: four.
Lemma five_grid : grid (tM :: five).
Proof.
  intros w [<-|[<-|Hw]]; [| |apply four_grid; right; exact Hw]; (split; [reflexivity|]); [exists 4%Z, 0%Z|exists 4%Z, 1%Z]; split; reflexivity.
Qed.
Lemma five_resolved : resolved (tM :: five).
Proof. apply grid_resolved, five_grid. Qed.
Lemma middle_placed : placed four tM.
Proof.
  intros a b Hab. destruct (four_sides a b Hab) as [E'|[E'|[E'|E']]]; injection E' as -> ->;
    [left; right; right; split; unfold dotp, area2, tA, tB, tM; rewrite !X_at, !Y_at; lra| | |]; right;
    (apply spread_grid; [intros x [<-|[<-|[<-|[]]]]; apply five_grid; unfold five, four; cbn [In]; tauto|
      unfold tA, tB, tC, tD; rewrite !X_at, !Y_at; unfold Rabs; repeat destruct (Rcase_abs _); lra|unfold tA, tB, tC, tD, tM; geo]).
Qed.
Lemma five_deep : deep four tP.
Proof.
  intros a b Hab. destruct (four_sides a b Hab) as [E'|[E'|[E'|E']]]; injection E' as -> ->;
    (apply spread_grid; [intros x [<-|[<-|[<-|[]]]]; apply five_grid; unfold five, four; cbn [In]; tauto|
      unfold tA, tB, tC, tD; rewrite !X_at, !Y_at; unfold Rabs; repeat destruct (Rcase_abs _); lra|unfold tA, tB, tC, tD, tP; geo]).
Qed.
Lemma five_stage : exists tr : mesh, stage four five tr (polygon_sides four).
Proof.
  destruct four_mesh as (tr & HF). assert (HR : resolved five) by (apply (resolved_incl _ _ five_resolved); intros w Hw; right; exact Hw).
  destruct (include_one ho_id [] four tr tP (fr_delaunay _ _ _ HF) HR) as (_ & tr' & _ & _ & _ & HD).
  { intros Hl. assert (E := Hl tA tB tC). unfold four in E. cbn [In] in E. specialize (E ltac:(auto) ltac:(auto) ltac:(auto)). unfold tA, tB, tC, tD in E. unfold area2 in E. rewrite !X_at, !Y_at in E. lra. }
  assert (HF' : framed four five tr').
  { split; [exact HD|intros w Hw; right; exact Hw|]. intros w [<-|Hw]; [intros a b Hab; right; apply five_deep, Hab|apply (corner_placed four four_convex w Hw)]. }
  exists tr'. split; [exact HF'|]. split; [exact HR|]. apply (sides_parts four four_convex five tr' HF' HR). intros a b Hab. destruct (four_piece a b Hab) as [(P1 & P2 & P3) Q R].
  split; [split; [right; exact P1|split; [right; exact P2|exact P3]]|exact Q|]. cbn [fst snd] in *. intros w [<-|Hw]; [|apply R, Hw].
  intros [E _]. pose proof (spread_pos 3 a b tP ltac:(lra) (five_deep a b Hab)). lra.
Qed.

Lemma five_encroached : forall e w, In e (polygon_sides four) -> In w five -> edge_encroach e w = Inside -> e = (tA, tB) /\ w = tP.
Proof.
  intros [a b] w He Hw Hin. apply encroach_inside in Hin. unfold inside_diameter in Hin. cbn [fst snd] in Hin.
  destruct (four_sides a b He) as [E|[E|[E|E]]]; injection E as -> ->; destruct Hw as [<-|[<-|[<-|[<-|[<-|[]]]]]]; auto; exfalso; unfold tA, tB, tC, tD, tP in Hin; rewrite ?X_at, ?Y_at in Hin; lra.
Qed.
Lemma lower_middle : edge_midpoint (A:=ArithR) (tA, tB) = tM.
Proof. unfold edge_midpoint, tA, tB, tM, at_. change (V (A:=ArithR) ((0 + 8) / INR 2) ((0 + 0) / INR 2) false = V (A:=ArithR) 4 0 false). cbn [INR]. f_equal; field. Qed.

Lemma five_attempts : forall (H : HashOrder) (tr : mesh) K fuel p a, stage four five tr K -> (forall e, In e K <-> In e (polygon_sides four)) ->
  In a (unencroach_attempts H (Some (Poly four false)) [] fuel p tr K) -> a = Middle tr tM.
Proof.
  intros H tr K fuel p a (HF & HR & HX) HK Ha. unfold unencroach_attempts in Ha. set (em := distribute_encroachments K (trn_vertices tr) []) in *.
  assert (Hem : forall e vs, mget edec e em = Some vs -> e = (tA, tB) /\ forall v, In v vs -> v = tP).
  { intros e vs E. pose proof (distribute_encroachments_exact K (trn_vertices tr) e) as Q. fold em in Q. rewrite E in Q. destruct Q as (Q1 & Q2 & Q3). apply HK in Q1.
    assert (A : forall v, In v vs -> e = (tA, tB) /\ v = tP) by (intros v Hv; apply Q3 in Hv; destruct Hv as [Hv Hin]; apply five_encroached; auto; apply (delaunay_points _ _ (fr_delaunay _ _ _ HF) (rs_plain _ HR)), Hv).
    destruct vs as [|v vs]; [congruence|]. split; [apply (A v); left; reflexivity|]. intros w Hw. apply (A w Hw). }
  assert (Hnd : NoDup (map fst em)) by (apply (distribute_keys K (trn_vertices tr) [] (NoDup_nil _))).
  destruct fuel as [|fuel]; cbn [all_attempts] in Ha; [destruct Ha|]. destruct (ho H (1%nat :: p) _ (map fst em)) as [|e q] eqn:Eo; [destruct Ha|].
  destruct (mget edec e em) as [vs|] eqn:Eg; [|destruct Ha]. destruct (Hem e vs Eg) as [-> Hvs]. apply in_app_or in Ha. destruct Ha as [Ha|Ha].
  - unfold segment_attempts in Ha. destruct fuel as [|fuel]; cbn [loop_attempts] in Ha; [destruct Ha|]. rewrite lower_middle in Ha. destruct Ha as [<-|Ha]; [reflexivity|exfalso].
    destruct (split_segment H fuel (1%nat :: 2%nat :: p) tr (tA, tB) K (Some (Poly four false)) []) as [[[h1 h2] [[tr' inc] del]]| |] eqn:Es; try (destruct Ha; fail).
    destruct (split_step four four_convex H five tr (tA, tB) K fuel (1%nat :: 2%nat :: p) h1 h2 tr' inc del HF) as (E1 & E2 & _); [rewrite lower_middle; exact five_resolved| | | |exact Es|].
    { apply HX, HK. left. reflexivity. } { rewrite lower_middle. exact middle_placed. } { intros x Hx. apply HX in Hx. apply Hx. }
    rewrite lower_middle in E1, E2. subst h1 h2.
    assert (No : forall h, h = (tA, tM) \/ h = (tM, tB) -> existsb (fun v => cont_eqb (edge_encroach h v) Inside) vs = false).
    { intros h Hh. apply not_true_is_false. intros Ex. apply existsb_exists in Ex. destruct Ex as (v & Hv & Hc). apply Hvs in Hv. subst v.
      assert (Hin : edge_encroach h tP = Inside) by (destruct (edge_encroach h tP); try discriminate; reflexivity).
      apply encroach_inside in Hin. unfold inside_diameter in Hin. destruct Hh as [-> | ->]; cbn [fst snd] in Hin; unfold tA, tB, tM, tP in Hin; rewrite !X_at, !Y_at in Hin; lra. }
    cbn [fst snd] in *. cbv beta zeta in Ha. rewrite (No (tA, tM)), (No (tM, tB)) in Ha by auto. destruct fuel; cbn [loop_attempts] in Ha; exact Ha.
  - exfalso. destruct (unencroach_segment H fuel (2%nat :: p) tr (tA, tB) vs K (Some (Poly four false)) []) as [[[[[tr' ?] ?] ?] ?]| |]; try (destruct Ha; fail).
    destruct fuel as [|fuel]; cbn [all_attempts] in Ha; [exact Ha|]. destruct (ho H (1%nat :: 0%nat :: p) _ (map fst (mdel edec (tA, tB) em))) as [|e q'] eqn:Eo2; [exact Ha|].
    destruct (mget edec e (mdel edec (tA, tB) em)) as [vs'|] eqn:Eg'; [|exact Ha].
    destruct (edec e (tA, tB)) as [-> |Ne]; [rewrite mdel_get_eq in Eg'; discriminate|]. rewrite mdel_get_ne in Eg' by assumption. destruct (Hem e vs' Eg') as [-> _]. congruence.
Qed.

Lemma case_five : convex_polygon four /\ exists tr : mesh, stage four five tr (polygon_sides four) /\ edge_encroach (tA, tB) tP = Inside /\
  forall (H : HashOrder) fuel p a, In a (unencroach_attempts H (Some (Poly four false)) [] fuel p tr (polygon_sides four)) -> a = Middle tr tM /\ sound_attempt four a.
Proof.
  split; [exact four_convex|]. destruct five_stage as (tr & HS). exists tr. split; [exact HS|]. split.
  - pose proof eps_small. pose proof eps_pos. unfold edge_encroach. cbn [ev1 ev2 fst snd]. rewrite encroach_sign. cbv zeta. unfold tA, tB, tP; rewrite ?X_at, ?Y_at. repeat rcase; try reflexivity; lra.
  - intros H fuel p a Ha. pose proof (five_attempts H tr (polygon_sides four) fuel p a HS ltac:(tauto) Ha) as ->. split; [reflexivity|]. destruct HS as (HF & HR & _). split; [|exact middle_placed].
    apply (resolved_incl _ _ five_resolved). intros w [<-|Hw]; [left; reflexivity|right]. apply (delaunay_points _ _ (fr_delaunay _ _ _ HF) (rs_plain _ HR)), Hw.
Qed.
