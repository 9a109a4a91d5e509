(** P_Cw3.v — the whole program on a convex polygon given clockwise. *)

From Coq Require Import String Reals List ZArith Lra Lia Psatz Bool Permutation.
From Verif Require Import Base Arith Geometry Elements Polyline Procedures Refine Triangulator Interface ArithR Spec SpecI SpecR SpecD SpecP SpecC SpecE SpecQ SpecM SpecT SpecX SpecN
  P_Base P_Fuel P_Poly P_Contains P_Trn P_Trn2 P_Triangulator P_Interface P_RX P_R1 P_R2 P_R3 P_R4 P_R6 P_D1 P_D5 P_D8 P_Fill2 P_Polygon3 P_C7 P_C8 P_K7 P_E4 P_E5 P_E8 P_F2 P_F3 P_L2 P_L3 P_L5 P_X1 P_X3 P_Cw1 P_Cw2.
Import ListNotations.
Local Open Scope R_scope.
Local Open Scope string_scope.
Local Open Scope list_scope.

Lemma crosses_turned : forall a b c d : pnt, crosses (b, a) (d, c) = crosses (a, b) (c, d).
Proof.
  intros a b c d. unfold crosses. destruct (intersection_orders a b c d) as (_ & E1 & _). destruct (intersection_orders b a c d) as (_ & _ & E2).
  rewrite E1, E2. destruct (intersection b a d c); [|reflexivity].
  assert (E : parallel b a d c = parallel a b c d).
  { apply eq_true_iff_eq. rewrite !parallel_spec. unfold crossp. split; intros; lra. }
  rewrite E. destruct (veqb a c), (veqb a d), (veqb b c), (veqb b d); reflexivity.
Qed.
Lemma rev_quiet : forall l, convex_polygon l -> forall e e', In e (polygon_sides (rev l)) -> In e' (polygon_sides (rev l)) -> crosses e e' = false.
Proof.
  intros l Hc [a b] [c d] H1 H2. apply side_turned in H1. apply side_turned in H2. rewrite <- crosses_turned. exact (sides_quiet l Hc (b, a) (d, c) H1 H2).
Qed.

Section Program.
  Variables (h : list pnt) (H : HashOrder) (p : path) (inp : input ArithR).
  Hypothesis Hc : convex_polygon h.
  Hypothesis HR : resolved h.
  Hypothesis HJ : polygon_job inp (rev h) [].

  Lemma hc_strict : forall a b w, In (a, b) (polygon_sides h) -> In w h -> w <> a -> w <> b -> 0 < area2 a b w.
  Proof. intros a b w Hab Hw N1 N2. apply (spread_pos 3); [lra|]. apply (cp_away _ Hc); assumption. Qed.

  Lemma clockwise_start : exists n0 t t', (forall fuel, (n0 <= fuel)%nat -> parse H fuel (1%nat :: p) inp = Ok (Some (t, RP (A:=ArithR) (i_max_area inp) (i_quality inp))) /\ triangulate H fuel (2%nat :: p) t = Ok t') /\
    emptied h (t_trn t') /\ t_boundary t' = Poly (rev h) false /\ t_holes t' = [] /\ t_segments t' = [].
  Proof.
    assert (H3 : (3 <= length (rev h))%nat) by (rewrite rev_length; apply (cp_three _ Hc)).
    destruct (read_parse H (rev h) [] inp HJ H3 (rev_quiet h Hc) ltac:(intros w []) (1%nat :: p)) as (n & t & ws & Hp & Hw & Hn & Hws).
    assert (ws = []) as -> by (destruct ws as [|w ws]; [reflexivity|]; exfalso; apply (Hws w); left; reflexivity).
    assert (Ho : only_polygon t (rev h)) by (destruct Hw; split; assumption).
    destruct (clockwise_triangulates H (2%nat :: p) t h Ho (cp_nodup _ Hc) HR (cp_three _ Hc) hc_strict) as (n2 & t' & Ht & HE).
    destruct (triangulate_keeps H n2 (2%nat :: p) t t' (Ht n2 ltac:(lia))) as (E1 & E2 & E3).
    exists (n + n2)%nat, t, t'. split; [intros fuel Hf; split; [apply Hp; lia|apply Ht; lia]|]. split; [exact HE|].
    rewrite E1, E2, E3. split; [apply Hw|]. split; apply Hw.
  Qed.

  Hypothesis Hfree : forall a b w m, In (a, b) (polygon_sides h) -> In w h -> half_point a b m -> d2 a b / 4 - eps <= d2 m w.

  Lemma clockwise_program : exists n0 coords, (forall fuel, (n0 <= fuel)%nat -> run_main H fuel p inp = Ok (Some (coords, []))) /\
    exists order, Permutation order h /\ coords = map (fun v : pnt => (X v, Y v)) order.
  Proof.
    destruct clockwise_start as (n0 & t & t' & Hpt & HE & Eb & Eh & Es).
    pose proof (emptied_points h (t_trn t') HE (rs_plain _ HR)) as Hpts.
    assert (Pl : Permutation (trn_vertices (t_trn t')) h) by (apply NoDup_Permutation; [apply trn_lists_NoDup|apply (cp_nodup _ Hc)|exact Hpts]).
    assert (Hsol : forall x, In x (tris (t_trn t')) -> is_ghost x = true).
    { intros x Hx. apply HE in Hx. destruct Hx as (a & b & _ & ->). unfold is_ghost. cbn. rewrite !orb_true_r. reflexivity. }
    destruct (output_spec H (4%nat :: p) (t_trn t')) as (coords & triples & vec & order & Eo & Pv & Po & Ec & F2 & _).
    assert (En : filter (fun t => negb (is_ghost t)) (ho H (3%nat :: 4%nat :: p) _ (tris (t_trn t'))) = []).
    { destruct (filter _ _) as [|x l] eqn:E; [reflexivity|exfalso]. assert (Hx : In x (x :: l)) by (left; reflexivity). rewrite <- E in Hx.
      apply filter_In in Hx. destruct Hx as [Hx G]. rewrite ho_In in Hx. rewrite (Hsol x Hx) in G. discriminate G. }
    rewrite En in F2. inversion F2; subst triples.
    exists (S n0), coords. split; [|exists order; split; [rewrite Po; exact Pl|exact Ec]].
    intros fuel Hfu. destruct (Hpt fuel ltac:(lia)) as [Hp Ht]. unfold run_main. rewrite Hp. cbn [bind]. rewrite Ht. cbn [bind].
    destruct (refine_rests H fuel (3%nat :: p) t' (RP (A:=ArithR) (i_max_area inp) (i_quality inp)) ltac:(lia)) as (cs & Er & _).
    - rewrite Eb. cbn. pose proof (cp_three _ Hc). pose proof (rev_length h). destruct (rev h); [cbn in *; lia|discriminate].
    - rewrite Eh. intros x [].
    - intros [a b] v He Hv. unfold constraint_on in He. rewrite Eb, Eh, Es in He. destruct He as [He|[(x & [] & _)|[]]].
      apply closed_sides in He. apply side_turned in He. apply Hpts in Hv. change (edge_encroach (a, b) v) with (encroach a b v). rewrite (proj1 (encroach_extra a b v)).
      set (m := at_ ((X a + X b) / 2) ((Y a + Y b) / 2)).
      assert (Hm : half_point b a m) by (unfold half_point, at_ratio, m; rewrite X_at, Y_at; split; field).
      intros Hi. apply (proj1 (encroach_spec b a v m Hm)) in Hi. pose proof (Hfree b a v m He Hv Hm). change (T ArithR) with R in *. lra.
    - intros x Hx G. rewrite (Hsol x Hx) in G. discriminate G.
    - rewrite Er. cbn [bind]. rewrite Eo. reflexivity.
  Qed.
End Program.

(** ** Cases *)

(** The square with a point near a side; the triangle of that side and the point
    is taken out. *)
Definition cut_out : list pnt := [tA; tB; tP].
Lemma case_cut_out : exists tr : mesh, delaunay five tr /\ resolved five /\ (exists t, In t (tris tr) /\ solid_over five t) /\
  NoDup cut_out /\ (forall w, In w cut_out -> In w five) /\ 0 < shoelace (polygon_sides cut_out) /\ (forall a b, In (a, b) (polygon_sides cut_out) -> free_side five a b) /\
  (exists q, in_region tr q /\ winding q (polygon_sides cut_out) = 0%Z /\ ~ on_polygon cut_out q) /\
  exists q, in_region tr q /\ winding q (polygon_sides cut_out) = 1%Z /\ ~ on_polygon cut_out q.
Proof.
  destruct five_stage as (tr & HF & HR & Hpt). exists tr. split; [apply (fr_delaunay _ _ _ HF)|]. split; [exact HR|].
  assert (Hcs : forall a b, In (a, b) (polygon_sides cut_out) -> (a, b) = (tA, tB) \/ (a, b) = (tB, tP) \/ (a, b) = (tP, tA)).
  { intros a b [E|[E|[E|[]]]]; auto. }
  assert (Hreg : forall x y, 0 <= x <= 8 -> 0 <= y <= 8 -> in_region tr (at_ x y)).
  { intros x y Hx Hy. apply (region_exact four four_convex five tr _ HF HR). intros a b Hs. apply four_sides in Hs.
    destruct Hs as [E|[E|[E|E]]]; injection E as -> ->; unfold area2, tA, tB, tC, tD; rewrite !X_at, !Y_at; lra. }
  assert (Hoff : forall x y, 0 < x -> (y <> 0 /\ 4 * y <> x /\ 4 * y <> 8 - x) -> ~ on_polygon cut_out (at_ x y)).
  { intros x y Hx (N1 & N2 & N3) ([a b] & Hs & t & Ht & Hr). destruct Hr as [EX EY]. cbn [fst snd] in *. rewrite X_at in EX. rewrite Y_at in EY.
    apply Hcs in Hs. destruct Hs as [E|[E|E]]; injection E as -> ->; unfold tA, tB, tP in EX, EY; rewrite !X_at in EX; rewrite !Y_at in EY; [apply N1|apply N3|apply N2]; lra. }
  split; [|split; [|split; [|split; [|split; [|split]]]]].
  - assert (He : part four five (tA, tB)) by (apply Hpt; left; reflexivity). destruct (part_solid four five tr _ four_convex HF HR He) as (x & [Hx G] & _). exists x. split; [exact Hx|].
    destruct (dl_shape _ _ (fr_delaunay _ _ _ HF) x Hx) as [Hs|(a & b & -> & _)]; [exact Hs|]. unfold is_ghost in G. cbn in G. rewrite !orb_true_r in G. discriminate G.
  - repeat constructor; cbn [In]; intros Hi; unfold tA, tB, tP in Hi; repeat (destruct Hi as [Hi|Hi]; [injection Hi; intros; lra|]); exact Hi.
  - intros w [<-|[<-|[<-|[]]]]; cbn [five four In]; unfold five, four; cbn [In]; auto.
  - unfold shoelace, total. cbn [polygon_sides path_sides cut_out app map fold_right fst snd]. unfold tA, tB, tP. rewrite !X_at, !Y_at. lra.
  - intros a b Hs. apply Hcs in Hs. exists (at_ ((X a + X b) / 2) (if Req_EM_T (Y a) (Y b) then -20 else (Y a + Y b) / 2)).
    destruct Hs as [E|[E|E]]; injection E as -> ->; destruct (Req_EM_T _ _) as [Ey|Ey]; unfold tA, tB, tP in Ey |- *; rewrite ?X_at, ?Y_at in Ey; try lra;
      (split; [unfold d2; rewrite !X_at, !Y_at; lra|]); intros w Hw N1 N2; unfold five, four in Hw; cbn [In] in Hw;
      (destruct Hw as [<-|[<-|[<-|[<-|[<-|[]]]]]]); unfold tA, tB, tC, tD, tP in N1, N2 |- *; try congruence; unfold d2; rewrite !X_at, !Y_at; lra.
  - exists (at_ 7 7). split; [apply Hreg; lra|]. split; [|apply Hoff; lra].
    unfold winding. cbn [polygon_sides path_sides cut_out app map fold_right]. unfold ray_crossing, area2, tA, tB, tP. rewrite ?X_at, ?Y_at.
    repeat (destruct (Rle_dec _ _) || destruct (Rlt_dec _ _)); try lra; try reflexivity.
  - exists (at_ 4 (/ 2)). split; [apply Hreg; lra|]. split; [|apply Hoff; lra].
    unfold winding. cbn [polygon_sides path_sides cut_out app map fold_right]. unfold ray_crossing, area2, tA, tB, tP. rewrite ?X_at, ?Y_at.
    repeat (destruct (Rle_dec _ _) || destruct (Rlt_dec _ _)); try lra; try reflexivity.
Qed.

(** The square of side 8, clockwise. *)
Definition turned_square : input ArithR := Inp (A:=ArithR) [Act (A:=ArithR) "include" "polyline" [] [(0, 8); (8, 8); (8, 0); (0, 0)] []] (Some 25) 1000.
Lemma case_turned : convex_polygon four /\ resolved four /\ polygon_job turned_square (rev four) [] /\
  (forall a b w m, In (a, b) (polygon_sides four) -> In w four -> half_point a b m -> d2 a b / 4 - eps <= d2 m w).
Proof.
  split; [exact four_convex|]. split; [apply (resolved_incl _ _ four_resolved); intros w Hw; right; exact Hw|]. split.
  - assert (Ha : asks_polygon (rev four) (Act (A:=ArithR) "include" "polyline" [] [(0, 8); (8, 8); (8, 0); (0, 0)] [])) by (left; split; [reflexivity|]; split; reflexivity).
    split.
    + eexists. split; [left; reflexivity|exact Ha].
    + intros a [<-|[]]. left. exact Ha.
    + intros w. split; [intros []|]. intros (a & q & [<-|[]] & (Ei & _) & _). discriminate Ei.
  - intros a b w m Hs Hw [Ex Ey]. pose proof eps_pos. unfold d2. rewrite Ex, Ey.
    apply four_sides in Hs. destruct Hs as [E|[E|[E|E]]]; injection E as -> ->; (destruct Hw as [<-|[<-|[<-|[<-|[]]]]]); unfold tA, tB, tC, tD; rewrite ?X_at, ?Y_at; lra.
Qed.
Lemma case_turned_alone : only_polygon (TR trn_new (Poly (rev four) false) [] [] []) (rev four) /\ NoDup four /\ resolved four /\ (3 <= List.length four)%nat /\
  (forall a b w, In (a, b) (polygon_sides four) -> In w four -> w <> a -> w <> b -> 0 < area2 a b w).
Proof.
  destruct case_turned as (Hc & HR & _). split; [split; reflexivity|]. split; [apply (cp_nodup _ Hc)|]. split; [exact HR|]. split; [apply (cp_three _ Hc)|]. apply (hc_strict four Hc).
Qed.
