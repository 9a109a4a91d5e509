(** P_G3.v — putting a vertex in a mesh of a convex polygon ends. *)

From Coq Require Import Reals List ZArith Lra Lia Psatz Bool Permutation.
From Verif Require Import Base Arith Geometry Elements Polyline Procedures Refine Triangulator ArithR Spec SpecM SpecR SpecD SpecP SpecC SpecE
  P_Base P_Trn P_Fuel P_Poly P_Vertices P_Cavity P_Refine P_Worked P_R1 P_R2 P_R3 P_R5 P_R6 P_RX P_D1 P_D2 P_D3 P_D4 P_D5 P_D6 P_D7 P_Fill P_Fill2 P_Region P_C1 P_C2 P_C3 P_C4 P_C5 P_C6 P_C7 P_C8 P_C9 P_E1 P_E2 P_E3 P_E4 P_E5 P_E6 P_E7 P_E8 P_E9 P_G1 P_G2.
Import ListNotations.
Local Open Scope R_scope.

Definition halts {X} (f : nat -> res X) : Prop := exists r, ends f r.
Lemma halts_const : forall X (r : X), halts (fun _ => Ok r).
Proof. intros X r. exists r. apply ends_const. Qed.
Lemma halts_bind : forall X Y (f : nat -> res X) (k : nat -> X -> res Y), halts f -> (forall x, ends f x -> halts (fun n => k n x)) -> halts (fun n => bind (f n) (k n)).
Proof. intros X Y f k [x Hx] Hk. destruct (Hk x Hx) as [y Hy]. exists y. exact (ends_bind _ _ _ _ _ _ Hx Hy). Qed.
Lemma halts_next : forall X (f g : nat -> res X), halts f -> (forall n, g (Datatypes.S n) = f n) -> halts g.
Proof. intros X f g [r Hr] Hg. exists r. exact (ends_next _ _ _ _ Hr Hg). Qed.
Lemma halts_ext : forall X (f g : nat -> res X), halts f -> (forall n, g n = f n) -> halts g.
Proof. intros X f g [r Hr] Hg. exists r. exact (ends_ext _ _ _ _ Hr Hg). Qed.

Lemma ratio_on_side : forall x y w k, ~ coincide x y -> vghost x = false -> vghost y = false -> vghost w = false -> 0 <= k <= 1 -> at_ratio k x y w -> on_side x y w.
Proof.
  intros x y w k Nc Gx Gy Gw Hk [Ex Ey]. assert (Eq : forall u v : pnt, vghost u = false -> vghost v = false -> X u = X v -> Y u = Y v -> u = v).
  { intros [a b g] [a' b' g'] G1 G2 E1 E2. cbn in *. congruence. }
  destruct (Req_dec k 0) as [->|N0]; [left; apply Eq; auto; lra|]. destruct (Req_dec k 1) as [->|N1]; [right; left; apply Eq; auto; lra|].
  right. right. apply (param_between x y w k Nc); [lra|split; assumption].
Qed.

Section Halts.
  Variables (l : list pnt) (H : HashOrder).
  Hypothesis HC : convex_polygon l.
  Let bd := Some (Poly (A:=ArithR) l false).
  Hypothesis Hplain : forall u, In u l -> vghost u = false.

  Lemma continence_halts : forall p2 V E, proper p2 -> into_edges p2 = Ok E -> (forall u, In u V -> vghost u = false) ->
    (forall u c d, In u V -> In (c, d) (polygon_sides l) -> on_side c d u \/ spread 1 c d u) ->
    (forall e, In e E -> In (fst e) V /\ In (snd e) V) -> (forall e e', In e E -> In e' E -> crosses e e' = false) ->
    halts (fun n => poly_continence n (Poly l false) p2).
  Proof.
    intros p2 V E Hp He HV HP Hends Hq.
    destruct (test_splits l HC (l ++ V) E) with (L := polygon_sides l ++ E) as (r & Hr).
    - intros u Hu. apply in_app_or in Hu. destruct Hu; auto.
    - intros u c d Hu Hs. apply in_app_or in Hu. destruct Hu as [Hu|Hu]; [|apply HP; assumption].
      destruct (corner_placed l HC u Hu c d Hs) as [Q|Q]; [left; exact Q|right; apply (spread_weaker 3); [lra|exact Q]].
    - intros e Hi. destruct (Hends e Hi). split; apply in_or_app; auto.
    - exact Hq.
    - intros e Hi. apply in_app_or in Hi. destruct Hi as [Hi|Hi]; [apply side_tested; [|exact Hi]; intros u Hu; apply in_or_app; auto|right; exact Hi].
    - destruct Hr as [n Hn].
      assert (Hp1 : proper (Poly (A:=ArithR) l false)).
      { left. unfold new_closed. cbn [pverts]. pose proof (cp_three _ HC) as H3. destruct l as [|a [|b [|c l']]]; try (cbn in H3; lia). reflexivity. }
      destruct (poly_continence n (Poly l false) p2) as [o| |] eqn:Eo.
      + exists o. apply (ends_mono _ _ _ n); [|exact Eo]. intros a b Hab. apply poly_continence_mono, Hab.
      + exfalso. exact (poly_continence_no_panic n _ _ Hp1 Hp Eo).
      + exfalso. unfold poly_continence in Eo. cbn [popened] in Eo. rewrite He in Eo. cbn [bind] in Eo. cbn zeta in Eo.
        assert (N1 : pverts (Poly (A:=ArithR) l false) <> []) by apply (cx_some l HC).
        destruct (continence_loop1_total (Poly l false) N1 eq_refl (flat_map (fun e => [edge_midpoint e; ev1 e]) E) None Open) as [o [E1 _]]. rewrite E1 in Eo. cbn [bind] in Eo.
        destruct o as [[pc pb]|]; [|discriminate].
        assert (Ep : poly_pairs (Poly l false) = Ok (polygon_sides l)) by (apply polygon_edges, (cx_some l HC)). rewrite Ep in Eo. cbn [bind] in Eo.
        unfold into_edges in He. rewrite He in Eo. cbn [bind] in Eo. rewrite (Hn n (le_n n)) in Eo. cbn [bind] in Eo.
        destruct (continence_loop2_total (Poly l false) N1 eq_refl r pc) as [b E2]. rewrite E2 in Eo. cbn [bind] in Eo.
        destruct b; cbn [negb] in Eo; [|discriminate]. destruct pc as [c|]; cbn in Eo; [discriminate|]. destruct pb; discriminate.
  Qed.
  Lemma may_halts_from : forall t w p2, may_insert_line t w = Ok p2 -> halts (fun n => poly_continence n (Poly l false) p2) ->
    forall p, exists m, ends (fun n => may_insert_triangle H n p t w bd []) m.
  Proof.
    intros t w p2 Hp (o & Ho) p. eexists. unfold may_insert_triangle. eapply ends_ext; cycle 1.
    { intros n. rewrite Hp. cbn [bind inside_boundary bd]. unfold outside_holes. rewrite ho_nil. cbn [foldM bind]. reflexivity. }
    eapply ends_bind; [|apply ends_const]. eapply ends_bind; [exact Ho|apply ends_const].
  Qed.

  Lemma center_placed : forall a b c, vghost a = false -> vghost b = false -> vghost c = false -> placed l a -> placed l b -> placed l c ->
    forall x y, In (x, y) (polygon_sides l) -> on_side x y (tri_center (Tri a b c)) \/ spread 1 x y (tri_center (Tri a b c)).
  Proof.
    intros a b c Ga Gb Gc Ha Hb Hc x y Hxy. destruct (center_centroid a b c Ga Gb Gc) as [Ex Ey].
    assert (Gg : vghost (tri_center (Tri a b c)) = false) by (unfold tri_center; destruct (is_ghost _); reflexivity).
    destruct (polygon_ends l _ Hxy) as [Hx Hy]. cbn [fst snd] in *.
    assert (Hm : 0 <= eps * (Rabs (X y - X x) + Rabs (Y y - Y x))).
    { pose proof eps_pos. apply mpp; [lra|]. pose proof (Rabs_pos (X y - X x)). pose proof (Rabs_pos (Y y - Y x)). lra. }
    assert (Sp : 3 * (eps * (Rabs (X y - X x) + Rabs (Y y - Y x))) < D x y a + D x y b + D x y c -> spread 1 x y (tri_center (Tri a b c))).
    { intros L. pose proof (centroid_D a b c x y) as Q. unfold spread, area2 in *. rewrite Ex, Ey. lra. }
    destruct (placed_ge l x y a Hxy Ha) as [[E1 O1]|P1]; destruct (placed_ge l x y b Hxy Hb) as [[E2 O2]|P2]; destruct (placed_ge l x y c Hxy Hc) as [[E3 O3]|P3];
      try (right; apply Sp; lra).
    left. apply on_side_ratio in O1. apply on_side_ratio in O2. apply on_side_ratio in O3. destruct O1 as (i & Hi & Ix & Iy). destruct O2 as (j & Hj & Jx & Jy). destruct O3 as (k & Hk & Kx & Ky).
    apply (ratio_on_side x y _ ((i + j + k) / 3)); auto; [apply (cx_apart l HC x y Hxy)|lra|]. unfold centroid in *. rewrite X_at in Ex. rewrite Y_at in Ey. split; rewrite ?Ex, ?Ey, ?Ix, ?Iy, ?Jx, ?Jy, ?Kx, ?Ky; field.
  Qed.
  Lemma placed_test : forall w x y, placed l w -> In (x, y) (polygon_sides l) -> on_side x y w \/ spread 1 x y w.
  Proof. intros w x y Hw Hxy. destruct (Hw x y Hxy) as [Q|Q]; [left; exact Q|right; apply (spread_weaker 3); [lra|exact Q]]. Qed.

  Lemma may_solid : forall a b c w, vghost a = false -> vghost b = false -> vghost c = false -> vghost w = false -> placed l a -> placed l b -> placed l c -> placed l w ->
    forall p, exists m, ends (fun n => may_insert_triangle H n p (Tri a b c) w bd []) m.
  Proof.
    intros a b c w Ga Gb Gc Gw Ha Hb Hc Hw. set (g := tri_center (Tri a b c)).
    apply (may_halts_from (Tri a b c) w (Poly [g; w] true)).
    - unfold may_insert_line, is_ghost. cbn [tv1 tv2 tv3]. rewrite Ga, Gb, Gc. reflexivity.
    - apply (continence_halts _ [g; w] [(g, w)]).
      + right. reflexivity.
      + reflexivity.
      + intros u [<-|[<-|[]]]; [unfold g, tri_center; destruct (is_ghost _); reflexivity|exact Gw].
      + intros u x y [<-|[<-|[]]] Hxy; [apply center_placed; assumption|apply placed_test; assumption].
      + intros e [<-|[]]. cbn. auto.
      + intros e e' [<-|[]] [<-|[]]. apply share_quiet. auto.
  Qed.
  Lemma may_ghost : forall a b w, vghost a = false -> vghost b = false -> vghost w = false -> placed l a -> placed l b -> placed l w ->
    forall p, exists m, ends (fun n => may_insert_triangle H n p (Tri a b gv) w bd []) m.
  Proof.
    intros a b w Ga Gb Gw Ha Hb Hw. apply (may_halts_from (Tri a b gv) w (Poly [a; b; w] false)).
    - unfold may_insert_line, is_ghost. cbn [tv1 tv2 tv3 vghost ghost_vertex]. rewrite !orb_true_r. reflexivity.
    - apply (continence_halts _ [a; b; w] [(a, b); (b, w); (w, a)]).
      + left. reflexivity.
      + reflexivity.
      + intros u [<-|[<-|[<-|[]]]]; assumption.
      + intros u x y [<-|[<-|[<-|[]]]] Hxy; apply placed_test; assumption.
      + intros e [<-|[<-|[<-|[]]]]; cbn; auto.
      + intros e e' [<-|[<-|[<-|[]]]] [<-|[<-|[<-|[]]]]; apply share_quiet; auto.
  Qed.

  (** ** One insertion *)
  Section Insert.
    Variables (S : list pnt) (tr : mesh) (v : pnt) (K : list (edge ArithR)).
    Hypothesis HF : framed l S tr.
    Hypothesis HR : resolved (v :: S).
    Hypothesis Hv : ~ In v S.
    Hypothesis Hpv : placed l v.
    Hypothesis HK : forall e, In e K -> vghost (fst e) = false /\ vghost (snd e) = false.
    Hypothesis Hyes : forall t fuel p m, In t (tris tr) -> is_conflicting t v = true -> may_insert_triangle H fuel p t v bd [] = Ok m -> m = true.
    Hypothesis Hbar : forall t u e, In t (tris tr) -> In u (tris tr) -> is_conflicting t v = true -> is_conflicting u v = true ->
      side_of e t -> side_of (flip e) u -> is_constrained K e = false.
    Let HD := fr_delaunay _ _ _ HF.

    Lemma old_may : forall t p, In t (tris tr) -> exists m, ends (fun n => may_insert_triangle H n p t v bd []) m.
    Proof.
      intros t p Ht. assert (G : forall a, In a S -> vghost a = false) by (intros a Ha; apply (rs_plain _ HR); right; exact Ha). assert (Gv := rs_plain _ HR v (or_introl eq_refl)). pose proof (fr_placed _ _ _ HF) as HP.
      destruct (dl_shape _ _ HD t Ht) as [(a & b & c & -> & Ha & Hb & Hc & _)|(a & b & -> & Ha & Hb & _)]; [apply may_solid; auto|apply may_ghost; auto].
    Qed.
    Lemma new_may : forall t e p, In t (tris tr) -> side_of e t -> ~ ghost_ended e -> exists m, ends (fun n => may_insert_triangle H n p (new_triangle (flip e) v) v bd []) m.
    Proof.
      intros t [a b] p Ht Hs Hng. assert (G : forall a, In a S -> vghost a = false) by (intros a' Ha'; apply (rs_plain _ HR); right; exact Ha'). assert (Gv := rs_plain _ HR v (or_introl eq_refl)). pose proof (fr_placed _ _ _ HF) as HP.
      assert (Hc : In a S /\ In b S).
      { unfold ghost_ended in Hng. cbn [fst snd] in Hng. pose proof (side_corner1 _ _ Hs) as C1. pose proof (side_corner2 _ _ Hs) as C2. cbn [fst snd] in *.
        assert (Q : forall z, corner_of z t -> vghost z = false -> In z S).
        { intros z Hz Gz. destruct (dl_shape _ _ HD t Ht) as [(a' & b' & c' & -> & Ha & Hb & Hc & _)|(a' & b' & -> & Ha & Hb & _)]; inversion Hz; subst; try assumption. discriminate Gz. }
        split; apply Q; auto; apply not_true_iff_false; intros E; apply Hng; auto. }
      destruct Hc as [Ha Hb]. unfold new_triangle, flip, ev1, ev2. cbn [fst snd]. rewrite (G a Ha), (G b Hb). apply may_solid; auto.
    Qed.
    Lemma solve_halts : forall p t0, In t0 (tris tr) -> encircles t0 v = Inside -> accepted H v bd [] t0 -> halts (fun n => solve_conflicts H n p tr [(t0, [v])] [] K bd []).
    Proof.
      intros p t0 Ht He Ha. set (s0 := SS (rem_tri t0 tr) [] [] [] (hadd tdec t0 [])).
      destruct (insert_shape H S tr v HD HR Hv t0 s0 (3 + 2 * length (tris tr))%nat (2%nat :: p) Ht He eq_refl ltac:(lia)) as (s' & Hc' & _).
      exists s'. exact (single_ends H tr v K bd [] (dl_sound _ _ HD) (dl_complete _ _ HD) (fresh_corner S tr v HD HR Hv) (rs_plain _ HR v (or_introl eq_refl)) HK
        (fun t a b _ _ _ _ => own_circle a b v) (fun p q => eq_trans (ho_nil H p _) (eq_sym (ho_nil H q _))) Hyes Hbar old_may new_may p t0 s' _ Ht Ha Hc').
    Qed.
    Lemma distribute_halts : forall p t cm, In t (tris tr) -> halts (fun n => distribute_conflicts H n p t cm [v] bd []).
    Proof.
      intros p t cm Ht. unfold distribute_conflicts. cbn [split_conflicts]. apply halts_bind; [|intros [c r] _; apply halts_const]. apply halts_bind; [exact (old_may _ _ Ht)|]. intros m _.
      cbn [bind]. destruct (cont_eqb (encircles t v) Inside && m); apply halts_const.
    Qed.
    Lemma distribute_nil : forall n p t cm, distribute_conflicts H n p t cm [] bd [] = Ok (cm, []).
    Proof. intros. unfold distribute_conflicts. reflexivity. Qed.
    Lemma distribute_all_halts : forall ts p cm, (forall t, In t ts -> In t (tris tr)) -> halts (fun n => distribute_all H n p ts cm [v] bd []).
    Proof.
      induction ts as [|t ts IH]; intros p cm Hts; cbn [distribute_all]; [apply halts_const|]. apply halts_bind; [apply distribute_halts, Hts; left; reflexivity|].
      intros [cm' vs'] He. assert (Hvs : vs' = [v] \/ vs' = []).
      { destruct (ends_at _ _ _ He) as (n & Hn). unfold distribute_conflicts in Hn. cbn [split_conflicts] in Hn. apply bind_ok in Hn. destruct Hn as ([c r] & Hn & E). injection E as _ <-.
        apply bind_ok in Hn. destruct Hn as (m & _ & Hn). cbn [bind] in Hn. destruct (_ && m); injection Hn as _ <-; auto. }
      destruct Hvs as [-> | ->]; [apply IH; intros t' Ht'; apply Hts; right; exact Ht'|]. apply (halts_ext _ (fun _ => Ok (cm', []))); [apply halts_const|]. intros n. destruct ts; reflexivity.
    Qed.
    Lemma include_halts : forall p, (exists t, In t (tris tr) /\ encircles t v = Inside) -> halts (fun n => vertices_include H n p tr [v] K bd []).
    Proof.
      intros p (t1 & Ht1 & He1). unfold vertices_include. cbn [filter].
      assert (Em : hmem vdec v (trn_vertices tr) = false).
      { apply hmem_false. intros Hm. apply Hv. apply (delaunay_points S tr HD); [intros w Hw; apply (rs_plain _ HR); right; exact Hw|exact Hm]. }
      rewrite Em. cbn [negb]. apply halts_bind; [apply distribute_all_halts; intros t Ht; apply ho_In in Ht; exact Ht|]. intros [cm rem] Hd. destruct (ends_at _ _ _ Hd) as (n & Hn).
      destruct (distribute_single H tr v bd Hyes _ _ _ _ _ Hn) as [(_ & _ & Hno)|(t0 & -> & -> & Ht0 & He0 & Ha)].
      - intros t Ht. apply ho_In in Ht. exact Ht.
      - exfalso. apply (Hno t1); [apply ho_In; exact Ht1|exact He1].
      - apply halts_bind; [apply (solve_halts _ t0 Ht0 He0 Ha)|]. intros s _. apply halts_const.
    Qed.
    Lemma flood_halts : forall p t, In t (tris tr) -> encircles t v = Inside -> halts (fun n => flood_distribute H n p tr [t] [t] [] [v] bd []).
    Proof.
      intros p t Ht He. destruct (visit_neighbours tr (outer_edges t) [t] []) as [vis pen] eqn:Ev.
      eapply halts_next; cycle 1; [intros n; cbn [flood_distribute]; rewrite Ev; reflexivity|].
      apply halts_bind; [apply distribute_halts, Ht|]. intros [cm' vs'] Hd. destruct (ends_at _ _ _ Hd) as (n & Hn).
      assert (Ec : is_conflicting t v = true) by (unfold is_conflicting; rewrite He; reflexivity).
      unfold distribute_conflicts in Hn. cbn [split_conflicts] in Hn. apply bind_ok in Hn. destruct Hn as ([c r] & Hn & E). injection E as _ <-. apply bind_ok in Hn. destruct Hn as (m & Hm & Hn).
      rewrite (Hyes t _ _ _ Ht Ec Hm), He in Hn. cbn in Hn. injection Hn as _ <-.
      apply (halts_next _ (fun _ => Ok (cm', []))); [apply halts_const|]. intros i. cbn [flood_distribute]. destruct pen; reflexivity.
    Qed.
  End Insert.

  (** ** The steps *)
  Lemma split_halts : forall S (tr : mesh) s K p,
    framed l S tr -> resolved (edge_midpoint s :: S) -> piece l S s -> placed l (edge_midpoint s) -> (forall e, In e K -> along l S e) ->
    halts (fun n => split_segment H n p tr s K bd []).
  Proof.
    intros S tr s K p HF HR Hs Hw HK. unfold split_segment. apply halts_bind; [|intros r _; apply halts_const].
    set (K' := filter _ K). assert (HK' : forall e, In e K' -> along l S e) by (intros e He; apply filter_In in He; apply HK, He).
    assert (N1 : ~ In s K').
    { intros Hin. apply filter_In in Hin. destruct Hin as [_ E]. unfold eeqb in E. rewrite !veqb_refl in E. discriminate. }
    assert (N2 : ~ In (flip s) K').
    { intros Hin. apply filter_In in Hin. destruct Hin as [_ E]. rewrite (opposite_flip s) in E. unfold eeqb in E. rewrite !veqb_refl, andb_false_r in E. discriminate. }
    apply (include_halts S tr (edge_midpoint s) K' HF HR).
    - exact (mid_fresh l S s HR Hs).
    - exact Hw.
    - intros e He. destruct (HK' e He) as (Ha & Hb & _). split; apply (rs_plain _ HR); right; assumption.
    - intros t f q m. apply (mid_yes l HC S tr s HF HR Hs Hw H).
    - apply (mid_bar l S tr s HF HR Hs Hw K' HK' N1 N2).
    - apply (mid_hit l HC S tr s HF HR Hs).
  Qed.
  Lemma foldM_halts : forall {X Y} (f : Y -> X -> res Y) L acc, (forall acc x, In x L -> exists y, f acc x = Ok y) -> exists y, foldM f acc L = Ok y.
  Proof.
    intros X0 Y0 f L. induction L as [|x L IH]; intros acc Hf; cbn [foldM]; [eauto|]. destruct (Hf acc x (or_introl eq_refl)) as (y & ->). cbn [bind]. apply IH. intros acc' x' Hx. apply Hf. right. exact Hx.
  Qed.
  Lemma try_halts : forall S (tr : mesh) t o K p,
    framed l S tr -> resolved (o :: S) -> In t (tris tr) -> is_ghost t = false -> tri_circumcenter t = Some o -> deep l o -> (forall e, In e K -> along l S e) ->
    halts (fun n => try_circumcenter H n p tr t K bd []).
  Proof.
    intros S tr t o K p HF HR Ht Hg Ho Hd HK. pose proof (fr_delaunay _ _ _ HF) as HD.
    assert (HRS : resolved S) by (apply (resolved_incl (o :: S)); [exact HR|]; intros z Hz; right; exact Hz).
    destruct (centre_facts S tr t o HD HR Ht Hg Ho) as [Hn Hc].
    assert (HKp : forall e, In e K -> vghost (fst e) = false /\ vghost (snd e) = false) by (intros e He; destruct (HK e He) as (Ha & Hb & _); split; apply (rs_plain _ HRS); assumption).
    assert (Hyes : forall t0 f q m, In t0 (tris tr) -> is_conflicting t0 o = true -> may_insert_triangle H f q t0 o bd [] = Ok m -> m = true) by (intros t0 f q m; apply (inner_yes l HC S tr o HF HR Hn H Hd)).
    pose proof (inner_bar l HC S tr o HF HR Hn K Hd HK) as Hbar. pose proof (deep_placed l o Hd) as Hp.
    unfold try_circumcenter. rewrite Ho. cbn [unwrap bind]. unfold distribute_over_triangulation. apply halts_bind; [apply (flood_halts S tr o HF HR Hp Hyes _ t Ht Hc)|]. intros [cm rest] Hfl.
    destruct (ends_at _ _ _ Hfl) as (n & Hfn). destruct (flood_first H S tr t o bd HD HR Ht Hg Ho Hyes _ _ _ _ Hfn) as [-> Hacc].
    apply halts_bind; [apply (solve_halts S tr o K HF HR Hn Hp HKp Hyes Hbar _ t Ht Hc Hacc)|]. intros s Hsv. destruct (ends_at _ _ _ Hsv) as (n' & Hsn).
    pose proof (insert_effect H S tr o K bd HD HR Hn HKp Hyes Hbar _ _ t s Ht Hc Hacc Hsn) as (_ & Hx & Hinc & _).
    destruct (foldM_halts (fun acc t' => let! e := unwrap (opposite_edge t' o) in Ok (acc ++ [e])) (ss_inc s) []) as (opp & Eo).
    - intros acc x Hi. apply Hinc in Hi. destruct Hi as [Hi Hni]. apply Hx in Hi. destruct Hi as [[Hi _]|(e & He & ->)]; [contradiction|].
      rewrite (border_opposite S tr t o HD HR Ht Hg Ho e He). cbn [unwrap bind]. eauto.
    - rewrite Eo. cbn [bind]. destruct (hset edec _); apply halts_const.
  Qed.
  Lemma queues_halts : forall (prm : refine_params ArithR) q inc del, exists q', update_queues prm q inc del = Ok q'.
  Proof.
    intros prm q inc del. unfold update_queues. destruct (foldM_halts (enqueue prm) inc q) as ([i r] & E); [|rewrite E; cbn [bind]; eauto].
    intros [irr lrg] x _. unfold enqueue. destruct (is_ghost x) eqn:Hg; [eauto|]. destruct (grade_safe prm x Hg) as [S1 S2].
    destruct (is_irregular prm x) as [b| |] eqn:E1; [|contradiction|exfalso]; [cbn [bind]|].
    - destruct b; [eauto|]. destruct (is_large prm x) as [b| |] eqn:E2; [|contradiction|exfalso]; [cbn [bind]; destruct b; eauto|].
      unfold is_large in E2. destruct (tri_area x); discriminate.
    - unfold is_irregular in E1. destruct (quality x); discriminate.
  Qed.
End Halts.
