(** P_E9.v — refining a convex polygon never panics. *)

From Coq Require Import Reals List ZArith Lra Lia Psatz Bool Permutation.
From Verif Require Import Base Arith Geometry Elements Polyline Procedures Refine Triangulator ArithR Spec SpecM SpecR SpecD SpecP SpecC SpecE
  P_Base P_Trn P_Fuel P_Poly P_Vertices P_Cavity P_Refine P_Worked P_R1 P_R2 P_R3 P_R5 P_R6 P_RX P_D1 P_D2 P_D3 P_D4 P_D5 P_D6 P_D7 P_Fill P_Fill2 P_Region P_C1 P_C2 P_C3 P_C4 P_C5 P_C6 P_C7 P_C8 P_C9 P_E1 P_E2 P_E3 P_E4 P_E5 P_E6 P_E7 P_E8.
Import ListNotations.
Local Open Scope R_scope.

Lemma bind_safe : forall {X Y} (e : res X) (k : X -> res Y), e <> Panic -> (forall x, e = Ok x -> k x <> Panic) -> bind e k <> Panic.
Proof. intros X Y e k He Hk. destruct e; cbn [bind]; [apply Hk; reflexivity|contradiction|discriminate]. Qed.
Lemma foldM_safe : forall {X Y} (f : Y -> X -> res Y) l acc, (forall acc x, In x l -> f acc x <> Panic) -> foldM f acc l <> Panic.
Proof.
  intros X Y f l. induction l as [|x l IH]; intros acc Hf; cbn [foldM]; [discriminate|]. apply bind_safe; [apply Hf; left; reflexivity|].
  intros y _. apply IH. intros acc' x' Hx. apply Hf. right. exact Hx.
Qed.
Lemma filterM_safe : forall {X} (f : X -> res bool) l, (forall x, In x l -> f x <> Panic) -> filterM f l <> Panic.
Proof.
  intros X f l. induction l as [|x l IH]; intros Hf; cbn [filterM]; [discriminate|]. apply bind_safe; [apply Hf; left; reflexivity|].
  intros b _. apply bind_safe; [apply IH; intros y Hy; apply Hf; right; exact Hy|]. intros r _. discriminate.
Qed.

(** ** The boundary test *)
Lemma may_safe : forall (H : HashOrder) l, (3 <= length l)%nat -> forall fuel p t w, may_insert_triangle H fuel p t w (Some (Poly (A:=ArithR) l false)) [] <> Panic.
Proof.
  intros H l Hl fuel p t w. unfold may_insert_triangle.
  assert (Hp : proper (Poly (A:=ArithR) l false)).
  { left. unfold new_closed. cbn [pverts]. destruct l as [|a [|b [|c l]]]; try (cbn in Hl; lia). reflexivity. }
  assert (H2 : exists p2, may_insert_line t w = Ok p2 /\ proper p2).
  { unfold may_insert_line. destruct (is_ghost t); cbn; (eexists; split; [reflexivity|]); [left|right]; reflexivity. }
  destruct H2 as (p2 & -> & Hp2). cbn [bind inside_boundary]. apply bind_safe.
  - apply bind_safe; [apply poly_continence_no_panic; assumption|]. intros o _. discriminate.
  - intros i _. unfold outside_holes. rewrite ho_nil. cbn [foldM bind]. discriminate.
Qed.

Section Insert.
  Variables (H : HashOrder) (S : list pnt) (tr : mesh) (v : pnt) (K : list (edge ArithR)) (l : list pnt).
  Let bd := Some (Poly (A:=ArithR) l false).
  Hypothesis Hl : (3 <= length l)%nat.
  Hypothesis HD : delaunay S tr.
  Hypothesis HR : resolved (v :: S).
  Hypothesis Hv : ~ In v S.
  Hypothesis HK : forall e, In e K -> vghost (fst e) = false /\ vghost (snd e) = false.
  Hypothesis Hyes : forall t fuel p m, In t (tris tr) -> is_conflicting t v = true -> may_insert_triangle H fuel p t v bd [] = Ok m -> m = true.
  Hypothesis Hbar : forall t u e, In t (tris tr) -> In u (tris tr) -> is_conflicting t v = true -> is_conflicting u v = true ->
    side_of e t -> side_of (flip e) u -> is_constrained K e = false.

  Lemma solve_safe : forall fuel p t0, In t0 (tris tr) -> encircles t0 v = Inside -> accepted H v bd [] t0 ->
    solve_conflicts H fuel p tr [(t0, [v])] [] K bd [] <> Panic.
  Proof.
    intros fuel p t0 Ht He Ha. set (s0 := SS (rem_tri t0 tr) [] [] [] (hadd tdec t0 [])).
    destruct (insert_shape H S tr v HD HR Hv t0 s0 (3 + 2 * length (tris tr))%nat (2%nat :: p) Ht He eq_refl ltac:(lia)) as (s' & Hc' & _).
    apply (single_safe H tr v K bd [] (dl_sound _ _ HD) (dl_complete _ _ HD) (fresh_corner S tr v HD HR Hv) (rs_plain _ HR v (or_introl eq_refl)) HK
      (fun t a b _ _ _ _ => own_circle a b v) (fun p q => eq_trans (ho_nil H p _) (eq_sym (ho_nil H q _))) Hyes Hbar (fun f q t => may_safe H l Hl f q t v) fuel p t0 s' _ Ht Ha Hc').
  Qed.
  Lemma distribute_safe : forall fuel p t cm vs, distribute_conflicts H fuel p t cm vs bd [] <> Panic.
  Proof.
    intros fuel p t cm vs. unfold distribute_conflicts. apply bind_safe; [|intros [c r] _; discriminate].
    revert p. induction vs as [|w vs IH]; intros p; cbn [split_conflicts]; [discriminate|]. apply bind_safe; [apply may_safe, Hl|]. intros m _. apply bind_safe; [apply IH|]. intros [c r] _. discriminate.
  Qed.
  Lemma distribute_all_safe : forall fuel ts p cm vs, distribute_all H fuel p ts cm vs bd [] <> Panic.
  Proof.
    intros fuel ts. induction ts as [|t ts IH]; intros p cm vs; cbn [distribute_all]; [discriminate|]. destruct vs; [discriminate|].
    apply bind_safe; [apply distribute_safe|]. intros [c r] _. apply IH.
  Qed.
  Lemma flood_safe : forall fuel p vis pen cm vs, flood_distribute H fuel p tr vis pen cm vs bd [] <> Panic.
  Proof.
    intros fuel. induction fuel as [|fuel IH]; intros p vis pen cm vs; cbn [flood_distribute]; [discriminate|].
    destruct pen as [|t pen]; [discriminate|]. destruct vs as [|w vs]; [discriminate|]. destruct (visit_neighbours _ _ _ _) as [vis' pen'].
    apply bind_safe; [apply distribute_safe|]. intros [c r] _. apply IH.
  Qed.

  Lemma include_safe : forall fuel p, (exists t, In t (tris tr) /\ encircles t v = Inside) -> vertices_include H fuel p tr [v] K bd [] <> Panic.
  Proof.
    intros fuel p (t1 & Ht1 & He1). unfold vertices_include. cbn [filter].
    assert (Em : hmem vdec v (trn_vertices tr) = false).
    { apply hmem_false. intros Hm. apply Hv. apply (delaunay_points S tr HD); [intros w Hw; apply (rs_plain _ HR); right; exact Hw|exact Hm]. }
    rewrite Em. cbn [negb]. apply bind_safe; [apply distribute_all_safe|]. intros [cm rem] Hd.
    destruct (distribute_single H tr v bd Hyes _ _ _ _ _ Hd) as [(_ & _ & Hno)|(t0 & -> & -> & Ht0 & He0 & Ha)].
    - intros t Ht. apply ho_In in Ht. exact Ht.
    - exfalso. apply (Hno t1); [apply ho_In; exact Ht1|exact He1].
    - apply bind_safe; [apply (solve_safe _ _ t0 Ht0 He0 Ha)|]. intros s _. discriminate.
  Qed.
End Insert.

(** ** The steps *)
Section Steps.
  Variables (l : list pnt) (H : HashOrder) (prm : refine_params ArithR).
  Hypothesis HC : convex_polygon l.
  Let bd := Some (Poly (A:=ArithR) l false).

  Lemma split_safe : forall S (tr : mesh) s K fuel p,
    framed l S tr -> resolved (edge_midpoint s :: S) -> piece l S s -> placed l (edge_midpoint s) -> (forall e, In e K -> along l S e) ->
    split_segment H fuel p tr s K bd [] <> Panic.
  Proof.
    intros S tr s K fuel p HF HR Hs Hw HK. unfold split_segment. apply bind_safe; [|intros r _; discriminate].
    set (K' := filter _ K). assert (HK' : forall e, In e K' -> along l S e) by (intros e He; apply filter_In in He; apply HK, He).
    assert (N1 : ~ In s K').
    { intros Hin. apply filter_In in Hin. destruct Hin as [_ E]. unfold eeqb in E. rewrite !veqb_refl in E. discriminate. }
    assert (N2 : ~ In (flip s) K').
    { intros Hin. apply filter_In in Hin. destruct Hin as [_ E]. rewrite (opposite_flip s) in E. unfold eeqb in E. rewrite !veqb_refl, andb_false_r in E. discriminate. }
    apply (include_safe H S tr (edge_midpoint s) K' l (cp_three _ HC)).
    - exact (fr_delaunay _ _ _ HF).
    - exact HR.
    - exact (mid_fresh l S s HR Hs).
    - intros e He. destruct (HK' e He) as (Ha & Hb & _). split; apply (rs_plain _ HR); right; assumption.
    - intros t f q m. apply (mid_yes l HC S tr s HF HR Hs Hw H).
    - apply (mid_bar l S tr s HF HR Hs Hw K' HK' N1 N2).
    - apply (mid_hit l HC S tr s HF HR Hs).
  Qed.

  Lemma circumcenter_some : forall S (tr : mesh) t, framed l S tr -> resolved S -> In t (tris tr) -> is_ghost t = false -> exists o, tri_circumcenter t = Some o.
  Proof.
    intros S tr t HF HR Ht Hg. destruct (dl_shape _ _ (fr_delaunay _ _ _ HF) t Ht) as [(a & b & c & -> & Ha & Hb & Hc & P)|(a & b & -> & _)].
    - unfold tri_circumcenter. rewrite Hg. cbn [tv1 tv2 tv3]. destruct (circumcenter_spec a b c) as [_ Hcc]. destruct Hcc as (o & Ho & _); [lra|]. exists o. exact Ho.
    - unfold is_ghost in Hg. cbn in Hg. rewrite !orb_true_r in Hg. discriminate.
  Qed.

  Lemma try_safe : forall S (tr : mesh) t o K fuel p,
    framed l S tr -> resolved (o :: S) -> In t (tris tr) -> is_ghost t = false -> tri_circumcenter t = Some o -> deep l o -> (forall e, In e K -> along l S e) ->
    try_circumcenter H fuel p tr t K bd [] <> Panic.
  Proof.
    intros S tr t o K fuel p HF HR Ht Hg Ho Hd HK. pose proof (fr_delaunay _ _ _ HF) as HD.
    assert (HRS : resolved S) by (apply (resolved_incl (o :: S)); [exact HR|]; intros z Hz; right; exact Hz).
    destruct (centre_facts S tr t o HD HR Ht Hg Ho) as [Hn Hc].
    assert (HKp : forall e, In e K -> vghost (fst e) = false /\ vghost (snd e) = false) by (intros e He; destruct (HK e He) as (Ha & Hb & _); split; apply (rs_plain _ HRS); assumption).
    assert (Hyes : forall t0 f q m, In t0 (tris tr) -> is_conflicting t0 o = true -> may_insert_triangle H f q t0 o bd [] = Ok m -> m = true) by (intros t0 f q m; apply (inner_yes l HC S tr o HF HR Hn H Hd)).
    pose proof (inner_bar l HC S tr o HF HR Hn K Hd HK) as Hbar.
    unfold try_circumcenter. rewrite Ho. cbn [unwrap bind]. apply bind_safe; [apply flood_safe, (cp_three _ HC)|]. intros [cm rest] Hfl.
    destruct (flood_first H S tr t o bd HD HR Ht Hg Ho Hyes _ _ _ _ Hfl) as [-> Hacc].
    apply bind_safe; [apply (solve_safe H S tr o K l (cp_three _ HC) HD HR Hn HKp Hyes Hbar _ _ t Ht Hc Hacc)|]. intros s Hsv.
    pose proof (insert_effect H S tr o K bd HD HR Hn HKp Hyes Hbar _ _ t s Ht Hc Hacc Hsv) as (_ & Hx & Hinc & _).
    apply bind_safe.
    - apply foldM_safe. intros acc x Hi. apply Hinc in Hi. destruct Hi as [Hi Hni]. apply Hx in Hi. destruct Hi as [[Hi _]|(e & He & ->)]; [contradiction|].
      rewrite (border_opposite S tr t o HD HR Ht Hg Ho e He). cbn [unwrap bind]. discriminate.
    - intros opp _. destruct (hset edec _); discriminate.
  Qed.

  Lemma grade_safe : forall t, is_ghost t = false -> is_irregular prm t <> Panic /\ is_large prm t <> Panic.
  Proof.
    intros t Hg. unfold is_irregular, is_large, quality, tri_area. rewrite Hg. split; [|discriminate].
    destruct (fle _ _ && fle _ _); [discriminate|]. destruct (fle _ _); discriminate.
  Qed.
  Lemma queues_safe : forall q inc del, update_queues prm q inc del <> Panic.
  Proof.
    intros q inc del. unfold update_queues. apply bind_safe; [|intros [i r] _; discriminate]. apply foldM_safe. intros [irr lrg] x _. unfold enqueue.
    destruct (is_ghost x) eqn:Hg; [discriminate|]. destruct (grade_safe x Hg) as [S1 S2]. apply bind_safe; [exact S1|]. intros i _. destruct i; [discriminate|].
    apply bind_safe; [exact S2|]. intros b _. destruct b; discriminate.
  Qed.

  (** ** The loops *)
  Lemma loop_safe : forall fuel p K pending others tr vs ne inc del S,
    stage l S tr (pending ++ ne ++ others) -> (forall e, In e K -> along l S e) ->
    (forall a, In a (loop_attempts H bd [] fuel p K pending tr vs) -> sound_attempt l a) ->
    unencroach_loop H fuel p K bd [] pending tr vs ne inc del <> Panic.
  Proof.
    intros fuel. induction fuel as [|fuel IH]; intros p K pending others tr vs ne inc del S (HF & HR & HX) HK Hat; cbn [unencroach_loop]; [discriminate|].
    destruct pending as [|s pending]; [discriminate|]. cbn [loop_attempts] in Hat.
    destruct (Hat _ (or_introl eq_refl)) as [HRm HPm]. apply (points_resolved S tr _ (fr_delaunay _ _ _ HF) HR) in HRm.
    change ((s :: pending) ++ ne ++ others) with (s :: (pending ++ ne ++ others)) in HX.
    assert (Hs : piece l S s) by (apply (proj2 HX); left; reflexivity).
    apply bind_safe; [apply (split_safe S); assumption|]. intros [[h1 h2] [[tr1 new] old]] Hsp. rewrite Hsp in Hat.
    destruct (split_step l HC H S tr s K fuel (1%nat :: p) h1 h2 tr1 new old HF HRm Hs HPm HK Hsp) as (E1 & E2 & HE & HF1).
    pose proof (exact_cut l HC S s (pending ++ ne ++ others) HRm HX) as HX1. rewrite <- E1, <- E2 in HX1.
    assert (HK1 : forall e, In e K -> along l (edge_midpoint s :: S) e) by (intros e He; apply (along_incl l S); [intros z Hz; right; exact Hz|apply HK, He]).
    set (b1 := existsb (fun v => cont_eqb (edge_encroach h1 v) Inside) vs) in *.
    set (b2 := existsb (fun v => cont_eqb (edge_encroach h2 v) Inside) vs) in *.
    set (ne1 := if b1 then ne else hadd edec h1 ne) in *. set (pe1 := if b1 then h1 :: pending else pending) in *.
    pose proof HX1 as [Hnd _]. rewrite !NoDup_cons_iff in Hnd. cbn [In] in Hnd. rewrite !in_app_iff in Hnd. destruct Hnd as (Q2 & Q1 & _).
    assert (P1 : Permutation (h1 :: pending ++ ne ++ others) (pe1 ++ ne1 ++ others)).
    { unfold pe1, ne1. destruct b1; [reflexivity|]. rewrite (hadd_perm h1 ne) by tauto. apply Permutation_cons_app. reflexivity. }
    assert (N2 : ~ In h2 ne1) by (unfold ne1; destruct b1; [tauto|]; rewrite hadd_In; intros [E|E]; [apply Q2; left; symmetry; exact E|tauto]).
    assert (P2 : Permutation (h2 :: h1 :: pending ++ ne ++ others) ((if b2 then h2 :: pe1 else pe1) ++ (if b2 then ne1 else hadd edec h2 ne1) ++ others)).
    { rewrite P1. destruct b2; [reflexivity|]. rewrite (hadd_perm h2 ne1 N2). apply Permutation_cons_app. reflexivity. }
    apply (exact_perm l _ _ _ P2) in HX1.
    exact (IH _ _ _ _ _ _ _ _ _ _ (conj HF1 (conj HRm HX1)) HK1 (fun a Ha => Hat a (or_intror Ha))).
  Qed.
  Lemma segment_safe : forall fuel p K e others tr vs S, stage l S tr (e :: others) -> (forall e, In e K -> along l S e) ->
    (forall a, In a (segment_attempts H bd [] fuel p tr e vs K) -> sound_attempt l a) -> unencroach_segment H fuel p tr e vs K bd [] <> Panic.
  Proof. intros fuel p K e others tr vs S HS HK Hat. exact (loop_safe fuel p K [e] others tr vs [] [] [] S HS HK Hat). Qed.

  Lemma all_safe : forall fuel p K em tr sm inc del S R,
    stage l S tr (map fst em ++ R) -> NoDup (map fst em) -> (forall e, In e K -> along l S e) ->
    (forall a, In a (all_attempts H bd [] fuel p K em tr) -> sound_attempt l a) ->
    unencroach_all H fuel p K bd [] em tr sm inc del <> Panic.
  Proof.
    intros fuel. induction fuel as [|fuel IH]; intros p K em tr sm inc del S R HS Hn HK Hat; cbn [unencroach_all]; [discriminate|].
    cbn [all_attempts] in Hat. pose proof (ho_In H (1%nat :: p) _ (map fst em)) as HI. destruct (ho H (1%nat :: p) _ (map fst em)) as [|e es]; [discriminate|].
    assert (Hk : In e (map fst em)) by (apply HI; left; reflexivity). destruct (mget edec e em) as [vs|] eqn:Eg; [|exfalso; apply (mget_None edec em e) in Eg; contradiction]. cbn [unwrap bind].
    destruct HS as (HF & HR & HX).
    assert (HX1 : exact_parts l S (e :: map fst (mdel edec e em) ++ R)).
    { apply (exact_perm l _ (map fst em ++ R)); [|exact HX]. rewrite (mdel_perm _ em e Hn Hk) at 1. reflexivity. }
    apply bind_safe; [apply (segment_safe _ _ _ _ _ _ _ _ (conj HF (conj HR HX1)) HK (fun a Ha => Hat a (in_or_app _ _ _ (or_introl Ha))))|].
    intros [[[[tr1 vs1] ne] new] old] Hseg. rewrite Hseg in Hat.
    destruct (segment_stage l H HC _ _ _ _ _ _ _ _ _ _ _ _ _ (conj HF (conj HR HX1)) HK (fun a Ha => Hat a (in_or_app _ _ _ (or_introl Ha))) Hseg) as (S1 & HS1 & Hin1 & _ & Hne).
    assert (P : Permutation (ne ++ map fst (mdel edec e em) ++ R) (map fst (mdel edec e em) ++ (ne ++ R))).
    { rewrite !app_assoc. apply Permutation_app_tail, Permutation_app_comm. }
    destruct HS1 as (HF1 & HR1 & HX2). apply (exact_perm l _ _ _ P) in HX2.
    apply (IH (0%nat :: p) K _ tr1 _ _ _ S1 (ne ++ R) (conj HF1 (conj HR1 HX2)) (mdel_NoDup edec em e Hn)
        (fun x Hx => along_incl l S S1 x Hin1 (HK x Hx)) (fun a Ha => Hat a (in_or_app _ _ _ (or_intror Ha)))).
  Qed.

  Lemma unencroach_safe : forall fuel p K tr S, stage l S tr K -> (forall a, In a (unencroach_attempts H bd [] fuel p tr K) -> sound_attempt l a) ->
    unencroach H fuel p tr K bd [] <> Panic.
  Proof.
    intros fuel p K tr S (HF & HR & HX) Hat. unfold unencroach. unfold unencroach_attempts in Hat.
    set (em := distribute_encroachments K (trn_vertices tr) []) in *. destruct (distribute_keys K (trn_vertices tr) [] (NoDup_nil _)) as [Hnd Hsub]. fold em in Hnd, Hsub.
    set (R := filter (fun e => negb (hmem edec e (map fst em))) K).
    assert (HRi : forall e, In e R <-> In e K /\ ~ In e (map fst em)) by (intros e; unfold R; rewrite filter_In, negb_true_iff, hmem_false; reflexivity).
    assert (P : Permutation K (map fst em ++ R)).
    { apply NoDup_Permutation; [apply HX| |].
      - assert (HRn : NoDup R) by apply NoDup_filter, HX. assert (Hdis : forall e, In e (map fst em) -> ~ In e R) by (intros e He Hi; apply HRi in Hi; tauto).
        revert Hnd Hdis HRn. generalize (map fst em). clear. intros ks. induction ks as [|k ks IH]; cbn; [auto|]. intros Hn Hd HRn. apply NoDup_cons_iff in Hn. destruct Hn as [Hk Hn].
        constructor; [rewrite in_app_iff; intros [Q|Q]; [contradiction|exact (Hd k (or_introl eq_refl) Q)]|]. apply IH; auto.
      - intros e. rewrite in_app_iff, HRi. split; [|intros [Q|Q]; [destruct (Hsub e Q) as [[]|Q']; exact Q'|tauto]].
        intros Q. destruct (in_dec edec e (map fst em)); auto. }
    assert (HKa : forall e, In e K -> along l S e) by (intros e He; apply (pc_along _ _ _ (proj1 (proj1 (proj2 HX e) He)))).
    exact (all_safe _ _ _ _ _ _ _ _ S R (conj HF (conj HR (exact_perm l _ _ _ P HX))) Hnd HKa Hat).
  Qed.

  Lemma enc_safe : forall fuel es p tr vs cstr sm q S, stage l S tr cstr -> NoDup es -> (forall e, In e es -> In e cstr) ->
    (forall a, In a (enc_attempts H bd [] fuel p prm es (tr, vs, cstr, sm, q)) -> sound_attempt l a) ->
    split_encroached_all H fuel p prm bd [] es (tr, vs, cstr, sm, q) <> Panic.
  Proof.
    intros fuel es. induction es as [|e es IH]; intros p tr vs cstr sm q S HS Hn Hi Hat; cbn [split_encroached_all]; [discriminate|]. cbn [enc_attempts] in Hat.
    apply NoDup_cons_iff in Hn. destruct Hn as [Hne Hn]. pose proof HS as (HF & HR & HX).
    assert (HX1 : exact_parts l S (e :: hdel edec e cstr)).
    { apply (exact_perm l S cstr); [|exact HX]. apply NoDup_Permutation; [apply HX| |].
      - constructor; [rewrite hdel_In; tauto|apply hdel_NoDup, HX].
      - intros x. cbn [In]. rewrite hdel_In. destruct (edec x e) as [->|N]; [|intuition congruence]. split; [auto|]. intros _. apply Hi. left. reflexivity. }
    apply bind_safe.
    - unfold split_encroached. apply bind_safe.
      + exact (segment_safe _ _ _ _ _ _ _ S (conj HF (conj HR HX1)) (stage_along l S tr cstr HS) (fun a Ha => Hat a (in_or_app _ _ _ (or_introl Ha)))).
      + intros [[[[tr2 vs2] ne] inc] del] _. apply bind_safe; [apply queues_safe|]. intros q' _. discriminate.
    - intros [[[[tr1 vs1] cs1] sm1] q1] H1. rewrite H1 in Hat.
      unfold split_encroached in H1. apply bind_ok in H1. destruct H1 as ([[[[tr2 vs2] ne] inc] del] & Hseg & H1). apply bind_ok in H1. destruct H1 as (q2 & Hq & H1). injection H1 as E1 E2 E3 E4 E5.
      subst tr2 vs2 sm1 q2.
      destruct (segment_stage l H HC _ _ _ _ _ _ _ S _ _ _ _ _ (conj HF (conj HR HX1)) (stage_along l S tr cstr HS) (fun a Ha => Hat a (in_or_app _ _ _ (or_introl Ha))) Hseg)
        as (S1 & (HF1 & HR1 & HX2) & Hin1 & HT & _).
      assert (HX3 : exact_parts l S1 cs1).
      { subst cs1. split; [apply fold_hadd_NoDup, hdel_NoDup, HX|]. intros x. rewrite fold_hadd_In, <- (proj2 HX2 x), in_app_iff. tauto. }
      assert (Hi1 : forall x, In x es -> In x cs1).
      { intros x Hx. subst cs1. apply fold_hadd_In. left. apply hdel_In. split; [apply Hi; right; exact Hx|]. intros ->. contradiction. }
      exact (IH _ _ _ _ _ _ S1 (conj HF1 (conj HR1 HX3)) Hn Hi1 (fun a Ha => Hat a (in_or_app _ _ _ (or_intror Ha)))).
  Qed.

  Lemma irregular_loop_safe : forall fuel p tr cstr sm irr lrg S, stage l S tr cstr -> queues prm tr (irr, lrg) (fun _ => True) ->
    (forall a, In a (split_attempts H bd [] fuel p prm tr cstr sm irr lrg) -> sound_attempt l a) ->
    split_loop_irregular H fuel p prm bd [] tr cstr sm irr lrg <> Panic.
  Proof.
    intros fuel. induction fuel as [|fuel IH]; intros p tr cstr sm irr lrg S HS HQ Hat; cbn [split_loop_irregular]; [discriminate|].
    cbn [split_attempts] in *.
    set (next := match ho H (1%nat :: p) _ irr with
          | t :: _ => Some (t, hdel tdec t irr, lrg)
          | [] => match ho H (2%nat :: p) _ lrg with t :: _ => Some (t, irr, hdel tdec t lrg) | [] => None end end) in *.
    assert (Hnext : match next with
      | None => True
      | Some (t, irr', lrg') => waits (irr, lrg) t /\ (forall x, waits (irr', lrg') x -> waits (irr, lrg) x) end).
    { unfold next, waits. cbn [fst snd]. pose proof (ho_In H (1%nat :: p) _ irr) as I1. pose proof (ho_In H (2%nat :: p) _ lrg) as I2.
      destruct (ho H (1%nat :: p) _ irr) as [|t ts].
      - destruct (ho H (2%nat :: p) _ lrg) as [|t ts]; [exact Logic.I|].
        split; [right; apply I2; left; reflexivity|]. intros x; rewrite hdel_In; tauto.
      - split; [left; apply I1; left; reflexivity|]. intros x; rewrite hdel_In; tauto. }
    destruct next as [[[t irr'] lrg']|]; [|discriminate].
    destruct Hnext as (Hw & Hsub). destruct (qu_in _ _ _ _ HQ t Hw) as [Ht Hg]. pose proof HS as (HF & HR & HX).
    destruct (circumcenter_some S tr t HF HR Ht Hg) as (o & Eo). rewrite Eo in *.
    destruct (Hat _ (or_introl eq_refl) o Eo) as [HRo Hd]. apply (points_resolved S tr _ (fr_delaunay _ _ _ HF) HR) in HRo.
    destruct (centre_facts S tr t o (fr_delaunay _ _ _ HF) HRo Ht Hg Eo) as [Hno _].
    apply bind_safe; [exact (try_safe S tr t o cstr _ _ HF HRo Ht Hg Eo Hd (stage_along l S tr cstr HS))|]. intros [tr1 r] Htry. rewrite Htry in *.
    pose proof (centre_step l HC H S tr t o cstr _ _ tr1 r HF HRo Ht Hg Eo Hd (stage_along l S tr cstr HS) Htry) as Hst.
    destruct r as [[inc del]|enc].
    - destruct Hst as (HE & HF1 & Htd & _). apply bind_safe; [apply queues_safe|]. intros [irr2 lrg2] Hq. rewrite Hq in *.
      pose proof (tracks_effect S tr tr1 o inc del (fr_delaunay _ _ _ HF) HRo Hno HE) as HT.
      assert (HQ1 : queues prm tr1 (irr2, lrg2) (fun _ => True)).
      { apply (queues_step prm tr tr1 (o :: S) inc del (irr', lrg') (irr2, lrg2) (fun _ => True) HT Hq); [|auto]. intros x Hx. apply (qu_in _ _ _ _ HQ), Hsub, Hx. }
      exact (IH _ _ _ _ _ _ (o :: S) (conj HF1 (conj HRo (exact_deep l S o cstr Hd HX))) HQ1 (fun a Ha => Hat a (or_intror Ha))).
    - destruct Hst as (HF1 & Hsame & Hne & Hnd & Henc & Hpc & Hfl). cbn [unwrap bind].
      assert (Hek : forall e, In e enc -> In e cstr) by (intros e He; apply (encroached_part l HC S tr cstr o e HS HRo Hno Hd), Henc, He).
      assert (HQ1 : queues prm tr1 (irr', lrg') (fun _ => True)).
      { split; intros x Hx; [|auto]. rewrite Hsame. apply (qu_in _ _ _ _ HQ), Hsub, Hx. }
      assert (HS1 : stage l S tr1 cstr) by (split; [exact HF1|split; [exact HR|exact HX]]).
      assert (Hpn := Permutation_NoDup (ho_perm H (5%nat :: p) _ enc) Hnd). assert (Hpi := fun e He => Hek e (proj1 (ho_In H (5%nat :: p) _ enc e) He)).
      apply bind_safe; [exact (enc_safe _ _ _ _ _ _ _ _ S HS1 Hpn Hpi (fun a Ha => Hat a (or_intror (in_or_app _ _ _ (or_introl Ha)))))|].
      intros [[[[tr2 vs2] cs2] sm2] [irr2 lrg2]] Hall. rewrite Hall in *.
      destruct (enc_stage l H prm HC _ _ _ _ _ _ _ _ S _ _ _ _ _ _ HS1 Hpn Hpi HQ1
        (fun a Ha => Hat a (or_intror (in_or_app _ _ _ (or_introl Ha)))) Hall) as (S2 & HS2 & Hin2 & HQ2).
      exact (IH _ _ _ _ _ _ S2 HS2 HQ2 (fun a Ha => Hat a (or_intror (in_or_app _ _ _ (or_intror Ha))))).
  Qed.

  Lemma irregular_safe : forall fuel p tr K S, stage l S tr K -> (forall a, In a (irregular_attempts H bd [] fuel p prm tr K) -> sound_attempt l a) ->
    split_irregular H fuel p prm tr K bd [] <> Panic.
  Proof.
    intros fuel p tr K S HS Hat. unfold split_irregular. unfold irregular_attempts in *.
    set (solid := filter (fun t => negb (is_ghost t)) (tris tr)) in *.
    assert (Hsol : forall t, In t solid <-> In t (tris tr) /\ is_ghost t = false) by (intros t; unfold solid; rewrite filter_In, negb_true_iff; reflexivity).
    apply bind_safe; [apply filterM_safe; intros x Hx; apply grade_safe, Hsol, Hx|]. intros irr Hi. apply bind_safe; [apply filterM_safe; intros x Hx; apply grade_safe, Hsol, Hx|]. intros lrg Hl.
    rewrite Hi, Hl in *. pose proof (filterM_in _ _ _ _ Hi) as Fi. pose proof (filterM_in _ _ _ _ Hl) as Fl.
    apply (irregular_loop_safe fuel p tr K [] irr lrg S HS); [|exact Hat]. split; [|auto].
    intros t [Ht|Ht]; cbn [fst snd] in Ht; [apply Fi in Ht|apply Fl in Ht]; apply Hsol, Ht.
  Qed.
End Steps.

Lemma refine_safe : forall l (H : HashOrder) fuel p (t : triangulator ArithR) prm S, convex_polygon l ->
  t_boundary t = Poly l false -> t_holes t = [] -> t_segments t = [] ->
  framed l S (t_trn t) -> resolved S -> (forall a b, In (a, b) (polygon_sides l) -> piece l S (a, b)) ->
  (forall a, In a (refine_attempts H fuel p t prm) -> sound_attempt l a) -> refine H fuel p t prm <> Panic.
Proof.
  intros l H fuel p t prm S HC Eb Eh Es HF HR Hp Hat. unfold refine. unfold refine_attempts in *.
  assert (EK : refine_constraints t = Ok (hset edec (polygon_sides l))).
  { unfold refine_constraints. rewrite Eb, Eh, Es. unfold all_edges; cbn [foldM bind]. rewrite (polygon_edges l (cx_some l HC)). cbn [bind app]. rewrite ?app_nil_r. reflexivity. }
  rewrite EK in *. cbn [bind]. rewrite Eb, Eh in *. set (K := hset edec (polygon_sides l)) in *.
  assert (HX : exact_parts l S K).
  { pose proof (sides_parts l HC S (t_trn t) HF HR Hp) as [Hn Hx]. split; [apply hset_NoDup|]. intros e. unfold K. rewrite hset_In. apply Hx. }
  assert (HS : stage l S (t_trn t) K) by (split; [exact HF|split; [exact HR|exact HX]]).
  apply bind_safe; [exact (unencroach_safe l H HC _ _ K (t_trn t) S HS (fun a Ha => Hat a (in_or_app _ _ _ (or_introl Ha))))|]. intros [[[tr1 sm1] inc1] del1] Hu. rewrite Hu in *.
  destruct (unencroach_stage l H HC _ _ K (t_trn t) S tr1 sm1 inc1 del1 HS (fun a Ha => Hat a (in_or_app _ _ _ (or_introl Ha))) Hu) as (S1 & HS1 & Hin1).
  apply bind_safe; [exact (irregular_safe l H prm HC _ _ tr1 _ S1 HS1 (fun a Ha => Hat a (in_or_app _ _ _ (or_intror Ha))))|]. intros [[tr2 cs2] sm2] _. discriminate.
Qed.
