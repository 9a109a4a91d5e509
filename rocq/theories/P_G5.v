(** P_G5.v — refining a convex polygon ends, unless the tolerances bite. *)

From Coq Require Import Reals List ZArith Lra Lia Psatz Bool Permutation.
From Verif Require Import Base Arith Geometry Elements Polyline Procedures Refine Triangulator ArithR Spec SpecM SpecR SpecD SpecP SpecC SpecE
  P_Base P_Trn P_Fuel P_Poly P_Vertices P_Cavity P_Refine P_Worked P_R1 P_R2 P_R3 P_R5 P_R6 P_RX P_D1 P_D2 P_D3 P_D4 P_D5 P_D6 P_D7 P_Fill P_Fill2 P_Region P_C1 P_C2 P_C3 P_C4 P_C5 P_C6 P_C7 P_C8 P_C9 P_E1 P_E2 P_E3 P_E4 P_E5 P_E6 P_E7 P_E8 P_E9 P_G1 P_G2 P_G3 P_G4.
Import ListNotations.
Local Open Scope R_scope.

Section Loops.
  Variables (l : list pnt) (H : HashOrder) (prm : refine_params ArithR).
  Hypothesis HC : convex_polygon l.
  Let bd := Some (Poly (A:=ArithR) l false).
  Hypothesis Hplain : forall u, In u l -> vghost u = false.
  Variable N : nat.
  Hypothesis HN : forall S, (forall w, In w S -> placed l w) -> resolved S -> (length (nodup vdec S) <= N)%nat.
  Let room (S : list pnt) : nat := (N - length (nodup vdec S))%nat.
  Definition sound_from (f : nat -> list attempt) : Prop := exists n, forall fuel, (n <= fuel)%nat -> forall a, In a (f fuel) -> sound_attempt l a.

  Lemma room_less : forall S S' tr tr' x, framed l S tr -> framed l S' tr' -> resolved S -> resolved S' -> (forall w, In w S -> In w S') -> In x S' -> ~ In x S -> (room S' < room S)%nat.
  Proof.
    intros S S' tr tr' x HF HF' HR HR' Hi Hx Hn. pose proof (more_points S S' x Hi Hx Hn). pose proof (HN S (fr_placed _ _ _ HF) HR). pose proof (HN S' (fr_placed _ _ _ HF') HR'). unfold room. lia.
  Qed.
  Lemma room_le : forall S S', (forall w, In w S -> In w S') -> (room S' <= room S)%nat.
  Proof. intros S S' Hi. pose proof (same_points S S' Hi). unfold room. lia. Qed.

  Lemma loop_halts : forall k p K pending others tr vs ne inc del S, (room S < k)%nat ->
    stage l S tr (pending ++ ne ++ others) -> (forall e, In e K -> along l S e) ->
    sound_from (fun fuel => loop_attempts H bd [] fuel p K pending tr vs) ->
    halts (fun n => unencroach_loop H n p K bd [] pending tr vs ne inc del).
  Proof.
    induction k as [|k IH]; intros p K pending others tr vs ne inc del S Hk (HF & HR & HX) HK (N0 & Hat); [lia|].
    destruct pending as [|s pending]; [eapply halts_next; cycle 1; [intros n; cbn [unencroach_loop]; reflexivity|apply halts_const]|].
    eapply halts_next; cycle 1; [intros n; cbn [unencroach_loop]; reflexivity|].
    pose proof (Hat (Datatypes.S N0) ltac:(lia)) as Hat0. cbn [loop_attempts] in Hat0.
    destruct (Hat0 _ (or_introl eq_refl)) as [HRm HPm]. clear Hat0. apply (points_resolved S tr _ (fr_delaunay _ _ _ HF) HR) in HRm.
    change ((s :: pending) ++ ne ++ others) with (s :: (pending ++ ne ++ others)) in HX.
    assert (Hs : piece l S s) by (apply (proj2 HX); left; reflexivity).
    apply halts_bind; [apply (split_halts l H HC Hplain S); assumption|]. intros [[h1 h2] [[tr1 new] old]] [N1 Hsp].
    destruct (split_step l HC H S tr s K N1 (1%nat :: p) h1 h2 tr1 new old HF HRm Hs HPm HK (Hsp N1 (le_n N1))) as (E1 & E2 & HE & HF1).
    pose proof (exact_cut l HC S s (pending ++ ne ++ others) HRm HX) as HX1. rewrite <- E1, <- E2 in HX1.
    assert (HK1 : forall e, In e K -> along l (edge_midpoint s :: S) e) by (intros e He; apply (along_incl l S); [intros z Hz; right; exact Hz|apply HK, He]).
    set (b1 := existsb (fun v => cont_eqb (edge_encroach h1 v) Inside) vs) in *.
    set (b2 := existsb (fun v => cont_eqb (edge_encroach h2 v) Inside) vs) in *.
    set (ne1 := if b1 then ne else hadd edec h1 ne) in *. set (pe1 := if b1 then h1 :: pending else pending) in *.
    pose proof HX1 as [Hnd _]. rewrite !NoDup_cons_iff in Hnd. cbn [In] in Hnd. rewrite !in_app_iff in Hnd. destruct Hnd as (Q2 & Q1 & _).
    assert (P1 : Permutation (h1 :: pending ++ ne ++ others) (pe1 ++ ne1 ++ others)).
    { unfold pe1, ne1. destruct b1; [reflexivity|]. rewrite (hadd_perm h1 ne) by tauto. apply Permutation_cons_app. reflexivity. }
    assert (N2 : ~ In h2 ne1) by (unfold ne1; destruct b1; [tauto|]; rewrite hadd_In; intros [E|E]; [apply Q2; left; symmetry; exact E|tauto]).
    assert (P2 : Permutation (h2 :: h1 :: pending ++ ne ++ others) ((if b2 then h2 :: pe1 else pe1) ++ (if b2 then ne1 else hadd edec h2 ne1) ++ others)).
    { rewrite P1. destruct b2; [reflexivity|]. rewrite (hadd_perm h2 ne1 N2). apply Permutation_cons_app. reflexivity. }
    apply (exact_perm l _ _ _ P2) in HX1.
    apply (IH _ _ _ _ _ _ _ _ _ (edge_midpoint s :: S)) with (2 := conj HF1 (conj HRm HX1)); [|exact HK1|].
    - assert (L : (room (edge_midpoint s :: S) < room S)%nat); [|lia].
      apply (room_less S _ tr tr1 (edge_midpoint s)); auto; [intros w Hw; right; exact Hw|left; reflexivity|exact (mid_fresh l S s HRm Hs)].
    - exists (Nat.max N0 N1). intros fuel Hf a Ha. apply (Hat (Datatypes.S fuel) ltac:(lia)). cbn [loop_attempts]. right. rewrite (Hsp fuel ltac:(lia)). exact Ha.
  Qed.
  Lemma segment_halts : forall p K e others tr vs S, stage l S tr (e :: others) -> (forall e, In e K -> along l S e) ->
    sound_from (fun fuel => segment_attempts H bd [] fuel p tr e vs K) -> halts (fun n => unencroach_segment H n p tr e vs K bd []).
  Proof. intros p K e others tr vs S HS HK Hat. exact (loop_halts (Datatypes.S (room S)) p K [e] others tr vs [] [] [] S (le_n _) HS HK Hat). Qed.

  (** The first middle is a vertex of the result. *)
  Lemma segment_grows : forall fuel p K e others tr vs S tr' vs' ne' inc' del', stage l S tr (e :: others) -> (forall e, In e K -> along l S e) ->
    (forall a, In a (segment_attempts H bd [] fuel p tr e vs K) -> sound_attempt l a) ->
    unencroach_segment H fuel p tr e vs K bd [] = Ok (tr', vs', ne', inc', del') -> In (edge_midpoint e) (trn_vertices tr') /\ ~ In (edge_midpoint e) S.
  Proof.
    intros fuel p K s others tr vs S tr' vs' ne' inc' del' (HF & HR & HX) HK Hat Hu. unfold unencroach_segment in Hu. unfold segment_attempts in Hat.
    destruct fuel as [|fuel]; [discriminate|]. cbn [unencroach_loop] in Hu. cbn [loop_attempts] in Hat.
    apply bind_ok in Hu. destruct Hu as ([[h1 h2] [[tr1 new] old]] & Hsp & Hl). rewrite Hsp in Hat.
    destruct (Hat _ (or_introl eq_refl)) as [HRm HPm]. apply (points_resolved S tr _ (fr_delaunay _ _ _ HF) HR) in HRm.
    assert (Hs : piece l S s) by (apply (proj2 HX); left; reflexivity).
    destruct (split_step l HC H S tr s K fuel (1%nat :: p) h1 h2 tr1 new old HF HRm Hs HPm HK Hsp) as (E1 & E2 & HE & HF1).
    pose proof (exact_cut l HC S s others HRm HX) as HX1. rewrite <- E1, <- E2 in HX1.
    assert (HK1 : forall e, In e K -> along l (edge_midpoint s :: S) e) by (intros e He; apply (along_incl l S); [intros z Hz; right; exact Hz|apply HK, He]).
    set (b1 := existsb (fun v => cont_eqb (edge_encroach h1 v) Inside) vs) in *.
    set (b2 := existsb (fun v => cont_eqb (edge_encroach h2 v) Inside) vs) in *.
    set (ne1 := if b1 then [] else hadd edec h1 []) in *. set (pe1 := if b1 then [h1] else []) in *.
    pose proof HX1 as [Hnd _]. rewrite !NoDup_cons_iff in Hnd. cbn [In] in Hnd. destruct Hnd as (Q2 & Q1 & _).
    assert (P1 : Permutation (h1 :: others) (pe1 ++ ne1 ++ others)) by (unfold pe1, ne1; destruct b1; reflexivity).
    assert (N2 : ~ In h2 ne1) by (unfold ne1; destruct b1; [intros []|]; rewrite hadd_In; intros [E|[]]; apply Q2; left; symmetry; exact E).
    assert (P2 : Permutation (h2 :: h1 :: others) ((if b2 then h2 :: pe1 else pe1) ++ (if b2 then ne1 else hadd edec h2 ne1) ++ others)).
    { rewrite P1. destruct b2; [reflexivity|]. rewrite (hadd_perm h2 ne1 N2). apply Permutation_cons_app. reflexivity. }
    apply (exact_perm l _ _ _ P2) in HX1.
    assert (HT1 : tracks tr (edge_midpoint s :: S) tr1 (hset tdec (filter (fun t => negb (hmem tdec t old)) ([] ++ new))) (hset tdec ([] ++ old))).
    { exact (tracks_step S tr tr1 tr _ new old [] [] (fr_delaunay _ _ _ HF) HRm (mid_fresh l S s HRm Hs) HE (tracks_start S tr)). }
    destruct (loop_stage l H HC _ _ _ _ _ _ _ _ _ _ _ tr _ _ _ _ _ (conj HF1 (conj HRm HX1)) HK1 HT1 (fun a Ha => Hat a (or_intror Ha)) Hl) as (S' & (HF' & HR' & _) & Hin & _).
    split; [|exact (mid_fresh l S s HRm Hs)].
    apply (delaunay_points S' tr' (fr_delaunay _ _ _ HF')); [exact (rs_plain _ HR')|]. apply Hin. left. reflexivity.
  Qed.

  Lemma stage_points : forall S tr L S' tr' L', stage l S tr L -> stage l S' tr' L' -> (forall w, In w (trn_vertices tr) -> In w (trn_vertices tr')) -> forall w, In w S -> In w S'.
  Proof.
    intros S tr L S' tr' L' (HF & HR & _) (HF' & HR' & _) Hi w Hw. apply (delaunay_points S' tr' (fr_delaunay _ _ _ HF') (rs_plain _ HR')), Hi, (delaunay_points S tr (fr_delaunay _ _ _ HF) (rs_plain _ HR)), Hw.
  Qed.

  Lemma sound_app_l : forall f g, sound_from (fun n => f n ++ g n) -> sound_from f.
  Proof. intros f g (n & Hn). exists n. intros m Hm a Ha. apply (Hn m Hm), in_or_app. auto. Qed.
  Lemma sound_app_r : forall f g, sound_from (fun n => f n ++ g n) -> sound_from g.
  Proof. intros f g (n & Hn). exists n. intros m Hm a Ha. apply (Hn m Hm), in_or_app. auto. Qed.
  Lemma sound_tail : forall x f, sound_from (fun n => x :: f n) -> sound_from f.
  Proof. intros x f (n & Hn). exists n. intros m Hm a Ha. apply (Hn m Hm). right. exact Ha. Qed.
  Lemma sound_head : forall x f, sound_from (fun n => x :: f n) -> sound_attempt l x.
  Proof. intros x f (n & Hn). apply (Hn n (le_n n)). left. reflexivity. Qed.
  Lemma sound_next : forall f, sound_from f -> sound_from (fun n => f (Datatypes.S n)).
  Proof. intros f (n & Hn). exists n. intros m Hm. apply Hn. lia. Qed.
  Lemma sound_ext : forall f g n, (forall m, (n <= m)%nat -> f m = g m) -> sound_from f -> sound_from g.
  Proof. intros f g n E (k & Hk). exists (Nat.max n k). intros m Hm a Ha. rewrite <- E in Ha by lia. apply (Hk m ltac:(lia) a Ha). Qed.

  Lemma all_halts : forall k p K em tr sm inc del S R, (length em < k)%nat ->
    stage l S tr (map fst em ++ R) -> NoDup (map fst em) -> (forall e, In e K -> along l S e) ->
    sound_from (fun fuel => all_attempts H bd [] fuel p K em tr) ->
    halts (fun n => unencroach_all H n p K bd [] em tr sm inc del).
  Proof.
    induction k as [|k IH]; intros p K em tr sm inc del S R Hk HS Hn HK Hat; [lia|]. apply sound_next in Hat. cbn [all_attempts] in Hat.
    eapply halts_next; cycle 1; [intros n; cbn [unencroach_all]; reflexivity|].
    pose proof (ho_In H (1%nat :: p) _ (map fst em)) as HI. destruct (ho H (1%nat :: p) _ (map fst em)) as [|e es]; [apply halts_const|].
    assert (Hke : In e (map fst em)) by (apply HI; left; reflexivity). destruct (mget edec e em) as [vs|] eqn:Eg; [|exfalso; apply (mget_None edec em e) in Eg; contradiction]. cbn [unwrap bind].
    destruct HS as (HF & HR & HX).
    assert (HP := mdel_perm _ em e Hn Hke).
    assert (HX1 : exact_parts l S (e :: map fst (mdel edec e em) ++ R)).
    { apply (exact_perm l _ (map fst em ++ R)); [|exact HX]. rewrite HP at 1. reflexivity. }
    apply halts_bind; [apply (segment_halts _ _ _ _ _ _ _ (conj HF (conj HR HX1)) HK (sound_app_l _ _ Hat))|].
    intros [[[[tr1 vs1] ne] new] old] [N1 Hseg]. pose proof (sound_app_l _ _ Hat) as (N2 & Ha2).
    destruct (segment_stage l H HC (Nat.max N1 N2) _ _ _ _ _ _ _ _ _ _ _ _ (conj HF (conj HR HX1)) HK (Ha2 _ (Nat.le_max_r N1 N2)) (Hseg _ (Nat.le_max_l N1 N2))) as (S1 & HS1 & Hin1 & _ & Hne).
    assert (P : Permutation (ne ++ map fst (mdel edec e em) ++ R) (map fst (mdel edec e em) ++ (ne ++ R))).
    { rewrite !app_assoc. apply Permutation_app_tail, Permutation_app_comm. }
    destruct HS1 as (HF1 & HR1 & HX2). apply (exact_perm l _ _ _ P) in HX2.
    apply (IH (0%nat :: p) K _ tr1 _ _ _ S1 (ne ++ R)) with (2 := conj HF1 (conj HR1 HX2)) (3 := mdel_NoDup edec em e Hn).
    - apply Permutation_length in HP. cbn [length] in HP. rewrite !map_length in HP. lia.
    - intros x Hx. apply (along_incl l S S1 x Hin1 (HK x Hx)).
    - apply (sound_ext _ _ N1) with (2 := sound_app_r _ _ Hat). intros m Hm. rewrite (Hseg m Hm). reflexivity.
  Qed.

  Lemma unencroach_halts : forall p K tr S, stage l S tr K -> sound_from (fun fuel => unencroach_attempts H bd [] fuel p tr K) ->
    halts (fun n => unencroach H n p tr K bd []).
  Proof.
    intros p K tr S (HF & HR & HX) Hat. unfold unencroach. unfold unencroach_attempts in Hat.
    set (em := distribute_encroachments K (trn_vertices tr) []) in *. destruct (distribute_keys K (trn_vertices tr) [] (NoDup_nil _)) as [Hnd Hsub]. fold em in Hnd, Hsub.
    set (R := filter (fun e => negb (hmem edec e (map fst em))) K).
    assert (HRi : forall e, In e R <-> In e K /\ ~ In e (map fst em)) by (intros e; unfold R; rewrite filter_In, negb_true_iff, hmem_false; reflexivity).
    assert (P : Permutation K (map fst em ++ R)).
    { apply NoDup_Permutation; [apply HX| |].
      - assert (HRn : NoDup R) by apply NoDup_filter, HX. assert (Hdis : forall e, In e (map fst em) -> ~ In e R) by (intros e He Hi; apply HRi in Hi; tauto).
        revert Hnd Hdis HRn. generalize (map fst em). clear. intros ks. induction ks as [|k ks IH]; cbn; [auto|]. intros Hn Hd HRn. apply NoDup_cons_iff in Hn. destruct Hn as [Hk Hn].
        constructor; [rewrite in_app_iff; intros [Q|Q]; [contradiction|exact (Hd k (or_introl eq_refl) Q)]|]. apply IH; auto.
      - intros e. rewrite in_app_iff, HRi. split; [|intros [Q|Q]; [destruct (Hsub e Q) as [[]|Q']; exact Q'|tauto]].
        intros Q. destruct (in_dec edec e (map fst em)); auto. }
    assert (HKa : forall e, In e K -> along l S e) by (intros e He; apply (pc_along _ _ _ (proj1 (proj1 (proj2 HX e) He)))).
    exact (all_halts (Datatypes.S (length em)) _ _ _ _ _ _ _ S R (le_n _) (conj HF (conj HR (exact_perm l _ _ _ P HX))) Hnd HKa Hat).
  Qed.

  Lemma enc_halts : forall es p tr vs cstr sm q S, stage l S tr cstr -> NoDup es -> (forall e, In e es -> In e cstr) ->
    sound_from (fun fuel => enc_attempts H bd [] fuel p prm es (tr, vs, cstr, sm, q)) ->
    halts (fun n => split_encroached_all H n p prm bd [] es (tr, vs, cstr, sm, q)).
  Proof.
    intros es. induction es as [|e es IH]; intros p tr vs cstr sm q S HS Hn Hi Hat; cbn [split_encroached_all]; [apply halts_const|]. cbn [enc_attempts] in Hat.
    apply NoDup_cons_iff in Hn. destruct Hn as [Hne Hn]. pose proof HS as (HF & HR & HX).
    assert (HX1 : exact_parts l S (e :: hdel edec e cstr)).
    { apply (exact_perm l S cstr); [|exact HX]. apply NoDup_Permutation; [apply HX| |].
      - constructor; [rewrite hdel_In; tauto|apply hdel_NoDup, HX].
      - intros x. cbn [In]. rewrite hdel_In. destruct (edec x e) as [->|N1]; [|intuition congruence]. split; [auto|]. intros _. apply Hi. left. reflexivity. }
    apply halts_bind.
    - unfold split_encroached. apply halts_bind.
      + exact (segment_halts _ _ _ _ _ _ S (conj HF (conj HR HX1)) (stage_along l S tr cstr HS) (sound_app_l _ _ Hat)).
      + intros [[[[tr2 vs2] ne] inc] del] _. destruct (queues_halts prm q inc del) as [q' Hq]. rewrite Hq. cbn [bind]. apply halts_const.
    - intros [[[[tr1 vs1] cs1] sm1] q1] [N1 H1]. pose proof (sound_app_l _ _ Hat) as (N2 & Ha2).
      pose proof (H1 _ (Nat.le_max_l N1 N2)) as H2. unfold split_encroached in H2. apply bind_ok in H2. destruct H2 as ([[[[tr2 vs2] ne] inc] del] & Hseg & H2). apply bind_ok in H2. destruct H2 as (q2 & Hq & H2). injection H2 as E1 E2 E3 E4 E5.
      subst tr2 vs2 sm1 q2.
      destruct (segment_stage l H HC _ _ _ _ _ _ _ S _ _ _ _ _ (conj HF (conj HR HX1)) (stage_along l S tr cstr HS) (Ha2 _ (Nat.le_max_r N1 N2)) Hseg)
        as (S1 & (HF1 & HR1 & HX2) & Hin1 & HT & _).
      assert (HX3 : exact_parts l S1 cs1).
      { subst cs1. split; [apply fold_hadd_NoDup, hdel_NoDup, HX|]. intros x. rewrite fold_hadd_In, <- (proj2 HX2 x), in_app_iff. tauto. }
      assert (Hi1 : forall x, In x es -> In x cs1).
      { intros x Hx. subst cs1. apply fold_hadd_In. left. apply hdel_In. split; [apply Hi; right; exact Hx|]. intros ->. contradiction. }
      apply (IH _ _ _ _ _ _ S1 (conj HF1 (conj HR1 HX3)) Hn Hi1).
      apply (sound_ext _ _ N1) with (2 := sound_app_r _ _ Hat). intros m Hm. rewrite (H1 m Hm). reflexivity.
  Qed.
  Lemma enc_grows : forall fuel e es p tr vs cstr sm q S S' tr' vs' cstr' sm' q',
    stage l S tr cstr -> NoDup (e :: es) -> (forall x, In x (e :: es) -> In x cstr) -> queues prm tr q (fun _ => True) ->
    (forall a, In a (enc_attempts H bd [] fuel p prm (e :: es) (tr, vs, cstr, sm, q)) -> sound_attempt l a) ->
    split_encroached_all H fuel p prm bd [] (e :: es) (tr, vs, cstr, sm, q) = Ok (tr', vs', cstr', sm', q') ->
    stage l S' tr' cstr' -> In (edge_midpoint e) S' /\ ~ In (edge_midpoint e) S.
  Proof.
    intros fuel e es p tr vs cstr sm q S S' tr' vs' cstr' sm' q' HS Hn Hi HQ Hat Hr HS'. cbn [split_encroached_all] in Hr.
    apply bind_ok in Hr. destruct Hr as ([[[[tr1 vs1] cs1] sm1] q1] & H1 & Hr). cbn [enc_attempts] in Hat. rewrite H1 in Hat.
    unfold split_encroached in H1. apply bind_ok in H1. destruct H1 as ([[[[tr2 vs2] ne] inc] del] & Hseg & H1). apply bind_ok in H1. destruct H1 as (q2 & Hq & H1). injection H1 as E1 E2 E3 E4 E5.
    subst tr2 vs2 sm1 q2. apply NoDup_cons_iff in Hn. destruct Hn as [Hne Hn].
    pose proof HS as (HF & HR & HX).
    assert (HX1 : exact_parts l S (e :: hdel edec e cstr)).
    { apply (exact_perm l S cstr); [|exact HX]. apply NoDup_Permutation; [apply HX| |].
      - constructor; [rewrite hdel_In; tauto|apply hdel_NoDup, HX].
      - intros x. cbn [In]. rewrite hdel_In. destruct (edec x e) as [->|N0]; [|intuition congruence]. split; [auto|]. intros _. apply Hi. left. reflexivity. }
    destruct (segment_stage l H HC _ _ _ _ _ _ _ S _ _ _ _ _ (conj HF (conj HR HX1)) (stage_along l S tr cstr HS) (fun a Ha => Hat a (in_or_app _ _ _ (or_introl Ha))) Hseg)
      as (S1 & (HF1 & HR1 & HX2) & Hin1 & HT & _).
    destruct (segment_grows _ _ _ _ _ _ _ S _ _ _ _ _ (conj HF (conj HR HX1)) (stage_along l S tr cstr HS) (fun a Ha => Hat a (in_or_app _ _ _ (or_introl Ha))) Hseg) as [Hg Hg'].
    split; [|exact Hg']. apply (delaunay_points S1 tr1 (fr_delaunay _ _ _ HF1) (rs_plain _ HR1)) in Hg.
    assert (HX3 : exact_parts l S1 cs1).
    { subst cs1. split; [apply fold_hadd_NoDup, hdel_NoDup, HX|]. intros x. rewrite fold_hadd_In, <- (proj2 HX2 x), in_app_iff. tauto. }
    assert (Hi1 : forall x, In x es -> In x cs1).
    { intros x Hx. subst cs1. apply fold_hadd_In. left. apply hdel_In. split; [apply Hi; right; exact Hx|]. intros ->. contradiction. }
    pose proof (queues_step prm tr tr1 S1 inc del q q1 (fun _ => True) HT Hq (qu_in _ _ _ _ HQ) (fun x Hx _ Hm => qu_all _ _ _ _ HQ x Hx Hm)) as HQ1.
    destruct (enc_stage l H prm HC _ _ _ _ _ _ _ _ S1 _ _ _ _ _ _ (conj HF1 (conj HR1 HX3)) Hn Hi1 HQ1 (fun a Ha => Hat a (in_or_app _ _ _ (or_intror Ha))) Hr) as (S2 & HS2 & Hin2 & HQ2).
    apply (stage_points S2 tr' cstr' S' tr' cstr' HS2 HS' (fun w Hw => Hw)), Hin2, Hg.
  Qed.

  Lemma irregular_loop_halts : forall k p tr cstr sm irr lrg S, (room S < k)%nat -> stage l S tr cstr -> queues prm tr (irr, lrg) (fun _ => True) ->
    sound_from (fun fuel => split_attempts H bd [] fuel p prm tr cstr sm irr lrg) ->
    halts (fun n => split_loop_irregular H n p prm bd [] tr cstr sm irr lrg).
  Proof.
    induction k as [|k IH]; intros p tr cstr sm irr lrg S Hk HS HQ Hat; [lia|]. apply sound_next in Hat. cbn [split_attempts] in Hat.
    eapply halts_next; cycle 1; [intros n; cbn [split_loop_irregular]; reflexivity|].
    set (next := match ho H (1%nat :: p) _ irr with
          | t :: _ => Some (t, hdel tdec t irr, lrg)
          | [] => match ho H (2%nat :: p) _ lrg with t :: _ => Some (t, irr, hdel tdec t lrg) | [] => None end end) in *.
    assert (Hnext : match next with
      | None => True
      | Some (t, irr', lrg') => waits (irr, lrg) t /\ (forall x, waits (irr', lrg') x -> waits (irr, lrg) x) end).
    { unfold next, waits. cbn [fst snd]. pose proof (ho_In H (1%nat :: p) _ irr) as I1. pose proof (ho_In H (2%nat :: p) _ lrg) as I2.
      destruct (ho H (1%nat :: p) _ irr) as [|t ts].
      - destruct (ho H (2%nat :: p) _ lrg) as [|t ts]; [exact Logic.I|].
        split; [right; apply I2; left; reflexivity|]. intros x; rewrite hdel_In; tauto.
      - split; [left; apply I1; left; reflexivity|]. intros x; rewrite hdel_In; tauto. }
    destruct next as [[[t irr'] lrg']|]; [|apply halts_const].
    destruct Hnext as (Hw & Hsub). destruct (qu_in _ _ _ _ HQ t Hw) as [Ht Hg]. pose proof HS as (HF & HR & HX).
    destruct (circumcenter_some l S tr t HF HR Ht Hg) as (o & Eo). rewrite Eo in *.
    destruct (sound_head _ _ Hat o Eo) as [HRo Hd]. apply sound_tail in Hat. apply (points_resolved S tr _ (fr_delaunay _ _ _ HF) HR) in HRo.
    destruct (centre_facts S tr t o (fr_delaunay _ _ _ HF) HRo Ht Hg Eo) as [Hno _].
    apply halts_bind; [exact (try_halts l H HC Hplain S tr t o cstr _ HF HRo Ht Hg Eo Hd (stage_along l S tr cstr HS))|]. intros [tr1 r] [N1 Htry].
    pose proof (centre_step l HC H S tr t o cstr _ _ tr1 r HF HRo Ht Hg Eo Hd (stage_along l S tr cstr HS) (Htry N1 (le_n _))) as Hst.
    destruct r as [[inc del]|enc].
    - destruct Hst as (HE & HF1 & Htd & _). destruct (queues_halts prm (irr', lrg') inc del) as ([irr2 lrg2] & Hq). rewrite Hq. cbn [bind].
      pose proof (tracks_effect S tr tr1 o inc del (fr_delaunay _ _ _ HF) HRo Hno HE) as HT.
      assert (HQ1 : queues prm tr1 (irr2, lrg2) (fun _ => True)).
      { apply (queues_step prm tr tr1 (o :: S) inc del (irr', lrg') (irr2, lrg2) (fun _ => True) HT Hq); [|auto]. intros x Hx. apply (qu_in _ _ _ _ HQ), Hsub, Hx. }
      apply (IH _ _ _ _ _ _ (o :: S)) with (2 := conj HF1 (conj HRo (exact_deep l S o cstr Hd HX))) (3 := HQ1).
      + assert (L : (room (o :: S) < room S)%nat); [|lia]. apply (room_less S _ tr tr1 o); auto; [intros w Hw'; right; exact Hw'|left; reflexivity].
      + apply (sound_ext _ _ N1) with (2 := Hat). intros m Hm. rewrite (Htry m Hm), Hq. reflexivity.
    - destruct Hst as (HF1 & Hsame & Hne & Hnd & Henc & Hpc & Hfl). cbn [unwrap bind].
      assert (Hek : forall e, In e enc -> In e cstr) by (intros e He; apply (encroached_part l HC S tr cstr o e HS HRo Hno Hd), Henc, He).
      assert (HQ1 : queues prm tr1 (irr', lrg') (fun _ => True)).
      { split; intros x Hx; [|auto]. rewrite Hsame. apply (qu_in _ _ _ _ HQ), Hsub, Hx. }
      assert (HS1 : stage l S tr1 cstr) by (split; [exact HF1|split; [exact HR|exact HX]]).
      assert (Hpn := Permutation_NoDup (ho_perm H (5%nat :: p) _ enc) Hnd). assert (Hpi := fun e He => Hek e (proj1 (ho_In H (5%nat :: p) _ enc e) He)).
      assert (Hpe : ho H (5%nat :: p) _ enc <> []).
      { destruct enc as [|e enc]; [congruence|]. intros E. assert (Q : In e (ho H (5%nat :: p) _ (e :: enc))) by (apply ho_In; left; reflexivity). rewrite E in Q. exact Q. }
      eapply (sound_ext _ _ N1) in Hat; cycle 1; [intros m Hm; rewrite (Htry m Hm); reflexivity|]. cbv beta in Hat.
      apply halts_bind; [exact (enc_halts _ _ _ _ _ _ _ S HS1 Hpn Hpi (sound_app_l _ _ Hat))|].
      intros [[[[tr2 vs2] cs2] sm2] [irr2 lrg2]] [N2 Hall]. pose proof (sound_app_l _ _ Hat) as (N3 & Ha3).
      destruct (enc_stage l H prm HC _ _ _ _ _ _ _ _ S _ _ _ _ _ _ HS1 Hpn Hpi HQ1 (Ha3 _ (Nat.le_max_r N2 N3)) (Hall _ (Nat.le_max_l N2 N3))) as (S2 & HS2 & Hin2 & HQ2).
      apply (IH _ _ _ _ _ _ S2) with (2 := HS2) (3 := HQ2).
      + assert (L : (room S2 < room S)%nat); [|lia]. set (es := ho H (5%nat :: p) _ enc) in *. clearbody es. destruct es as [|e es]; [congruence|].
        destruct (enc_grows _ _ _ _ _ _ _ _ _ S S2 _ _ _ _ _ HS1 Hpn Hpi HQ1 (Ha3 _ (Nat.le_max_r N2 N3)) (Hall _ (Nat.le_max_l N2 N3)) HS2) as [G1 G2].
        destruct HS2 as (HF2 & HR2 & _). apply (room_less S S2 tr tr2 (edge_midpoint e)); auto.
      + apply (sound_ext _ _ N2) with (2 := sound_app_r _ _ Hat). intros m Hm. rewrite (Hall m Hm). reflexivity.
  Qed.

  Lemma filterM_total : forall (f : tri -> res bool) L, (forall x, In x L -> exists b, f x = Ok b) -> exists r, filterM f L = Ok r.
  Proof.
    intros f L. induction L as [|x L IH]; intros Hf; cbn [filterM]; [eexists; reflexivity|]. destruct (Hf x (or_introl eq_refl)) as [b ->]. cbn [bind].
    destruct IH as [r ->]; [intros y Hy; apply Hf; right; exact Hy|]. cbn [bind]. eexists. reflexivity.
  Qed.
  Lemma irregular_halts : forall p tr K S, stage l S tr K -> sound_from (fun fuel => irregular_attempts H bd [] fuel p prm tr K) ->
    halts (fun n => split_irregular H n p prm tr K bd []).
  Proof.
    intros p tr K S HS Hat. unfold split_irregular. unfold irregular_attempts in *.
    set (solid := filter (fun t => negb (is_ghost t)) (tris tr)) in *.
    assert (Hsol : forall t, In t solid <-> In t (tris tr) /\ is_ghost t = false) by (intros t; unfold solid; rewrite filter_In, negb_true_iff; reflexivity).
    assert (G : forall x, In x solid -> (exists b, is_irregular prm x = Ok b) /\ exists b, is_large prm x = Ok b).
    { intros x Hx. apply Hsol in Hx. destruct Hx as [_ Hg]. unfold is_irregular, is_large, quality, tri_area. rewrite Hg. split.
      - destruct (fle _ _ && fle _ _); [eexists; reflexivity|]. destruct (fle _ _); eexists; reflexivity.
      - cbn [unwrap bind]. eexists; reflexivity. }
    destruct (filterM_total (is_irregular prm) solid) as [irr Hi]; [intros x Hx; apply G, Hx|]. destruct (filterM_total (is_large prm) solid) as [lrg Hl]; [intros x Hx; apply G, Hx|].
    rewrite Hi, Hl in *. cbn [bind]. pose proof (filterM_in _ _ _ _ Hi) as Fi. pose proof (filterM_in _ _ _ _ Hl) as Fl.
    apply (irregular_loop_halts (Datatypes.S (room S)) p tr K [] irr lrg S (le_n _) HS); [|exact Hat]. split; [|auto].
    intros t [Ht|Ht]; cbn [fst snd] in Ht; [apply Fi in Ht|apply Fl in Ht]; apply Hsol, Ht.
  Qed.
End Loops.

Lemma refine_halts : forall l (H : HashOrder) p (t : triangulator ArithR) prm S, convex_polygon l ->
  t_boundary t = Poly l false -> t_holes t = [] -> t_segments t = [] ->
  framed l S (t_trn t) -> resolved S -> (forall a b, In (a, b) (polygon_sides l) -> piece l S (a, b)) ->
  (forall fuel a, In a (refine_attempts H fuel p t prm) -> sound_attempt l a) ->
  exists n r, forall fuel, (n <= fuel)%nat -> refine H fuel p t prm = Ok r.
Proof.
  intros l H p t prm S HC Eb Eh Es HF HR Hp Hat0.
  assert (Hplain : forall u, In u l -> vghost u = false) by (intros u Hu; apply (rs_plain _ HR), (fr_corners _ _ _ HF), Hu).
  destruct (packing l HC) as [N HN].
  enough (Q : halts (fun n => refine H n p t prm)) by (destruct Q as (r & n & Hn); exists n, r; exact Hn).
  assert (Hat : sound_from l (fun fuel => refine_attempts H fuel p t prm)) by (exists O; intros fuel _; apply Hat0). clear Hat0.
  unfold refine. unfold refine_attempts in Hat.
  assert (EK : refine_constraints t = Ok (hset edec (polygon_sides l))).
  { unfold refine_constraints. rewrite Eb, Eh, Es. unfold all_edges; cbn [foldM bind]. rewrite (polygon_edges l (cx_some l HC)). cbn [bind app]. rewrite ?app_nil_r. reflexivity. }
  rewrite EK in *. cbn [bind]. rewrite Eb, Eh in *. set (K := hset edec (polygon_sides l)) in *.
  assert (HX : exact_parts l S K).
  { pose proof (sides_parts l HC S (t_trn t) HF HR Hp) as [Hn Hx]. split; [apply hset_NoDup|]. intros e. unfold K. rewrite hset_In. apply Hx. }
  assert (HS : stage l S (t_trn t) K) by (split; [exact HF|split; [exact HR|exact HX]]).
  apply halts_bind; [exact (unencroach_halts l H HC Hplain N HN _ K (t_trn t) S HS (sound_app_l l _ _ Hat))|]. intros [[[tr1 sm1] inc1] del1] [N1 Hu].
  pose proof (sound_app_l l _ _ Hat) as (N2 & Ha2).
  destruct (unencroach_stage l H HC _ _ K (t_trn t) S tr1 sm1 inc1 del1 HS (Ha2 _ (Nat.le_max_r N1 N2)) (Hu _ (Nat.le_max_l N1 N2))) as (S1 & HS1 & Hin1).
  apply halts_bind; [|intros [[tr2 cs2] sm2] _; apply halts_const].
  apply (irregular_halts l H prm HC Hplain N HN _ tr1 _ S1 HS1).
  apply (sound_ext l _ _ N1) with (2 := sound_app_r l _ _ Hat). intros m Hm. rewrite (Hu m Hm). reflexivity.
Qed.
