(** P_E7.v — splitting the bad triangles of a convex polygon, and a whole
    refinement of it. *)

From Coq Require Import Reals List ZArith Lra Lia Psatz Bool Permutation.
From Verif Require Import Base Arith Geometry Elements Polyline Procedures Refine Triangulator ArithR Spec SpecM SpecR SpecD SpecP SpecC SpecE
  P_Base P_Trn P_Fuel P_Poly P_Vertices P_Cavity P_Refine P_Worked P_R1 P_R2 P_R3 P_R5 P_R6 P_D1 P_D2 P_D3 P_D4 P_D5 P_D6 P_D7 P_Fill P_Fill2 P_Region P_C1 P_C2 P_C3 P_C4 P_C5 P_C6 P_C7 P_E1 P_E2 P_E3 P_E4 P_E5 P_E6.
Import ListNotations.
Local Open Scope R_scope.

Lemma tracks_effect : forall S (tr tr' : mesh) v inc del, delaunay S tr -> resolved (v :: S) -> ~ In v S -> effect S tr v tr' inc del -> tracks tr (v :: S) tr' inc del.
Proof.
  intros S tr tr' v inc del HD HR Hv HE. pose proof (tracks_step S tr tr' tr v inc del [] [] HD HR Hv HE (tracks_start S tr)) as [T1 T2 T3 T4 T5].
  destruct HE as (_ & _ & Hi & Ho).
  assert (Ei : forall x, In x (hset tdec (filter (fun t => negb (hmem tdec t del)) ([] ++ inc))) <-> In x inc).
  { intros x. rewrite hset_In, filter_In, negb_true_iff, hmem_false. cbn [app]. split; [tauto|]. intros Hx. split; [exact Hx|]. intros Hd. apply Hi in Hx. apply Ho in Hd. tauto. }
  assert (Ed : forall x, In x (hset tdec ([] ++ del)) <-> In x del) by (intros x; rewrite hset_In; reflexivity).
  split; intros x Hx.
  - apply T1, Ei, Hx.
  - rewrite <- Ed. apply T2, Hx.
  - rewrite <- Ei. apply T3, Hx.
  - apply T4, Ed, Hx.
  - apply T5, Ed, Hx.
Qed.

Definition waits (q : list tri * list tri) (x : tri) : Prop := In x (fst q) \/ In x (snd q).
Record queues (prm : refine_params ArithR) (tr : mesh) (q : list tri * list tri) (past : tri -> Prop) : Prop := {
  qu_in : forall x, waits q x -> In x (tris tr) /\ is_ghost x = false;
  qu_all : forall x, In x (tris tr) -> missing prm x -> waits q x \/ past x
}.
Lemma queues_step : forall prm (tr tr' : mesh) S inc del q q' past, tracks tr S tr' inc del -> update_queues prm q inc del = Ok q' ->
  (forall x, waits q x -> In x (tris tr) /\ is_ghost x = false) -> (forall x, In x (tris tr) -> ~ In x del -> missing prm x -> waits q x \/ past x) -> queues prm tr' q' past.
Proof.
  intros prm tr tr' S inc del q q' past [T1 T2 T3 T4 _] Hu Q1 Q2. destruct (update_queues_spec _ _ _ _ _ Hu) as (U1 & U2 & U3). split; intros x Hx.
  - destruct (U3 x Hx) as [[Hq|[Hi [Hg _]]] Hd]; [|split; [apply T1, Hi|exact Hg]]. destruct (Q1 x Hq) as [Hi Hg]. split; [|exact Hg]. destruct (T2 x Hi); [contradiction|assumption].
  - intros Hm. assert (Nd : ~ In x del) by (intros Hd; exact (T4 x Hd Hx)). destruct (T3 x Hx) as [Hi|Hi].
    + destruct (Q2 x Hi Nd Hm) as [Hq|Hp]; [left; apply U1; assumption|auto].
    + left. apply U2; assumption.
Qed.

Lemma encroach_inside : forall (e : edge ArithR) o, edge_encroach e o = Inside -> inside_diameter (fst e) (snd e) o.
Proof.
  intros [a b] o. unfold edge_encroach, inside_diameter. cbn [ev1 ev2 fst snd]. rewrite encroach_sign. cbv zeta. pose proof eps_pos.
  repeat rcase; intros Q; try discriminate; lra.
Qed.

Section Split.
  Variables (l : list pnt) (H : HashOrder) (prm : refine_params ArithR).
  Hypothesis HC : convex_polygon l.
  Let bd := Some (Poly (A:=ArithR) l false).

  Lemma stage_along : forall S tr K, stage l S tr K -> forall e, In e K -> along l S e.
  Proof. intros S tr K (_ & _ & HX) e He. apply (pc_along _ _ _ (proj1 (proj1 (proj2 HX e) He))). Qed.

  Lemma enc_stage : forall fuel es p tr vs cstr sm q S past tr' vs' cstr' sm' q',
    stage l S tr cstr -> NoDup es -> (forall e, In e es -> In e cstr) -> queues prm tr q past ->
    (forall a, In a (enc_attempts H bd [] fuel p prm es (tr, vs, cstr, sm, q)) -> sound_attempt l a) ->
    split_encroached_all H fuel p prm bd [] es (tr, vs, cstr, sm, q) = Ok (tr', vs', cstr', sm', q') ->
    exists S', stage l S' tr' cstr' /\ (forall w, In w S -> In w S') /\ queues prm tr' q' past.
  Proof.
    intros fuel es. induction es as [|e es IH]; intros p tr vs cstr sm q S past tr' vs' cstr' sm' q' HS Hn Hi HQ Hat Hr; cbn [split_encroached_all] in Hr.
    { injection Hr as <- <- <- <- <-. exists S. auto. }
    apply bind_ok in Hr. destruct Hr as ([[[[tr1 vs1] cs1] sm1] q1] & H1 & Hr). cbn [enc_attempts] in Hat. rewrite H1 in Hat.
    unfold split_encroached in H1. apply bind_ok in H1. destruct H1 as ([[[[tr2 vs2] ne] inc] del] & Hseg & H1). apply bind_ok in H1. destruct H1 as (q2 & Hq & H1). injection H1 as E1 E2 E3 E4 E5.
    subst tr2 vs2 sm1 q2. apply NoDup_cons_iff in Hn. destruct Hn as [Hne Hn].
    pose proof HS as (HF & HR & HX).
    assert (HX1 : exact_parts l S (e :: hdel edec e cstr)).
    { apply (exact_perm l S cstr); [|exact HX]. apply NoDup_Permutation; [apply HX| |].
      - constructor; [rewrite hdel_In; tauto|apply hdel_NoDup, HX].
      - intros x. cbn [In]. rewrite hdel_In. destruct (edec x e) as [->|N]; [|intuition congruence]. split; [auto|]. intros _. apply Hi. left. reflexivity. }
    destruct (segment_stage l H HC _ _ _ _ _ _ _ S _ _ _ _ _ (conj HF (conj HR HX1)) (stage_along S tr cstr HS) (fun a Ha => Hat a (in_or_app _ _ _ (or_introl Ha))) Hseg)
      as (S1 & (HF1 & HR1 & HX2) & Hin1 & HT & _).
    assert (HX3 : exact_parts l S1 cs1).
    { subst cs1. split; [apply fold_hadd_NoDup, hdel_NoDup, HX|]. intros x. rewrite fold_hadd_In, <- (proj2 HX2 x), in_app_iff. tauto. }
    assert (Hi1 : forall x, In x es -> In x cs1).
    { intros x Hx. subst cs1. apply fold_hadd_In. left. apply hdel_In. split; [apply Hi; right; exact Hx|]. intros ->. contradiction. }
    pose proof (queues_step prm tr tr1 S1 inc del q q1 past HT Hq (qu_in _ _ _ _ HQ) (fun x Hx _ Hm => qu_all _ _ _ _ HQ x Hx Hm)) as HQ1.
    destruct (IH _ _ _ _ _ _ S1 past _ _ _ _ _ (conj HF1 (conj HR1 HX3)) Hn Hi1 HQ1 (fun a Ha => Hat a (in_or_app _ _ _ (or_intror Ha))) Hr) as (S' & HS' & Hin' & HQ').
    exists S'. auto.
  Qed.

  Lemma encroached_part : forall S tr K o e, stage l S tr K -> resolved (o :: S) -> ~ In o S -> deep l o -> encroached tr o K e -> In e K.
  Proof.
    intros S tr K o e HS HRo Hn Hd (((t & [Ht Hc] & Se) & _) & [He|He] & _); [exact He|exfalso]. pose proof HS as (HF & HR & HX).
    pose proof (proj1 (proj2 HX _) He) as [_ Fe]. destruct (stage_along S tr K HS _ He) as (Hb & Ha & _). destruct e as [a b]. cbn [fst snd flip] in *.
    assert (Na : a <> gv) by (intros ->; pose proof (rs_plain _ HR gv Ha); discriminate). assert (Nb : b <> gv) by (intros ->; pose proof (rs_plain _ HR gv Hb); discriminate).
    destruct (view S tr (fr_delaunay _ _ _ HF) t a b Ht Se Na Nb) as (_ & _ & _ & [(c & Hcs & _ & P)|E]).
    - destruct (forward_pos l _ Fe) as (x & y & k & Hxy & Pk & Ek). cbn [fst snd] in Ek. pose proof (Ek c) as Q. rewrite (D_swap a b c) in Q.
      assert (P' : 0 <= D x y c) by (destruct (placed_pos l x y c Hxy (fr_placed _ _ _ HF c Hcs)) as [[-> _]|P']; lra). assert (M := mpp k (D x y c)). lra.
    - subst t. destruct (inner_hits_solid l HC S tr o HF HRo Hn Hd _ Ht Hc) as (a' & b' & c' & E' & _ & _ & Hc' & _). injection E' as _ _ E'. subst c'.
      pose proof (rs_plain _ HR gv Hc'). discriminate.
  Qed.

  Lemma split_stage : forall fuel p tr cstr sm irr lrg S past tr' cstr' sm',
    stage l S tr cstr -> queues prm tr (irr, lrg) past ->
    (forall a, In a (split_attempts H bd [] fuel p prm tr cstr sm irr lrg) -> sound_attempt l a) ->
    split_loop_irregular H fuel p prm bd [] tr cstr sm irr lrg = Ok (tr', cstr', sm') ->
    exists S', stage l S' tr' cstr' /\ (forall w, In w S -> In w S') /\
      forall x, In x (tris tr') -> missing prm x -> past x \/ exists tr1, In (Centre tr1 x) (split_attempts H bd [] fuel p prm tr cstr sm irr lrg) /\ turned_down l tr1 x.
  Proof.
    intros fuel. induction fuel as [|fuel IH]; intros p tr cstr sm irr lrg S past tr' cstr' sm' HS HQ Hat Hl; cbn [split_loop_irregular] in Hl; [discriminate|].
    cbn [split_attempts] in *.
    set (next := match ho H (1%nat :: p) _ irr with
          | t :: _ => Some (t, hdel tdec t irr, lrg)
          | [] => match ho H (2%nat :: p) _ lrg with t :: _ => Some (t, irr, hdel tdec t lrg) | [] => None end end) in *.
    assert (Hnext : match next with
      | None => irr = [] /\ lrg = []
      | Some (t, irr', lrg') => waits (irr, lrg) t /\ (forall x, waits (irr', lrg') x -> waits (irr, lrg) x) /\ forall x, waits (irr, lrg) x -> x <> t -> waits (irr', lrg') x end).
    { unfold next, waits. cbn [fst snd]. pose proof (ho_In H (1%nat :: p) _ irr) as I1. pose proof (ho_In H (2%nat :: p) _ lrg) as I2.
      destruct (ho H (1%nat :: p) _ irr) as [|t ts].
      - assert (E1 : irr = []) by (destruct irr as [|y ys]; [reflexivity|]; exfalso; apply (I1 y); left; reflexivity). destruct (ho H (2%nat :: p) _ lrg) as [|t ts].
        + split; [exact E1|]. destruct lrg as [|y ys]; [reflexivity|]; exfalso; apply (I2 y); left; reflexivity.
        + split; [right; apply I2; left; reflexivity|]. split; intros x; rewrite hdel_In; tauto.
      - split; [left; apply I1; left; reflexivity|]. split; intros x; rewrite hdel_In; tauto. }
    destruct next as [[[t irr'] lrg']|].
    2:{ injection Hl as <- <- <-. exists S. split; [exact HS|]. split; [auto|]. intros x Hx Hm. left. destruct (qu_all _ _ _ _ HQ x Hx Hm) as [[Hq|Hq]|Hp]; [| |exact Hp]; destruct Hnext as [-> ->]; destruct Hq. }
    destruct Hnext as (Hw & Hsub & Hrest). destruct (qu_in _ _ _ _ HQ t Hw) as [Ht Hg]. pose proof HS as (HF & HR & HX).
    apply bind_ok in Hl. destruct Hl as ([tr1 r] & Htry & Hl). rewrite Htry in *.
    destruct (tri_circumcenter t) as [o|] eqn:Eo.
    2:{ exfalso. unfold try_circumcenter in Htry. rewrite Eo in Htry. discriminate. }
    destruct (Hat _ (or_introl eq_refl) o Eo) as [HRo Hd]. apply (points_resolved S tr _ (fr_delaunay _ _ _ HF) HR) in HRo.
    destruct (centre_facts S tr t o (fr_delaunay _ _ _ HF) HRo Ht Hg Eo) as [Hno _].
    pose proof (centre_step l HC H S tr t o cstr _ _ tr1 r HF HRo Ht Hg Eo Hd (stage_along S tr cstr HS) Htry) as Hst.
    destruct r as [[inc del]|enc].
    - destruct Hst as (HE & HF1 & Htd & _). apply bind_ok in Hl. destruct Hl as ([irr2 lrg2] & Hq & Hl). rewrite Hq in *.
      pose proof (tracks_effect S tr tr1 o inc del (fr_delaunay _ _ _ HF) HRo Hno HE) as HT.
      assert (HQ1 : queues prm tr1 (irr2, lrg2) past).
      { apply (queues_step prm tr tr1 (o :: S) inc del (irr', lrg') (irr2, lrg2) past HT Hq).
        - intros x Hx. apply (qu_in _ _ _ _ HQ), Hsub, Hx.
        - intros x Hx Nd Hm. destruct (qu_all _ _ _ _ HQ x Hx Hm) as [Hq'|Hp]; [left; apply Hrest; [exact Hq'|]; intros ->; contradiction|auto]. }
      destruct (IH _ _ _ _ _ _ (o :: S) past _ _ _ (conj HF1 (conj HRo (exact_deep l S o cstr Hd HX))) HQ1 (fun a Ha => Hat a (or_intror Ha)) Hl) as (S' & HS' & Hin & Hend).
      exists S'. split; [exact HS'|]. split; [intros w Hi; apply Hin; right; exact Hi|]. intros x Hx Hm. destruct (Hend x Hx Hm) as [Hp|(tr2 & Hi & Htd')]; [auto|]. right. exists tr2. split; [right; exact Hi|exact Htd'].
    - destruct Hst as (HF1 & Hsame & Hne & Hnd & Henc & Hpc & Hfl). cbn [unwrap bind] in Hl.
      apply bind_ok in Hl. destruct Hl as ([[[[tr2 vs2] cs2] sm2] [irr2 lrg2]] & Hall & Hl). rewrite Hall in *.
      assert (Hek : forall e, In e enc -> In e cstr) by (intros e He; apply (encroached_part S tr cstr o e HS HRo Hno Hd), Henc, He).
      assert (Hdown : turned_down l tr t).
      { destruct enc as [|e enc]; [congruence|]. exists S, o, e. split; [exact HF|]. split; [exact Ht|]. split; [exact Eo|]. split; [apply HX, Hek; left; reflexivity|]. apply encroach_inside, Henc. left. reflexivity. }
      assert (HQ1 : queues prm tr1 (irr', lrg') (fun x => past x \/ x = t)).
      { split; intros x Hx.
        - rewrite Hsame. apply (qu_in _ _ _ _ HQ), Hsub, Hx.
        - intros Hm. apply Hsame in Hx. destruct (qu_all _ _ _ _ HQ x Hx Hm) as [Hq'|Hp]; [|auto]. destruct (tdec x t) as [->|N]; [auto|]. left. apply Hrest; assumption. }
      assert (HS1 : stage l S tr1 cstr) by (split; [exact HF1|split; [exact HR|exact HX]]).
      destruct (enc_stage _ _ _ _ _ _ _ _ S _ _ _ _ _ _ HS1 (Permutation_NoDup (ho_perm H (5%nat :: p) _ enc) Hnd) (fun e He => Hek e (proj1 (ho_In H _ _ enc e) He)) HQ1
        (fun a Ha => Hat a (or_intror (in_or_app _ _ _ (or_introl Ha)))) Hall) as (S2 & HS2 & Hin2 & HQ2).
      destruct (IH _ _ _ _ _ _ S2 _ _ _ _ HS2 HQ2 (fun a Ha => Hat a (or_intror (in_or_app _ _ _ (or_intror Ha)))) Hl) as (S' & HS' & Hin & Hend).
      exists S'. split; [exact HS'|]. split; [auto|]. intros x Hx Hm. destruct (Hend x Hx Hm) as [[Hp| ->]|(tr3 & Hi & Htd')]; [auto| |].
      + right. exists tr. split; [left; reflexivity|exact Hdown].
      + right. exists tr3. split; [right; apply in_or_app; right; exact Hi|exact Htd'].
  Qed.

  Lemma irregular_stage : forall fuel p tr K S tr' cstr' sm',
    stage l S tr K -> (forall a, In a (irregular_attempts H bd [] fuel p prm tr K) -> sound_attempt l a) ->
    split_irregular H fuel p prm tr K bd [] = Ok (tr', cstr', sm') ->
    exists S', stage l S' tr' cstr' /\ (forall w, In w S -> In w S') /\
      forall x, In x (tris tr') -> is_ghost x = false -> misses prm x -> exists tr1, In (Centre tr1 x) (irregular_attempts H bd [] fuel p prm tr K) /\ turned_down l tr1 x.
  Proof.
    intros fuel p tr K S tr' cstr' sm' HS Hat Hr. unfold split_irregular in Hr. unfold irregular_attempts in *.
    apply bind_ok in Hr. destruct Hr as (irr & Hi & Hr). apply bind_ok in Hr. destruct Hr as (lrg & Hl & Hr).
    set (solid := filter (fun t => negb (is_ghost t)) (tris tr)) in *. rewrite Hi, Hl in *.
    assert (Hsol : forall t, In t solid <-> In t (tris tr) /\ is_ghost t = false) by (intros t; unfold solid; rewrite filter_In, negb_true_iff; reflexivity).
    pose proof (filterM_in _ _ _ _ Hi) as Fi. pose proof (filterM_in _ _ _ _ Hl) as Fl.
    destruct (split_stage fuel p tr K [] irr lrg S (fun _ => False) tr' cstr' sm' HS) with (2 := Hat) (3 := Hr) as (S' & HS' & Hin & Hend).
    - split.
      + intros t [Ht|Ht]; cbn [fst snd] in Ht; [apply Fi in Ht|apply Fl in Ht]; apply Hsol, Ht.
      + intros t Ht [Hg Hm]. left. assert (Hin : In t solid) by (apply Hsol; auto). destruct Hm as [Hm|Hm].
        * left. cbn [fst]. apply Fi. split; [exact Hin|]. destruct (filterM_ok _ _ _ _ Hi) as (g & Hall & _). pose proof (Hall t Hin) as Hb.
          rewrite Hb. f_equal. apply (thin_spec _ _ _ Hb). exact Hm.
        * right. cbn [snd]. apply Fl. split; [exact Hin|]. destruct (filterM_ok _ _ _ _ Hl) as (g & Hall & _). pose proof (Hall t Hin) as Hb.
          rewrite Hb. f_equal. apply (large_spec _ _ _ Hb). exact Hm.
    - exists S'. split; [exact HS'|]. split; [exact Hin|]. intros x Hx Hg Hm. destruct (Hend x Hx (conj Hg Hm)) as [[]|Q]. exact Q.
  Qed.
End Split.

(** ** A whole refinement *)
Section Whole.
  Variables (l : list pnt) (H : HashOrder).
  Hypothesis HC : convex_polygon l.

  (** The boundary of the polygon, cut at the vertices. *)
  Lemma sides_parts : forall S (tr : mesh), framed l S tr -> resolved S -> (forall a b, In (a, b) (polygon_sides l) -> piece l S (a, b)) -> exact_parts l S (polygon_sides l).
  Proof.
    intros S tr HF HR Hp. split; [apply polygon_NoDup, HC|]. intros [a b]. split.
    - intros Hi. split; [apply Hp, Hi|]. exists a, b, 0, 1. split; [exact Hi|]. cbn [fst snd]. split; [split; lra|]. split; [split; lra|lra].
    - intros [Pe (x & y & i & j & Hxy & Ri & Rj & L)]. cbn [fst snd] in *. pose proof (proj1 (cx_apart l HC x y Hxy)) as Nc.
      destruct (Hp x y Hxy) as [(Hx & Hy & _) _ Hem]. cbn [fst snd] in *. destruct (pc_along _ _ _ Pe) as (Ha & Hb & x' & y' & Hxy' & Oa & Ob). cbn [fst snd] in *.
      assert (App : forall u v, In u S -> In v S -> coincide u v -> u = v).
      { intros u v Hu Hv [E1 E2]. apply (rs_apart _ HR); auto. unfold close. rewrite E1, E2. pose proof eps_pos. split; lra. }
      assert (R0 : at_ratio 0 x y x) by (split; lra). assert (R1 : at_ratio 1 x y y) by (split; lra).
      (* the two ends are on the side named by the direction, between its ends *)
      assert (Box : forall c k, In c S -> at_ratio k x y c -> 0 <= k <= 1).
      { intros c k Hc Rk. destruct (fr_placed _ _ _ HF c Hc x y Hxy) as [Os|Os].
        - apply on_side_ratio in Os. destruct Os as (k' & Hk' & Rk'). rewrite (ratio_same x y k k' c Nc Rk Rk'). exact Hk'.
        - apply spread_pos in Os; [|lra]. rewrite (ratio_D k x y c x y Rk), D_ab_a, D_ab_b in Os. lra. }
      pose proof (Box a i Ha Ri) as Bi. pose proof (Box b j Hb Rj) as Bj.
      assert (Ei : i = 0). { apply Rle_antisym; [|lra]. apply Rnot_lt_le. intros L0. apply (Hem a Ha). apply (ratio_between x y 0 1 i); auto. lra. }
      assert (Ej : j = 1). { apply Rle_antisym; [lra|]. apply Rnot_lt_le. intros L0. apply (Hem b Hb). apply (ratio_between x y 0 1 j); auto. lra. }
      subst i j. assert (E1 : a = x) by (apply App; auto; destruct Ri; split; lra). assert (E2 : b = y) by (apply App; auto; destruct Rj; split; lra). subst. exact Hxy.
  Qed.

  Lemma refine_stage : forall fuel p (t t' : triangulator ArithR) prm S cs,
    t_boundary t = Poly l false -> t_holes t = [] -> t_segments t = [] ->
    framed l S (t_trn t) -> resolved S -> (forall a b, In (a, b) (polygon_sides l) -> piece l S (a, b)) ->
    (forall a, In a (refine_attempts H fuel p t prm) -> sound_attempt l a) ->
    refine H fuel p t prm = Ok (t', cs) ->
    exists S', framed l S' (t_trn t') /\ resolved S' /\ (forall w, In w S -> In w S') /\
      forall x, In x (tris (t_trn t')) -> is_ghost x = false -> misses prm x -> exists tr1, In (Centre tr1 x) (refine_attempts H fuel p t prm) /\ turned_down l tr1 x.
  Proof.
    intros fuel p t t' prm S cs Eb Eh Es HF HR Hp Hat Hr. unfold refine in Hr. unfold refine_attempts in *. apply bind_ok in Hr. destruct Hr as (K & HK & Hr). rewrite HK in *.
    rewrite Eb, Eh in *. apply bind_ok in Hr. destruct Hr as ([[[tr1 sm1] inc1] del1] & Hu & Hr). rewrite Hu in *. apply bind_ok in Hr. destruct Hr as ([[tr2 cs2] sm2] & Hi & Hr). injection Hr as <- <-.
    assert (HX : exact_parts l S K).
    { unfold refine_constraints in HK. rewrite Eb, Eh, Es in HK. unfold all_edges in HK; cbn [foldM bind] in HK. apply bind_ok in HK. destruct HK as (bes & Hbe & HK). injection HK as <-.
      pose proof (sides_parts S (t_trn t) HF HR Hp) as [Hn Hx]. rewrite (polygon_edges l (cx_some l HC)) in Hbe. injection Hbe as <-. cbn [app]. rewrite app_nil_r. split; [apply hset_NoDup|].
      intros e. rewrite hset_In. apply Hx. }
    destruct (unencroach_stage l H HC _ _ K (t_trn t) S tr1 sm1 inc1 del1 (conj HF (conj HR HX)) (fun a Ha => Hat a (in_or_app _ _ _ (or_introl Ha))) Hu) as (S1 & HS1 & Hin1).
    destruct (irregular_stage l H prm HC _ _ tr1 _ S1 tr2 cs2 sm2 HS1 (fun a Ha => Hat a (in_or_app _ _ _ (or_intror Ha))) Hi) as (S2 & (HF2 & HR2 & HX2) & Hin2 & Hend).
    exists S2. cbn [t_trn with_triangulation]. split; [exact HF2|]. split; [exact HR2|]. split; [auto|]. intros x Hx Hg Hm. destruct (Hend x Hx Hg Hm) as (tr3 & Hc & Hd).
    exists tr3. split; [apply in_or_app; right; exact Hc|exact Hd].
  Qed.
End Whole.
