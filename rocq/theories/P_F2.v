(** P_F2.v — refinement of a convex polygon, step by step and from its corners. *)

From Coq Require Import Reals List ZArith Lra Lia Psatz Bool Permutation.
From Verif Require Import Base Arith Geometry Elements Polyline Procedures Refine Triangulator ArithR Spec SpecM SpecR SpecD SpecP SpecC SpecE
  P_Base P_Trn P_Fuel P_Poly P_Vertices P_Cavity P_Refine P_Worked P_RX P_R1 P_R2 P_R3 P_R5 P_R6 P_D1 P_D2 P_D3 P_D4 P_D5 P_D6 P_D7 P_Fill P_Fill2 P_Region P_C1 P_C2 P_C3 P_C4 P_C5 P_C6 P_C7 P_C8 P_C9 P_E1 P_E2 P_E3 P_E4 P_E5 P_E6 P_E7 P_E8 P_E9 P_F1.
Import ListNotations.
Local Open Scope R_scope.

Lemma part_solid : forall l S (tr : mesh) e, convex_polygon l -> framed l S tr -> resolved S -> part l S e -> exists t, solid_in tr t /\ side_of e t.
Proof.
  intros l S tr [p q] HC HF HR He. destruct (part_edge l HC S tr p q HF HR He) as (t & c & Ht & Hl & Hc & _). destruct He as [Hp _]. destruct (pc_along _ _ _ Hp) as (H1 & H2 & _). cbn [fst snd] in *.
  assert (G : is_ghost t = false) by (unfold is_ghost; destruct Hl as [-> |[-> | ->]]; cbn [tv1 tv2 tv3]; rewrite !(rs_plain _ HR) by assumption; reflexivity).
  exists t. split; [split; [exact Ht|exact G]|]. apply (looks_sides t p q c Hl). auto.
Qed.

Lemma effect_reports : forall S (tr tr' : mesh) v inc del, delaunay S tr -> resolved (v :: S) -> ~ In v S -> effect S tr v tr' inc del -> reports tr tr' inc del.
Proof.
  intros S tr tr' v inc del HD HR Hv HE. destruct (tracks_effect S tr tr' v inc del HD HR Hv HE) as [T1 T2 T3 T4 _]. destruct HE as (_ & _ & Hi & Hd). split; intros x; [apply Hi|].
  split; [intros Hx; split; [apply Hd, Hx|apply T4, Hx]|]. intros [H1 H2]. destruct (T2 x H1); [assumption|contradiction].
Qed.

Section Steps.
  Variables (l : list pnt) (H : HashOrder).
  Hypothesis HC : convex_polygon l.

  (** What two meshes of the polygon cover is the same. *)
  Lemma same_region : forall S S' (tr tr' : mesh), framed l S tr -> resolved S -> framed l S' tr' -> resolved S' -> forall q, in_region tr q <-> in_region tr' q.
  Proof. intros S S' tr tr' F1 R1 F2 R2 q. rewrite (region_exact l HC S tr q F1 R1), (region_exact l HC S' tr' q F2 R2). reflexivity. Qed.

  Lemma middle_step : forall S (tr : mesh) s R fuel p, stage l S tr (s :: R) -> resolved (edge_midpoint s :: S) -> placed l (edge_midpoint s) ->
    split_segment H fuel p tr s (s :: R) (Some (Poly l false)) [] <> Panic /\
    forall h1 h2 tr' inc del, split_segment H fuel p tr s (s :: R) (Some (Poly l false)) [] = Ok (h1, h2, (tr', inc, del)) ->
      stage l (edge_midpoint s :: S) tr' (h2 :: h1 :: R) /\ reports tr tr' inc del /\ h1 = (fst s, edge_midpoint s) /\ h2 = (edge_midpoint s, snd s).
  Proof.
    intros S tr s R fuel p HS HRm Hpl. pose proof HS as (HF & HR & HX). pose proof (stage_along l S tr _ HS) as HK.
    assert (Hs : piece l S s) by (apply (proj2 HX); left; reflexivity). split; [apply (split_safe l H HC S); assumption|].
    intros h1 h2 tr' inc del Hsp. destruct (split_step l HC H S tr s _ fuel p h1 h2 tr' inc del HF HRm Hs Hpl HK Hsp) as (E1 & E2 & HE & HF1).
    split; [|split; [exact (effect_reports S tr tr' _ inc del (fr_delaunay _ _ _ HF) HRm (mid_fresh l S s HRm Hs) HE)|auto]].
    subst h1 h2. split; [exact HF1|]. split; [exact HRm|]. exact (exact_cut l HC S s R HRm HX).
  Qed.

  Lemma centre_tried : forall S (tr : mesh) t o K fuel p, stage l S tr K -> resolved (o :: S) -> solid_in tr t -> tri_circumcenter t = Some o -> deep l o ->
    try_circumcenter H fuel p tr t K (Some (Poly l false)) [] <> Panic /\
    (forall tr' inc del, try_circumcenter H fuel p tr t K (Some (Poly l false)) [] = Ok (tr', inl (inc, del)) ->
      stage l (o :: S) tr' K /\ reports tr tr' inc del /\ In t del /\
      forall e, part l S e -> (forall w, In w S -> ~ inside_diameter (fst e) (snd e) w) -> edge_encroach e o <> Inside) /\
    (forall tr' enc, try_circumcenter H fuel p tr t K (Some (Poly l false)) [] = Ok (tr', inr enc) ->
      stage l S tr' K /\ (forall x, In x (tris tr') <-> In x (tris tr)) /\ enc <> [] /\ NoDup enc /\
      (forall e, In e enc -> part l S e /\ inside_diameter (fst e) (snd e) o) /\
      forall e, part l S e -> (forall w, In w S -> ~ inside_diameter (fst e) (snd e) w) -> edge_encroach e o = Inside -> In e enc).
  Proof.
    intros S tr t o K fuel p HS HRo [Ht Hg] Ho Hd. pose proof HS as (HF & HR & HX). pose proof (stage_along l S tr K HS) as HK.
    destruct (centre_facts S tr t o (fr_delaunay _ _ _ HF) HRo Ht Hg Ho) as [Hno _]. split; [exact (try_safe l H HC S tr t o K fuel p HF HRo Ht Hg Ho Hd HK)|]. split.
    - intros tr' inc del Htry. pose proof (centre_step l HC H S tr t o K fuel p tr' _ HF HRo Ht Hg Ho Hd HK Htry) as (HE & HF1 & Htd & Hfree).
      split; [split; [exact HF1|split; [exact HRo|exact (exact_deep l S o K Hd HX)]]|]. split; [exact (effect_reports S tr tr' o inc del (fr_delaunay _ _ _ HF) HRo Hno HE)|]. split; [exact Htd|].
      intros e He Hw Hin. apply (Hfree e). apply (new_encroach l HC S tr o K e HF HRo Hno Hd); auto. apply HX, He.
    - intros tr' enc Htry. pose proof (centre_step l HC H S tr t o K fuel p tr' _ HF HRo Ht Hg Ho Hd HK Htry) as (HF1 & Hsame & Hne & Hnd & Henc & _).
      split; [split; [exact HF1|split; assumption]|]. split; [exact Hsame|]. split; [exact Hne|]. split; [exact Hnd|]. split.
      + intros e He. apply Henc in He. split; [apply HX, (encroached_part l HC S tr K o e HS HRo Hno Hd He)|]. apply encroach_inside, He.
      + intros e He Hw Hin. apply Henc. apply (new_encroach l HC S tr o K e HF HRo Hno Hd); auto. apply HX, He.
  Qed.

  Lemma unencroach_parts : forall fuel p (tr : mesh) S K, stage l S tr K ->
    (forall a, In a (unencroach_attempts H (Some (Poly l false)) [] fuel p tr K) -> sound_attempt l a) ->
    unencroach H fuel p tr K (Some (Poly l false)) [] <> Panic /\
    forall tr' sm inc del, unencroach H fuel p tr K (Some (Poly l false)) [] = Ok (tr', sm, inc, del) ->
      exists S', stage l S' tr' (replace_split sm K) /\ (forall w, In w S -> In w S').
  Proof.
    intros fuel p tr S K HS Hat. split; [exact (unencroach_safe l H HC fuel p K tr S HS Hat)|].
    intros tr' sm inc del Hu. exact (unencroach_stage l H HC fuel p K tr S tr' sm inc del HS Hat Hu).
  Qed.
End Steps.

(** ** A whole refinement *)
Lemma refine_convex : forall (H : HashOrder) fuel p (t : triangulator ArithR) prm l S, convex_polygon l ->
  t_boundary t = Poly l false -> t_holes t = [] -> t_segments t = [] ->
  framed l S (t_trn t) -> resolved S -> (forall a b, In (a, b) (polygon_sides l) -> piece l S (a, b)) ->
  (forall a, In a (refine_attempts H fuel p t prm) -> sound_attempt l a) ->
  refine H fuel p t prm <> Panic /\
  forall t' cs, refine H fuel p t prm = Ok (t', cs) ->
    exists S', framed l S' (t_trn t') /\ resolved S' /\ (forall w, In w S -> In w S') /\
      (forall q, in_region (t_trn t') q <-> forall a b, In (a, b) (polygon_sides l) -> 0 <= area2 a b q) /\
      (forall e, part l S' e -> exists u, solid_in (t_trn t') u /\ side_of e u) /\
      forall x, solid_in (t_trn t') x -> misses prm x -> exists tr1, In (Centre tr1 x) (refine_attempts H fuel p t prm) /\ turned_down l tr1 x.
Proof.
  intros H fuel p t prm l S HC Eb Eh Es HF HR Hp Hat. split; [exact (refine_safe l H fuel p t prm S HC Eb Eh Es HF HR Hp Hat)|].
  intros t' cs Hr. destruct (refine_stage l H HC fuel p t t' prm S cs Eb Eh Es HF HR Hp Hat Hr) as (S' & HF' & HR' & Hin & Hend). exists S'.
  split; [exact HF'|]. split; [exact HR'|]. split; [exact Hin|]. split; [intros q; apply (region_exact l HC S'); assumption|]. split; [intros e He; apply (part_solid l S'); assumption|].
  intros x [Hx Hg] Hm. exact (Hend x Hx Hg Hm).
Qed.

(** ** From the corners and the free vertices *)
Lemma resolved_perm : forall S S', (forall w : pnt, In w S' -> In w S) -> resolved S -> resolved S'.
Proof. intros S S' Hi HR. exact (resolved_incl S S' HR Hi). Qed.

Lemma deep_not_between : forall l a b w, In (a, b) (polygon_sides l) -> deep l w -> ~ strictly_between a b w.
Proof. intros l a b w Hab Hd [E _]. pose proof (spread_pos 3 a b w ltac:(lra) (Hd a b Hab)). lra. Qed.

Lemma start_framed : forall l ins (tr : mesh), convex_polygon l -> resolved (ins ++ l) -> (forall w, In w ins -> deep l w) -> constrained_delaunay (ins ++ l) (polygon_sides l) tr ->
  framed l (ins ++ l) tr /\ forall a b, In (a, b) (polygon_sides l) -> piece l (ins ++ l) (a, b).
Proof.
  intros l ins tr HC HR Hd HD.
  assert (Hoff : forall a b w, In (a, b) (polygon_sides l) -> In w (ins ++ l) -> ~ strictly_between a b w).
  { intros a b w Hab Hw. apply in_app_or in Hw. destruct Hw as [Hw|Hw]; [apply (deep_not_between l); auto|].
    destruct (cx_side l HC a b w Hab Hw) as [[_ [-> | ->]]|P]; [| |intros [Q _]; lra]; intros [_ Q]; unfold dotp in Q; lra. }
  split.
  - apply (constrained_framed l HC); auto.
    + intros w Hw. apply in_or_app. auto.
    + intros w Hw. apply in_app_or in Hw. destruct Hw as [Hw|Hw]; [apply (deep_placed l w (Hd w Hw))|apply (corner_placed l HC w Hw)].
  - intros a b Hab. destruct (polygon_ends l _ Hab) as [Ha Hb]. cbn [fst snd] in *. destruct (cx_apart l HC a b Hab) as (_ & Nab & _). split.
    + split; [apply in_or_app; auto|]. split; [apply in_or_app; auto|]. exists a, b. split; [exact Hab|]. split; [left; reflexivity|right; left; reflexivity].
    + exact Nab.
    + cbn [fst snd]. intros w Hw. apply (Hoff a b w Hab Hw).
Qed.

Lemma triangulate_keeps : forall (H : HashOrder) fuel p (t t' : triangulator ArithR), triangulate H fuel p t = Ok t' ->
  t_boundary t' = t_boundary t /\ t_holes t' = t_holes t /\ t_segments t' = t_segments t.
Proof.
  intros H fuel p t t' Hr. unfold triangulate in Hr. repeat (apply bind_ok in Hr; let x := fresh "x" in destruct Hr as (x & _ & Hr); cbv beta in Hr; try (destruct x as [[? ?] ?]); try (destruct x as [? ?])).
  injection Hr as <-. auto.
Qed.

Lemma convex_refined : forall (H : HashOrder) n p (t0 t0' t : triangulator ArithR) l vs, only_polygon t0 l -> triangulate H n p t0 = Ok t0' -> polygon_with t l vs ->
  convex_polygon l -> NoDup vs -> resolved (vs ++ l) -> 0 < shoelace (polygon_sides l) -> (forall w, In w vs -> deep l w) ->
  (forall w, In w l -> exists u, solid_in (t_trn t0') u /\ corner_of w u) ->
  exists n0 t' ins, (forall fuel, (n0 <= fuel)%nat -> triangulate H fuel p t = Ok t') /\ (forall w, In w ins -> In w vs) /\ (vs <> [] -> ins <> []) /\
    forall prm fuel q, (forall a, In a (refine_attempts H fuel q t' prm) -> sound_attempt l a) ->
      refine H fuel q t' prm <> Panic /\
      forall t'' cs, refine H fuel q t' prm = Ok (t'', cs) ->
        exists S', framed l S' (t_trn t'') /\ resolved S' /\ (forall w, In w (ins ++ l) -> In w S') /\
          (forall z, in_region (t_trn t'') z <-> winding z (polygon_sides l) = 1%Z \/ on_polygon l z) /\
          (forall e, part l S' e -> exists u, solid_in (t_trn t'') u /\ side_of e u) /\
          forall x, solid_in (t_trn t'') x -> misses prm x -> exists tr1, In (Centre tr1 x) (refine_attempts H fuel q t' prm) /\ turned_down l tr1 x.
Proof.
  intros H n p t0 t0' t l vs Ho Hr Hw HC Hnv HR Ha Hd Hu.
  destruct (convex_triangulated H n p t0 t0' t l vs Ho Hr Hw (cp_nodup _ HC) Hnv HR Ha (cp_away _ HC)) as (n0 & t' & ins & dropped & Hrun & HD & Hperm & Hne & Hreg); auto.
  { intros a b w Hab Hi. apply Hd; assumption. }
  exists n0, t', ins. split; [exact Hrun|]. assert (Hin : forall w, In w ins -> In w vs) by (intros w Hi; apply (Permutation_in _ (Permutation_sym Hperm)), in_or_app; auto).
  split; [exact Hin|]. split; [exact Hne|]. intros prm fuel q Hat.
  destruct (triangulate_keeps H n0 p t t' (Hrun n0 (Nat.le_refl _))) as (E1 & E2 & E3). destruct Hw as [W1 W2 W3 _]. rewrite W1 in E1. rewrite W2 in E2. rewrite W3 in E3.
  assert (HR' : resolved (ins ++ l)) by (apply (resolved_incl (vs ++ l)); [exact HR|]; intros w Hi; apply in_or_app; apply in_app_or in Hi; destruct Hi; auto).
  destruct (start_framed l ins (t_trn t') HC HR' (fun w Hi => Hd w (Hin w Hi)) HD) as [HF Hp].
  destruct (refine_convex H fuel q t' prm l (ins ++ l) HC E1 E2 E3 HF HR' Hp Hat) as [Hs Hend]. split; [exact Hs|].
  intros t'' cs Hrf. destruct (Hend t'' cs Hrf) as (S' & F' & R' & I' & Reg & Ed & Bad). exists S'. repeat (split; [assumption|]). split; [|split; assumption].
  intros z. rewrite Reg, <- (region_exact l HC (ins ++ l) (t_trn t') z HF HR'). apply Hreg.
Qed.
