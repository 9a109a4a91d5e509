(** P_Count3.v — the number of triangles that the program writes; in doubles. *)

From Coq Require Import String Reals List ZArith Lra Lia Bool Permutation.
From Verif Require Import Base Arith Geometry Elements Polyline Procedures Refine Triangulator Interface ArithR ArithF Spec SpecI SpecM SpecR SpecD SpecP SpecC SpecE SpecF SpecT SpecX
  P_Base P_Trn P_Trn2 P_Interface P_RX P_R1 P_R2 P_D1 P_D4 P_D5 P_D6 P_D7 P_D8 P_Fill2 P_C5 P_E4 P_F3 P_L5 P_X2 P_X3 P_Y3 P_Count1 P_Count2.
Import ListNotations.
Local Open Scope R_scope.

Lemma insertion_count : forall (H : HashOrder) fuel p S (tr : mesh) vs tr' inc del, delaunay S tr -> resolved (vs ++ S) ->
  vertices_include H fuel p tr vs [] None [] = Ok (tr', inc, del) -> (length (tris tr') + 2 = 2 * length (trn_vertices tr'))%nat.
Proof.
  intros H fuel p S tr vs tr' inc del HD HR E. destruct (insertion H fuel p S tr vs tr' inc del HD HR E) as (ins & _ & Hi & HD').
  assert (HR' : resolved (ins ++ S)) by (apply (resolved_incl (vs ++ S)); [exact HR|]; intros w Hw; apply in_app_iff in Hw as [Hw|Hw]; apply in_app_iff; [left; apply Hi, Hw|right; exact Hw]).
  assert (Hpts : forall w, In w (trn_vertices tr') <-> In w (ins ++ S)) by (apply delaunay_points; [exact HD'|apply (rs_plain _ HR')]).
  apply mesh_count; [apply (delaunay_incl (ins ++ S)); [exact HD'|]; intros w; symmetry; apply Hpts|apply (resolved_incl (ins ++ S)); [exact HR'|]; intros w; apply Hpts|apply trn_lists_NoDup].
Qed.

(** In doubles. *)
Lemma float_count : forall k S S' (tr : triangulation ArithF) (M : mesh), fine_spacing k -> Forall2 (fine_reads k) S S' -> NoDup S' -> stands_for S tr M -> delaunay S' M ->
  (length (tris tr) + 2 = 2 * length S)%nat.
Proof.
  intros k S S' tr M Hk HF HN HS HD. assert (HR : resolved S').
  { apply (fine_resolved k); [exact Hk|]. intros w Hw. clear -HF Hw. induction HF as [|v u l l' Hv HF IH]; [destruct Hw|]. destruct Hw as [<-|Hw]; [apply Hv|apply IH, Hw]. }
  pose proof (mesh_count S' M HD HR HN) as Hc. assert (EF : length S = length S') by (clear -HF; induction HF; cbn; congruence). rewrite EF. assert (length (tris tr) = length (tris M)); [|lia].
  pose proof (reads_map k S S' HF) as [EM _]. rewrite <- EM in HN.
  assert (Hinj : forall v v' w, (In v S \/ v = ghost_vertex) -> (In v' S \/ v' = ghost_vertex) -> reads v w -> reads v' w -> v = v').
  { assert (HG : forall v, In v S -> vghost v = false) by (intros v Hv; apply (in_map rdF) in Hv; rewrite EM in Hv; exact (rs_plain _ HR _ Hv)).
    intros v v' w [Hv| ->] [Hv'| ->] R1 R2; [|exfalso|exfalso|reflexivity].
    - apply (map_inj rdF S); auto. rewrite (reads_rd _ _ R1), (reads_rd _ _ R2). reflexivity.
    - destruct R1 as (_ & _ & G1). destruct R2 as (_ & _ & G2). rewrite (HG v Hv) in G1. rewrite <- G1 in G2. discriminate G2.
    - destruct R1 as (_ & _ & G1). destruct R2 as (_ & _ & G2). rewrite (HG v' Hv') in G2. rewrite <- G2 in G1. discriminate G1. }
  apply Nat.le_antisymm.
  - apply (relation_le tri_reads); [apply (sf_nodup _ _ _ HS)|apply (sf_shows _ _ _ HS)|].
    intros [a b c] [a' b' c'] y Ht Ht' (R1 & R2 & R3) (R1' & R2' & R3'). cbn [tv1 tv2 tv3] in *.
    assert (O : forall x y z, In (Tri x y z) (tris tr) -> (In x S \/ x = ghost_vertex) /\ (In y S \/ y = ghost_vertex) /\ (In z S \/ z = ghost_vertex)).
    { intros x u z Hx. split; [|split]; apply (sf_over _ _ _ HS _ _ Hx); constructor. }
    destruct (O _ _ _ Ht) as (O1 & O2 & O3). destruct (O _ _ _ Ht') as (O1' & O2' & O3').
    rewrite (Hinj a a' (tv1 y)), (Hinj b b' (tv2 y)), (Hinj c c' (tv3 y)); auto.
  - apply (relation_le (fun t' t => tri_reads t t')); [apply (dl_nodup _ _ HD)|apply (sf_shown _ _ _ HS)|].
    intros t t' y _ _ R1 R2. rewrite <- (tri_reads_rt _ _ R1), <- (tri_reads_rt _ _ R2). reflexivity.
Qed.

(** The whole program on a convex polygon. *)
Lemma triples_count : forall l S (tr : mesh) order vec ts triples, convex_polygon l -> framed l S tr -> resolved S -> NoDup order -> (forall w, In w order <-> In w S) ->
  Forall2 (names vec) ts triples -> NoDup ts -> (forall x, In x ts <-> solid_in tr x) ->
  forall B, NoDup B -> (forall w, In w B <-> In w order /\ on_polygon l w) -> (length triples + 2 + length B = 2 * length order)%nat.
Proof.
  intros l S tr order vec ts triples HC HF HR HN Ho F2 Ht Hts B HB HBo.
  assert (E1 : length ts = length triples) by (clear -F2; induction F2; cbn; congruence).
  assert (Pt : Permutation ts (filter (fun t => negb (is_ghost t)) (tris tr))).
  { apply NoDup_Permutation; [exact Ht|apply NoDup_filter, (dl_nodup _ _ (fr_delaunay _ _ _ HF))|]. intros x. rewrite Hts, filter_In, negb_true_iff. reflexivity. }
  rewrite <- E1, (Permutation_length Pt). apply (solid_count l S tr HC HF HR); auto. intros w. rewrite HBo, Ho. reflexivity.
Qed.

Lemma program_count : forall l, convex_polygon l -> forall (H : HashOrder) p (inp : input ArithR) vs, polygon_job inp l vs -> resolved (vs ++ l) -> (forall w, In w vs -> deep l w) ->
  exists n0 t t', (forall fuel, (n0 <= fuel)%nat -> parse H fuel (1%nat :: p) inp = Ok (Some (t, RP (i_max_area inp) (i_quality inp))) /\ triangulate H fuel (2%nat :: p) t = Ok t') /\
    ((forall fuel a, In a (refine_attempts H fuel (3%nat :: p) t' (RP (i_max_area inp) (i_quality inp))) -> sound_attempt l a) ->
     exists n1 coords triples, (forall fuel, (n1 <= fuel)%nat -> run_main H fuel p inp = Ok (Some (coords, triples))) /\
       forall B, NoDup B -> (forall w : pnt, In w B <-> vghost w = false /\ In (X w, Y w) coords /\ on_polygon l w) -> (length triples + 2 + length B = 2 * length coords)%nat).
Proof.
  intros l Hl H p inp vs HJ HR Hd. destruct (whole_run l Hl) as (N & HN). destruct (HN H p inp vs HJ HR Hd) as (n0 & t & t' & H0 & H1). exists n0, t, t'. split; [exact H0|]. intros Ha.
  destruct (H1 Ha) as (n1 & c & ts & Hrun & _ & S & tr & order & vec & tt & F1 & F2 & _ & _ & _ & _ & Ec & Nc & Ho & _ & Fn & Nt & Ht).
  exists n1, c, ts. split; [exact Hrun|]. intros B HB HBn. rewrite Ec, map_length. apply (triples_count l S tr order vec tt ts Hl F1 F2); auto.
  - rewrite Ec in Nc. apply NoDup_map_inv in Nc. exact Nc.
  - intros w. rewrite HBn, Ec, in_map_iff. split.
    + intros (G & (u & E & Hu) & Hw). split; [|exact Hw]. assert (u = w) as <-; [|exact Hu]. apply plain_coincide; [apply (rs_plain _ F2), Ho, Hu|exact G|]. split; congruence.
    + intros [Hw Hp]. split; [apply (rs_plain _ F2), Ho, Hw|]. split; [|exact Hp]. exists w. auto.
Qed.

(** The program on a circle. *)
Lemma corner_on : forall l w, In w l -> on_polygon l w.
Proof.
  intros l w Hw. destruct (polygon_ends_in l w Hw) as (e & He & <-). exists e. split; [exact He|]. exists 1. split; [lra|]. split; ring.
Qed.
Lemma circle_count : forall c r n, (3 <= n)%nat -> 0 < r -> 3 * eps * (INR n * INR n) < 4 * r -> eps * (INR n * INR n * INR n) < 32 * (r * r) ->
  forall (H : HashOrder) p (inp : input ArithR), polygon_job inp (circle_ring c r n) [] ->
  / (2 * sin (PI / INR n)) + eps < i_quality inp -> (forall m, i_max_area inp = Some m -> 2 * (r * r) + eps < m) ->
  exists n0 coords triples, (forall fuel, (n0 <= fuel)%nat -> run_main H fuel p inp = Ok (Some (coords, triples))) /\ length coords = n /\ length triples = (n - 2)%nat.
Proof.
  intros c r n Hn Hr H1 H2 H p inp HJ Hq Hm. destruct (circle_polygon c r n Hn Hr H1 H2) as [Hc HR].
  destruct (circle_program c r n Hn Hr H1 H2 H p inp HJ Hq Hm) as (n0 & coords & triples & Hrun & tr & order & vec & ts & HF & _ & Ec & Po & Pv & Fn & Nt & Ht).
  exists n0, coords, triples. split; [exact Hrun|]. assert (El : length order = n) by (rewrite (Permutation_length Po); unfold circle_ring; rewrite map_length, seq_length; reflexivity).
  split; [rewrite Ec, map_length; exact El|].
  assert (No : NoDup order) by (apply (Permutation_NoDup (Permutation_sym Po)), (cp_nodup _ Hc)).
  assert (Ho : forall w, In w order <-> In w (circle_ring c r n)) by (intros w; split; apply Permutation_in; [exact Po|symmetry; exact Po]).
  pose proof (triples_count _ _ tr order vec ts triples Hc HF HR No Ho Fn Nt Ht order No) as E. rewrite El in E. assert (length triples + 2 + n = 2 * n)%nat; [|lia]. apply E.
  intros w. split; [intros Hw; split; [exact Hw|apply corner_on, Ho, Hw]|intros [Hw _]; exact Hw].
Qed.

(** A square with a point inside that is close to a side. *)
Lemma case_five_count : convex_polygon four /\ resolved five /\ NoDup five /\ (exists tr : mesh, framed four five tr) /\ NoDup four /\ forall w, In w four <-> In w five /\ on_polygon four w.
Proof.
  destruct five_stage as (tr & HF & HR & _). split; [exact four_convex|]. split; [exact HR|].
  assert (Hno : ~ on_polygon four tP).
  { intros ([a b] & Hs & t & Ht & Hr). pose proof (deep_pos four tP five_deep a b Hs) as L. cbn [fst snd] in *. destruct Hr as [EX EY]. assert (E : D a b tP = 0) by (unfold area2; rewrite EX, EY; ring). lra. }
  split; [constructor; [|apply (cp_nodup _ four_convex)]; intros Hi; apply Hno, corner_on, Hi|]. split; [exists tr; exact HF|]. split; [apply (cp_nodup _ four_convex)|].
  intros w. split; [intros Hw; split; [right; exact Hw|apply corner_on, Hw]|]. intros [[<-|Hw] Ho]; [contradiction|exact Hw].
Qed.
