(** P_X3.v — the whole program on a circle. *)

From Coq Require Import String Reals List ZArith Lra Lia Bool Permutation.
From Verif Require Import Base Arith Geometry Elements Polyline Procedures Refine Triangulator Interface ArithR Spec SpecI SpecR SpecD SpecP SpecC SpecE SpecQ SpecM SpecT SpecX
  P_Base P_Fuel P_Poly P_Contains P_Trn2 P_Triangulator P_Interface P_RX P_R1 P_R2 P_R3 P_R4 P_D1 P_D5 P_D8 P_Fill2 P_Polygon3 P_C7 P_C8 P_E4 P_E5 P_E6 P_E7 P_E8 P_F1 P_F2 P_F3 P_G6 P_L4 P_L5 P_X1 P_X2.
Import ListNotations.
Local Open Scope R_scope.
Local Open Scope string_scope.
Local Open Scope list_scope.

Lemma path_consecutive : forall l : list pnt, path_sides l = consecutive l.
Proof. intros l. induction l as [|a [|b l] IH]; [reflexivity|reflexivity|]. change (path_sides (a :: b :: l)) with ((a, b) :: path_sides (b :: l)). rewrite IH. reflexivity. Qed.
Lemma closed_sides : forall (l : list pnt) e, polyline_side (Poly l false) e -> In e (polygon_sides l).
Proof.
  intros l e He. assert (Hn : pverts (Poly l false) <> []) by (cbn; destruct He as [l1 a b l2 E|a l' _ E]; cbn in E; rewrite E; [destruct l1|]; discriminate).
  destruct (into_edges_sides (Poly l false) Hn) as (es & E & H). rewrite (polygon_edges l Hn) in E. injection E as <-. apply H, He.
Qed.

Section Quiet.
  Variables (l : list pnt) (H : HashOrder) (p : path) (inp : input ArithR).
  Hypothesis Hc : convex_polygon l.
  Hypothesis HR : resolved l.
  Hypothesis HJ : polygon_job inp l [].
  Hypothesis Hfree : forall a b w, In (a, b) (polygon_sides l) -> In w l -> encroach a b w <> Inside.
  Let prm := RP (A:=ArithR) (i_max_area inp) (i_quality inp).
  Hypothesis Hfine : forall a b c, In a l -> In b l -> In c l -> 0 < area2 a b c -> ~ misses prm (Tri a b c).

  Lemma quiet_start : exists n0 t t', (forall fuel, (n0 <= fuel)%nat -> parse H fuel (1%nat :: p) inp = Ok (Some (t, prm)) /\ triangulate H fuel (2%nat :: p) t = Ok t') /\
    framed l l (t_trn t') /\ (forall q, in_region (t_trn t') q <-> winding q (polygon_sides l) = 1%Z \/ on_polygon l q) /\
    pverts (t_boundary t') <> [] /\ (forall h, In h (t_holes t') -> pverts h <> []) /\
    (forall e v, constraint_on t' e -> In v (trn_vertices (t_trn t')) -> edge_encroach e v <> Inside) /\
    (forall x, In x (tris (t_trn t')) -> is_ghost x = false -> ~ misses prm x).
  Proof.
    destruct (job_parse H l [] inp HJ Hc HR ltac:(intros w []) (1%nat :: p)) as (n & t & ws & Hp & Hw & Hn & Hws).
    assert (ws = []) as -> by (destruct ws as [|w ws]; [reflexivity|]; exfalso; apply (Hws w); left; reflexivity).
    destruct (convex_with_vertices H (2%nat :: p) t l [] Hw Hc Hn HR ltac:(intros w [])) as (n2 & t' & ins & dropped & Ht & HD & Hpm & _ & Hreg).
    assert (ins = []) as -> by (destruct ins as [|x ins]; [reflexivity|]; apply Permutation_length in Hpm; cbn in Hpm; lia). cbn [app] in HD.
    destruct (start_framed l [] (t_trn t') Hc HR ltac:(intros w []) HD) as [HF _].
    destruct (triangulate_keeps H n2 (2%nat :: p) t t' (Ht n2 ltac:(lia))) as (E1 & E2 & E3).
    assert (Eb : t_boundary t' = Poly l false) by (rewrite E1; apply Hw). assert (Eh : t_holes t' = []) by (rewrite E2; apply Hw). assert (Es : t_segments t' = []) by (rewrite E3; apply Hw).
    assert (Hpts : forall w, In w (trn_vertices (t_trn t')) <-> In w l) by (apply delaunay_points; [apply (fr_delaunay _ _ _ HF)|apply (rs_plain _ HR)]).
    exists (n + n2)%nat, t, t'. split; [intros fuel Hf; split; [apply Hp; lia|apply Ht; lia]|]. split; [exact HF|]. split; [exact Hreg|]. split; [|split; [|split]].
    - rewrite Eb. cbn. pose proof (cp_three _ Hc). destruct l; [cbn in *; lia|discriminate].
    - rewrite Eh. intros h [].
    - intros [a b] v He Hv. unfold constraint_on in He. rewrite Eb, Eh, Es in He. destruct He as [He|[(h & [] & _)|[]]]. apply closed_sides in He. apply Hpts in Hv. exact (Hfree a b v He Hv).
    - intros x Hx Hg. destruct (dl_shape _ _ (fr_delaunay _ _ _ HF) x Hx) as [(a & b & c & -> & Ha & Hb & Hc' & P0)|(a & b & -> & _)]; [apply Hfine; assumption|].
      unfold is_ghost in Hg; cbn in Hg; rewrite !orb_true_r in Hg; discriminate Hg.
  Qed.

  Lemma quiet_polygon : exists n0 coords triples, (forall fuel, (n0 <= fuel)%nat -> run_main H fuel p inp = Ok (Some (coords, triples))) /\
    exists (tr : mesh) order vec ts, framed l l tr /\ (forall q, in_region tr q <-> winding q (polygon_sides l) = 1%Z \/ on_polygon l q) /\
      coords = map (fun v : pnt => (X v, Y v)) order /\ Permutation order l /\ Permutation vec l /\ Forall2 (names vec) ts triples /\ NoDup ts /\ (forall x, In x ts <-> solid_in tr x).
  Proof.
    destruct quiet_start as (n0 & t & t' & Hpt & HF & Hreg & G1 & G2 & G3 & G4).
    assert (Hpts : forall w, In w (trn_vertices (t_trn t')) <-> In w l) by (apply delaunay_points; [apply (fr_delaunay _ _ _ HF)|apply (rs_plain _ HR)]).
    destruct (output_spec H (4%nat :: p) (t_trn t')) as (coords & triples & vec & order & Eo & Pv & Po & Ec & F2 & _).
    assert (Pl : Permutation (trn_vertices (t_trn t')) l) by (apply NoDup_Permutation; [apply trn_lists_NoDup|apply (cp_nodup _ Hc)|exact Hpts]).
    exists (S n0), coords, triples. split.
    { intros fuel Hfu. destruct (Hpt fuel ltac:(lia)) as [Hp Ht]. unfold run_main. rewrite Hp. cbn [bind]. rewrite Ht. cbn [bind].
      destruct (refine_rests H fuel (3%nat :: p) t' prm ltac:(lia) G1 G2 G3 G4) as (cs & Er & _). rewrite Er. cbn [bind]. rewrite Eo. reflexivity. }
    exists (t_trn t'), order, vec, (filter (fun t => negb (is_ghost t)) (ho H (3%nat :: 4%nat :: p) _ (tris (t_trn t')))).
    split; [exact HF|]. split; [exact Hreg|]. split; [exact Ec|]. split; [rewrite Po; exact Pl|]. split; [rewrite Pv; exact Pl|]. split; [exact F2|]. split.
    - apply NoDup_filter, ho_NoDup. apply (dl_nodup _ _ (fr_delaunay _ _ _ HF)).
    - intros x. rewrite filter_In, ho_In. unfold solid_in. rewrite negb_true_iff. reflexivity.
  Qed.
End Quiet.

Lemma circle_polygon : forall c r n, (3 <= n)%nat -> 0 < r -> 3 * eps * (INR n * INR n) < 4 * r -> eps * (INR n * INR n * INR n) < 32 * (r * r) ->
  convex_polygon (circle_ring c r n) /\ resolved (circle_ring c r n).
Proof.
  intros c r n Hn Hr H1 H2. destruct (radius_enough r n Hn Hr H1 H2) as [HA HB]. split; [apply circle_convex|apply circle_resolved]; assumption.
Qed.
Lemma circle_program : forall c r n, (3 <= n)%nat -> 0 < r -> 3 * eps * (INR n * INR n) < 4 * r -> eps * (INR n * INR n * INR n) < 32 * (r * r) ->
  forall (H : HashOrder) p (inp : input ArithR), polygon_job inp (circle_ring c r n) [] ->
  / (2 * sin (PI / INR n)) + eps < i_quality inp -> (forall m, i_max_area inp = Some m -> 2 * (r * r) + eps < m) ->
  exists n0 coords triples, (forall fuel, (n0 <= fuel)%nat -> run_main H fuel p inp = Ok (Some (coords, triples))) /\
    exists (tr : mesh) order vec ts, framed (circle_ring c r n) (circle_ring c r n) tr /\
      (forall q, in_region tr q <-> winding q (polygon_sides (circle_ring c r n)) = 1%Z \/ on_polygon (circle_ring c r n) q) /\
      coords = map (fun v : pnt => (X v, Y v)) order /\ Permutation order (circle_ring c r n) /\ Permutation vec (circle_ring c r n) /\
      Forall2 (names vec) ts triples /\ NoDup ts /\ (forall x, In x ts <-> solid_in tr x).
Proof.
  intros c r n Hn Hr H1 H2 H p inp HJ Hq Hm. destruct (circle_polygon c r n Hn Hr H1 H2) as [Hc HR]. apply quiet_polygon; auto.
  - intros a b w Hab Hw. apply (circle_free c r n Hn); assumption.
  - intros a b d Ha Hb Hd P0. apply (circle_fine c r n Hn Hr); assumption.
Qed.

Lemma eps_tiny : eps < / 10000000000000.
Proof.
  unfold eps. assert (P : 0 < IZR (2 ^ 99)) by (apply IZR_lt; reflexivity).
  assert (Q : 10000000000000 * IZR 6338253001141147 < IZR (2 ^ 99)) by (rewrite <- mult_IZR; apply IZR_lt; reflexivity).
  apply (Rmult_lt_reg_r (IZR (2 ^ 99))); [exact P|]. unfold Rdiv. rewrite Rmult_assoc, Rinv_l, Rmult_1_r by (apply Rgt_not_eq; exact P). lra.
Qed.
(** The circle of example/circle.json, with a looser target. *)
Definition disc_job : input ArithR := Inp (A:=ArithR) [Act (A:=ArithR) "include" "circle" [19 / 20] [(0, 0)] []] None 26.
Lemma case_disc : 3 * eps * (INR 100 * INR 100) < 4 * (19 / 20) /\ eps * (INR 100 * INR 100 * INR 100) < 32 * (19 / 20 * (19 / 20)) /\
  polygon_job disc_job (circle_ring (0, 0) (19 / 20) 100) [] /\ / (2 * sin (PI / INR 100)) + eps < i_quality disc_job.
Proof.
  assert (E : INR 100 = 100) by (rewrite INR_IZR_INZ; reflexivity). pose proof eps_tiny as Es. pose proof eps_pos. split; [rewrite E; lra|]. split; [rewrite E; lra|]. split.
  - assert (Ha : asks_polygon (circle_ring (0, 0) (19 / 20) 100) (Act (A:=ArithR) "include" "circle" [19 / 20] [(0, 0)] [])).
    { right. exists (0, 0), (19 / 20), 100%nat. split; [|reflexivity]. split; [reflexivity|]. split; [reflexivity|]. split; [reflexivity|]. split; [lia|]. exists []. split; [reflexivity|]. left. split; reflexivity. }
    split.
    + eexists. split; [left; reflexivity|exact Ha].
    + intros a [<-|[]]. left. exact Ha.
    + intros w. split; [intros []|]. intros (a & q & [<-|[]] & (Ei & _) & _). discriminate Ei.
  - change (i_quality disc_job) with 26. pose proof (sin_unit 100 ltac:(lia)) as Hs. rewrite E in *.
    assert (/ (2 * sin (PI / 100)) <= / (4 / 100)) by (apply Rinv_le_contravar; lra). lra.
Qed.

(** That circle, triangulated: nothing is left to refine. *)
Lemma case_rest : exists (t : triangulator ArithR) (prm : refine_params ArithR), pverts (t_boundary t) <> [] /\ (forall h, In h (t_holes t) -> pverts h <> []) /\
  (forall e v, constraint_on t e -> In v (trn_vertices (t_trn t)) -> edge_encroach e v <> Inside) /\
  (forall x, In x (tris (t_trn t)) -> is_ghost x = false -> ~ misses prm x) /\ exists x, solid_in (t_trn t) x.
Proof.
  destruct case_disc as (H1 & H2 & HJ & Hq). assert (Hn : (3 <= 100)%nat) by lia. assert (Hr : 0 < 19 / 20) by lra.
  destruct (circle_polygon (0, 0) (19 / 20) 100 Hn Hr H1 H2) as [Hc HR].
  destruct (quiet_start (circle_ring (0, 0) (19 / 20) 100) ho_id [] disc_job Hc HR HJ) as (n0 & t & t' & _ & HF & Hreg & G1 & G2 & G3 & G4).
  - intros a b w Hab Hw. apply (circle_free (0, 0) (19 / 20) 100 Hn); assumption.
  - intros a b d Ha Hb Hd P0. apply (circle_fine (0, 0) (19 / 20) 100 Hn Hr); try assumption. intros m Em. discriminate Em.
  - exists t', (RP (A:=ArithR) (i_max_area disc_job) (i_quality disc_job)). split; [exact G1|]. split; [exact G2|]. split; [exact G3|]. split; [exact G4|].
    assert (Hs : exists e, In e (polygon_sides (circle_ring (0, 0) (19 / 20) 100))) by (eexists; left; reflexivity). destruct Hs as (e & Hs).
    destruct (proj2 (Hreg (fst e))) as (u & v & w & Hx & _); [|eexists; exact Hx]. right. exists e. split; [exact Hs|].
    exists 0. unfold at_ratio. split; [lra|]. split; ring.
Qed.
