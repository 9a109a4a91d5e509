(** P_Z11.v — the whole program in doubles on a convex polygon that meets its targets. *)

From Coq Require Import String Reals List ZArith Lra Lia Bool Permutation.
From Verif Require Import Base Arith ArithR ArithF Geometry Elements Polyline Procedures Refine Triangulator Interface Spec SpecI SpecM SpecR SpecD SpecP SpecF SpecX Samples
  P_Base P_Fuel P_Trn P_Trn2 P_Interface P_R1 P_D7 P_D8 P_C5 P_X1 P_Polygon3 P_Y1 P_Y2 P_Y3 P_Y4 P_Y6 P_Y7 P_Z3 P_Made.
Import ListNotations.
Local Open Scope R_scope.

Lemma keeps_parts : forall (A : Arith) (H : HashOrder) fuel p (t t' : triangulator A), triangulate H fuel p t = Ok t' ->
  t_boundary t' = t_boundary t /\ t_holes t' = t_holes t /\ t_segments t' = t_segments t.
Proof.
  intros A H fuel p t t' Hr. unfold triangulate in Hr. repeat (apply bind_ok in Hr; let x := fresh "x" in destruct Hr as (x & _ & Hr); cbv beta in Hr; try (destruct x as [[? ?] ?]); try (destruct x as [? ?])).
  injection Hr as <-. auto.
Qed.
Lemma fine_coarse : forall k, fine_spacing k -> spacing k.
Proof. intros k Hk. unfold fine_spacing, spacing in *. lia. Qed.

Section Polygon.
  Variables (k : Z) (l : list (vertex ArithF)) (l' : list pnt).
  Hypothesis Hk : fine_spacing k.
  Hypothesis HF : Forall2 (fine_reads k) l l'.
  Hypothesis HN : NoDup l'.

  Lemma read_in : forall w, In w l -> In (rdF w) l' /\ fine_reads k w (rdF w).
  Proof. destruct (reads_map k l l' HF) as [E HU]. intros w Hw. split; [rewrite <- E; apply in_map, Hw|apply HU, Hw]. Qed.
  Lemma read_one : forall v w, In v l -> In w l -> rdF v = rdF w -> v = w.
  Proof. destruct (reads_map k l l' HF) as [E _]. intros v w. apply map_inj. rewrite E. exact HN. Qed.
  Lemma read_solid : forall w, In w l -> vghost w = false.
  Proof. intros w Hw. destruct (read_in w Hw) as [_ [(_ & _ & G) (_ & _ & G')]]. congruence. Qed.
  Lemma read_back : forall w', In w' l' -> exists w, In w l /\ rdF w = w'.
  Proof. destruct (reads_map k l l' HF) as [E _]. intros w' Hw. rewrite <- E in Hw. apply in_map_iff in Hw. destruct Hw as (w & E' & Hw). exists w. auto. Qed.
  Lemma read_side : forall e, polyline_side (Poly l false) e -> In (fst e) l /\ In (snd e) l /\ In (rdF (fst e), rdF (snd e)) (polygon_sides l').
  Proof.
    intros e He. assert (Hn : l <> []) by (destruct He as [l1 a b l2 E|a l0 _ E]; cbn in E; rewrite E; [destruct l1|]; discriminate).
    destruct (into_edges_sides (Poly l false) Hn) as (es & E & Hs). rewrite (sides_edges l Hn) in E. injection E as <-. apply Hs in He.
    destruct (sides_ends l e He) as [H1 H2]. split; [exact H1|]. split; [exact H2|]. destruct (reads_map k l l' HF) as [Em _]. rewrite <- Em, sides_map.
    apply in_map_iff. exists e. split; [destruct e; reflexivity|exact He].
  Qed.

  Lemma reads_points : forall (tr : triangulation ArithF) M, reads_as l tr M -> fills l' M -> Permutation (trn_vertices tr) l.
  Proof.
    intros tr M HR HM. apply NoDup_Permutation; [apply trn_lists_NoDup| |].
    - destruct (reads_map k l l' HF) as [E _]. rewrite <- E in HN. apply NoDup_map_inv in HN. exact HN.
    - intros w. rewrite trn_vertices_In. split.
      + intros (G & t & Ht & Hc). destruct (ra_over _ _ _ HR t w Ht Hc) as [Hw| ->]; [exact Hw|discriminate G].
      + intros Hw. split; [apply read_solid, Hw|]. destruct (read_in w Hw) as [Hw' _]. destruct (polygon_ends_in l' _ Hw') as (e & He & Ee).
        destruct (fl_border _ _ HM e He) as (u & [Hu _] & Su). destruct (ra_read _ _ _ HR u Hu) as (t & Ht & Rt). exists t. split; [exact Ht|].
        assert (Cv : exists v, corner_of v t /\ rdF v = rdF w).
        { destruct t as [a b c], u as [a' b' c']. destruct Rt as (R1 & R2 & R3). cbn [tv1 tv2 tv3] in *. rewrite <- Ee.
          inversion Su; subst; cbn [snd]; [exists b|exists c|exists a]; (split; [constructor|apply reads_rd; assumption]). }
        destruct Cv as (v & Cv & Ev). destruct (ra_over _ _ _ HR t v Ht Cv) as [Hv| ->].
        * rewrite <- (read_one v w Hv Hw Ev). exact Cv.
        * exfalso. destruct (read_in w Hw) as [_ [_ (_ & _ & G)]]. rewrite <- Ev in G. discriminate G.
  Qed.

  Variables (H : HashOrder) (p : path) (inp : input ArithF) (n : nat) (t : triangulator ArithF) (prm : refine_params ArithF).
  Hypothesis Hp : parse H n (1%nat :: p) inp = Ok (Some (t, prm)).
  Hypothesis Ho : only_polygon t l.
  Hypothesis H4 : no_four_on_a_circle l'.
  Hypothesis H3 : (3 <= length l')%nat.
  Hypothesis Hc : forall a b w, In (a, b) (polygon_sides l') -> In w l' -> w <> a -> w <> b -> 0 < area2 a b w.
  Hypothesis Hfree : forall a b w m, In (a, b) (polygon_sides l') -> In w l' -> half_point a b m -> d2 a b / 4 <= d2 m w.
  Hypothesis Hfine : forall a b c, In a l -> In b l -> In c l -> orientation a b c = CCW -> ~ misses prm (Tri a b c).

  Lemma float_quiet : exists n0 coords triples M order vec ts, (forall fuel, (n0 <= fuel)%nat -> run_main H fuel p inp = Ok (Some (coords, triples))) /\ fills l' M /\
    coords = map (fun v => (vx v, vy v)) order /\ Permutation order l /\ Permutation vec l /\ Forall2 (names vec) ts triples /\ NoDup ts /\
    (forall x, In x ts -> exists y, solid_in M y /\ tri_reads x y) /\ (forall y, solid_in M y -> exists x, In x ts /\ tri_reads x y).
  Proof.
    destruct (float_convex k Hk H (2%nat :: p) t l l' Ho HF HN H4 H3 Hc) as (n1 & t' & M & Ht & HR & HM).
    pose proof (reads_points (t_trn t') M HR HM) as Pl. destruct (keeps_parts _ H n1 (2%nat :: p) t t' (Ht n1 ltac:(lia))) as (E1 & E2 & E3).
    assert (Eb : t_boundary t' = Poly l false) by (rewrite E1; apply Ho). assert (Eh : t_holes t' = []) by (rewrite E2; apply Ho). assert (Es : t_segments t' = []) by (rewrite E3; apply Ho).
    assert (Hl : length l = length l') by (destruct (reads_map k l l' HF) as [E _]; rewrite <- E, map_length; reflexivity).
    assert (G1 : pverts (t_boundary t') <> []) by (rewrite Eb; cbn; destruct l; [cbn in *; lia|discriminate]).
    assert (G2 : forall h, In h (t_holes t') -> pverts h <> []) by (rewrite Eh; intros h []).
    assert (G3 : forall e v, constraint_on t' e -> In v (trn_vertices (t_trn t')) -> edge_encroach e v <> Inside).
    { intros e v He Hv. unfold constraint_on in He. rewrite Eb, Eh, Es in He. destruct He as [He|[(h & [] & _)|[]]]. apply (Permutation_in _ Pl) in Hv.
      destruct (read_side e He) as (Ha & Hb & He'). destruct (read_in _ Ha) as [_ [Ra Fa]]. destruct (read_in _ Hb) as [_ [Rb Fb]]. destruct (read_in _ Hv) as [Hv' [Rv Fv]].
      assert (Hm : half_point (rdF (fst e)) (rdF (snd e)) (edge_midpoint (rdF (fst e), rdF (snd e)))) by (destruct (edge_midpoint_spec (rdF (fst e), rdF (snd e))) as [Hm _]; exact Hm).
      intros Hin. apply (float_encroach k (fine_coarse k Hk) (fst e) (snd e) v _ _ _ (fine_grid_point _ _ Fa) (fine_grid_point _ _ Fb) (fine_grid_point _ _ Fv) Ra Rb Rv _ Hm) in Hin.
      pose proof (Hfree _ _ _ _ He' Hv' Hm). lra. }
    assert (G4 : forall x, In x (tris (t_trn t')) -> is_ghost x = false -> ~ misses prm x).
    { intros [a b c] Hx Hg. destruct (ra_reads _ _ _ HR _ Hx) as ([a' b' c'] & Hy & (Ra & Rb & Rc)). cbn [tv1 tv2 tv3] in *.
      assert (O : forall w, corner_of w (Tri a b c) -> In w l).
      { intros w Cw. destruct (ra_over _ _ _ HR _ _ Hx Cw) as [Hw| ->]; [exact Hw|]. exfalso. unfold is_ghost in Hg. cbn [tv1 tv2 tv3] in Hg.
        inversion Cw; subst; cbn in Hg; rewrite ?orb_true_r in Hg; discriminate Hg. }
      assert (Ha : In a l) by (apply O; constructor). assert (Hb : In b l) by (apply O; constructor). assert (Hcc : In c l) by (apply O; constructor). apply Hfine; auto.
      pose proof (reads_rd _ _ Ra) as Ea. pose proof (reads_rd _ _ Rb) as Eb'. pose proof (reads_rd _ _ Rc) as Ec. destruct (read_in a Ha) as [_ [_ Fa]]. destruct (read_in b Hb) as [_ [_ Fb]]. destruct (read_in c Hcc) as [_ [_ Fc]].
      rewrite Ea in Fa. rewrite Eb' in Fb. rewrite Ec in Fc.
      apply (float_orientation k (fine_coarse k Hk) a b c a' b' c' (fine_grid_point _ _ Fa) (fine_grid_point _ _ Fb) (fine_grid_point _ _ Fc) Ra Rb Rc).
      apply (fl_shape _ _ HM a' b' c'). split; [exact Hy|]. destruct Fa as (_ & _ & Fa). destruct Fb as (_ & _ & Fb). destruct Fc as (_ & _ & Fc). unfold is_ghost. cbn [tv1 tv2 tv3]. rewrite Fa, Fb, Fc. reflexivity. }
    destruct (output_spec H (4%nat :: p) (t_trn t')) as (coords & triples & vec & order & Eo & Pv & Po & Ec & F2 & _).
    exists (S (n + n1)), coords, triples, M, order, vec, (filter (fun t => negb (is_ghost t)) (ho H (3%nat :: 4%nat :: p) _ (tris (t_trn t')))). split.
    { intros fuel Hfu. pose proof (rle_ok _ _ _ _ (parse_mono H n fuel ltac:(lia) (1%nat :: p) inp) Hp) as Hp'. unfold run_main. rewrite Hp'. cbn [bind]. rewrite (Ht fuel ltac:(lia)). cbn [bind].
      destruct (refine_rests H fuel (3%nat :: p) t' prm ltac:(lia) G1 G2 G3 G4) as (cs & Er & _). rewrite Er. cbn [bind]. rewrite Eo. reflexivity. }
    split; [exact HM|]. split; [exact Ec|]. split; [rewrite Po; exact Pl|]. split; [rewrite Pv; exact Pl|]. split; [exact F2|].
    assert (GG : forall x y, tri_reads x y -> is_ghost x = is_ghost y).
    { intros [a b c] [a' b' c'] (R1 & R2 & R3). cbn [tv1 tv2 tv3] in *. unfold is_ghost. cbn [tv1 tv2 tv3]. destruct R1 as (_ & _ & ->), R2 as (_ & _ & ->), R3 as (_ & _ & ->). reflexivity. }
    split; [|split].
    - apply NoDup_filter, ho_NoDup. destruct (triangulate_made H n1 (2%nat :: p) t t' (Ht n1 ltac:(lia))) as [h ->]. apply NoDup_history. constructor.
    - intros x Hx. apply filter_In in Hx. destruct Hx as [Hx Gx]. apply ho_In in Hx. apply negb_true_iff in Gx. destruct (ra_reads _ _ _ HR x Hx) as (y & Hy & Ry). exists y. split; [|exact Ry]. split; [exact Hy|]. rewrite <- (GG x y Ry). exact Gx.
    - intros y [Hy Gy]. destruct (ra_read _ _ _ HR y Hy) as (x & Hx & Rx). exists x. split; [|exact Rx]. apply filter_In. rewrite ho_In, negb_true_iff. split; [exact Hx|]. rewrite (GG x y Rx). exact Gy.
  Qed.
End Polygon.
