(** P_Y8.v — four vertices in a batch are all used unless they are on a line, over
    any arithmetic that agrees with the real plane on them; so quadrilaterals are
    filled, in doubles too (C145). *)

From Coq Require Import Reals List ZArith Lra Lia Bool Permutation.
From Verif Require Import Base Arith ArithR ArithF Geometry Elements Polyline Procedures Triangulator Spec SpecR SpecD SpecP SpecF Samples
  P_Base P_Trn P_Fuel P_Vertices P_Cavity P_R1 P_R2 P_R5 P_R6 P_D1 P_D2 P_D3 P_D4 P_D5 P_D6 P_D7 P_D8 P_L2 P_Fill2 P_Polygon P_Polygon2 P_Polygon3 P_Y1 P_Y2 P_Y3 P_Y4 P_Y5 P_Y6 P_Y7.
Import ListNotations.
Local Open Scope R_scope.

Lemma not_flat : forall a b c d : pnt, a <> b -> vghost a = vghost b -> 0 < shoelace (polygon_sides [a; b; c; d]) -> area2 a b c <> 0 \/ area2 a b d <> 0.
Proof.
  intros [ax ay ag] [bx by_ bg] [cx cy cg] [dx dy dg] Nab Eg Ha. cbn in Eg. subst bg.
  destruct (Req_dec (area2 (V (A:=ArithR) ax ay ag) (V bx by_ ag) (V cx cy cg)) 0) as [E1|]; [|auto]. right. intros E2.
  assert (P : forall ux uy px py qx qy : R, ux * py - uy * px = 0 -> ux * qy - uy * qx = 0 -> ux <> 0 \/ uy <> 0 -> px * qy - py * qx = 0).
  { intros ux uy px py qx qy H1 H2 [N|N].
    - apply (Rmult_eq_reg_l ux); [|exact N]. replace (ux * (px * qy - py * qx)) with (px * (ux * qy - uy * qx) - qx * (ux * py - uy * px)) by ring. rewrite H1, H2. ring.
    - apply (Rmult_eq_reg_l uy); [|exact N]. replace (uy * (px * qy - py * qx)) with (py * (ux * qy - uy * qx) - qy * (ux * py - uy * px)) by ring. rewrite H1, H2. ring. }
  assert (N : bx - ax <> 0 \/ by_ - ay <> 0).
  { destruct (Req_dec (bx - ax) 0) as [Zx|Nx]; [|auto]. right. intros Zy. apply Nab. f_equal; lra. }
  unfold area2 in E1, E2. cbn in E1, E2.
  assert (K : (cx - ax) * (dy - ay) - (cy - ay) * (dx - ax) = 0) by (apply (P (bx - ax) (by_ - ay)); [lra|lra|exact N]).
  unfold shoelace in Ha. cbn in Ha. lra.
Qed.

Section Four.
  Context {A : Arith} (rd : vertex A -> pnt) (U : list (vertex A)).
  Hypothesis HA : agrees rd U.
  Notation vertex := (vertex A).
  Notation edge := (edge A).
  Notation triangle := (triangle A).
  Notation triangulation := (triangulation A).
  Notation state := (solve_state (A:=A)).
  Notation gA := (ghost_vertex (A:=A)).
  Notation shows := (shows rd U).
  Notation rt := (rt rd).

  (** ** The first vertex of a batch *)
  Section First.
    Variables (H : HashOrder) (a b v y : vertex).
    Hypotheses (Ga : vghost a = false) (Gb : vghost b = false) (Gv : vghost v = false).
    Hypotheses (Nab : a <> b) (Nva : v <> a) (Nvb : v <> b).
    Hypothesis Hcalm : is_conflicting (Tri b a gA) v = false.

    Definition first_inv (u : vertex) (pending : list edge) (s : state) : Prop :=
      u = v /\ (forall e, In e pending -> In e [(a, b); (b, gA); (gA, a)]) /\ adj_sound (ss_tr s) /\ fair (ss_cm s) /\
      (forall t, In t (tris (ss_tr s)) -> t = Tri b a gA \/ t = Tri a b v \/ t = Tri v b gA \/ t = Tri a v gA) /\
      (In y (listed (ss_cm s)) \/ (In y (ss_rem s) /\ forall t, In t (tris (ss_tr s)) -> encircles t y <> Inside)).

    Lemma first_outer : forall u e pending s outer, first_inv u (e :: pending) s -> adj_get (opposite e) (ss_tr s) = Some outer -> outer = Tri b a gA.
    Proof.
      intros u e pending s outer (-> & Hp & Hs & _ & Ht & _) Ho. assert (Nag : a <> gA) by (intros ->; discriminate).
      assert (Nbg : b <> gA) by (intros ->; discriminate). assert (Nvg : v <> gA) by (intros ->; discriminate).
      destruct (Hs _ _ Ho) as [Hi Hside]. destruct (Ht _ Hi) as [E|E]; [exact E|]. exfalso.
      pose proof (Hp e (or_introl eq_refl)) as He. cbn [In] in He. unfold opposite, ev1, ev2 in Hside.
      destruct He as [<-|[<-|[<-|[]]]]; destruct E as [-> |[-> | ->]]; cbn [fst snd] in Hside; inversion Hside; subst; congruence.
    Qed.
    Lemma first_remove : step_remove [] first_inv.
    Proof.
      intros u e pending s outer Hi Ho Hc _. exfalso. pose proof (first_outer _ _ _ _ _ Hi Ho) as ->. destruct Hi as (-> & _). congruence.
    Qed.
    Lemma first_include : step_include H None [] first_inv.
    Proof.
      intros fuel p u e pending s outer conf rest Hi Ho Hs. destruct Hi as (-> & Hp & Hso & Hf & Ht & Hw).
      pose proof (split_free' H fuel _ _ _ _ _ Hs) as Er. destruct (split_conflicts_spec _ _ _ _ _ _ _ _ _ Hs) as [Hperm Hin].
      split; [reflexivity|]. split; [intros x Hx; apply Hp; right; exact Hx|]. cbn [ss_tr ss_cm ss_rem].
      split; [apply adj_sound_incl, Hso|]. split; [apply fair_add; assumption|].
      assert (Hnew : forall t, In t (tris (incl_tri (new_triangle e v) (ss_tr s))) <-> t = new_triangle e v \/ In t (tris (ss_tr s))) by (intros t; apply incl_tri_In).
      split.
      - intros t Hin'. apply Hnew in Hin'. destruct Hin' as [-> |Hin']; [|apply Ht, Hin']. right.
        pose proof (Hp e (or_introl eq_refl)) as He. cbn [In] in He.
        destruct He as [<-|[<-|[<-|[]]]]; unfold new_triangle, ev1, ev2; cbn [fst snd]; rewrite ?Ga, ?Gb; cbn [vghost ghost_vertex]; auto.
      - assert (Hl : forall w, In w (listed (ss_cm s)) \/ In w conf -> In w (listed (add_conflicts (new_triangle e v) conf (ss_cm s)))).
        { intros x Hx. apply (Permutation_in _ (Permutation_sym (listed_add (new_triangle e v) conf (ss_cm s) (proj1 Hf)))). apply in_or_app. exact Hx. }
        destruct Hw as [Hx|[Hx Hn]]; [left; apply Hl; auto|].
        apply (Permutation_in _ Hperm) in Hx. apply in_app_or in Hx. destruct Hx as [Hx|Hx]; [left; apply Hl; auto|].
        right. split; [exact Hx|]. rewrite Er in Hx. apply filter_In in Hx. destruct Hx as [_ Hx]. intros t Hin'. apply Hnew in Hin'.
        destruct Hin' as [-> |Hin']; [|apply Hn; assumption]. intros E. rewrite E in Hx. discriminate.
    Qed.
  End First.

  Lemma ghost_enc : forall a b w : vertex, encircles (Tri a b gA) w = match orientation a b w with CCW => Inside | CW => Outside | Colinear => Boundary end.
  Proof. intros a b w. unfold encircles, is_ghost. cbn. rewrite !orb_true_r. reflexivity. Qed.
  Lemma left_in : forall a b w, In a U -> In b U -> In w U -> 0 < area2 (rd a) (rd b) (rd w) -> encircles (Tri a b gA) w = Inside.
  Proof.
    intros a b w Ha Hb Hw P. rewrite ghost_enc, (ag_ori _ _ HA a b w Ha Hb Hw).
    rewrite (left_ccw (map rd U) (rd a) (rd b) (rd w) (ag_res _ _ HA)); auto using in_map.
  Qed.
  Lemma right_out : forall a b w, In a U -> In b U -> In w U -> 0 < area2 (rd a) (rd b) (rd w) ->
    encircles (Tri b a gA) w = Outside /\ is_conflicting (Tri b a gA) w = false.
  Proof.
    intros a b w Ha Hb Hw P.
    destruct (right_calm (map rd U) (rd a) (rd b) (rd w) (ag_res _ _ HA) ltac:(auto using in_map) ltac:(auto using in_map) ltac:(auto using in_map) P) as [E1 E2].
    assert (Ee : encircles (Tri b a gA) w = Outside) by (rewrite ghost_enc, (ag_ori _ _ HA b a w Hb Ha Hw); rewrite ghost_encircles in E1; exact E1).
    split; [exact Ee|]. unfold is_conflicting in *. rewrite Ee. rewrite E1 in E2. cbn [cont_eqb orb] in *.
    apply andb_false_iff. right. cbn [tv1 tv2] in *. rewrite (ag_edge _ _ HA b a w Hb Ha Hw).
    unfold is_ghost in E2. cbn in E2. rewrite !orb_true_r in E2. exact E2.
  Qed.

  Lemma in_left : forall a b w, In a U -> In b U -> In w U -> encircles (Tri a b gA) w = Inside -> 0 < area2 (rd a) (rd b) (rd w).
  Proof.
    intros a b w Ha Hb Hw E. rewrite ghost_enc, (ag_ori _ _ HA a b w Ha Hb Hw) in E. pose proof eps_pos.
    assert (K : orientation (rd a) (rd b) (rd w) = CCW) by (destruct (orientation (rd a) (rd b) (rd w)); [reflexivity|discriminate|discriminate]).
    apply orientation_spec in K. lra.
  Qed.

  Lemma include_four : forall (H : HashOrder) p a b v w, NoDup [a; b; v; w] -> incl [a; b; v; w] U -> area2 (rd a) (rd b) (rd v) <> 0 \/ area2 (rd a) (rd b) (rd w) <> 0 ->
    exists n0 tr2 tr2' inc del, (forall fuel, (n0 <= fuel)%nat ->
        vertices_include H fuel p (from_initial_segment a b) [a; b; v; w] [] None [] = Ok (tr2, inc, del)) /\
      shows tr2 tr2' /\ delaunay (map rd [a; b; v; w]) tr2'.
  Proof.
    intros H p a b v w Hnd HU Pvw. set (S := [a; b]). set (tr := from_initial_segment a b).
    assert (Ia : In a U) by (apply HU; cbn; auto). assert (Ib : In b U) by (apply HU; cbn; auto).
    destruct (ag_plain _ _ HA a Ia) as [Ga Ga']. destruct (ag_plain _ _ HA b Ib) as [Gb Gb'].
    assert (Nab : a <> b) by (inversion Hnd as [|? ? Hx _]; intros ->; apply Hx; left; reflexivity).
    assert (HSU : incl S U) by (intros z [<-|[<-|[]]]; assumption).
    assert (Hsh : shows tr (from_initial_segment (rd a) (rd b))) by (apply (initial_shows rd U HA); assumption).
    assert (HD : delaunay (map rd S) (from_initial_segment (rd a) (rd b))) by (apply initial_delaunay; auto; intros K; apply Nab, (ag_inj _ _ HA); assumption).
    assert (Htr : forall t, In t (tris tr) <-> t = Tri a b gA \/ t = Tri b a gA).
    { intros t. unfold tr, from_initial_segment. rewrite !incl_tri_In. cbn. tauto. }
    assert (Hnew : forall x, In x [v; w] -> x <> a /\ x <> b /\ In x U).
    { inversion Hnd as [|? ? Hx Hnd1]; subst. inversion Hnd1 as [|? ? Hy Hnd2]; subst. intros x Hx'.
      split; [intros ->; apply Hx; right; exact Hx'|]. split; [intros ->; exact (Hy Hx')|]. apply HU; right; right; exact Hx'. }
    assert (Hpts : forall x, In x (trn_vertices tr) <-> In x S) by (apply (shown_points rd U HA S tr _ HSU Hsh HD)).
    assert (Hflt : filter (fun x => negb (hmem vdec x (trn_vertices tr))) [a; b; v; w] = [v; w]).
    { assert (Hm : forall x, hmem vdec x (trn_vertices tr) = true <-> In x S) by (intros x; rewrite hmem_In; apply Hpts).
      assert (Hf : forall x, In x [v; w] -> hmem vdec x (trn_vertices tr) = false).
      { intros x Hx. destruct (hmem vdec x (trn_vertices tr)) eqn:E; [|reflexivity]. apply Hm in E. destruct (Hnew x Hx) as (N1 & N2 & _).
        destruct E as [E|[E|[]]]; congruence. }
      cbn [filter]. rewrite (proj2 (Hm a)), (proj2 (Hm b)), (Hf v), (Hf w) by (cbn; auto). reflexivity. }
    assert (Hin : exists x t, In x [v; w] /\ In t (tris tr) /\ encircles t x = Inside).
    { assert (K : exists x, In x [v; w] /\ area2 (rd a) (rd b) (rd x) <> 0) by (destruct Pvw; [exists v|exists w]; cbn; auto).
      destruct K as (x & Hx & Nx). destruct (Hnew x Hx) as (_ & _ & Ix). destruct (Rtotal_order (area2 (rd a) (rd b) (rd x)) 0) as [K|[K|K]]; [|contradiction|].
      - exists x, (Tri b a gA). split; [exact Hx|]. split; [apply Htr; auto|]. apply left_in; auto. rewrite D_swap. lra.
      - exists x, (Tri a b gA). split; [exact Hx|]. split; [apply Htr; auto|]. apply left_in; auto. }
    destruct (distribute_all_ok H 0 (ho H (1%nat :: p) _ (tris tr)) (2%nat :: p) [] [v; w]) as (cm & rem & Hd & Hout).
    destruct (distribute_all_spec H _ _ _ _ _ _ _ _ _ Hd fair_nil) as (Hf & Hp & Hk). cbn [listed flat_map app] in Hp.
    set (s := SS tr cm rem [] [] : state).
    assert (Hkeys : forall t, In t (map fst cm) -> In t (tris tr)).
    { intros t Ht. destruct (Hk t Ht) as [[]|Hi]. apply ho_In in Hi. exact Hi. }
    assert (Hheld : held [v; w] s).
    { split; [exact Hf|]. unfold s. cbn [ss_cm ss_rem ss_tr]. split; [exact Hp|]. split; [exact (sh_sound _ _ _ _ Hsh)|exact Hkeys]. }
    (* the first turn *)
    set (q := 3%nat :: p). destruct (ho H (1%nat :: q) _ (map fst cm)) as [|t ts] eqn:Hho.
    { exfalso. apply ho_nil_inv in Hho. destruct cm; [|discriminate]. destruct Hin as (x & t & Hx & Ht & He).
      apply (Hout x) with (t := t); [apply (Permutation_in _ Hp), Hx|apply ho_In, Ht|exact He]. }
    assert (Ht : In t (map fst cm)) by (apply (ho_In H (1%nat :: q)); rewrite Hho; left; reflexivity).
    destruct (mget tdec t cm) as [vs|] eqn:Hg; [|apply mget_None in Hg; contradiction].
    pose proof (mget_In _ _ _ _ Hg) as Hgin. destruct (proj2 Hf t vs Hgin) as [Hne Hins].
    destruct (hd_error (rev vs)) as [x|] eqn:Hv.
    2:{ exfalso. apply Hne. destruct (rev vs) eqn:Er; [|discriminate]. rewrite <- (rev_involutive vs), Er. reflexivity. }
    assert (Hxl : In x vs) by (rewrite (hd_rev_last _ _ Hv); apply in_or_app; right; left; reflexivity).
    pose proof (Hins x Hxl) as He.
    assert (Hvs : forall z, In z vs -> In z [v; w]).
    { intros z Hz. apply (Permutation_in _ (Permutation_sym Hp)). apply in_or_app. left. unfold listed. apply in_flat_map. exists (t, vs). auto. }
    assert (Et : exists a' b', t = Tri a' b' gA /\ a' <> b' /\ In a' S /\ In b' S /\ (forall z, In z (tris tr) <-> z = Tri a' b' gA \/ z = Tri b' a' gA)).
    { pose proof (Hkeys t Ht) as Hi. apply Htr in Hi. destruct Hi as [E|E]; [exists a, b|exists b, a]; (split; [exact E|]); (split; [congruence|]); (split; [cbn; auto|]); (split; [cbn; auto|]); intros z; rewrite Htr; tauto. }
    destruct Et as (a' & b' & Et & Nab' & HaS & HbS & Htr'). pose proof (HSU a' HaS) as Ia'. pose proof (HSU b' HbS) as Ib'.
    destruct (held_start t vs x s [v; w] Hheld Hg Hv) as (L' & HpL & Hh'). destruct (Hnew x (Hvs x Hxl)) as (Nxa & Nxb & Ix).
    assert (EL : exists y, L' = [y] /\ In y [v; w] /\ y <> x).
    { pose proof (Permutation_length HpL) as E. cbn in E. destruct L' as [|y [|z L']]; try (cbn in E; lia). exists y. split; [reflexivity|].
      split; [apply (Permutation_in _ (Permutation_sym HpL)); right; left; reflexivity|].
      inversion Hnd as [|? ? _ Hnd1]; subst. inversion Hnd1 as [|? ? _ Hnd2]; subst. apply (Permutation_NoDup HpL) in Hnd2.
      inversion Hnd2 as [|? ? Hx _]; subst. intros ->. apply Hx. left. reflexivity. }
    destruct EL as (y & -> & Hy & Nyx). destruct (Hnew y Hy) as (Nya & Nyb & Iy).
    assert (Px : 0 < area2 (rd a') (rd b') (rd x)) by (apply in_left; auto; rewrite <- Et; exact He).
    assert (HxS : ~ In x S) by (intros [E|[E|[]]]; congruence).
    set (s0 := SS (rem_tri t (ss_tr s)) (mdel tdec t (ss_cm s)) (ss_rem s ++ removelast vs) (ss_inc s) (hadd tdec t (ss_del s)) : state) in *.
    destruct (step_one rd U HA H S tr (from_initial_segment (rd a) (rd b)) x HSU Ix HxS Hsh HD t s0 (3 + 2 * length (tris tr))%nat (2%nat :: q)) as (s1 & M1 & Hs1 & Hsh1 & HD1 & _); auto; [lia|].
    assert (Hh1 : held [y] s1) by exact (cavity_loop_inv H [] None [] (fun _ _ => held [y]) (held_remove [y]) (held_include H [y]) _ _ _ _ _ _ Hs1 Hh').
    assert (Nx' : x <> a' /\ x <> b') by (split; intros ->; contradiction). destruct Nx' as [Nxa' Nxb'].
    pose proof (proj1 (ag_plain _ _ HA a' Ia')) as Ga2. pose proof (proj1 (ag_plain _ _ HA b' Ib')) as Gb2. pose proof (proj1 (ag_plain _ _ HA x Ix)) as Gx2.
    assert (HI1 : first_inv a' b' x y x [] s1).
    { refine (cavity_loop_inv H [] None [] (first_inv a' b' x y) _ _ _ _ _ _ _ _ Hs1 _).
      - apply first_remove; auto. exact (proj2 (right_out a' b' x Ia' Ib' Ix Px)).
      - apply first_include; auto.
      - split; [reflexivity|]. split; [rewrite Et; intros e [<-|[<-|[<-|[]]]]; cbn; auto|]. unfold s0. cbn [ss_tr ss_cm ss_rem].
        split; [apply adj_sound_rem, (sh_sound _ _ _ _ Hsh)|]. split; [apply fair_mdel, Hf|]. unfold s. cbn [ss_tr ss_cm ss_rem].
        assert (Hone : forall z, In z (tris (rem_tri t tr)) -> z = Tri b' a' gA).
        { intros z Hz. apply rem_tri_In in Hz. destruct Hz as [Hz Nz]. apply Htr' in Hz. destruct Hz; congruence. }
        split; [intros z Hz; left; apply Hone, Hz|].
        destruct Hh' as (_ & Hp' & _). unfold s0, s in Hp'. cbn [ss_cm ss_rem] in Hp'.
        assert (Hyi : In y (listed (mdel tdec t cm) ++ rem ++ removelast vs)) by (apply (Permutation_in _ Hp'); left; reflexivity).
        apply in_app_or in Hyi. destruct Hyi as [Hyi|Hyi]; [left; exact Hyi|]. right. split; [exact Hyi|].
        intros z Hz. apply Hone in Hz. subst z. apply in_app_or in Hyi. destruct Hyi as [Hyi|Hyi].
        + apply (Hout y Hyi). apply ho_In, Htr'. auto.
        + assert (Py : 0 < area2 (rd a') (rd b') (rd y)) by (apply in_left; auto; rewrite <- Et; apply Hins, in_removelast, Hyi).
          rewrite (proj1 (right_out a' b' y Ia' Ib' Iy Py)). discriminate. }
    assert (HyS : ~ In y (x :: S)) by (intros [E|[E|[E|[]]]]; congruence).
    assert (HxU : incl (x :: S) U) by (intros z [<-|Hz]; auto).
    assert (HR1 : resolved (map rd (x :: S))) by (apply (resolved_incl _ _ (ag_res _ _ HA)); intros z Hz; apply in_map_iff in Hz; destruct Hz as (z' & <- & Hz); apply in_map; auto).
    assert (HRy : resolved (rd y :: map rd (x :: S))).
    { apply (resolved_incl _ _ (ag_res _ _ HA)). intros z [<-|Hz]; [apply in_map, Iy|]. apply in_map_iff in Hz. destruct Hz as (z' & <- & Hz). apply in_map; auto. }
    assert (HyS' : ~ In (rd y) (map rd (x :: S))).
    { intros K. apply in_map_iff in K. destruct K as (z & E & Hz). apply (ag_inj _ _ HA) in E; auto. subst z. contradiction. }
    assert (Hsol : exists u, In u (tris M1) /\ solid_over (map rd (x :: S)) u).
    { apply (three_solid (map rd (x :: S)) M1 (rd x) (rd a) (rd b) [] HD1 HR1); [|apply incl_refl].
      assert (N1 : rd x <> rd a) by (intros K; apply Nxa, (ag_inj _ _ HA); assumption). assert (N2 : rd x <> rd b) by (intros K; apply Nxb, (ag_inj _ _ HA); assumption).
      assert (N3 : rd a <> rd b) by (intros K; apply Nab, (ag_inj _ _ HA); assumption).
      repeat constructor; cbn [In]; intuition congruence. }
    assert (Hcm1 : ss_cm s1 <> []).
    { destruct HI1 as (_ & _ & _ & _ & _ & Hw). destruct Hw as [Hl|[_ Hno]]; [intros E; rewrite E in Hl; destruct Hl|]. exfalso.
      destruct (located (map rd (x :: S)) M1 (rd y) HD1 HRy HyS' Hsol) as (u' & Hu' & Eu').
      apply (sh_tris _ _ _ _ Hsh1) in Hu'. destruct Hu' as (u & Hu & <-).
      assert (Eu : encircles u y = Inside).
      { apply (encircles_same rd U (ag_ghost _ _ HA) (ag_plain _ _ HA) (ag_inj _ _ HA) (ag_cont _ _ HA) (ag_ori _ _ HA) (x :: S) (ss_tr s1) M1 y); auto. }
      exact (Hno u Hu Eu). }
    destruct (solve_shows rd U HA H 1 [y] (x :: S) s1 M1 (0%nat :: q)) as (n0 & s' & M2 & done & Hrun & Hsh' & HD' & Hp' & Hdone); auto.
    { intros z [<-|Hz]; auto. }
    { constructor; [intros []|constructor]. }
    { intros z [<-|[]]. exact HyS. }
    assert (Edone : done = [y]).
    { apply Hdone in Hcm1. pose proof (Permutation_length Hp') as E. rewrite app_length in E. cbn [length] in E. destruct done as [|z [|z' done]]; [congruence| |cbn in E; lia].
      assert (Hz : In z [y]) by (apply (Permutation_in _ (Permutation_sym Hp')); left; reflexivity). destruct Hz as [->|[]]. reflexivity. }
    subst done. exists (1 + n0 + (3 + 2 * length (tris tr)))%nat, (ss_tr s'), M2, (ss_inc s'), (ss_del s'). split; [|split; [exact Hsh'|]].
    - intros fuel Hfu. unfold vertices_include. fold tr. rewrite Hflt.
      assert (Hd' : distribute_all H fuel (2%nat :: p) (ho H (1%nat :: p) _ (tris tr)) [] [v; w] None [] = Ok (cm, rem)).
      { refine (rle_ok _ _ _ _ _ Hd). apply distribute_all_mono. lia. }
      rewrite Hd'. cbn [bind]. unfold solve_conflicts. fold s q. destruct fuel as [|fuel]; [lia|]. cbn [solve_loop]. unfold s at 1 2 3. cbn [ss_cm].
      rewrite Hho, Hg. cbn [unwrap bind]. rewrite Hv. cbn [unwrap bind].
      assert (Hc : cavity_loop H fuel (2%nat :: q) [] None [] x [te3 t; te2 t; te1 t] s0 = Ok s1) by (refine (rle_ok _ _ _ _ _ Hs1); apply cavity_loop_mono; lia).
      fold s0. rewrite Hc. cbn [bind]. rewrite Hrun by lia. reflexivity.
    - apply (delaunay_incl _ _ _ HD'). intros z. rewrite !in_map_iff.
      assert (Hvw : forall z, In z [v; w] <-> z = x \/ z = y).
      { intros z'. split; intros Hz.
        - apply (Permutation_in _ HpL) in Hz. destruct Hz as [<-|[<-|[]]]; auto.
        - apply (Permutation_in _ (Permutation_sym HpL)). destruct Hz as [-> | ->]; cbn; auto. }
      assert (Hi : forall z, In z ([y] ++ x :: S) <-> In z [a; b; v; w]).
      { intros z'. specialize (Hvw z'). change S with [a; b]. clear -Hvw. cbn [app In] in *. intuition (subst; auto). }
      split; intros (z' & K & Hz); exists z'; (split; [exact K|]); apply Hi, Hz.
  Qed.

  Notation image tr := (Trn (map rt (tris tr)) []).

  Lemma four_run : forall (H : HashOrder) p (t : triangulator A) a b c d, only_polygon t [a; b; c; d] -> U = [a; b; c; d] -> NoDup (map rd [a; b; c; d]) ->
    0 < shoelace (polygon_sides (map rd [a; b; c; d])) ->
    (forall x y, In (x, y) (polygon_sides (map rd [a; b; c; d])) -> free_side (map rd [a; b; c; d]) x y) ->
    exists n0 t', (forall fuel, (n0 <= fuel)%nat -> triangulate H fuel p t = Ok t') /\
      (forall x, In x (tris (t_trn t')) -> okt U x) /\ fills (map rd [a; b; c; d]) (image (t_trn t')).
  Proof.
    intros H p t a b c d Ho EU Hnd Ha Hfr. pose proof (ag_res _ _ HA) as HR. rewrite EU in HR.
    pose proof (apart_rd rd [a; b; c; d] Hnd) as HN.
    assert (Nab : rd a <> rd b) by (inversion Hnd as [|? ? Hx _]; intros K; apply Hx; cbn; auto).
    assert (Gab : vghost (rd a) = vghost (rd b)) by (rewrite (rs_plain _ HR (rd a)), (rs_plain _ HR (rd b)) by (cbn; auto); reflexivity).
    destruct (include_four H (1%nat :: 1%nat :: p) a b c d HN ltac:(rewrite EU; apply incl_refl) (not_flat _ _ _ _ Nab Gab Ha)) as (n1 & tr1 & M1 & inc & del & Hi & Hsh & HD).
    destruct (polygon_image rd U HA H p t [a; b; c; d] a b [c; d] n1 tr1 M1 inc del Ho eq_refl ltac:(rewrite EU; apply incl_refl) Hi Hsh) as (n0 & t' & Hr & Hok & Him).
    exists n0, t'. split; [exact Hr|]. split; [intros x Hx; apply Hok, Hx|].
    apply (stage_fills (map rd [a; b; c; d]) (map rd [a; b; c; d]) M1); auto; try tauto.
    apply (three_solid _ M1 (rd a) (rd b) (rd c) [rd d] HD HR); [exact Hnd|apply incl_refl].
  Qed.
End Four.

(** ** Quadrilaterals in doubles *)
Theorem float_quadrilateral : forall k, fine_spacing k -> forall (H : HashOrder) p (t : triangulator ArithF) l a b c d, only_polygon t l -> Forall2 (fine_reads k) l [a; b; c; d] ->
  NoDup [a; b; c; d] -> no_four_on_a_circle [a; b; c; d] -> 0 < shoelace (polygon_sides [a; b; c; d]) ->
  (forall x y, In (x, y) (polygon_sides [a; b; c; d]) -> free_side [a; b; c; d] x y) ->
  exists n0 t' M, (forall fuel, (n0 <= fuel)%nat -> triangulate H fuel p t = Ok t') /\ reads_as l (t_trn t') M /\ fills [a; b; c; d] M.
Proof.
  intros k Hk H p t l a b c d Ho HF Hnd H4 Ha Hfr. destruct (reads_map k l _ HF) as [El HU].
  destruct l as [|a0 [|b0 [|c0 [|d0 [|e0 l]]]]]; try discriminate. injection El as <- <- <- <-.
  destruct (four_run rdF [a0; b0; c0; d0] (float_agrees k [a0; b0; c0; d0] Hk HU Hnd H4) H p t a0 b0 c0 d0 Ho eq_refl Hnd Ha Hfr) as (n0 & t' & Hr & Hok & HM).
  exists n0, t', (Trn (map (rt rdF) (tris (t_trn t'))) []). split; [exact Hr|]. split; [apply (image_reads k); assumption|exact HM].
Qed.

(** ** Quadrilaterals in the real plane *)
Lemma real_agrees : forall U : list pnt, resolved U -> agrees (A:=ArithR) (fun v => v) U.
Proof.
  intros U HR. split; try reflexivity.
  - intros w Hw. split; exact (rs_plain _ HR w Hw).
  - intros a b _ _ E. exact E.
  - intros a b Ha Hb E. apply (veqb_exact U a b HR); auto.
  - rewrite map_id. exact HR.
Qed.
Lemma real_rt : forall ts : list tri, map (rt (A:=ArithR) (fun v => v)) ts = ts.
Proof. intros ts. rewrite <- (map_id ts) at 2. apply map_ext. intros [a b c]. reflexivity. Qed.

Theorem real_quadrilateral : forall (H : HashOrder) p (t : triangulator ArithR) a b c d, only_polygon t [a; b; c; d] ->
  NoDup [a; b; c; d] -> resolved [a; b; c; d] -> 0 < shoelace (polygon_sides [a; b; c; d]) ->
  (forall x y, In (x, y) (polygon_sides [a; b; c; d]) -> free_side [a; b; c; d] x y) ->
  exists n0 t', (forall fuel, (n0 <= fuel)%nat -> triangulate H fuel p t = Ok t') /\ fills [a; b; c; d] (t_trn t').
Proof.
  intros H p t a b c d Ho Hnd HR Ha Hfr.
  destruct (four_run (A:=ArithR) (fun v => v) [a; b; c; d] (real_agrees _ HR) H p t a b c d Ho eq_refl Hnd Ha Hfr) as (n0 & t' & Hr & _ & HM).
  exists n0, t'. split; [exact Hr|]. rewrite real_rt in HM. destruct HM as [Q1 Q2 Q3 Q4 Q5 Q6 Q7 Q8 Q9 Q10]. split; assumption.
Qed.

(** ** Samples: the dart in doubles, from each of its corners *)
Definition turned (n : nat) {X} (l : list X) : list X := skipn n l ++ firstn n l.
Lemma case_float_quadrilateral : forall n l', (n < 4)%nat -> l' = turned n dart -> exists l a b c d, l' = [a; b; c; d] /\ fine_spacing 0 /\ only_polygon (triangulator_new (Poly l false)) l /\ Forall2 (fine_reads 0) l [a; b; c; d] /\
  NoDup [a; b; c; d] /\ no_four_on_a_circle [a; b; c; d] /\ resolved [a; b; c; d] /\ 0 < shoelace (polygon_sides [a; b; c; d]) /\
  (forall x y, In (x, y) (polygon_sides [a; b; c; d]) -> free_side [a; b; c; d] x y) /\ In pE [a; b; c; d] /\ area2 pB pE pC < 0.
Proof.
  intros n l' Hn ->. destruct case_float_dart as (_ & D2 & D3 & D4 & D5 & D6 & _). pose proof dart_resolved as DR. pose proof dart_area as DA.
  assert (Hf : forall l, (forall w, In w l -> In w dart) -> (forall w, In w dart -> In w l) -> forall x y, free_side dart x y -> free_side l x y).
  { intros l H1 _ x y (o & E & Ho). exists o. split; [exact E|]. intros w Hw. apply Ho, H1, Hw. }
  inversion D2 as [|? ? ? ? F1 D2a]; subst. inversion D2a as [|? ? ? ? F2 D2b]; subst. inversion D2b as [|? ? ? ? F3 D2c]; subst. inversion D2c as [|? ? ? ? F4 _]; subst.
  assert (Hdart : dart = [pA; pB; pE; pC]) by reflexivity.
  assert (K : area2 pB pE pC < 0) by (unfold area2, pB, pE, pC; cbn; lra).
  destruct n as [|[|[|[|n]]]]; [| | | |lia]; unfold turned, dart; cbn [skipn firstn app];
    [exists [pt 0 0; pt 4 0; pt 2 1; pt 1 3], pA, pB, pE, pC|exists [pt 4 0; pt 2 1; pt 1 3; pt 0 0], pB, pE, pC, pA
    |exists [pt 2 1; pt 1 3; pt 0 0; pt 4 0], pE, pC, pA, pB|exists [pt 1 3; pt 0 0; pt 4 0; pt 2 1], pC, pA, pB, pE];
    (split; [reflexivity|]); (split; [unfold fine_spacing; lia|]); (split; [split; reflexivity|]); (split; [repeat (constructor; [assumption|]); constructor|]);
    (split; [eapply Permutation_NoDup; [|exact D3]; unfold dart; match goal with |- Permutation [?a; ?b; ?c; ?d] _ => first [apply Permutation_refl|exact (Permutation_app_comm [a] [b; c; d])|exact (Permutation_app_comm [a; b] [c; d])|exact (Permutation_app_comm [a; b; c] [d])] end|]);
    (split; [apply (four_incl _ _ D4); unfold dart; intros w Hw; cbn [In] in *; tauto|]);
    (split; [apply (resolved_incl _ _ DR); unfold dart; intros w Hw; cbn [In] in *; tauto|]);
    (split; [revert D5; unfold dart, shoelace; cbn; lra|]);
    (split; [|split; [cbn; auto|exact K]]); intros x y Hxy; apply Hf; try (unfold dart; intros w Hw; cbn [In] in *; tauto); apply D6; unfold dart; revert Hxy; cbn; tauto.
Qed.
Lemma case_batch : area2 pA pB pE <> 0 \/ area2 pA pB pC <> 0.
Proof. left. unfold area2, pA, pB, pE. cbn. lra. Qed.
