(** P_Polygon2.v — triangulating a polygon returns; four vertices in a batch are
    all used when two of them are on the left of the others. *)

From Coq Require Import Reals List ZArith Lra Lia Psatz Bool Permutation.
From Verif Require Import Base Arith Geometry Elements Polyline Procedures Triangulator ArithR Spec SpecR SpecD SpecP
  P_Base P_Trn P_Fuel P_Poly P_Vertices P_Cavity P_R1 P_R2 P_R5 P_D1 P_D2 P_D3 P_D4 P_D5 P_D6 P_D7 P_D8 P_RX P_Fill P_Fill2 P_Polygon.
Import ListNotations.
Local Open Scope R_scope.

(** ** The first vertex of a batch *)
Section First.
  Variables (H : HashOrder) (a b v : pnt) (W : list pnt).
  Hypotheses (Ga : vghost a = false) (Gb : vghost b = false) (Gv : vghost v = false).
  Hypotheses (Nab : a <> b) (Nva : v <> a) (Nvb : v <> b).
  Hypothesis Hcalm : is_conflicting (Tri b a gv) v = false.

  Definition first_inv (u : pnt) (pending : list (edge ArithR)) (s : state) : Prop :=
    u = v /\ (forall e, In e pending -> In e [(a, b); (b, gv); (gv, a)]) /\ adj_sound (ss_tr s) /\ fair (ss_cm s) /\
    (forall t, In t (tris (ss_tr s)) -> t = Tri b a gv \/ t = Tri a b v \/ t = Tri v b gv \/ t = Tri a v gv) /\
    forall w, In w W -> In w (listed (ss_cm s)) \/
      (In w (ss_rem s) /\ forall t, In t (tris (ss_tr s)) -> t <> Tri b a gv -> encircles t w <> Inside).

  Lemma first_outer : forall u e pending s outer, first_inv u (e :: pending) s -> adj_get (opposite e) (ss_tr s) = Some outer -> outer = Tri b a gv.
  Proof.
    intros u e pending s outer (-> & Hp & Hs & _ & Ht & _) Ho. assert (Nag : a <> gv) by (intros ->; discriminate).
    assert (Nbg : b <> gv) by (intros ->; discriminate). assert (Nvg : v <> gv) by (intros ->; discriminate).
    destruct (Hs _ _ Ho) as [Hi Hside]. destruct (Ht _ Hi) as [E|E]; [exact E|]. exfalso.
    pose proof (Hp e (or_introl eq_refl)) as He. cbn [In] in He. unfold opposite, ev1, ev2 in Hside.
    destruct He as [<-|[<-|[<-|[]]]]; destruct E as [-> |[-> | ->]]; cbn [fst snd] in Hside; inversion Hside; subst; congruence.
  Qed.
  Lemma first_remove : step_remove [] first_inv.
  Proof.
    intros u e pending s outer Hi Ho Hc _. exfalso. pose proof (first_outer _ _ _ _ _ Hi Ho) as ->. destruct Hi as (-> & _). congruence.
  Qed.
  Lemma first_include : step_include H None [] first_inv.
  Proof.
    intros fuel p u e pending s outer conf rest Hi Ho Hs. destruct Hi as (-> & Hp & Hso & Hf & Ht & Hw).
    destruct (split_free H fuel (new_triangle e v) (ss_rem s) p) as (conf' & rest' & Es & Ec & Er). rewrite Es in Hs. injection Hs as -> ->.
    destruct (split_conflicts_spec _ _ _ _ _ _ _ _ _ Es) as [Hperm Hin].
    split; [reflexivity|]. split; [intros x Hx; apply Hp; right; exact Hx|]. cbn [ss_tr ss_cm ss_rem].
    split; [apply adj_sound_incl, Hso|]. split; [apply fair_add; assumption|].
    assert (Hnew : forall t, In t (tris (incl_tri (new_triangle e v) (ss_tr s))) <-> t = new_triangle e v \/ In t (tris (ss_tr s))) by (intros t; apply incl_tri_In).
    split.
    - intros t Hin'. apply Hnew in Hin'. destruct Hin' as [-> |Hin']; [|apply Ht, Hin']. right.
      pose proof (Hp e (or_introl eq_refl)) as He. cbn [In] in He.
      destruct He as [<-|[<-|[<-|[]]]]; unfold new_triangle, ev1, ev2; cbn [fst snd]; rewrite ?Ga, ?Gb; cbn [vghost gv]; auto.
    - intros w Hw'. assert (Hl : forall w, In w (listed (ss_cm s)) \/ In w conf -> In w (listed (add_conflicts (new_triangle e v) conf (ss_cm s)))).
      { intros x Hx. apply (Permutation_in _ (Permutation_sym (listed_add (new_triangle e v) conf (ss_cm s) (proj1 Hf)))). apply in_or_app. exact Hx. }
      destruct (Hw w Hw') as [Hx|[Hx Hn]]; [left; apply Hl; auto|].
      destruct (cont_eqb (encircles (new_triangle e v) w) Inside) eqn:Ee.
      + left. apply Hl. right. rewrite Ec. apply filter_In. auto.
      + right. split; [rewrite Er; apply filter_In; rewrite Ee; auto|]. intros t Hin' Nt. apply Hnew in Hin'.
        destruct Hin' as [-> |Hin']; [|apply Hn; assumption]. intros E. rewrite E in Ee. discriminate.
  Qed.
End First.

Lemma start_tris : forall a b t, In t (tris (from_initial_segment (A:=ArithR) a b)) <-> t = Tri a b gv \/ t = Tri b a gv.
Proof. intros a b t. unfold from_initial_segment. rewrite !incl_tri_In. cbn. tauto. Qed.
Lemma ghost_encircles : forall a b w : pnt, encircles (Tri a b gv) w = match orientation a b w with CCW => Inside | CW => Outside | Colinear => Boundary end.
Proof. intros a b w. unfold encircles, is_ghost. cbn. rewrite !orb_true_r. reflexivity. Qed.
Lemma left_ccw : forall S a b w, resolved S -> In a S -> In b S -> In w S -> 0 < D a b w -> orientation a b w = CCW.
Proof.
  intros S a b w HR Ha Hb Hw Hp. pose proof (rs_line _ HR a b w Ha Hb Hw). apply orientation_spec. pose proof eps_pos. lra.
Qed.
Lemma right_calm : forall S a b w, resolved S -> In a S -> In b S -> In w S -> 0 < D a b w ->
  encircles (Tri b a gv) w = Outside /\ is_conflicting (Tri b a gv) w = false.
Proof.
  intros S a b w HR Ha Hb Hw Hp. pose proof eps_pos as Pe. pose proof (rs_line _ HR a b w Ha Hb Hw) as Hl.
  assert (E : D b a w = - D a b w) by (unfold area2; ring).
  assert (Eo : orientation b a w = CW) by (apply orientation_spec; rewrite E; lra).
  assert (Ee : encircles (Tri b a gv) w = Outside) by (rewrite ghost_encircles, Eo; reflexivity).
  split; [exact Ee|]. unfold is_conflicting. rewrite Ee. cbn [cont_eqb orb]. apply andb_false_iff. right. cbn [tv1 tv2].
  destruct (edge_contains (b, a) w) eqn:Ec; [|reflexivity]. apply edge_contains_spec in Ec. cbn [fst snd] in Ec. rewrite E in Ec. lra.
Qed.

Lemma four_used : forall (H : HashOrder) p a b v w, NoDup [a; b; v; w] -> resolved [a; b; v; w] -> 0 < area2 a b v -> 0 < area2 a b w ->
  exists n0 tr' inc del, (forall fuel, (n0 <= fuel)%nat ->
      vertices_include H fuel p (from_initial_segment a b) [a; b; v; w] [] None [] = Ok (tr', inc, del)) /\
    delaunay [a; b; v; w] tr'.
Proof.
  intros H p a b v w Hnd HR Pv Pw. set (S := [a; b]). set (tr := from_initial_segment (A:=ArithR) a b). pose proof (rs_plain _ HR) as pl.
  assert (Ia : In a [a; b; v; w]) by (cbn; auto). assert (Ib : In b [a; b; v; w]) by (cbn; auto).
  assert (Nab : a <> b) by (inversion Hnd as [|? ? Hx _]; intros ->; apply Hx; left; reflexivity).
  assert (HD : delaunay S tr) by (apply initial_delaunay; auto).
  assert (Hnew : forall x, In x [v; w] -> x <> a /\ x <> b /\ 0 < D a b x /\ In x [a; b; v; w]).
  { inversion Hnd as [|? ? Hx Hnd1]; subst. inversion Hnd1 as [|? ? Hy Hnd2]; subst. intros x Hx'.
    split; [intros ->; apply Hx; right; exact Hx'|]. split; [intros ->; exact (Hy Hx')|]. split; [|right; right; exact Hx'].
    destruct Hx' as [<-|[<-|[]]]; assumption. }
  assert (Hpts : forall x, In x (trn_vertices tr) <-> In x S) by (apply (delaunay_points S tr HD); intros x [<-|[<-|[]]]; auto).
  assert (Hflt : filter (fun x => negb (hmem vdec x (trn_vertices tr))) [a; b; v; w] = [v; w]).
  { assert (Hm : forall x, hmem vdec x (trn_vertices tr) = true <-> In x S) by (intros x; rewrite hmem_In; apply Hpts).
    assert (Hf : forall x, In x [v; w] -> hmem vdec x (trn_vertices tr) = false).
    { intros x Hx. destruct (hmem vdec x (trn_vertices tr)) eqn:E; [|reflexivity]. apply Hm in E. destruct (Hnew x Hx) as (N1 & N2 & _).
      destruct E as [E|[E|[]]]; congruence. }
    cbn [filter]. rewrite (proj2 (Hm a)), (proj2 (Hm b)), (Hf v), (Hf w) by (cbn; auto). reflexivity. }
  assert (Hin : forall x, In x [v; w] -> encircles (Tri a b gv) x = Inside).
  { intros x Hx. destruct (Hnew x Hx) as (_ & _ & Px & Ix). rewrite ghost_encircles, (left_ccw _ a b x HR Ia Ib Ix Px). reflexivity. }
  destruct (distribute_all_ok H 0 (ho H (1%nat :: p) _ (tris tr)) (2%nat :: p) [] [v; w]) as (cm & rem & Hd & Hout).
  destruct (distribute_all_spec H _ _ _ _ _ _ _ _ _ Hd fair_nil) as (Hf & Hp & Hk). cbn [listed flat_map app] in Hp.
  assert (Erem : rem = []).
  { destruct rem as [|x rem]; [reflexivity|]. exfalso. apply (Hout x (or_introl eq_refl) (Tri a b gv)).
    - apply ho_In. apply start_tris. auto.
    - apply Hin. apply (Permutation_in _ (Permutation_sym Hp)). apply in_or_app. right. left. reflexivity. }
  subst rem. rewrite app_nil_r in Hp. set (s := SS tr cm [] [] [] : state).
  assert (Hkeys : forall t, In t (map fst cm) -> In t (tris tr)).
  { intros t Ht. destruct (Hk t Ht) as [[]|Hi]. apply ho_In in Hi. exact Hi. }
  assert (Hheld : held [v; w] s).
  { split; [exact Hf|]. unfold s. cbn [ss_cm ss_rem ss_tr]. rewrite app_nil_r. split; [exact Hp|]. split; [exact (dl_sound _ _ HD)|exact Hkeys]. }
  (* the first turn *)
  set (q := 3%nat :: p). destruct (ho H (1%nat :: q) _ (map fst cm)) as [|t ts] eqn:Hho.
  { exfalso. apply ho_nil_inv in Hho. destruct cm; [|discriminate]. apply Permutation_length in Hp. discriminate. }
  assert (Ht : In t (map fst cm)) by (apply (ho_In H (1%nat :: q)); rewrite Hho; left; reflexivity).
  destruct (mget tdec t cm) as [vs|] eqn:Hg; [|apply mget_None in Hg; contradiction].
  pose proof (mget_In _ _ _ _ Hg) as Hgin. destruct (proj2 Hf t vs Hgin) as [Hne Hins].
  destruct (hd_error (rev vs)) as [x|] eqn:Hv.
  2:{ exfalso. apply Hne. destruct (rev vs) eqn:Er; [|discriminate]. rewrite <- (rev_involutive vs), Er. reflexivity. }
  assert (Hxl : In x vs) by (rewrite (hd_rev_last _ _ Hv); apply in_or_app; right; left; reflexivity).
  pose proof (Hins x Hxl) as He.
  assert (Hvs : forall z, In z vs -> In z [v; w]).
  { intros z Hz. apply (Permutation_in _ (Permutation_sym Hp)). unfold listed. apply in_flat_map. exists (t, vs). auto. }
  assert (Et : t = Tri a b gv).
  { pose proof (Hkeys t Ht) as Hi. apply start_tris in Hi. destruct Hi as [E|E]; [exact E|]. exfalso.
    destruct (Hnew x (Hvs x Hxl)) as (_ & _ & Px & Ix). destruct (right_calm _ a b x HR Ia Ib Ix Px) as [E' _]. rewrite E in He. congruence. }
  destruct (held_start t vs x s [v; w] Hheld Hg Hv) as (L' & HpL & Hh'). destruct (Hnew x (Hvs x Hxl)) as (Nxa & Nxb & Px & Ix).
  assert (EL : exists y, L' = [y] /\ In y [v; w] /\ y <> x).
  { pose proof (Permutation_length HpL) as E. cbn in E. destruct L' as [|y [|z L']]; try (cbn in E; lia). exists y. split; [reflexivity|].
    split; [apply (Permutation_in _ (Permutation_sym HpL)); right; left; reflexivity|].
    inversion Hnd as [|? ? _ Hnd1]; subst. inversion Hnd1 as [|? ? _ Hnd2]; subst. apply (Permutation_NoDup HpL) in Hnd2.
    inversion Hnd2 as [|? ? Hx _]; subst. intros ->. apply Hx. left. reflexivity. }
  destruct EL as (y & -> & Hy & Nyx). destruct (Hnew y Hy) as (Nya & Nyb & Py & Iy).
  assert (HRS : resolved (x :: S)) by (apply (resolved_incl _ _ HR); intros z [<-|[<-|[<-|[]]]]; assumption).
  assert (HxS : ~ In x S) by (intros [E|[E|[]]]; congruence).
  set (s0 := SS (rem_tri t (ss_tr s)) (mdel tdec t (ss_cm s)) (ss_rem s ++ removelast vs) (ss_inc s) (hadd tdec t (ss_del s)) : state) in *.
  destruct (insert_one H S tr x HD HRS HxS t s0 (3 + 2 * length (tris tr))%nat (2%nat :: q)) as (s1 & Hs1 & HD1); auto; [lia|].
  assert (Hh1 : held [y] s1) by exact (cavity_loop_inv H [] None [] (fun _ _ => held [y]) (held_remove [y]) (held_include H [y]) _ _ _ _ _ _ Hs1 Hh').
  assert (HI1 : first_inv a b x [y] x [] s1).
  { refine (cavity_loop_inv H [] None [] (first_inv a b x [y]) _ _ _ _ _ _ _ _ Hs1 _).
    - apply first_remove; auto. exact (proj2 (right_calm _ a b x HR Ia Ib Ix Px)).
    - apply first_include; auto.
    - split; [reflexivity|]. rewrite Et. split; [intros e [<-|[<-|[<-|[]]]]; cbn; auto|]. unfold s0. cbn [ss_tr ss_cm ss_rem].
      split; [apply adj_sound_rem, (dl_sound _ _ HD)|]. split; [apply fair_mdel, Hf|]. unfold s. cbn [ss_tr ss_cm ss_rem].
      assert (Hone : forall z, In z (tris (rem_tri (Tri a b gv) tr)) -> z = Tri b a gv).
      { intros z Hz. apply rem_tri_In in Hz. destruct Hz as [Hz Nz]. apply start_tris in Hz. destruct Hz; congruence. }
      split; [intros z Hz; rewrite Et in Hz; left; apply Hone, Hz|]. intros z [<-|[]]. right. split.
      + destruct Hh' as (_ & Hp' & _). unfold s0, s in Hp'. cbn [ss_cm ss_rem] in Hp'.
        assert (Hyi : In y (listed (mdel tdec t cm) ++ [] ++ removelast vs)) by (apply (Permutation_in _ Hp'); left; reflexivity).
        apply in_app_or in Hyi. destruct Hyi as [Hyi|Hyi]; [|exact Hyi]. exfalso.
        unfold listed in Hyi. apply in_flat_map in Hyi. destruct Hyi as ([t' vs'] & Hi' & Hy'). cbn [snd] in Hy'.
        apply mdel_In in Hi'. destruct Hi' as [Hi' Nt].
        assert (Ht' : In t' (tris tr)) by (apply Hkeys, in_map_iff; exists (t', vs'); auto). apply start_tris in Ht'. destruct Ht' as [-> | ->].
        * apply Nt. cbn [fst]. symmetry. exact Et.
        * pose proof (proj2 (proj2 Hf _ _ Hi') y Hy') as E'. destruct (right_calm _ a b y HR Ia Ib Iy Py) as [E'' _]. congruence.
      + intros z Hz Nz. rewrite Et in Hz. pose proof (Hone z Hz). contradiction. }
  assert (HyS : ~ In y (x :: S)) by (intros [E|[E|[E|[]]]]; congruence).
  assert (HRy : resolved (y :: x :: S)) by (apply (resolved_incl _ _ HR); intros z [<-|[<-|[<-|[<-|[]]]]]; assumption).
  assert (Hsol : exists t, In t (tris (ss_tr s1)) /\ solid_over (x :: S) t).
  { destruct (flat_or_solid (x :: S) (ss_tr s1) HD1 (rs_plain _ HRS)) as [Hs|(c & d & _ & _ & _ & _ & _ & Hall)]; [exact Hs|]. exfalso.
    pose proof (Hall x (or_introl eq_refl)) as H1. pose proof (Hall a (or_intror (or_introl eq_refl))) as H2.
    pose proof (Hall b (or_intror (or_intror (or_introl eq_refl)))) as H3. destruct H1, H2, H3; congruence. }
  assert (Hcm1 : ss_cm s1 <> []).
  { destruct HI1 as (_ & _ & _ & _ & _ & Hw). destruct (Hw y (or_introl eq_refl)) as [Hl|[_ Hno]]; [intros E; rewrite E in Hl; destruct Hl|]. exfalso.
    destruct (located (x :: S) (ss_tr s1) y HD1 HRy HyS Hsol) as (u & Hu & Eu).
    apply (Hno u Hu); [|exact Eu]. intros ->. destruct (right_calm _ a b y HR Ia Ib Iy Py) as [E'' _]. congruence. }
  destruct (solve_total H 1 [y] (x :: S) s1 (0%nat :: q)) as (n0 & s' & done & Hrun & HD' & Hp' & _ & _ & Hdone); auto.
  assert (Edone : done = [y]).
  { apply Hdone in Hcm1. pose proof (Permutation_length Hp') as E. rewrite app_length in E. cbn [length] in E. destruct done as [|z [|z' done]]; [congruence| |cbn in E; lia].
    assert (Hz : In z [y]) by (apply (Permutation_in _ (Permutation_sym Hp')); left; reflexivity). destruct Hz as [->|[]]. reflexivity. }
  subst done. exists (1 + n0 + (3 + 2 * length (tris tr)))%nat, (ss_tr s'), (ss_inc s'), (ss_del s'). split.
  - intros fuel Hfu. unfold vertices_include. fold tr. rewrite Hflt.
    assert (Hd' : distribute_all H fuel (2%nat :: p) (ho H (1%nat :: p) _ (tris tr)) [] [v; w] None [] = Ok (cm, [])).
    { refine (rle_ok _ _ _ _ _ Hd). apply distribute_all_mono. lia. }
    rewrite Hd'. cbn [bind]. unfold solve_conflicts. fold s q. destruct fuel as [|fuel]; [lia|]. cbn [solve_loop]. unfold s at 1 2 3. cbn [ss_cm].
    rewrite Hho, Hg. cbn [unwrap bind]. rewrite Hv. cbn [unwrap bind].
    assert (Hc : cavity_loop H fuel (2%nat :: q) [] None [] x [te3 t; te2 t; te1 t] s0 = Ok s1) by (refine (rle_ok _ _ _ _ _ Hs1); apply cavity_loop_mono; lia).
    fold s0. rewrite Hc. cbn [bind]. rewrite Hrun by lia. reflexivity.
  - apply (delaunay_incl _ _ _ HD'). intros z.
    assert (Hvw : In z [v; w] <-> z = x \/ z = y).
    { split; intros Hz.
      - apply (Permutation_in _ HpL) in Hz. destruct Hz as [<-|[<-|[]]]; auto.
      - apply (Permutation_in _ (Permutation_sym HpL)). destruct Hz as [-> | ->]; cbn; auto. }
    change S with [a; b]. clear -Hvw. cbn [app In] in *. intuition (subst; auto).
Qed.
