(** P_D5.v — vertex insertion on a Delaunay mesh of the real plane: it stops,
    does not panic and leaves a Delaunay mesh of more points. *)

From Coq Require Import Reals List ZArith Lra Lia Psatz Bool Permutation.
From Verif Require Import Base Arith Geometry Elements Polyline Procedures ArithR Spec SpecR SpecD
  P_Base P_Trn P_Fuel P_Vertices P_Cavity P_R1 P_R2 P_R5 P_R6 P_D1 P_D2 P_D3 P_D4.
Import ListNotations.
Local Open Scope R_scope.

Notation state := (solve_state (A:=ArithR)).

Lemma resolved_incl : forall S S', resolved S -> (forall w, In w S' -> In w S) -> resolved S'.
Proof.
  intros S S' HR Hi. split.
  - intros a Ha. apply (rs_plain _ HR); auto.
  - intros a b Ha Hb. apply (rs_apart _ HR); auto.
  - intros a b c Ha Hb Hc. apply (rs_line _ HR); auto.
  - intros a b c d Ha Hb Hc Hd. apply (rs_circle _ HR); auto.
Qed.
Lemma delaunay_incl : forall S S' tr, delaunay S tr -> (forall w, In w S <-> In w S') -> delaunay S' tr.
Proof.
  intros S S' tr HD Hi. split; try (apply HD).
  - intros t Ht. destruct (dl_shape _ _ HD t Ht) as [(a & b & c & E & Ha & Hb & Hc & Hp)|(a & b & E & Ha & Hb & Hn)].
    + left. exists a, b, c. rewrite <- !Hi. auto.
    + right. exists a, b. rewrite <- !Hi. auto.
  - intros a b c Ht Hg o w Hw. apply (dl_circle _ _ HD a b c Ht Hg). apply Hi, Hw.
  - intros a b Ht w Hw. apply (dl_hull _ _ HD a b Ht). apply Hi, Hw.
  - intros w Hw. apply (dl_used _ _ HD), Hi, Hw.
  - intros a b Ht Ht' w Hw. apply (dl_flat _ _ HD a b Ht Ht'), Hi, Hw.
Qed.

(** The points of the mesh. *)
Lemma delaunay_points : forall S tr, delaunay S tr -> (forall w, In w S -> vghost w = false) -> forall w, In w (trn_vertices tr) <-> In w S.
Proof.
  intros S tr HD Hp w. rewrite trn_vertices_In. split.
  - intros [Hg (t & Ht & Hc)]. destruct (dl_shape _ _ HD t Ht) as [(a & b & c & -> & Ha & Hb & Hcs & _)|(a & b & -> & Ha & Hb & _)];
      inversion Hc; subst; try assumption. discriminate.
  - intros Hw. split; [apply Hp, Hw|exact (dl_used _ _ HD w Hw)].
Qed.

(** A point of the mesh is strictly inside no circle and sees no hull edge. *)
Lemma inside_new : forall S tr t w, delaunay S tr -> (forall w, In w S -> vghost w = false) -> In t (tris tr) -> encircles t w = Inside -> ~ In w S.
Proof.
  intros S tr t w HD HP Ht He Hw. pose proof eps_pos as Pe.
  destruct (dl_shape _ _ HD t Ht) as [(a & b & c & -> & Ha & Hb & Hc & Hp)|(a & b & -> & Ha & Hb & Hn)]; unfold encircles, is_ghost in He.
  - cbn [tv1 tv2 tv3] in He. rewrite (HP a Ha), (HP b Hb), (HP c Hc) in He. cbn [orb] in He. rewrite continence_sign in He.
    assert (Hi : I a b c w <= 0).
    { destruct (circumcenter_spec a b c) as [_ Hcc]. destruct Hcc as (o & _ & _ & H1 & H2 & _); [lra|].
      pose proof (dl_circle _ _ HD a b c Ht (HP c Hc) o w Hw H1 H2). rewrite (incircle_power a b c w o H1 H2). apply mpn; lra. }
    revert He. repeat rcase; intros He; try discriminate. lra.
  - cbn in He. rewrite !orb_true_r in He. cbn in He.
    destruct (orientation a b w) eqn:Eo; try discriminate. apply orientation_spec in Eo.
    pose proof (proj1 (dl_hull _ _ HD a b Ht w Hw)). lra.
Qed.

(** ** One vertex *)
Lemma veqb_exact : forall S a b, resolved S -> (In a S \/ a = gv) -> (In b S \/ b = gv) -> veqb a b = true -> a = b.
Proof.
  intros S a b HR Ha Hb He. destruct Ha as [Ha| ->]; destruct Hb as [Hb| ->].
  - destruct (veqb_close a b (rs_plain _ HR a Ha) He) as [_ Hc]. exact (rs_apart _ HR a b Ha Hb Hc).
  - destruct (veqb_close a gv (rs_plain _ HR a Ha) He). discriminate.
  - exfalso. unfold veqb in He. rewrite (rs_plain _ HR b Hb) in He. cbn in He. discriminate.
  - reflexivity.
Qed.

Lemma insert_one : forall (H : HashOrder) S (tr : mesh) v, delaunay S tr -> resolved (v :: S) -> ~ In v S ->
  forall t (s : state) fuel p, In t (tris tr) -> encircles t v = Inside -> ss_tr s = rem_tri t tr -> (2 * length (tris tr) + 2 < fuel)%nat ->
  exists s', cavity_loop H fuel p [] None [] v [te3 t; te2 t; te1 t] s = Ok s' /\ delaunay (v :: S) (ss_tr s').
Proof.
  intros H S tr v HD HR Hv t s fuel p Ht He Es Hf.
  assert (Hst : exists t, In t (tris tr) /\ encircles t v = Inside) by eauto.
  destruct (cavity_total H tr v) with (up := up v) (rank := rank S tr v) (t := t) (s := s) (fuel := fuel) (p := p)
    as (s' & Hs & A1 & A2 & A3 & Hx); auto.
  - exact (dl_sound _ _ HD).
  - exact (dl_complete _ _ HD).
  - exact (dl_nodup _ _ HD).
  - exact (dl_closed _ _ HD).
  - intros t1 e e' Ht1 Se Se' Eq.
    assert (Hc : forall x, corner_of x t1 -> In x (v :: S) \/ x = gv).
    { intros x Hx. destruct (dl_shape _ _ HD t1 Ht1) as [(a & b & c & -> & Ha & Hb & Hcs & _)|(a & b & -> & Ha & Hb & _)]; inversion Hx; subst; cbn [In]; auto. }
    unfold eeqb, ev1, ev2 in Eq. apply andb_true_iff in Eq. destruct Eq as [E1 E2].
    rewrite (surjective_pairing e), (surjective_pairing e'). f_equal; apply (veqb_exact (v :: S)); auto; apply Hc;
      first [apply (side_corner1 _ _ Se) | apply (side_corner1 _ _ Se') | apply (side_corner2 _ _ Se) | apply (side_corner2 _ _ Se')].
  - exact (sides3 S tr v HD HR).
  - exact (link S tr v HD HR Hv Hst).
  - exact (one S tr v HD HR).
  - exact (rank_up S tr v HD HR Hv Hst).
  - exact (root_one S tr v HD HR Hv Hst).
  - exact (new_excl S tr v HD HR Hv Hst).
  - exact (new_fresh S tr v HD HR Hv Hst).
  - split; [exact Ht|]. unfold is_conflicting. rewrite He. reflexivity.
  - exists s'. split; [exact Hs|]. exact (mesh_delaunay S tr v HD HR Hv Hst (ss_tr s') A1 A2 A3 Hx).
Qed.

(** ** The outer loop *)
(** The vertices waiting in the state are those of [L]. *)
Definition held (L : list pnt) (s : state) : Prop :=
  fair (ss_cm s) /\ Permutation L (listed (ss_cm s) ++ ss_rem s) /\ adj_sound (ss_tr s) /\
  forall t, In t (map fst (ss_cm s)) -> In t (tris (ss_tr s)).

Lemma held_remove : forall L, step_remove [] (fun _ _ => held L).
Proof.
  intros L v e pending s outer (Hf & Hp & Ha & Hk) Ho _ _. split; [apply fair_mdel, Hf|]. cbn [ss_cm ss_rem ss_tr] in *. split; [|split].
  - rewrite Hp. destruct (mget tdec outer (ss_cm s)) as [vs|] eqn:Hg.
    + rewrite (listed_mdel _ _ _ (proj1 Hf) Hg). rewrite (Permutation_app_comm vs), <- app_assoc. apply Permutation_app_head, Permutation_app_comm.
    + rewrite mdel_not_key; [apply Permutation_refl|]. apply mget_None in Hg. exact Hg.
  - apply adj_sound_rem, Ha.
  - intros t Ht. apply mdel_keys in Ht. apply rem_tri_In. split; [apply Hk|]; apply Ht.
Qed.
Lemma held_include : forall (H : HashOrder) L, step_include H None [] (fun _ _ => held L).
Proof.
  intros H L fuel p v e pending s outer conf rest (Hf & Hp & Ha & Hk) Ho Hs.
  destruct (split_conflicts_spec _ _ _ _ _ _ _ _ _ Hs) as [Hperm Hc]. split; [apply fair_add; assumption|]. cbn [ss_cm ss_rem ss_tr] in *. split; [|split].
  - rewrite Hp. rewrite (listed_add _ _ _ (proj1 Hf)), <- app_assoc. apply Permutation_app_head, Hperm.
  - apply adj_sound_incl, Ha.
  - intros t Ht. rewrite incl_tri_In. apply in_map_iff in Ht. destruct Ht as ([t' l] & Ef & Hi). cbn in Ef. subst t'.
    apply add_conflicts_In in Hi. destruct Hi as [Hi|(-> & _)]; [|auto].
    right. apply Hk. apply in_map_iff. exists (t, l). auto.
Qed.
Lemma held_start : forall t vs v (s : state) L, held L s -> mget tdec t (ss_cm s) = Some vs -> hd_error (rev vs) = Some v ->
  exists L', Permutation L (v :: L') /\ held L' (SS (rem_tri t (ss_tr s)) (mdel tdec t (ss_cm s)) (ss_rem s ++ removelast vs) (ss_inc s) (hadd tdec t (ss_del s))).
Proof.
  intros t vs v s L (Hf & Hp & Ha & Hk) Hg Hh. pose proof (hd_rev_last _ _ Hh) as El.
  exists (listed (mdel tdec t (ss_cm s)) ++ ss_rem s ++ removelast vs). split.
  - rewrite Hp. rewrite (listed_mdel _ _ _ (proj1 Hf) Hg). rewrite El at 1. rewrite <- !app_assoc. cbn [app].
    rewrite (Permutation_app_comm (removelast vs)). cbn [app]. rewrite <- app_assoc. apply Permutation_refl.
  - split; [apply fair_mdel, Hf|]. cbn [ss_cm ss_rem ss_tr] in *. split; [apply Permutation_refl|]. split; [apply adj_sound_rem, Ha|].
    intros t' Ht. apply mdel_keys in Ht. apply rem_tri_In. split; [apply Hk|]; apply Ht.
Qed.

Lemma solve_total : forall (H : HashOrder) n L S (s : state) p, (length L <= n)%nat -> held L s -> delaunay S (ss_tr s) -> resolved (L ++ S) ->
  exists n0 s' done, (forall fuel, (n0 <= fuel)%nat -> solve_loop H fuel p [] None [] s = Ok s') /\
    delaunay (done ++ S) (ss_tr s') /\ Permutation L (done ++ ss_rem s') /\ (forall w, In w done -> ~ In w S) /\ NoDup done /\
    (ss_cm s <> [] -> done <> []).
Proof.
  intros H n. induction n as [|n IH]; intros L S s p Hn Hh HD HR.
  - exists 1%nat, s, []. assert (L = []) by (destruct L; [reflexivity|cbn in Hn; lia]). subst L. destruct Hh as (Hf & Hp & _ & _).
    apply Permutation_nil in Hp. apply app_eq_nil in Hp. destruct Hp as [Hl Hr]. rewrite Hr. cbn [app].
    assert (Ecm : ss_cm s = []).
    { destruct (ss_cm s) as [|[t l] cm] eqn:Ec; [reflexivity|]. exfalso. destruct (proj2 Hf t l (or_introl eq_refl)) as [Hne _]. cbn in Hl. apply app_eq_nil in Hl. apply Hne, Hl. }
    split; [|split; [exact HD|split; [apply Permutation_refl|split; [intros w []|split; [constructor|intros n; contradiction]]]]].
    intros fuel Hfu. destruct fuel; [lia|]. cbn [solve_loop]. rewrite Ecm. rewrite ho_nil. reflexivity.
  - destruct (ho H (1%nat :: p) _ (map fst (ss_cm s))) as [|t ts] eqn:Hk.
    { exists 1%nat, s, []. destruct Hh as (Hf & Hp & _ & _). cbn [app]. split; [|split; [exact HD|split; [|split; [intros w []|split; [constructor|]]]]].
      - intros fuel Hfu. destruct fuel; [lia|]. cbn [solve_loop]. rewrite Hk. reflexivity.
      - apply ho_nil_inv in Hk. destruct (ss_cm s); [exact Hp|discriminate].
      - apply ho_nil_inv in Hk. destruct (ss_cm s); [contradiction|discriminate]. }
    assert (Ht : In t (map fst (ss_cm s))) by (apply (ho_In H (1%nat :: p)); rewrite Hk; left; reflexivity).
    destruct (mget tdec t (ss_cm s)) as [vs|] eqn:Hg; [|apply mget_None in Hg; contradiction].
    pose proof (mget_In _ _ _ _ Hg) as Hin. destruct Hh as (Hf & Hp & Ha & Hkeys). destruct (proj2 Hf t vs Hin) as [Hne Hins].
    destruct (hd_error (rev vs)) as [v|] eqn:Hv.
    2:{ exfalso. apply Hne. destruct (rev vs) eqn:Er; [|discriminate]. rewrite <- (rev_involutive vs), Er. reflexivity. }
    assert (Hvl : In v vs) by (rewrite (hd_rev_last _ _ Hv); apply in_or_app; right; left; reflexivity).
    pose proof (Hins v Hvl) as He. assert (Htr : In t (tris (ss_tr s))) by (apply Hkeys, Ht).
    destruct (held_start t vs v s L) as (L' & HpL & Hh'); [repeat (split; [assumption|]); assumption|exact Hg|exact Hv|].
    assert (HRS : resolved (v :: S)).
    { apply (resolved_incl (L ++ S)); [exact HR|]. intros w [<-|Hw]; apply in_or_app; [left|right; exact Hw].
      apply (Permutation_in _ (Permutation_sym HpL)). left. reflexivity. }
    assert (HvS : ~ In v S) by (apply (inside_new S (ss_tr s) t); auto; intros w Hw; apply (rs_plain _ HRS); right; exact Hw).
    destruct (insert_one H S (ss_tr s) v HD HRS HvS t
      (SS (rem_tri t (ss_tr s)) (mdel tdec t (ss_cm s)) (ss_rem s ++ removelast vs) (ss_inc s) (hadd tdec t (ss_del s)))
      (3 + 2 * length (tris (ss_tr s)))%nat (2%nat :: p)) as (s1 & Hs1 & HD1); auto; [lia|].
    assert (Hh1 : held L' s1) by exact (cavity_loop_inv H [] None [] (fun _ _ => held L') (held_remove L') (held_include H L') _ _ _ _ _ _ Hs1 Hh').
    destruct (IH L' (v :: S) s1 (0%nat :: p)) as (n0 & s' & done & Hrun & HD' & Hp' & Hnew & Hnd & _); auto.
    { apply Permutation_length in HpL. cbn in HpL. lia. }
    { apply (resolved_incl (L ++ S)); [exact HR|]. intros w Hw. apply in_or_app. apply in_app_or in Hw. destruct Hw as [Hw|[<-|Hw]]; [left|left|auto].
      - apply (Permutation_in _ (Permutation_sym HpL)). right. exact Hw.
      - apply (Permutation_in _ (Permutation_sym HpL)). left. reflexivity. }
    exists (1 + n0 + (3 + 2 * length (tris (ss_tr s))))%nat, s', (done ++ [v]). split; [|split; [|split; [|split; [|split]]]].
    + intros fuel Hfu. destruct fuel as [|fuel]; [lia|]. cbn [solve_loop]. rewrite Hk, Hg. cbn [unwrap bind]. rewrite Hv. cbn [unwrap bind].
      assert (Hc : cavity_loop H fuel (2%nat :: p) [] None [] v [te3 t; te2 t; te1 t]
        (SS (rem_tri t (ss_tr s)) (mdel tdec t (ss_cm s)) (ss_rem s ++ removelast vs) (ss_inc s) (hadd tdec t (ss_del s))) = Ok s1).
      { refine (rle_ok _ _ _ _ _ Hs1). apply cavity_loop_mono. lia. }
      rewrite Hc. cbn [bind]. apply Hrun. lia.
    + rewrite <- app_assoc. exact HD'.
    + rewrite HpL, Hp'. rewrite <- app_assoc. apply Permutation_middle.
    + intros w Hw. apply in_app_or in Hw. destruct Hw as [Hw|[<-|[]]]; [|exact HvS]. intros Hs. apply (Hnew w Hw). right. exact Hs.
    + apply nodup_app; [exact Hnd|repeat constructor; intros []|]. intros w Hw [<-|[]]. apply (Hnew v Hw). left. reflexivity.
    + intros _ E. destruct done; discriminate.
Qed.

Lemma distribute_all_incl : forall (H : HashOrder) fuel (ts : list tri) p cm vs bd hs cm' rest,
  distribute_all H fuel p ts cm vs bd hs = Ok (cm', rest) -> incl rest vs.
Proof.
  intros H fuel ts. induction ts as [|t ts IH]; intros p cm vs bd hs cm' rest Hd; cbn [distribute_all] in Hd; [injection Hd as <- <-; apply incl_refl|].
  destruct vs as [|v vs]; [injection Hd as <- <-; apply incl_refl|].
  apply bind_ok in Hd. destruct Hd as ([cm1 vs1] & Hd1 & Hd). unfold distribute_conflicts in Hd1.
  apply bind_ok in Hd1. destruct Hd1 as ([conf r] & Hs & E). injection E as <- <-.
  destruct (split_conflicts_spec _ _ _ _ _ _ _ _ _ Hs) as [Hp _]. apply IH in Hd. intros w Hw. apply Hd in Hw.
  apply (Permutation_in _ (Permutation_sym Hp)). apply in_or_app. right. exact Hw.
Qed.
Lemma distribute_all_ok : forall (H : HashOrder) fuel (ts : list tri) p cm vs, exists cm' rest,
  distribute_all H fuel p ts cm vs None [] = Ok (cm', rest) /\
  forall w, In w rest -> forall t, In t ts -> encircles t w <> Inside.
Proof.
  intros H fuel ts. induction ts as [|t ts IH]; intros p cm vs; [cbn; exists cm, vs; split; [reflexivity|intros w _ t []]|].
  cbn [distribute_all]. destruct vs as [|v vs]; [exists cm, []; split; [reflexivity|intros w []]|].
  unfold distribute_conflicts. destruct (split_free H fuel t (v :: vs) (1%nat :: p)) as (conf & rest & -> & _ & Er). cbn [bind].
  destruct (IH (0%nat :: p) (add_conflicts t conf cm) rest) as (cm' & rest' & Hd & Hw). exists cm', rest'. split; [exact Hd|].
  pose proof (distribute_all_incl _ _ _ _ _ _ _ _ _ _ Hd) as Hi.
  intros w Hw' t' [<-|Ht']; [|apply Hw; assumption]. apply Hi in Hw'. rewrite Er in Hw'. apply filter_In in Hw'. destruct Hw' as [_ Hw']. intros E. rewrite E in Hw'. discriminate.
Qed.

(** C33, C34, C35 *)
Lemma include_delaunay : forall (H : HashOrder) p S (tr : mesh) vs, delaunay S tr -> resolved (vs ++ S) ->
  exists n0 tr' inc del ins dropped,
    (forall fuel, (n0 <= fuel)%nat -> vertices_include H fuel p tr vs [] None [] = Ok (tr', inc, del)) /\
    delaunay (ins ++ S) tr' /\ Permutation (filter (fun v => negb (hmem vdec v (trn_vertices tr))) vs) (ins ++ dropped) /\ NoDup ins /\
    (forall w, In w ins -> ~ In w S) /\
    ((exists t w, In t (tris tr) /\ In w vs /\ encircles t w = Inside) -> ins <> []).
Proof.
  intros H p S tr vs HD HR. set (new := filter (fun v => negb (hmem vdec v (trn_vertices tr))) vs).
  destruct (distribute_all_ok H 0 (ho H (1%nat :: p) _ (tris tr)) (2%nat :: p) [] new) as (cm & rem & Hd & Hout).
  destruct (distribute_all_spec H _ _ _ _ _ _ _ _ _ Hd fair_nil) as (Hf & Hp & Hk). cbn [listed flat_map app] in Hp.
  destruct (solve_total H (length new) new S (SS tr cm rem [] []) (3%nat :: p)) as (n0 & s' & done & Hrun & HD' & Hp' & Hnew & Hnd & Hne); auto.
  - split; [exact Hf|]. cbn [ss_cm ss_rem ss_tr]. split; [exact Hp|]. split; [exact (dl_sound _ _ HD)|].
    intros t Ht. destruct (Hk t Ht) as [[]|Ht']. apply ho_In in Ht'. exact Ht'.
  - apply (resolved_incl (vs ++ S)); [exact HR|]. intros w Hw. apply in_or_app. apply in_app_or in Hw. destruct Hw as [Hw|Hw]; [|auto]. apply filter_In in Hw. tauto.
  - exists n0, (ss_tr s'), (ss_inc s'), (ss_del s'), done, (ss_rem s'). split; [|repeat (split; [assumption|])].
    2:{ intros (t & w & Ht & Hw & He). apply Hne. cbn [ss_cm]. intros ->. cbn in Hp.
        assert (Hws : ~ In w S).
        { apply (inside_new S tr t); auto. intros x Hx. apply (rs_plain _ HR), in_or_app; auto. }
        apply (Hout w) with (t := t); [|apply ho_In; exact Ht|exact He]. apply (Permutation_in _ Hp). apply filter_In. split; [exact Hw|].
        destruct (hmem vdec w (trn_vertices tr)) eqn:Em; [|reflexivity]. exfalso. apply Hws. apply (delaunay_points S tr HD); [intros x Hx; apply (rs_plain _ HR), in_or_app; auto|]. apply (hmem_In vdec) in Em. exact Em. }
    intros fuel Hfu. unfold vertices_include. fold new.
    assert (Hd' : distribute_all H fuel (2%nat :: p) (ho H (1%nat :: p) _ (tris tr)) [] new None [] = Ok (cm, rem)).
    { refine (rle_ok _ _ _ _ _ Hd). apply distribute_all_mono. lia. }
    rewrite Hd'. cbn [bind]. unfold solve_conflicts. rewrite (Hrun fuel Hfu). reflexivity.
Qed.

(** ** The initial segment *)
Lemma between_irrefl : forall a b, ~ strictly_between a b a /\ ~ strictly_between a b b.
Proof.
  intros a b. unfold strictly_between, dotp. split; intros [_ L]; revert L;
    [replace (X a - X a) with 0 by ring; replace (Y a - Y a) with 0 by ring|replace (X b - X b) with 0 by ring; replace (Y b - Y b) with 0 by ring]; lra.
Qed.
Lemma initial_delaunay : forall a b : pnt, vghost a = false -> vghost b = false -> a <> b -> delaunay [a; b] (from_initial_segment a b).
Proof.
  intros a b Ga Gb Hn. unfold from_initial_segment.
  assert (Ht : forall t, In t (tris (incl_tri (Tri b a gv) (incl_tri (Tri a b gv) (trn_new (A:=ArithR))))) <-> t = Tri a b gv \/ t = Tri b a gv).
  { intros t. rewrite !incl_tri_In. cbn. tauto. }
  assert (Hag : a <> gv) by (intros ->; discriminate). assert (Hbg : b <> gv) by (intros ->; discriminate).
  split.
  - apply adj_sound_incl, adj_sound_incl. intros e t He. discriminate.
  - apply adj_complete_incl; [apply adj_complete_incl; [apply adj_complete_new|intros t' e []]|].
    intros t' e H S1 S2. apply incl_tri_In in H. destruct H as [-> | []]. inversion S1; subst; inversion S2; subst; congruence.
  - apply incl_tri_NoDup, incl_tri_NoDup. constructor.
  - intros t H. apply Ht in H. right. destruct H as [-> | ->]; [exists a, b|exists b, a]; (split; [reflexivity|split; [cbn; auto|split; [cbn; auto|congruence]]]).
  - intros t e H Se. apply Ht in H. destruct H as [-> | ->]; [exists (Tri b a gv)|exists (Tri a b gv)]; rewrite Ht; (split; [auto|]); inversion Se; subst; cbn; constructor.
  - intros x y z H Gz. apply Ht in H. destruct H as [E|E]; injection E as -> -> ->; discriminate.
  - intros x y H w Hw. apply Ht in H. destruct (between_irrefl a b) as [B1 B2]. destruct (between_irrefl b a) as [B3 B4].
    destruct H as [E|E]; injection E as -> ->; destruct Hw as [<-|[<-|[]]]; rewrite ?D_ab_a, ?D_ab_b; (split; [lra|assumption]).
  - intros w [<-|[<-|[]]]; exists (Tri a b gv); rewrite Ht; split; auto; constructor.
  - intros x y H _ w Hw. apply Ht in H. destruct H as [E|E]; injection E as -> ->; destruct Hw as [<-|[<-|[]]]; auto.
  - intros E. assert (H : In (Tri a b gv) (tris (incl_tri (Tri b a gv) (incl_tri (Tri a b gv) (trn_new (A:=ArithR)))))) by (apply Ht; auto). rewrite E in H. destruct H.
Qed.
