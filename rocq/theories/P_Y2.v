(** P_Y2.v — vertex insertion over any arithmetic whose predicates agree with the
    real plane on the points at hand: batches of vertices. *)

From Coq Require Import Reals List ZArith Lra Lia Bool Permutation.
From Verif Require Import Base Arith Geometry Elements Polyline Procedures ArithR Spec SpecR SpecD
  P_Base P_Trn P_Fuel P_Vertices P_Cavity P_D3 P_D4 P_D5 P_Y1.
Import ListNotations.
Local Open Scope R_scope.

Section Held.
  Context {A : Arith}.
  Notation vertex := (vertex A).
  Notation triangle := (triangle A).
  Notation state := (solve_state (A:=A)).
  Definition held (L : list vertex) (s : state) : Prop :=
    fair (ss_cm s) /\ Permutation L (listed (ss_cm s) ++ ss_rem s) /\ adj_sound (ss_tr s) /\
    forall t, In t (map fst (ss_cm s)) -> In t (tris (ss_tr s)).

  Lemma held_remove : forall L, step_remove [] (fun _ _ => held L).
  Proof.
    intros L v e pending s outer (Hf & Hp & Ha & Hk) Ho _ _. split; [apply fair_mdel, Hf|]. cbn [ss_cm ss_rem ss_tr] in *. split; [|split].
    - rewrite Hp. destruct (mget tdec outer (ss_cm s)) as [vs|] eqn:Hg.
      + rewrite (listed_mdel _ _ _ (proj1 Hf) Hg). rewrite (Permutation_app_comm vs), <- app_assoc. apply Permutation_app_head, Permutation_app_comm.
      + rewrite mdel_not_key; [apply Permutation_refl|]. apply mget_None in Hg. exact Hg.
    - apply adj_sound_rem, Ha.
    - intros t Ht. apply mdel_keys in Ht. apply rem_tri_In. split; [apply Hk|]; apply Ht.
  Qed.
  Lemma held_include : forall (H : HashOrder) L, step_include H None [] (fun _ _ => held L).
  Proof.
    intros H L fuel p v e pending s outer conf rest (Hf & Hp & Ha & Hk) Ho Hs.
    destruct (split_conflicts_spec _ _ _ _ _ _ _ _ _ Hs) as [Hperm Hc]. split; [apply fair_add; assumption|]. cbn [ss_cm ss_rem ss_tr] in *. split; [|split].
    - rewrite Hp. rewrite (listed_add _ _ _ (proj1 Hf)), <- app_assoc. apply Permutation_app_head, Hperm.
    - apply adj_sound_incl, Ha.
    - intros t Ht. rewrite incl_tri_In. apply in_map_iff in Ht. destruct Ht as ([t' l] & Ef & Hi). cbn in Ef. subst t'.
      apply add_conflicts_In in Hi. destruct Hi as [Hi|(-> & _)]; [|auto].
      right. apply Hk. apply in_map_iff. exists (t, l). auto.
  Qed.
  Lemma held_start : forall t vs v (s : state) L, held L s -> mget tdec t (ss_cm s) = Some vs -> hd_error (rev vs) = Some v ->
    exists L', Permutation L (v :: L') /\ held L' (SS (rem_tri t (ss_tr s)) (mdel tdec t (ss_cm s)) (ss_rem s ++ removelast vs) (ss_inc s) (hadd tdec t (ss_del s))).
  Proof.
    intros t vs v s L (Hf & Hp & Ha & Hk) Hg Hh. pose proof (hd_rev_last _ _ Hh) as El.
    exists (listed (mdel tdec t (ss_cm s)) ++ ss_rem s ++ removelast vs). split.
    - rewrite Hp. rewrite (listed_mdel _ _ _ (proj1 Hf) Hg). rewrite El at 1. rewrite <- !app_assoc. cbn [app].
      rewrite (Permutation_app_comm (removelast vs)). cbn [app]. rewrite <- app_assoc. apply Permutation_refl.
    - split; [apply fair_mdel, Hf|]. cbn [ss_cm ss_rem ss_tr] in *. split; [apply Permutation_refl|]. split; [apply adj_sound_rem, Ha|].
      intros t' Ht. apply mdel_keys in Ht. apply rem_tri_In. split; [apply Hk|]; apply Ht.
  Qed.

  Lemma distribute_all_incl : forall (H : HashOrder) fuel (ts : list triangle) p cm vs bd hs cm' rest,
    distribute_all H fuel p ts cm vs bd hs = Ok (cm', rest) -> incl rest vs.
  Proof.
    intros H fuel ts. induction ts as [|t ts IH]; intros p cm vs bd hs cm' rest Hd; cbn [distribute_all] in Hd; [injection Hd as <- <-; apply incl_refl|].
    destruct vs as [|v vs]; [injection Hd as <- <-; apply incl_refl|].
    apply bind_ok in Hd. destruct Hd as ([cm1 vs1] & Hd1 & Hd). unfold distribute_conflicts in Hd1.
    apply bind_ok in Hd1. destruct Hd1 as ([conf r] & Hs & E). injection E as <- <-.
    destruct (split_conflicts_spec _ _ _ _ _ _ _ _ _ Hs) as [Hp _]. apply IH in Hd. intros w Hw. apply Hd in Hw.
    apply (Permutation_in _ (Permutation_sym Hp)). apply in_or_app. right. exact Hw.
  Qed.
  Lemma distribute_all_ok : forall (H : HashOrder) fuel (ts : list triangle) p cm vs, exists cm' rest,
    distribute_all H fuel p ts cm vs None [] = Ok (cm', rest) /\
    forall w, In w rest -> forall t, In t ts -> encircles t w <> Inside.
  Proof.
    intros H fuel ts. induction ts as [|t ts IH]; intros p cm vs; [cbn; exists cm, vs; split; [reflexivity|intros w _ t []]|].
    cbn [distribute_all]. destruct vs as [|v vs]; [exists cm, []; split; [reflexivity|intros w []]|].
    unfold distribute_conflicts. destruct (split_free H fuel t (v :: vs) (1%nat :: p)) as (conf & rest & -> & _ & Er). cbn [bind].
    destruct (IH (0%nat :: p) (add_conflicts t conf cm) rest) as (cm' & rest' & Hd & Hw). exists cm', rest'. split; [exact Hd|].
    pose proof (distribute_all_incl _ _ _ _ _ _ _ _ _ _ Hd) as Hi.
    intros w Hw' t' [<-|Ht']; [|apply Hw; assumption]. apply Hi in Hw'. rewrite Er in Hw'. apply filter_In in Hw'. destruct Hw' as [_ Hw']. intros E. rewrite E in Hw'. discriminate.
  Qed.


End Held.

(** ** The arithmetic agrees with the real plane on the points [U] *)
Record agrees {A : Arith} (rd : vertex A -> pnt) (U : list (vertex A)) : Prop := {
  ag_ghost : rd ghost_vertex = gv;
  ag_plain : forall w, In w U -> vghost w = false /\ vghost (rd w) = false;
  ag_inj : forall a b, In a U -> In b U -> rd a = rd b -> a = b;
  ag_veqb : forall a b, In a U -> In b U -> veqb a b = true -> a = b;
  ag_cont : forall a b c v, In a U -> In b U -> In c U -> In v U -> v <> a -> v <> b -> v <> c -> 0 < area2 (rd a) (rd b) (rd c) ->
    (continence a b c v = Inside <-> continence (rd a) (rd b) (rd c) (rd v) = Inside);
  ag_ori : forall a b v, In a U -> In b U -> In v U -> orientation a b v = orientation (rd a) (rd b) (rd v);
  ag_edge : forall a b v, In a U -> In b U -> In v U -> edge_contains (a, b) v = edge_contains (rd a, rd b) (rd v);
  ag_res : resolved (map rd U)
}.

Section Batch.
  Context {A : Arith} (rd : vertex A -> pnt) (U : list (vertex A)).
  Hypothesis HA : agrees rd U.
  Notation vertex := (vertex A).
  Notation triangle := (triangle A).
  Notation triangulation := (triangulation A).
  Notation state := (solve_state (A:=A)).
  Notation gA := (ghost_vertex (A:=A)).
  Notation shows := (shows rd U).
  Notation rt := (rt rd).

  Lemma step_one : forall (H : HashOrder) S tr tr' v, incl S U -> In v U -> ~ In v S -> shows tr tr' -> delaunay (map rd S) tr' ->
    forall t (s : state) fuel p, In t (tris tr) -> encircles t v = Inside -> ss_tr s = rem_tri t tr -> (2 * length (tris tr) + 2 < fuel)%nat ->
    exists s' tr2', cavity_loop H fuel p [] None [] v [te3 t; te2 t; te1 t] s = Ok s' /\ shows (ss_tr s') tr2' /\ delaunay (map rd (v :: S)) tr2' /\
      forall Q, keeps H tr v Q -> Q [te3 t; te2 t; te1 t] s -> Q [] s'.
  Proof.
    intros H S tr tr' v HS Hv Hn Hsh HD t s fuel p Ht He Es Hf.
    apply (transfer_one rd U (ag_ghost _ _ HA) (ag_plain _ _ HA) (ag_inj _ _ HA) (ag_veqb _ _ HA) (ag_cont _ _ HA) (ag_ori _ _ HA) (ag_edge _ _ HA) (ag_res _ _ HA) S tr tr' v HS Hv Hn Hsh HD H t s fuel p); assumption.
  Qed.

  Lemma solve_shows : forall (H : HashOrder) n L S (s : state) tr' p, (length L <= n)%nat -> held L s -> incl (L ++ S) U -> NoDup L -> (forall w, In w L -> ~ In w S) ->
    shows (ss_tr s) tr' -> delaunay (map rd S) tr' ->
    exists n0 s' tr2' done, (forall fuel, (n0 <= fuel)%nat -> solve_loop H fuel p [] None [] s = Ok s') /\
      shows (ss_tr s') tr2' /\ delaunay (map rd (done ++ S)) tr2' /\ Permutation L (done ++ ss_rem s') /\ (ss_cm s <> [] -> done <> []).
  Proof.
    intros H n. induction n as [|n IH]; intros L S s tr' p Hn Hh HU HL HLS Hsh HD.
    - exists 1%nat, s, tr', []. assert (L = []) by (destruct L; [reflexivity|cbn in Hn; lia]). subst L. destruct Hh as (Hf & Hp & _ & _).
      apply Permutation_nil in Hp. apply app_eq_nil in Hp. destruct Hp as [Hl Hr]. rewrite Hr. cbn [app].
      assert (Ecm : ss_cm s = []).
      { destruct (ss_cm s) as [|[t l] cm] eqn:Ec; [reflexivity|]. exfalso. destruct (proj2 Hf t l (or_introl eq_refl)) as [Hne _]. cbn in Hl. apply app_eq_nil in Hl. apply Hne, Hl. }
      split; [|split; [exact Hsh|split; [exact HD|split; [apply Permutation_refl|intros n; contradiction]]]].
      intros fuel Hfu. destruct fuel; [lia|]. cbn [solve_loop]. rewrite Ecm. rewrite ho_nil. reflexivity.
    - destruct (ho H (1%nat :: p) _ (map fst (ss_cm s))) as [|t ts] eqn:Hk.
      { exists 1%nat, s, tr', []. destruct Hh as (Hf & Hp & _ & _). cbn [app]. split; [|split; [exact Hsh|split; [exact HD|split]]].
        - intros fuel Hfu. destruct fuel; [lia|]. cbn [solve_loop]. rewrite Hk. reflexivity.
        - apply ho_nil_inv in Hk. destruct (ss_cm s); [exact Hp|discriminate].
        - apply ho_nil_inv in Hk. destruct (ss_cm s); [contradiction|discriminate]. }
      assert (Ht : In t (map fst (ss_cm s))) by (apply (ho_In H (1%nat :: p)); rewrite Hk; left; reflexivity).
      destruct (mget tdec t (ss_cm s)) as [vs|] eqn:Hg; [|apply mget_None in Hg; contradiction].
      pose proof (mget_In _ _ _ _ Hg) as Hin. destruct Hh as (Hf & Hp & Ha & Hkeys). destruct (proj2 Hf t vs Hin) as [Hne Hins].
      destruct (hd_error (rev vs)) as [v|] eqn:Hv.
      2:{ exfalso. apply Hne. destruct (rev vs) eqn:Er; [|discriminate]. rewrite <- (rev_involutive vs), Er. reflexivity. }
      assert (Hvl : In v vs) by (rewrite (hd_rev_last _ _ Hv); apply in_or_app; right; left; reflexivity).
      pose proof (Hins v Hvl) as He. assert (Htr : In t (tris (ss_tr s))) by (apply Hkeys, Ht).
      destruct (held_start t vs v s L) as (L' & HpL & Hh'); [repeat (split; [assumption|]); assumption|exact Hg|exact Hv|].
      assert (HvL : In v L) by (apply (Permutation_in _ (Permutation_sym HpL)); left; reflexivity).
      assert (HL' : NoDup (v :: L')) by (apply (Permutation_NoDup HpL), HL). inversion HL' as [|? ? HvL' HL2]; subst.
      assert (HvS : ~ In v S) by (apply HLS, HvL).
      assert (HLi : forall w, In w L' -> In w L) by (intros w Hw; apply (Permutation_in _ (Permutation_sym HpL)); right; exact Hw).
      destruct (step_one H S (ss_tr s) tr' v) with (t := t) (s := SS (rem_tri t (ss_tr s)) (mdel tdec t (ss_cm s)) (ss_rem s ++ removelast vs) (ss_inc s) (hadd tdec t (ss_del s)))
        (fuel := (3 + 2 * length (tris (ss_tr s)))%nat) (p := (2%nat :: p)) as (s1 & tr1' & Hs1 & Hsh1 & HD1 & _); auto.
      { intros w Hw. apply HU, in_or_app. auto. }
      { apply HU, in_or_app. auto. }
      { lia. }
      assert (Hh1 : held L' s1) by exact (cavity_loop_inv H [] None [] (fun _ _ => held L') (held_remove L') (held_include H L') _ _ _ _ _ _ Hs1 Hh').
      destruct (IH L' (v :: S) s1 tr1' (0%nat :: p)) as (n0 & s' & tr2' & done & Hrun & Hsh' & HD' & Hp' & _); auto.
      { apply Permutation_length in HpL. cbn in HpL. lia. }
      { intros w Hw. apply HU, in_or_app. apply in_app_or in Hw. destruct Hw as [Hw|[<-|Hw]]; auto. }
      { intros w Hw [<-|Hs]; [contradiction|]. apply (HLS w); auto. }
      exists (1 + n0 + (3 + 2 * length (tris (ss_tr s))))%nat, s', tr2', (done ++ [v]). split; [|split; [|split; [|split]]].
      + intros fuel Hfu. destruct fuel as [|fuel]; [lia|]. cbn [solve_loop]. rewrite Hk, Hg. cbn [unwrap bind]. rewrite Hv. cbn [unwrap bind].
        assert (Hc : cavity_loop H fuel (2%nat :: p) [] None [] v [te3 t; te2 t; te1 t]
          (SS (rem_tri t (ss_tr s)) (mdel tdec t (ss_cm s)) (ss_rem s ++ removelast vs) (ss_inc s) (hadd tdec t (ss_del s))) = Ok s1).
        { refine (rle_ok _ _ _ _ _ Hs1). apply cavity_loop_mono. lia. }
        rewrite Hc. cbn [bind]. apply Hrun. lia.
      + exact Hsh'.
      + rewrite <- app_assoc. exact HD'.
      + rewrite HpL, Hp'. rewrite <- app_assoc. apply Permutation_middle.
      + intros _ E. destruct done; discriminate.
  Qed.

  (** The corners of a mesh that shows a Delaunay mesh. *)
  Lemma shown_points : forall S tr tr', incl S U -> shows tr tr' -> delaunay (map rd S) tr' -> forall w, In w (trn_vertices tr) <-> In w S.
  Proof.
    intros S tr tr' HS Hsh HD w. rewrite trn_vertices_In. split.
    - intros [Hg (t & Ht & Hc)].
      destruct (tri_shape rd U (ag_ghost _ _ HA) (ag_plain _ _ HA) (ag_inj _ _ HA) S tr tr' HS Hsh HD t Ht) as [(a & b & c & -> & Ha & Hb & Hcs & _)|(a & b & -> & Ha & Hb & _)];
        inversion Hc; subst; try assumption. discriminate.
    - intros Hw. destruct (ag_plain _ _ HA w (HS _ Hw)) as [G _]. split; [exact G|].
      destruct (dl_used _ _ HD (rd w) (in_map rd _ _ Hw)) as (t' & Ht' & Hc). apply (sh_tris _ _ _ _ Hsh) in Ht'. destruct Ht' as (t & Ht & <-). exists t. split; [exact Ht|].
      pose proof (sh_ok _ _ _ _ Hsh t Ht) as (O1 & O2 & O3). assert (Ow : okv U w) by (left; apply HS, Hw).
      destruct t as [a b c]. unfold P_Y1.rt in Hc. cbn [tv1 tv2 tv3] in *.
      assert (Hinj := okv_inj rd U (ag_ghost _ _ HA) (ag_plain _ _ HA) (ag_inj _ _ HA)).
      inversion Hc as [x y z E|x y z E|x y z E]; subst; match goal with E : rd _ = rd w |- _ => apply Hinj in E; auto; subst | E : rd w = rd _ |- _ => apply Hinj in E; auto; subst end; constructor.
  Qed.

  Lemma include_shows : forall (H : HashOrder) p S tr tr' vs, incl (vs ++ S) U -> NoDup vs -> shows tr tr' -> delaunay (map rd S) tr' ->
    exists n0 tr2 tr2' inc del ins dropped,
      (forall fuel, (n0 <= fuel)%nat -> vertices_include H fuel p tr vs [] None [] = Ok (tr2, inc, del)) /\
      shows tr2 tr2' /\ delaunay (map rd (ins ++ S)) tr2' /\
      Permutation (filter (fun v => negb (hmem vdec v (trn_vertices tr))) vs) (ins ++ dropped) /\
      ((exists t w, In t (tris tr) /\ In w vs /\ ~ In w S /\ encircles t w = Inside) -> ins <> []).
  Proof.
    intros H p S tr tr' vs HU Hvs Hsh HD. set (new := filter (fun v => negb (hmem vdec v (trn_vertices tr))) vs).
    assert (HS : incl S U) by (intros w Hw; apply HU, in_or_app; auto).
    assert (Hmem : forall w, hmem vdec w (trn_vertices tr) = true <-> In w S) by (intros w; rewrite (hmem_In vdec); apply (shown_points S tr tr'); auto).
    destruct (distribute_all_ok H 0 (ho H (1%nat :: p) _ (tris tr)) (2%nat :: p) [] new) as (cm & rem & Hd & Hout).
    destruct (distribute_all_spec H _ _ _ _ _ _ _ _ _ Hd fair_nil) as (Hf & Hp & Hk). cbn [listed flat_map app] in Hp.
    destruct (solve_shows H (length new) new S (SS tr cm rem [] []) tr' (3%nat :: p)) as (n0 & s' & tr2' & done & Hrun & Hsh' & HD' & Hp' & Hne); auto.
    - split; [exact Hf|]. cbn [ss_cm ss_rem ss_tr]. split; [exact Hp|]. split; [exact (sh_sound _ _ _ _ Hsh)|].
      intros t Ht. destruct (Hk t Ht) as [[]|Ht']. apply ho_In in Ht'. exact Ht'.
    - intros w Hw. apply HU, in_or_app. apply in_app_or in Hw. destruct Hw as [Hw|Hw]; [|auto]. apply filter_In in Hw. tauto.
    - apply NoDup_filter, Hvs.
    - intros w Hw Hs. apply filter_In in Hw. destruct Hw as [_ Hw]. apply Hmem in Hs. rewrite Hs in Hw. discriminate.
    - exists n0, (ss_tr s'), tr2', (ss_inc s'), (ss_del s'), done, (ss_rem s'). split; [|repeat (split; [assumption|])].
      2:{ intros (t & w & Ht & Hw & Hws & He). apply Hne. cbn [ss_cm]. intros ->. cbn in Hp.
          apply (Hout w) with (t := t); [|apply ho_In; exact Ht|exact He]. apply (Permutation_in _ Hp). apply filter_In. split; [exact Hw|].
          destruct (hmem vdec w (trn_vertices tr)) eqn:Em; [|reflexivity]. exfalso. apply Hws, Hmem, Em. }
      intros fuel Hfu. unfold vertices_include. fold new.
      assert (Hd' : distribute_all H fuel (2%nat :: p) (ho H (1%nat :: p) _ (tris tr)) [] new None [] = Ok (cm, rem)).
      { refine (rle_ok _ _ _ _ _ Hd). apply distribute_all_mono. lia. }
      rewrite Hd'. cbn [bind]. unfold solve_conflicts. rewrite (Hrun fuel Hfu). reflexivity.
  Qed.

  Lemma initial_shows : forall a b, In a U -> In b U -> a <> b -> shows (from_initial_segment a b) (from_initial_segment (rd a) (rd b)).
  Proof.
    intros a b Ha Hb Hn. unfold from_initial_segment.
    assert (Ht : forall t, In t (tris (incl_tri (Tri b a gA) (incl_tri (Tri a b gA) (trn_new (A:=A))))) <-> t = Tri a b gA \/ t = Tri b a gA) by (intros t; rewrite !incl_tri_In; cbn; tauto).
    assert (Oa : okv U a) by (left; exact Ha). assert (Ob : okv U b) by (left; exact Hb). assert (Og : okv U gA) by (right; reflexivity).
    assert (Hag : a <> gA) by (intros ->; destruct (ag_plain _ _ HA _ Ha); discriminate). assert (Hbg : b <> gA) by (intros ->; destruct (ag_plain _ _ HA _ Hb); discriminate).
    split.
    - apply adj_sound_incl, adj_sound_incl. intros e t He. discriminate.
    - apply adj_complete_incl; [apply adj_complete_incl; [apply adj_complete_new|intros t' e []]|].
      intros t' e H S1 S2. apply incl_tri_In in H. destruct H as [-> | []]. inversion S1; subst; inversion S2; subst; congruence.
    - apply incl_tri_NoDup, incl_tri_NoDup. constructor.
    - intros t H. apply Ht in H. destruct H as [-> | ->]; repeat split; assumption.
    - intros t'. rewrite !incl_tri_In. cbn [tris trn_new In]. split.
      + intros [-> |[-> |[]]]; [exists (Tri b a gA)|exists (Tri a b gA)]; rewrite Ht; (split; [auto|]); unfold P_Y1.rt; cbn [tv1 tv2 tv3]; rewrite (ag_ghost _ _ HA); reflexivity.
      + intros (t & H & <-). apply Ht in H. destruct H as [-> | ->]; unfold P_Y1.rt; cbn [tv1 tv2 tv3]; rewrite (ag_ghost _ _ HA); auto.
  Qed.
End Batch.
