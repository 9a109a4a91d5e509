(** P_Worked.v — the refinement loop leaves no missed target untried. *)

From Coq Require Import List Permutation Arith Bool Lia.
From Verif Require Import Base Arith Geometry Elements Polyline Procedures Refine Triangulator Spec SpecM
  P_Base P_Trn P_Vertices P_Refine.
Import ListNotations.
Local Open Scope nat_scope.

Section Worked.
  Context {A : Arith} (H : HashOrder).
  Notation vertex := (vertex A).
  Notation edge := (edge A).
  Notation triangle := (triangle A).
  Notation triangulation := (triangulation A).
  Notation polyline := (polyline A).

  (** What a step reports, when the first triangle need not be in the mesh. *)
  Section Told.
    Variable tr0 : triangulation.
    Definition told (s : solve_state) : Prop :=
      adj_sound (ss_tr s) /\
      (forall t, In t (tris (ss_tr s)) -> In t (tris tr0) \/ In t (ss_inc s)) /\
      (forall t, In t (tris tr0) \/ In t (ss_inc s) -> In t (tris (ss_tr s)) \/ In t (ss_del s)).

    Lemma told_remove : forall cs, step_remove (A:=A) cs (fun _ _ => told).
    Proof.
      intros cs v e pending s outer (Hs & H1 & H2) Ho _ _. split; [apply adj_sound_rem, Hs|]. cbn.
      split; [intros t Ht; apply rem_tri_In in Ht; apply H1, Ht|].
      intros t Ht. rewrite rem_tri_In, hadd_In. destruct (tdec t outer) as [->|Hn]; [auto|]. destruct (H2 t Ht); auto.
    Qed.

    Lemma told_include : forall bd hs, step_include H bd hs (fun _ _ => told).
    Proof.
      intros bd hs fuel p v e pending s outer conf rest (Hs & H1 & H2) Ho _. split; [apply adj_sound_incl, Hs|]. cbn. split.
      - intros t Ht. rewrite hadd_In. apply incl_tri_In in Ht. destruct Ht as [-> | Ht]; [auto|]. destruct (H1 t Ht); auto.
      - intros t Ht. rewrite incl_tri_In. rewrite hadd_In in Ht. destruct (tdec t (new_triangle e v)) as [->|Hn]; [auto|].
        destruct (H2 t); [destruct Ht as [Ht|[Ht|Ht]]; [auto|contradiction|auto]|auto|auto].
    Qed.

    Lemma told_start : step_start (A:=A) (fun _ _ => told) told.
    Proof.
      intros t vs v s (Hs & H1 & H2) Hg _. split; [apply adj_sound_rem, Hs|]. cbn.
      split; [intros t' Ht; apply rem_tri_In in Ht; apply H1, Ht|].
      intros t' Ht. rewrite rem_tri_In, hadd_In. destruct (tdec t' t) as [->|Hn]; [auto|]. destruct (H2 t' Ht); auto.
    Qed.
  End Told.

  Lemma solve_told : forall fuel p (tr : triangulation) cm rem cs bd hs s, adj_sound tr ->
    solve_conflicts H fuel p tr cm rem cs bd hs = Ok s -> told tr s.
  Proof.
    intros fuel p tr cm rem cs bd hs s Hs Hv. unfold solve_conflicts in Hv.
    assert (H0 : told tr (SS tr cm rem [] [])) by (split; [exact Hs|split; [auto|intros t [Ht|[]]; auto]]).
    destruct (solve_loop_inv H cs bd hs (fun _ _ => told tr) (told tr) (told_remove tr cs) (told_include tr bd hs) (told_start tr)
      (fun _ _ HI => HI) _ _ _ _ Hv H0) as [Ht _]. exact Ht.
  Qed.

  (** The changes between two meshes, with a report. *)
  Definition changes (tr tr' : triangulation) (inc del : list triangle) : Prop :=
    adj_sound tr' /\
    (forall t, In t (tris tr') -> In t (tris tr) \/ In t inc \/ In t del) /\
    (forall t, In t (tris tr) \/ In t inc -> In t (tris tr') \/ In t del).

  Lemma try_accepts : forall fuel p (tr : triangulation) t cs bd hs tr' inc del, adj_sound tr ->
    try_circumcenter H fuel p tr t cs bd hs = Ok (tr', inl (inc, del)) -> changes tr tr' inc del.
  Proof.
    intros fuel p tr t cs bd hs tr' inc del Hs Ht. unfold try_circumcenter in Ht.
    apply bind_ok in Ht. destruct Ht as (cc & Hcc & Ht). apply bind_ok in Ht. destruct Ht as ([cm rest] & Hd & Ht).
    apply bind_ok in Ht. destruct Ht as (s & Hsv & Ht). apply bind_ok in Ht. destruct Ht as (opp & Hopp & Ht).
    cbn zeta in Ht. match type of Ht with match ?l with _ => _ end = _ => destruct l; [|discriminate] end. injection Ht as <- <- <-.
    destruct (solve_told _ _ _ _ _ _ _ _ _ Hs Hsv) as (T1 & T2 & T3). split; [exact T1|]. split; [|exact T3]. intros x Hx. destruct (T2 x Hx); auto.
  Qed.

  Lemma try_rejects : forall fuel p (tr : triangulation) t cs bd hs tr' enc, adj_sound tr ->
    try_circumcenter H fuel p tr t cs bd hs = Ok (tr', inr enc) -> adj_sound tr' /\ exists cc, tri_circumcenter t = Some cc.
  Proof.
    intros fuel p tr t cs bd hs tr' enc Hs Ht. unfold try_circumcenter in Ht.
    apply bind_ok in Ht. destruct Ht as (cc & Hcc & Ht). apply unwrap_ok in Hcc. apply bind_ok in Ht. destruct Ht as ([cm rest] & Hd & Ht).
    apply bind_ok in Ht. destruct Ht as (s & Hsv & Ht). apply bind_ok in Ht. destruct Ht as (opp & Hopp & Ht).
    cbn zeta in Ht. match type of Ht with match ?l with _ => _ end = _ => destruct l; [discriminate|] end. injection Ht as <- _.
    destruct (solve_told _ _ _ _ _ _ _ _ _ Hs Hsv) as (T1 & _). split; [apply fold_incl_sound, fold_rem_sound, T1|exists cc; exact Hcc].
  Qed.

  Lemma unencroach_loop_changes : forall fuel p cs bd hs pending (tr0 tr : triangulation) vs new inc del tr' vs' new' inc' del',
    unencroach_loop H fuel p cs bd hs pending tr vs new inc del = Ok (tr', vs', new', inc', del') -> adj_sound tr ->
    changes tr0 tr inc del -> changes tr0 tr' inc' del'.
  Proof.
    intros fuel. induction fuel as [|fuel IH]; intros p cs bd hs pending tr0 tr vs new inc del tr' vs' new' inc' del' Hu Hs Hc; [discriminate|].
    cbn [unencroach_loop] in Hu. destruct pending as [|e pending]; [injection Hu as <- <- <- <- <-; exact Hc|].
    apply bind_ok in Hu. destruct Hu as ([[h1 h2] [[tr1 new_ts] old_ts]] & Hsp & Hu).
    unfold split_segment in Hsp. apply bind_ok in Hsp. destruct Hsp as ([[tr1' n1] o1] & Hv & E). injection E as <- <- <- <- <-.
    destruct (include_reported H _ _ _ _ _ _ _ _ _ _ Hs Hv) as (R1 & R2 & R3 & R4).
    refine (IH _ _ _ _ _ _ _ _ _ _ _ _ _ _ _ _ Hu R1 _). destruct Hc as (_ & C2 & C3). split; [exact R1|]. split.
    - intros t Ht. rewrite !hset_In, filter_In, negb_true_iff, in_app_iff, in_app_iff, (hmem_false tdec).
      destruct (in_dec tdec t o1) as [Ho|Ho]; [auto|]. destruct (R2 t Ht) as [Hi|Hi]; [|auto]. destruct (C2 t Hi) as [Hi'|[Hi'|Hi']]; auto.
    - intros t Ht. rewrite !hset_In, in_app_iff. rewrite hset_In, filter_In, negb_true_iff, in_app_iff, (hmem_false tdec) in Ht.
      destruct (in_dec tdec t o1) as [Ho|Ho]; [auto|].
      assert (Ht' : In t (tris tr) \/ In t del \/ In t n1).
      { destruct Ht as [Ht|[[Ht|Ht] _]]; [|destruct (C3 t (or_intror Ht)); auto|auto]. destruct (C3 t (or_introl Ht)); auto. }
      destruct Ht' as [Ht'|[Ht'|Ht']]; [|auto|]; [destruct (R3 t (or_introl Ht')); auto|destruct (R3 t (or_intror Ht')); auto].
  Qed.

  Lemma unencroach_segment_changes : forall fuel p (tr : triangulation) e vs cs bd hs tr' vs' new inc del, adj_sound tr ->
    unencroach_segment H fuel p tr e vs cs bd hs = Ok (tr', vs', new, inc, del) -> changes tr tr' inc del.
  Proof.
    intros fuel p tr e vs cs bd hs tr' vs' new inc del Hs Hu. unfold unencroach_segment in Hu.
    apply (unencroach_loop_changes _ _ _ _ _ _ _ _ _ _ _ _ _ _ _ _ _ Hu Hs). split; [exact Hs|]. split; [auto|]. intros t [Ht|[]]; auto.
  Qed.

  (** ** The queues *)

  Lemma thin_spec : forall (prm : refine_params A) (t : triangle) b, is_irregular prm t = Ok b ->
    (b = true <-> exists q, quality t = Some q /\ (aeq q (quality_ratio prm) = true \/ fle (quality_ratio prm) q = true)).
  Proof.
    intros prm t b Hi. unfold is_irregular in Hi. apply bind_ok in Hi. destruct Hi as (q & Hq & E). apply unwrap_ok in Hq. injection E as <-.
    rewrite orb_true_iff. split; [intros Hb; exists q; auto|]. intros (q' & Hq' & Hb). rewrite Hq in Hq'. injection Hq' as <-. exact Hb.
  Qed.

  Lemma large_spec : forall (prm : refine_params A) (t : triangle) b, is_large prm t = Ok b ->
    (b = true <-> exists a m, tri_area t = Some a /\ max_area prm = Some m /\ (aeq a m = true \/ fle m a = true)).
  Proof.
    intros prm t b Hi. unfold is_large in Hi. apply bind_ok in Hi. destruct Hi as (a & Ha & E). apply unwrap_ok in Ha. injection E as <-.
    destruct (max_area prm) as [m|].
    - rewrite orb_true_iff. split; [intros Hb; exists a, m; auto|]. intros (a' & m' & Ha' & Hm' & Hb). rewrite Ha in Ha'. injection Ha' as <-.
      injection Hm' as <-. exact Hb.
    - split; [discriminate|]. intros (a' & m' & _ & Hm' & _). discriminate.
  Qed.

  Definition missing (prm : refine_params A) (t : triangle) : Prop := is_ghost t = false /\ misses prm t.

  Lemma enqueue_spec : forall (prm : refine_params A) q t q', enqueue prm q t = Ok q' ->
    (forall x, In x (fst q) \/ In x (snd q) -> In x (fst q') \/ In x (snd q')) /\
    (missing prm t -> In t (fst q') \/ In t (snd q')) /\
    (forall x, In x (fst q') \/ In x (snd q') -> (In x (fst q) \/ In x (snd q)) \/ (x = t /\ missing prm t)).
  Proof.
    intros prm [irr lrg] t q' He. unfold enqueue in He. destruct (is_ghost t) eqn:Hg.
    { injection He as <-. split; [auto|]. split; [intros [E _]; congruence|auto]. }
    apply bind_ok in He. destruct He as (i & Hi & He). pose proof (thin_spec _ _ _ Hi) as Si. destruct i.
    { injection He as <-. cbn [fst snd]. split; [intros x; rewrite hadd_In; tauto|]. split; [intros _; rewrite hadd_In; auto|].
      intros x. rewrite hadd_In. intros [[-> | Hx]|Hx]; auto. right. split; [reflexivity|]. split; [exact Hg|]. left. apply Si. reflexivity. }
    apply bind_ok in He. destruct He as (l & Hl & He). pose proof (large_spec _ _ _ Hl) as Sl. destruct l; injection He as <-; cbn [fst snd].
    - split; [intros x; rewrite hadd_In; tauto|]. split; [intros _; rewrite hadd_In; auto|].
      intros x. rewrite hadd_In. intros [Hx|[-> | Hx]]; auto. right. split; [reflexivity|]. split; [exact Hg|]. right. apply Sl. reflexivity.
    - split; [auto|]. split; [|auto]. intros [_ [Hb|Hb]]; [apply Si in Hb|apply Sl in Hb]; discriminate.
  Qed.

  Lemma foldM_enqueue : forall (prm : refine_params A) ts q q', foldM (enqueue prm) q ts = Ok q' ->
    (forall x, In x (fst q) \/ In x (snd q) -> In x (fst q') \/ In x (snd q')) /\
    (forall x, In x ts -> missing prm x -> In x (fst q') \/ In x (snd q')) /\
    (forall x, In x (fst q') \/ In x (snd q') -> (In x (fst q) \/ In x (snd q)) \/ (In x ts /\ missing prm x)).
  Proof.
    intros prm ts. induction ts as [|t ts IH]; intros q q' Hf; cbn [foldM] in Hf.
    - injection Hf as <-. split; [auto|]. split; [intros x []|auto].
    - apply bind_ok in Hf. destruct Hf as (q1 & He & Hf). destruct (enqueue_spec _ _ _ _ He) as (E1 & E2 & E3). destruct (IH _ _ Hf) as (I1 & I2 & I3).
      split; [auto|]. split; [intros x [<-|Hx] Hm; auto|]. intros x Hx. destruct (I3 x Hx) as [Hx'|[Hx' Hm]]; [|cbn; auto].
      destruct (E3 x Hx') as [Hx''|[-> Hm]]; cbn; auto.
  Qed.

  Lemma update_queues_spec : forall (prm : refine_params A) q inc del q', update_queues prm q inc del = Ok q' ->
    (forall x, In x (fst q) \/ In x (snd q) -> ~ In x del -> In x (fst q') \/ In x (snd q')) /\
    (forall x, In x inc -> missing prm x -> ~ In x del -> In x (fst q') \/ In x (snd q')) /\
    (forall x, In x (fst q') \/ In x (snd q') -> ((In x (fst q) \/ In x (snd q)) \/ (In x inc /\ missing prm x)) /\ ~ In x del).
  Proof.
    intros prm q inc del q' Hu. unfold update_queues in Hu. apply bind_ok in Hu. destruct Hu as ([irr lrg] & Hf & E). injection E as <-. cbn [fst snd].
    destruct (foldM_enqueue _ _ _ _ Hf) as (F1 & F2 & F3). cbn [fst snd] in *.
    split; [|split]; intros x; rewrite !fold_hdel_In.
    - intros Hx Hn. destruct (F1 x Hx); auto.
    - intros Hx Hm Hn. destruct (F2 x Hx Hm); auto.
    - intros Hx. split; [apply F3; tauto|tauto].
  Qed.

  (** ** One run *)

  Definition queued (q : list triangle * list triangle) (x : triangle) : Prop := In x (fst q) \/ In x (snd q).

  (** Every missed target of the mesh is queued, tried or gone; the queues hold
      missed targets that were seen. *)
  Definition covered_by (prm : refine_params A) (tr : triangulation) (q : list triangle * list triangle)
    (known : triangle -> Prop) : Prop :=
    forall t, In t (tris tr) -> missing prm t -> queued q t \/ known t.
  Definition sensible (prm : refine_params A) (seen : list triangle) (q : list triangle * list triangle) : Prop :=
    forall t, queued q t -> In t seen /\ missing prm t.

  Lemma step_covered : forall prm (tr tr' : triangulation) q q' inc del known, changes tr tr' inc del ->
    update_queues prm q inc del = Ok q' -> covered_by prm tr q known ->
    covered_by prm tr' q' (fun t => known t \/ In t del).
  Proof.
    intros prm tr tr' q q' inc del known (_ & C2 & _) Hu Hc t Ht Hm. destruct (update_queues_spec _ _ _ _ _ Hu) as (U1 & U2 & _).
    destruct (in_dec tdec t del) as [Hd|Hd]; [auto|]. destruct (C2 t Ht) as [Ht'|[Ht'|Ht']]; [|left; apply U2; assumption|auto].
    destruct (Hc t Ht' Hm) as [Hq|Hk]; [|auto]. left. apply U1; assumption.
  Qed.

  Lemma step_sensible : forall prm (tr tr' : triangulation) q q' inc del seen, changes tr tr' inc del ->
    update_queues prm q inc del = Ok q' -> sensible prm seen q -> sensible prm (seen ++ tris tr') q'.
  Proof.
    intros prm tr tr' q q' inc del seen (_ & _ & C3) Hu Hs t Ht. destruct (update_queues_spec _ _ _ _ _ Hu) as (_ & _ & U3).
    destruct (U3 t Ht) as [[Hq|[Hi Hm]] Hd]; rewrite in_app_iff; [destruct (Hs t Hq); auto|]. split; [|exact Hm]. right.
    destruct (C3 t (or_intror Hi)); [assumption|contradiction].
  Qed.

  Lemma split_encroached_run : forall prm bd hs fuel es p (tr : triangulation) vs cs sm q tr' vs' cs' sm' q' seen known,
    split_encroached_all H fuel p prm bd hs es (tr, vs, cs, sm, q) = Ok (tr', vs', cs', sm', q') -> adj_sound tr ->
    covered_by prm tr q known -> (forall t, queued q t -> In t (tris tr) \/ In t seen) -> (forall t, queued q t -> missing prm t) ->
    exists gone, split_all H bd hs es tr vs cs gone tr' cs' /\ adj_sound tr' /\
      covered_by prm tr' q' (fun t => known t \/ In t gone) /\
      (forall t, queued q' t -> In t (tris tr') \/ In t seen) /\ (forall t, queued q' t -> missing prm t).
  Proof.
    intros prm bd hs fuel es. induction es as [|e es IH]; intros p tr vs cs sm q tr' vs' cs' sm' q' seen known Hr Hs Hc Hq Hm; cbn [split_encroached_all] in Hr.
    - injection Hr as <- <- <- <- <-. exists []. split; [constructor|]. split; [exact Hs|]. split; [|auto]. intros t Ht Hmt. destruct (Hc t Ht Hmt); auto.
    - apply bind_ok in Hr. destruct Hr as ([[[[tr1 vs1] cs1] sm1] q1] & H1 & Hr). unfold split_encroached in H1. apply bind_ok in H1.
      destruct H1 as ([[[[tr1' vs1'] new] inc] del] & Hu & H1). apply bind_ok in H1. destruct H1 as (q1' & Hq1 & E). injection E as <- <- <- <- <-.
      pose proof (unencroach_segment_changes _ _ _ _ _ _ _ _ _ _ _ _ _ Hs Hu) as Hch.
      pose proof (step_covered _ _ _ _ _ _ _ _ Hch Hq1 Hc) as Hc1. destruct (update_queues_spec _ _ _ _ _ Hq1) as (_ & _ & U3).
      destruct (IH _ _ _ _ _ _ _ _ _ _ _ seen (fun t => known t \/ In t del) Hr (proj1 Hch) Hc1) as (gone & G1 & G2 & G3 & G4 & G5).
      { intros t Ht. destruct (U3 t Ht) as [[Hx|[Hx _]] Hd].
        - destruct (Hq t Hx) as [Hi|Hi]; [|auto]. destruct (proj2 (proj2 Hch) t (or_introl Hi)); [auto|contradiction].
        - destruct (proj2 (proj2 Hch) t (or_intror Hx)); [auto|contradiction]. }
      { intros t Ht. destruct (U3 t Ht) as [[Hx|[_ Hx]] _]; auto. }
      exists (del ++ gone). split; [|split; [exact G2|split; [|auto]]].
      + refine (split_one H bd hs _ _ _ _ _ _ _ _ _ _ _ _ _ _ _ _ Hu _ G1). intros x. rewrite fold_hadd_In, hdel_In. tauto.
      + intros t Ht Hmt. rewrite in_app_iff. destruct (G3 t Ht Hmt) as [|[[|]|]]; auto.
  Qed.

  Lemma loop_run : forall prm bd hs fuel p (tr : triangulation) cs sm irr lrg tr' cs' sm' seen known,
    split_loop_irregular H fuel p prm bd hs tr cs sm irr lrg = Ok (tr', cs', sm') -> adj_sound tr ->
    covered_by prm tr (irr, lrg) known -> sensible prm seen (irr, lrg) ->
    exists tried gone, refining H prm bd hs seen tr cs tried gone tr' cs' /\
      forall t, In t (tris tr') -> missing prm t -> known t \/ In t tried \/ In t gone.
  Proof.
    intros prm bd hs fuel. induction fuel as [|fuel IH]; intros p tr cs sm irr lrg tr' cs' sm' seen known Hr Hs Hc Hq; [discriminate|].
    cbn [split_loop_irregular] in Hr.
    assert (Hstep : forall t irr' lrg', queued (irr, lrg) t ->
      (forall x, queued (irr, lrg) x -> x <> t -> queued (irr', lrg') x) -> (forall x, queued (irr', lrg') x -> queued (irr, lrg) x) ->
      (let! (tr1, r) := try_circumcenter H fuel (3 :: p) tr t cs bd hs in
       match r with
       | inl (inc, del) =>
           let! (irr'', lrg'') := update_queues prm (irr', lrg') inc del in
           split_loop_irregular H fuel (0 :: p) prm bd hs tr1 cs sm irr'' lrg''
       | inr enc =>
           let! cc := unwrap (tri_circumcenter t) in
           let! (tr'', _, cstr', sm1, (irr'', lrg'')) :=
             split_encroached_all H fuel (4 :: p) prm bd hs (ho H (5 :: p) _ enc) (tr1, [cc], cs, sm, (irr', lrg')) in
           split_loop_irregular H fuel (0 :: p) prm bd hs tr'' cstr' sm1 irr'' lrg''
       end) = Ok (tr', cs', sm') ->
      exists tried gone, refining H prm bd hs seen tr cs tried gone tr' cs' /\
        forall x, In x (tris tr') -> missing prm x -> known x \/ In x tried \/ In x gone).
    { intros t irr' lrg' Ht Hkeep Hsub Hrun. destruct (Hq t Ht) as [Hseen [Hsolid Hmiss]].
      assert (Hc' : covered_by prm tr (irr', lrg') (fun x => known x \/ x = t)).
      { intros x Hx Hm. destruct (Hc x Hx Hm) as [Hx'|Hx']; [|auto]. destruct (tdec x t) as [->|Hne]; [auto|]. left. apply Hkeep; assumption. }
      assert (Hq' : sensible prm seen (irr', lrg')) by (intros x Hx; apply Hq, Hsub, Hx).
      apply bind_ok in Hrun. destruct Hrun as ([tr1 r] & Htry & Hrun). destruct r as [[inc del]|enc].
      - apply bind_ok in Hrun. destruct Hrun as ([irr'' lrg''] & Hu & Hrun). pose proof (try_accepts _ _ _ _ _ _ _ _ _ _ Hs Htry) as Hch.
        destruct (IH _ _ _ _ _ _ _ _ _ _ _ Hrun (proj1 Hch) (step_covered _ _ _ _ _ _ _ _ Hch Hu Hc') (step_sensible _ _ _ _ _ _ _ _ Hch Hu Hq'))
          as (tried & gone & R1 & R2).
        exists (t :: tried), (del ++ gone). split; [exact (refining_accept H prm bd hs _ _ _ _ _ _ _ _ _ _ _ _ _ Hseen Hsolid Hmiss Htry R1)|].
        intros x Hx Hm. rewrite in_app_iff. cbn [In]. destruct (R2 x Hx Hm) as [[[| ->]|]|[|]]; auto.
      - destruct (try_rejects _ _ _ _ _ _ _ _ _ Hs Htry) as [Hs1 (cc & Hcc)].
        apply bind_ok in Hrun. destruct Hrun as (cc' & Hcc' & Hrun). apply unwrap_ok in Hcc'. rewrite Hcc in Hcc'. injection Hcc' as <-.
        apply bind_ok in Hrun. destruct Hrun as ([[[[tr2 vs2] cs2] sm2] [irr'' lrg'']] & Hse & Hrun).
        set (back := filter (fun x => negb (hmem tdec x (tris tr))) (tris tr1)).
        assert (Hback : forall x, In x back <-> In x (tris tr1) /\ ~ In x (tris tr)).
        { intros x. unfold back. rewrite filter_In, negb_true_iff, (hmem_false tdec). reflexivity. }
        assert (Hc1 : covered_by prm tr1 (irr', lrg') (fun x => (known x \/ x = t) \/ In x back)).
        { intros x Hx Hm. destruct (in_dec tdec x (tris tr)) as [Hi|Hi]; [|right; right; apply Hback; auto]. destruct (Hc' x Hi Hm); auto. }
        destruct (split_encroached_run prm bd hs _ _ _ _ _ _ _ _ _ _ _ _ _ (seen ++ tris tr1) _ Hse Hs1 Hc1) as (lost & G1 & G2 & G3 & G4 & G5).
        { intros x Hx. right. apply in_or_app. left. apply Hq', Hx. }
        { intros x Hx. apply Hq', Hx. }
        destruct (IH _ _ _ _ _ _ _ _ _ (seen ++ tris tr1 ++ tris tr2) _ Hrun G2 G3) as (tried & gone & R1 & R2).
        { intros x Hx. split; [|apply G5, Hx]. rewrite !in_app_iff. specialize (G4 x Hx). rewrite in_app_iff in G4. tauto. }
        exists (t :: tried), (back ++ lost ++ gone).
        split; [exact (refining_reject H prm bd hs _ _ _ _ _ _ _ _ _ _ _ _ _ _ _ _ _ _ Hseen Hsolid Hmiss Hcc Htry Hback (ho_perm H (5 :: p) _ enc) G1 R1)|].
        intros x Hx Hm. rewrite !in_app_iff. cbn [In]. destruct (R2 x Hx Hm) as [[[[| ->]|]|]|[|]]; auto 6. }
    destruct (ho H (1 :: p) _ irr) as [|t l] eqn:E1.
    - destruct (ho H (2 :: p) _ lrg) as [|t l] eqn:E2.
      + injection Hr as <- <- <-. exists [], []. split; [constructor|]. intros x Hx Hm. destruct (Hc x Hx Hm) as [[Hi|Hi]|Hk]; [| |auto].
        * apply ho_nil_inv in E1. cbn [fst] in Hi. rewrite E1 in Hi. destruct Hi.
        * apply ho_nil_inv in E2. cbn [snd] in Hi. rewrite E2 in Hi. destruct Hi.
      + assert (Ht : In t lrg) by (apply (ho_In H (2 :: p)); rewrite E2; left; reflexivity).
        refine (Hstep t irr (hdel tdec t lrg) (or_intror Ht) _ _ Hr).
        * intros x [Hx|Hx] Hne; [left; exact Hx|right; apply hdel_In; auto].
        * intros x [Hx|Hx]; [left; exact Hx|right; cbn [snd] in Hx; apply hdel_In in Hx; apply Hx].
    - assert (Ht : In t irr) by (apply (ho_In H (1 :: p)); rewrite E1; left; reflexivity).
      refine (Hstep t (hdel tdec t irr) lrg (or_introl Ht) _ _ Hr).
      + intros x [Hx|Hx] Hne; [left; apply hdel_In; auto|right; exact Hx].
      + intros x [Hx|Hx]; [left; cbn [fst] in Hx; apply hdel_In in Hx; apply Hx|right; exact Hx].
  Qed.

  (** C72 *)
  Lemma split_irregular_tries : forall fuel p prm (tr : triangulation) cs bd hs tr' cs' sm,
    adj_sound tr -> split_irregular H fuel p prm tr cs bd hs = Ok (tr', cs', sm) ->
    exists tried gone, refining H prm bd hs (tris tr) tr cs tried gone tr' cs' /\
      forall t, In t (tris tr') -> is_ghost t = false -> misses prm t -> In t tried \/ In t gone.
  Proof.
    intros fuel p prm tr cs bd hs tr' cs' sm Hs Hr. unfold split_irregular in Hr.
    apply bind_ok in Hr. destruct Hr as (irr & Hi & Hr). apply bind_ok in Hr. destruct Hr as (lrg & Hl & Hr).
    set (solid := filter (fun t => negb (is_ghost t)) (tris tr)) in *.
    assert (Hsol : forall t, In t solid <-> In t (tris tr) /\ is_ghost t = false) by (intros t; unfold solid; rewrite filter_In, negb_true_iff; reflexivity).
    pose proof (filterM_in _ _ _ _ Hi) as Fi. pose proof (filterM_in _ _ _ _ Hl) as Fl.
    destruct (loop_run prm bd hs _ _ _ _ _ _ _ _ _ _ (tris tr) (fun _ => False) Hr Hs) as (tried & gone & R1 & R2).
    - intros t Ht [Hg Hm]. left. assert (Hin : In t solid) by (apply Hsol; auto). destruct Hm as [Hm|Hm].
      + left. cbn [fst]. apply Fi. split; [exact Hin|]. destruct (filterM_ok _ _ _ _ Hi) as (g & Hall & _). pose proof (Hall t Hin) as Hb.
        rewrite Hb. f_equal. apply (thin_spec _ _ _ Hb). exact Hm.
      + right. cbn [snd]. apply Fl. split; [exact Hin|]. destruct (filterM_ok _ _ _ _ Hl) as (g & Hall & _). pose proof (Hall t Hin) as Hb.
        rewrite Hb. f_equal. apply (large_spec _ _ _ Hb). exact Hm.
    - intros t [Ht|Ht]; cbn [fst snd] in Ht; [apply Fi in Ht|apply Fl in Ht]; destruct Ht as [Ht Hb]; apply Hsol in Ht; destruct Ht as [Ht Hg];
        (split; [exact Ht|]); (split; [exact Hg|]); [left; apply (thin_spec _ _ _ Hb)|right; apply (large_spec _ _ _ Hb)]; reflexivity.
    - exists tried, gone. split; [exact R1|]. intros t Ht Hg Hm. destruct (R2 t Ht (conj Hg Hm)) as [[]|]. assumption.
  Qed.
End Worked.
