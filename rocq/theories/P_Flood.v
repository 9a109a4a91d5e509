(** P_Flood.v — the flood fills of boundary.rs and hole.rs. *)

From Coq Require Import List Bool Arith Lia Permutation.
From Verif Require Import Base Arith Geometry Elements Polyline Procedures Spec P_Base P_Trn P_Poly P_Vertices.
Import ListNotations.

Section Flood.
  Context {A : Arith} (H : HashOrder).
  Notation vertex := (vertex A).
  Notation edge := (edge A).
  Notation triangle := (triangle A).
  Notation triangulation := (triangulation A).
  Notation polyline := (polyline A).

  (** ** Abstract sweeping *)
  Section Sweep.
    Variables (s : triangle -> Prop) (start frontier : list edge).
    Notation swept := (swept s start frontier).

    Record sweeping (cur : triangle -> Prop) (E : list edge) : Prop := {
      sw_sub : forall t, cur t -> s t;
      sw_gone : forall t, s t -> cur t \/ swept t;
      sw_todo : forall e, In e E -> In e start \/ exists x t, swept t /\ side_of x t /\ ~ In x frontier /\ e = flip x;
      sw_start : forall e t, In e start -> cur t -> side_of e t -> In e E;
      sw_next : forall x t t', s t -> ~ cur t -> side_of x t -> ~ In x frontier ->
                  cur t' -> side_of (flip x) t' -> In (flip x) E
    }.

    Lemma sweeping_init : forall E, (forall e, In e E <-> In e start) -> sweeping s E.
    Proof.
      intros E HE. constructor; auto.
      - intros e He. left. apply HE, He.
      - intros e t He _ _. apply HE, He.
      - intros x t t' Ht Hn. contradiction.
    Qed.

    Lemma sweeping_swept : forall cur e E t, sweeping cur (e :: E) -> cur t -> side_of e t -> swept t.
    Proof.
      intros cur e E t HI Hc Hs. destruct (sw_todo _ _ HI e (or_introl eq_refl)) as [He|(x & t0 & Hw & Hx & Hf & ->)].
      - apply (swept_start _ _ _ e); [exact He|apply (sw_sub _ _ HI), Hc|exact Hs].
      - apply (swept_next _ _ _ x t0); auto. apply (sw_sub _ _ HI), Hc.
    Qed.

    Lemma sweeping_hit : forall cur e E E' t, sweeping cur (e :: E) -> cur t -> side_of e t ->
      (forall t', cur t' -> side_of e t' -> t' = t) ->
      (forall x, In x E' <-> In x E \/ exists y, side_of y t /\ ~ In y frontier /\ x = flip y) ->
      sweeping (fun y => cur y /\ y <> t) E'.
    Proof.
      intros cur e E E' t HI Hc Hs Hu HE. pose proof (sweeping_swept _ _ _ _ HI Hc Hs) as Hw. constructor.
      - intros y [Hy _]. apply (sw_sub _ _ HI), Hy.
      - intros y Hy. destruct (tdec y t) as [->|Hn]; [auto|]. destruct (sw_gone _ _ HI y Hy); auto.
      - intros x Hx. apply HE in Hx. destruct Hx as [Hx|(y & Hy & Hf & ->)].
        + apply (sw_todo _ _ HI). right. exact Hx.
        + right. exists y, t. auto.
      - intros x y Hx [Hy Hn] Hsy. apply HE. left.
        destruct (sw_start _ _ HI x y Hx Hy Hsy) as [<-|Hi]; [|exact Hi]. exfalso. apply Hn, Hu; assumption.
      - intros x y y' Hy Hg Hxy Hf [Hy' Hn'] Hs'. apply HE. destruct (tdec y t) as [->|Hn].
        + right. exists x. auto.
        + left. assert (Hnc : ~ cur y) by auto.
          destruct (sw_next _ _ HI x y y' Hy Hnc Hxy Hf Hy' Hs') as [Heq|Hi]; [|exact Hi].
          exfalso. apply Hn', Hu; [exact Hy'|]. rewrite Heq. exact Hs'.
    Qed.

    Lemma sweeping_miss : forall cur e E, sweeping cur (e :: E) -> (forall t, cur t -> ~ side_of e t) -> sweeping cur E.
    Proof.
      intros cur e E HI Hm. constructor.
      - apply (sw_sub _ _ HI).
      - apply (sw_gone _ _ HI).
      - intros x Hx. apply (sw_todo _ _ HI). right. exact Hx.
      - intros x t Hx Hc Hs. destruct (sw_start _ _ HI x t Hx Hc Hs) as [<-|Hi]; [|exact Hi].
        exfalso. apply (Hm t Hc Hs).
      - intros x t t' Ht Hn Hx Hf Hc Hs. destruct (sw_next _ _ HI x t t' Ht Hn Hx Hf Hc Hs) as [E0|Hi]; [|exact Hi].
        exfalso. apply (Hm t' Hc). rewrite E0. exact Hs.
    Qed.

    Lemma sweeping_perm : forall cur E E', (forall x, In x E <-> In x E') -> sweeping cur E -> sweeping cur E'.
    Proof.
      intros cur E E' HE HI. constructor.
      - apply (sw_sub _ _ HI).
      - apply (sw_gone _ _ HI).
      - intros x Hx. apply (sw_todo _ _ HI), HE, Hx.
      - intros x t Hx Hc Hs. apply HE, (sw_start _ _ HI x t Hx Hc Hs).
      - intros x t t' Ht Hn Hx Hf Hc Hs. apply HE, (sw_next _ _ HI x t t' Ht Hn Hx Hf Hc Hs).
    Qed.

    Lemma sweeping_ext : forall (cur cur' : triangle -> Prop) E, (forall t, cur t <-> cur' t) -> sweeping cur E -> sweeping cur' E.
    Proof.
      intros cur cur' E He HI. constructor.
      - intros t Ht. apply (sw_sub _ _ HI), He, Ht.
      - intros t Ht. destruct (sw_gone _ _ HI t Ht) as [Hc|Hc]; [left; apply He, Hc|auto].
      - apply (sw_todo _ _ HI).
      - intros x t Hx Hc Hs. apply (sw_start _ _ HI x t Hx (proj2 (He t) Hc) Hs).
      - intros x t t' Ht Hn Hx Hf Hc Hs. apply (sw_next _ _ HI x t t' Ht); auto.
        + intros Hc'. apply Hn, He, Hc'.
        + apply He, Hc.
    Qed.

    Lemma sweeping_end : forall cur, sweeping cur [] -> (forall t, s t -> cur t \/ ~ cur t) ->
      forall t, cur t <-> s t /\ ~ swept t.
    Proof.
      intros cur HI Hdec. assert (Hw : forall t, swept t -> ~ cur t).
      { intros t Hw. induction Hw as [e t He Ht Hs|x t t' Hw IH Hx Hf Ht' Hs]; intros Hc.
        - destruct (sw_start _ _ HI e t He Hc Hs).
        - assert (Ht : s t) by (inversion Hw; assumption).
          destruct (sw_next _ _ HI x t t' Ht IH Hx Hf Hc Hs). }
      intros t. split.
      - intros Hc. split; [apply (sw_sub _ _ HI), Hc|]. intros Hs. apply (Hw t Hs Hc).
      - intros [Ht Hn]. destruct (sw_gone _ _ HI t Ht); [assumption|contradiction].
    Qed.
  End Sweep.

  (** ** The loops of the model *)
  Lemma push_opposites_In : forall frontier (t : triangle) pending x,
    In x (push_opposites frontier t pending) <->
    In x pending \/ exists y, side_of y t /\ ~ In y frontier /\ x = flip y.
  Proof.
    intros frontier t pending x. unfold push_opposites.
    assert (Hg : forall l st, In x (fold_left (fun st e => if hmem edec e frontier then st else opposite e :: st) l st) <->
      In x st \/ exists y, In y l /\ ~ In y frontier /\ x = flip y).
    { induction l as [|e l IH]; intros st; cbn [fold_left].
      - split; [auto|]. intros [Hx|(y & [] & _)]; exact Hx.
      - rewrite IH. destruct (hmem edec e frontier) eqn:Hm.
        + apply hmem_In in Hm. split; (intros [Hx|(y & Hy & Hn & E)]; [auto|right; exists y]).
          * split; [right; exact Hy|auto].
          * destruct Hy as [<-|Hy]; [contradiction|auto].
        + apply hmem_false in Hm. split.
          * intros [[<-|Hx]|(y & Hy & Hn & E)]; [right; exists e; rewrite opposite_flip; cbn; auto|auto|].
            right. exists y. cbn. auto.
          * intros [Hx|(y & [<-|Hy] & Hn & E)]; [cbn; auto| |right; exists y; auto].
            left. left. rewrite opposite_flip. symmetry. exact E. }
    rewrite Hg. split; (intros [Hx|(y & Hy & Hr)]; [auto|right; exists y]; split; [apply side_of_inner, Hy|exact Hr]).
  Qed.

  Lemma push_opposites_length : forall frontier (t : triangle) pending,
    length (push_opposites frontier t pending) <= 3 + length pending.
  Proof.
    intros frontier t pending. unfold push_opposites.
    assert (Hg : forall l st, length (fold_left (fun st e => if hmem edec e frontier then st else opposite e :: st) l st)
      <= length l + length st).
    { induction l as [|e l IH]; intros st; cbn [fold_left]; [cbn; lia|]. specialize (IH (if hmem edec e frontier then st else opposite e :: st)).
      destruct (hmem edec e frontier); cbn in *; lia. }
    apply Hg.
  Qed.

  Lemma rem_tri_length : forall (t : triangle) tr, In t (tris tr) -> length (tris (rem_tri t tr)) < length (tris tr).
  Proof.
    intros t tr Ht. unfold rem_tri, remove_triangle. rewrite (proj2 (hmem_In tdec t (tris tr)) Ht). cbn.
    apply hdel_length_lt, Ht.
  Qed.
  Lemma rem_tri_length_le : forall (t : triangle) tr, length (tris (rem_tri t tr)) <= length (tris tr).
  Proof.
    intros t tr. destruct (in_dec tdec t (tris tr)) as [Ht|Ht]; [pose proof (rem_tri_length t tr Ht); lia|].
    rewrite rem_tri_absent by exact Ht. lia.
  Qed.

  (** Flood filling always terminates. *)
  Lemma flood_fill_total : forall fuel frontier pending (tr : triangulation), adj_sound tr ->
    length pending + 4 * length (tris tr) < fuel ->
    exists tr', flood_fill fuel frontier pending tr = Ok tr'.
  Proof.
    induction fuel as [|fuel IH]; intros frontier pending tr Hs Hf; [lia|]. cbn [flood_fill].
    destruct pending as [|e pending]; [eauto|]. destruct (adj_get e tr) as [t|] eqn:Hg.
    - destruct (Hs _ _ Hg) as [Hin _]. apply IH; [apply adj_sound_rem, Hs|].
      pose proof (push_opposites_length frontier t pending). pose proof (rem_tri_length t tr Hin). cbn in Hf. lia.
    - apply IH; [exact Hs|]. cbn in Hf. lia.
  Qed.

  Lemma remove_behind_size : forall frontier es (tr : triangulation) pending tr' pending', adj_sound tr ->
    remove_behind frontier es tr pending = (tr', pending') ->
    adj_sound tr' /\
    length pending' + 4 * length (tris tr') <= length pending + 4 * length (tris tr).
  Proof.
    intros frontier es. induction es as [|e es IH]; intros tr pending tr' pending' Hs Hr; cbn [remove_behind] in Hr.
    - injection Hr as <- <-. split; [exact Hs|lia].
    - destruct (adj_get e tr) as [t|] eqn:Hg; [|apply (IH _ _ _ _ Hs Hr)].
      destruct (Hs _ _ Hg) as [Hin _]. destruct (IH _ _ _ _ (adj_sound_rem t tr Hs) Hr) as [Hs' Hl].
      split; [exact Hs'|]. pose proof (push_opposites_length frontier t pending). pose proof (rem_tri_length t tr Hin). lia.
  Qed.

  Definition in_trn (tr : triangulation) : triangle -> Prop := fun t => In t (tris tr).

  Lemma flood_fill_sweeps : forall s start frontier fuel pending (tr tr' : triangulation),
    flood_fill fuel frontier pending tr = Ok tr' -> adj_sound tr -> adj_complete tr ->
    sweeping s start frontier (in_trn tr) pending ->
    adj_sound tr' /\ adj_complete tr' /\ sweeping s start frontier (in_trn tr') [].
  Proof.
    intros s start frontier fuel. induction fuel as [|fuel IH]; intros pending tr tr' Hf Hs Hc HI; [discriminate|].
    cbn [flood_fill] in Hf. destruct pending as [|e pending]; [injection Hf as <-; auto|].
    destruct (adj_get e tr) as [t|] eqn:Hg.
    - destruct (Hs _ _ Hg) as [Hin Hsd]. refine (IH _ _ _ Hf (adj_sound_rem _ _ Hs) (adj_complete_rem _ _ Hc) _).
      apply (sweeping_ext s start frontier (fun y => in_trn tr y /\ y <> t)); [intros y; symmetry; apply rem_tri_In|].
      apply (sweeping_hit s start frontier (in_trn tr) e pending); auto.
      + intros t' Ht' Hst'. rewrite (Hc _ _ Ht' Hst') in Hg. congruence.
      + intros x. apply push_opposites_In.
    - refine (IH _ _ _ Hf Hs Hc _). apply (sweeping_miss s start frontier (in_trn tr) e pending HI).
      intros t Ht Hst. rewrite (Hc _ _ Ht Hst) in Hg. discriminate.
  Qed.

  Lemma remove_behind_sweeps : forall s start frontier es pending (tr tr' : triangulation) pending',
    remove_behind frontier es tr pending = (tr', pending') -> adj_sound tr -> adj_complete tr ->
    sweeping s start frontier (in_trn tr) (es ++ pending) ->
    adj_sound tr' /\ adj_complete tr' /\ sweeping s start frontier (in_trn tr') pending'.
  Proof.
    intros s start frontier es. induction es as [|e es IH]; intros pending tr tr' pending' Hf Hs Hc HI; cbn [remove_behind] in Hf.
    - injection Hf as <- <-. auto.
    - destruct (adj_get e tr) as [t|] eqn:Hg.
      + destruct (Hs _ _ Hg) as [Hin Hsd]. refine (IH _ _ _ _ Hf (adj_sound_rem _ _ Hs) (adj_complete_rem _ _ Hc) _).
        apply (sweeping_ext s start frontier (fun y => in_trn tr y /\ y <> t)); [intros y; symmetry; apply rem_tri_In|].
        apply (sweeping_hit s start frontier (in_trn tr) e (es ++ pending)); auto.
        * intros t' Ht' Hst'. rewrite (Hc _ _ Ht' Hst') in Hg. congruence.
        * intros x. rewrite !in_app_iff, push_opposites_In. intuition.
      + refine (IH _ _ _ _ Hf Hs Hc _). apply (sweeping_miss s start frontier (in_trn tr) e _ HI).
        intros t Ht Hst. rewrite (Hc _ _ Ht Hst) in Hg. discriminate.
  Qed.

  Lemma include_ghosts_In : forall es (tr : triangulation) t,
    In t (tris (include_ghosts es tr)) <-> In t (tris tr) \/ exists e, In e es /\ t = ghost_on e.
  Proof.
    intros es. unfold include_ghosts. induction es as [|e es IH]; intros tr t; cbn [fold_left].
    - split; [auto|]. intros [Ht|(e & [] & _)]; exact Ht.
    - rewrite IH, incl_tri_In. split.
      + intros [[->|Ht]|(e' & He & ->)]; [right; exists e; cbn; auto|auto|right; exists e'; cbn; auto].
      + intros [Ht|(e' & [<-|He] & ->)]; [auto|auto|right; exists e'; auto].
  Qed.

  (** C36 *)
  Lemma boundary_include_spec : forall fuel p (tr : triangulation) b cs tr',
    adj_sound tr -> boundary_include H fuel p tr b cs = Ok tr' ->
    exists es tr1 inc del,
      into_edges b = Ok es /\
      vertices_include H fuel (1 :: p) tr (pverts b) cs None [] = Ok (tr1, inc, del) /\
      adj_sound tr1 /\
      (forall e, In e es -> In (Tri (snd e) (fst e) ghost_vertex) (tris tr')) /\
      (adj_complete tr1 -> forall t, In t (tris tr') <->
         (In t (tris tr1) /\ ~ swept (fun t => In t (tris tr1)) (map flip es) (map flip es) t) \/
         exists e, In e es /\ t = Tri (snd e) (fst e) ghost_vertex).
  Proof.
    intros fuel p tr b cs tr' Hs Hb. unfold boundary_include in Hb.
    apply bind_ok in Hb. destruct Hb as (es & He & Hb). apply bind_ok in Hb. destruct Hb as ([[tr1 inc] del] & Hv & Hb).
    set (segs := hset edec (map opposite es)) in *.
    destruct (remove_behind segs (ho H (2 :: p) _ segs) tr1 []) as [tr2 pending] eqn:Hr.
    apply bind_ok in Hb. destruct Hb as (tr3 & Hf & Hb). injection Hb as <-.
    pose proof (proj1 (include_reported H _ _ _ _ _ _ _ _ _ _ Hs Hv)) as Hs1.
    assert (Hseg : forall e, In e segs <-> In e (map flip es)).
    { intros e. unfold segs. rewrite hset_In. rewrite (map_ext opposite flip opposite_flip). reflexivity. }
    exists es, tr1, inc, del. split; [exact He|]. split; [exact Hv|]. split; [exact Hs1|]. split.
    - intros e Hin. apply include_ghosts_In. right. exists (flip e). split.
      + apply ho_In, Hseg, in_map, Hin.
      + destruct e; reflexivity.
    - intros Hc1 t.
      destruct (remove_behind_sweeps (in_trn tr1) segs segs _ _ _ _ _ Hr Hs1 Hc1) as (Hs2 & Hc2 & HI2).
      { apply sweeping_init. intros e. rewrite app_nil_r. apply ho_In. }
      destruct (flood_fill_sweeps _ _ _ _ _ _ _ Hf Hs2 Hc2 HI2) as (Hs3 & Hc3 & HI3).
      assert (Hend : In t (tris tr3) <-> In t (tris tr1) /\ ~ swept (in_trn tr1) segs segs t).
      { apply (sweeping_end _ _ _ (in_trn tr3) HI3). intros t0 _. unfold in_trn.
        destruct (in_dec tdec t0 (tris tr3)); auto. }
      rewrite include_ghosts_In, Hend.
      assert (Hsw : swept (in_trn tr1) segs segs t <-> swept (fun t => In t (tris tr1)) (map flip es) (map flip es) t).
      { clear Hend. split; intros Hw; induction Hw as [e t He' Ht Hst|x t t' Hw IH Hx Hfr Ht' Hst].
        - apply (swept_start _ _ _ e); [apply Hseg| |]; assumption.
        - apply (swept_next _ _ _ x t); auto. intros Hn. apply Hfr, Hseg, Hn.
        - apply (swept_start _ _ _ e); [apply Hseg| |]; assumption.
        - apply (swept_next _ _ _ x t); auto. intros Hn. apply Hfr, Hseg, Hn. }
      rewrite Hsw.
      assert (Hgh : (exists e, In e (ho H (3 :: p) _ segs) /\ t = ghost_on e) <->
                    (exists e, In e es /\ t = Tri (snd e) (fst e) ghost_vertex)).
      { split.
        - intros (e & Hi & ->). apply ho_In, Hseg, in_map_iff in Hi. destruct Hi as (e0 & <- & Hi).
          exists e0. split; [exact Hi|]. destruct e0; reflexivity.
        - intros (e & Hi & ->). exists (flip e). split; [apply ho_In, Hseg, in_map, Hi|]. destruct e; reflexivity. }
      rewrite Hgh. reflexivity.
  Qed.

  Lemma boundary_include_total : forall fuel p (tr : triangulation) b cs es tr1 inc del,
    adj_sound tr -> into_edges b = Ok es ->
    vertices_include H fuel (1 :: p) tr (pverts b) cs None [] = Ok (tr1, inc, del) ->
    4 * length (tris tr1) < fuel ->
    exists tr', boundary_include H fuel p tr b cs = Ok tr'.
  Proof.
    intros fuel p tr b cs es tr1 inc del Hs He Hv Hf. unfold boundary_include. rewrite He. cbn [bind]. rewrite Hv. cbn [bind].
    pose proof (proj1 (include_reported H _ _ _ _ _ _ _ _ _ _ Hs Hv)) as Hs1.
    set (segs := hset edec (map opposite es)) in *.
    destruct (remove_behind segs (ho H (2 :: p) _ segs) tr1 []) as [tr2 pending] eqn:Hr.
    destruct (remove_behind_size _ _ _ _ _ _ Hs1 Hr) as [Hs2 Hl].
    destruct (flood_fill_total fuel segs pending tr2 Hs2) as [tr3 Hf3]; [cbn in *; lia|].
    rewrite Hf3. cbn. eauto.
  Qed.

  (** ** C37: holes *)
  Lemma ghost_on_sides : forall (e : edge) x, side_of x (ghost_on e) <->
    x = e \/ x = (snd e, ghost_vertex) \/ x = (ghost_vertex, fst e).
  Proof.
    intros [a b] x. unfold ghost_on, ev1, ev2; cbn. split.
    - intros Hs. inversion Hs; subst; auto.
    - intros [->|[->| ->]]; constructor.
  Qed.

  Lemma open_hole_sound : forall frontier es (tr : triangulation) pending tr' pending',
    open_hole frontier es tr pending = (tr', pending') -> adj_sound tr ->
    adj_sound tr' /\ length (tris tr') <= length es + length (tris tr) /\
    length pending' <= 3 * length es + length pending.
  Proof.
    intros frontier es. induction es as [|e es IH]; intros tr pending tr' pending' Ho Hs; cbn [open_hole] in Ho.
    - injection Ho as <- <-. split; [exact Hs|]. cbn. lia.
    - assert (Hincl : forall (t : triangle) tr, length (tris (incl_tri t tr)) <= S (length (tris tr))).
      { intros t tr0. unfold incl_tri, include_triangle, hadd. destruct (hmem tdec t (tris tr0)); cbn; [lia|].
        rewrite app_length. cbn. lia. }
      destruct (adj_get e tr) as [t|] eqn:Hg.
      + destruct (IH _ _ _ _ Ho) as (H1 & H2 & H3); [apply adj_sound_incl, adj_sound_rem, Hs|].
        split; [exact H1|]. pose proof (push_opposites_length frontier t pending).
        pose proof (Hincl (ghost_on e) (rem_tri t tr)). pose proof (rem_tri_length_le t tr). cbn [length]. lia.
      + destruct (IH _ _ _ _ Ho) as (H1 & H2 & H3); [apply adj_sound_incl, Hs|].
        split; [exact H1|]. pose proof (Hincl (ghost_on e) tr). cbn [length]. lia.
  Qed.

  Section Hole.
    Variables (tr2 : triangulation) (segs : list edge).
    Hypothesis Hs2 : adj_sound tr2.
    Hypothesis Hc2 : adj_complete tr2.
    Notation s := (in_trn tr2).
    Notation Sw := (swept (in_trn tr2) segs segs).
    Hypothesis Hreal : forall e, In e segs -> fst e <> ghost_vertex /\ snd e <> ghost_vertex.
    Hypothesis Hfree : forall e t, In e segs -> In t (tris tr2) ->
      ~ side_of (snd e, ghost_vertex) t /\ ~ side_of (ghost_vertex, fst e) t.
    Hypothesis Hsep : forall e t, In e segs -> Sw t -> ~ side_of (flip e) t.
    Hypothesis Hsolid : forall t, Sw t -> ~ corner_of ghost_vertex t.

    Definition Gam (t : triangle) : Prop := exists e, In e segs /\ t = ghost_on e.
    Definition plain (x : edge) : Prop := forall e, In e segs -> ~ side_of x (ghost_on e).
    Definition hcur (act : triangulation) (t : triangle) : Prop := In t (tris act) /\ ~ Gam t.

    Lemma ghost_on_inj : forall e e' : edge, ghost_on e = ghost_on e' -> e = e'.
    Proof. intros [a b] [c d] E. unfold ghost_on, ev1, ev2 in E. cbn in E. congruence. Qed.

    Lemma Gam_dec : forall t, Gam t \/ ~ Gam t.
    Proof.
      intros t. destruct (in_dec tdec t (map ghost_on segs)) as [Hi|Hn].
      - left. apply in_map_iff in Hi. destruct Hi as (e & <- & Hi). exists e. auto.
      - right. intros (e & Hi & ->). apply Hn, in_map, Hi.
    Qed.

    Lemma tr2_no_Gam : forall t, In t (tris tr2) -> ~ Gam t.
    Proof.
      intros t Ht (e & He & ->). apply (proj1 (Hfree e _ He Ht)). apply ghost_on_sides. auto.
    Qed.

    Lemma hcur_dec : forall act t, hcur act t \/ ~ hcur act t.
    Proof.
      intros act t. unfold hcur. destruct (in_dec tdec t (tris act)); [|tauto]. destruct (Gam_dec t); tauto.
    Qed.

    (** Pending edges come from inside. *)
    Definition inner (e : edge) : Prop := exists x t, Sw t /\ side_of x t /\ ~ In x segs /\ e = flip x.

    Lemma inner_plain : forall e, inner e -> plain e.
    Proof.
      intros e (x & t & Hw & Hx & Hn & ->) e' He' Hg. apply ghost_on_sides in Hg.
      destruct Hg as [E|[E|E]].
      - apply (Hsep e' t He' Hw). rewrite <- E, flip_flip. exact Hx.
      - apply (Hsolid t Hw). apply (f_equal flip) in E. rewrite flip_flip in E. cbn in E.
        rewrite E in Hx. apply side_corner1 in Hx. exact Hx.
      - apply (Hsolid t Hw). apply (f_equal flip) in E. rewrite flip_flip in E. cbn in E.
        rewrite E in Hx. apply side_corner2 in Hx. exact Hx.
    Qed.

    Lemma segs_other_ghost : forall e e', In e segs -> In e' segs -> e <> e' -> ~ side_of e (ghost_on e').
    Proof.
      intros e e' He He' Hn Hg. apply ghost_on_sides in Hg. destruct Hg as [->|[->| ->]].
      - contradiction.
      - destruct (Hreal _ He) as [_ H2]. apply H2. reflexivity.
      - destruct (Hreal _ He) as [H1 _]. apply H1. reflexivity.
    Qed.

    Definition lookup_ok (act : triangulation) (x : edge) : Prop :=
      forall t, adj_get x act = Some t <-> hcur act t /\ side_of x t.

    Lemma lookup_rem : forall act t x, lookup_ok act x -> hcur act t ->
      lookup_ok (rem_tri t act) x.
    Proof.
      intros act t x Hl [Ht HGt] t'. rewrite adj_rem by exact Ht. unfold hcur. rewrite rem_tri_In.
      destruct (in_dec edec x (inner_edges t)) as [Hi|Hi].
      - apply side_of_inner in Hi. split; [discriminate|]. intros [[[Hin Hne] HG] Hsd]. exfalso.
        assert (E : adj_get x act = Some t') by (apply Hl; split; [split|]; assumption).
        assert (E2 : adj_get x act = Some t) by (apply Hl; split; [split|]; assumption).
        apply Hne. congruence.
      - rewrite (Hl t'). unfold hcur. split.
        + intros [[Hin HG] Hsd]. split; [|exact Hsd]. split; [split; [exact Hin|]|exact HG].
          intros ->. apply Hi, side_of_inner, Hsd.
        + intros [[[Hin Hne] HG] Hsd]. auto.
    Qed.

    Lemma lookup_incl : forall act e x, lookup_ok act x -> In e segs -> ~ In (ghost_on e) (tris act) ->
      ~ side_of x (ghost_on e) -> lookup_ok (incl_tri (ghost_on e) act) x.
    Proof.
      intros act e x Hl He Hn Hx t'. rewrite adj_incl by exact Hn.
      destruct (in_dec edec x (inner_edges (ghost_on e))) as [Hm|_].
      - apply side_of_inner in Hm. contradiction.
      - rewrite (Hl t'). unfold hcur. rewrite incl_tri_In. split.
        + intros [[Hin HG] Hsd]. auto.
        + intros [[[->|Hin] HG] Hsd]; [exfalso; apply HG; exists e; auto|auto].
    Qed.

    Lemma hcur_incl : forall act e t, In e segs -> (hcur (incl_tri (ghost_on e) act) t <-> hcur act t).
    Proof.
      intros act e t He. unfold hcur. rewrite incl_tri_In. split.
      - intros [[->|Hin] HG]; [exfalso; apply HG; exists e; auto|auto].
      - intros [Hin HG]. auto.
    Qed.

    Lemma hcur_rem : forall act t t', hcur (rem_tri t act) t' <-> hcur act t' /\ t' <> t.
    Proof. intros act t t'. unfold hcur. rewrite rem_tri_In. tauto. Qed.

    Record opening (act : triangulation) (todo pending : list edge) : Prop := {
      op_plain : forall x, plain x -> lookup_ok act x;
      op_todo : forall e, In e todo -> lookup_ok act e;
      op_done : forall e, In e segs -> (In (ghost_on e) (tris act) <-> ~ In e todo);
      op_pending : forall e, In e pending -> inner e;
      op_sweep : sweeping s segs segs (hcur act) (todo ++ pending)
    }.

    Lemma open_hole_inv : forall todo act pending act' pending',
      open_hole segs todo act pending = (act', pending') -> NoDup todo -> (forall e, In e todo -> In e segs) ->
      opening act todo pending -> opening act' [] pending'.
    Proof.
      induction todo as [|e todo IH]; intros act pending act' pending' Ho Hnd Hsub HI; cbn [open_hole] in Ho.
      - injection Ho as <- <-. exact HI.
      - inversion Hnd as [|? ? Hne Hnd']; subst.
        assert (He : In e segs) by (apply Hsub; left; reflexivity).
        assert (Hng : ~ In (ghost_on e) (tris act)).
        { intros Hin. apply (proj1 (op_done _ _ _ HI e He) Hin). left. reflexivity. }
        pose proof (op_todo _ _ _ HI e (or_introl eq_refl)) as Hle.
        assert (Hoth : forall x, In x todo -> ~ side_of x (ghost_on e)).
        { intros x Hx. apply segs_other_ghost; [apply Hsub; right; exact Hx|exact He|]. intros ->. contradiction. }
        assert (Hdone : forall act0, (forall e', In e' segs -> (In (ghost_on e') (tris act0) <-> In (ghost_on e') (tris act))) ->
          forall e', In e' segs -> (In (ghost_on e') (tris (incl_tri (ghost_on e) act0)) <-> ~ In e' todo)).
        { intros act0 Hact e' He'. rewrite incl_tri_In, (Hact e' He'), (op_done _ _ _ HI e' He'). split.
          - intros [E|Hn] Hin; [apply ghost_on_inj in E; subst; contradiction|]. apply Hn. right. exact Hin.
          - intros Hn. destruct (edec e' e) as [->|Hne']; [left; reflexivity|]. right. intros [<-|Hin]; contradiction. }
        destruct (adj_get e act) as [t|] eqn:Hg.
        + destruct (proj1 (Hle t) Hg) as [Hcur Hsd].
          assert (HngR : ~ In (ghost_on e) (tris (rem_tri t act))) by (rewrite rem_tri_In; tauto).
          assert (Hsw : sweeping s segs segs (fun y => hcur act y /\ y <> t) (todo ++ push_opposites segs t pending)).
          { apply (sweeping_hit s segs segs (hcur act) e (todo ++ pending)); auto.
            - exact (op_sweep _ _ _ HI).
            - intros t' Hc' Hs'. pose proof (proj2 (Hle t') (conj Hc' Hs')). congruence.
            - intros x. rewrite !in_app_iff, push_opposites_In. tauto. }
          refine (IH _ _ _ _ Ho Hnd' (fun x Hx => Hsub x (or_intror Hx)) _). constructor.
          * intros x Hx. apply lookup_incl; [apply lookup_rem; [apply (op_plain _ _ _ HI), Hx|exact Hcur]|exact He|exact HngR|apply Hx, He].
          * intros x Hx. apply lookup_incl; [apply lookup_rem; [apply (op_todo _ _ _ HI); right; exact Hx|exact Hcur]|exact He|exact HngR|apply Hoth, Hx].
          * apply Hdone. intros e' He'. rewrite rem_tri_In. split; [tauto|]. intros Hin. split; [exact Hin|].
            intros E. apply (proj2 Hcur). exists e'. auto.
          * intros x Hx. apply push_opposites_In in Hx. destruct Hx as [Hx|(y & Hy & Hn & ->)]; [apply (op_pending _ _ _ HI), Hx|].
            exists y, t. split; [|auto]. apply (sweeping_swept _ _ _ _ _ _ _ (op_sweep _ _ _ HI)); assumption.
          * refine (sweeping_ext _ _ _ _ _ _ _ Hsw). intros y. rewrite hcur_incl by exact He. rewrite hcur_rem. reflexivity.
        + refine (IH _ _ _ _ Ho Hnd' (fun x Hx => Hsub x (or_intror Hx)) _). constructor.
          * intros x Hx. apply lookup_incl; [apply (op_plain _ _ _ HI), Hx|exact He|exact Hng|apply Hx, He].
          * intros x Hx. apply lookup_incl; [apply (op_todo _ _ _ HI); right; exact Hx|exact He|exact Hng|apply Hoth, Hx].
          * apply Hdone. reflexivity.
          * apply (op_pending _ _ _ HI).
          * apply (sweeping_ext _ _ _ (hcur act)); [intros y; symmetry; apply hcur_incl, He|].
            apply (sweeping_miss _ _ _ _ e); [exact (op_sweep _ _ _ HI)|].
            intros t Hc Hsd. pose proof (proj2 (Hle t) (conj Hc Hsd)). congruence.
    Qed.

    Record clearing (act : triangulation) (pending : list edge) : Prop := {
      cl_plain : forall x, plain x -> lookup_ok act x;
      cl_done : forall e, In e segs -> In (ghost_on e) (tris act);
      cl_pending : forall e, In e pending -> inner e;
      cl_nosegs : forall t e, hcur act t -> In e segs -> ~ side_of e t;
      cl_sweep : sweeping s segs segs (hcur act) pending
    }.

    Lemma opening_clearing : forall act pending, opening act [] pending -> clearing act pending.
    Proof.
      intros act pending HI. constructor.
      - apply (op_plain _ _ _ HI).
      - intros e He. apply (op_done _ _ _ HI e He). intros [].
      - apply (op_pending _ _ _ HI).
      - intros t e Hc He Hsd. pose proof (sw_start _ _ _ _ _ (op_sweep _ _ _ HI) e t He Hc Hsd) as Hin. cbn in Hin.
        apply (inner_plain e (op_pending _ _ _ HI e Hin) e He). apply ghost_on_sides. auto.
      - exact (op_sweep _ _ _ HI).
    Qed.

    Lemma flood_fill_clears : forall fuel pending act act',
      flood_fill fuel [] pending act = Ok act' -> clearing act pending -> clearing act' [].
    Proof.
      induction fuel as [|fuel IH]; intros pending act act' Hf HI; [discriminate|].
      cbn [flood_fill] in Hf. destruct pending as [|e pending]; [injection Hf as <-; exact HI|].
      pose proof (cl_pending _ _ HI e (or_introl eq_refl)) as Hin.
      pose proof (cl_plain _ _ HI e (inner_plain e Hin)) as Hle.
      destruct (adj_get e act) as [t|] eqn:Hg.
      - destruct (proj1 (Hle t) Hg) as [Hcur Hsd]. refine (IH _ _ _ Hf _).
        assert (Hpush : forall x, In x (push_opposites [] t pending) <->
          In x pending \/ exists y, side_of y t /\ ~ In y segs /\ x = flip y).
        { intros x. rewrite push_opposites_In. split; (intros [Hx|(y & Hy & Hn & E)]; [auto|right; exists y; split; [exact Hy|split; [|exact E]]]).
          - intros Hys. apply (cl_nosegs _ _ HI t y Hcur Hys Hy).
          - intros []. }
        constructor.
        + intros x Hx. apply lookup_rem; [apply (cl_plain _ _ HI), Hx|exact Hcur].
        + intros e' He'. rewrite rem_tri_In. split; [apply (cl_done _ _ HI), He'|]. intros E. apply (proj2 Hcur). exists e'. auto.
        + intros x Hx. apply Hpush in Hx. destruct Hx as [Hx|(y & Hy & Hn & ->)]; [apply (cl_pending _ _ HI); right; exact Hx|].
          exists y, t. split; [|auto]. apply (sweeping_swept _ _ _ _ _ _ _ (cl_sweep _ _ HI)); assumption.
        + intros t' e' Hc. apply hcur_rem in Hc. apply (cl_nosegs _ _ HI), Hc.
        + apply (sweeping_ext _ _ _ (fun y => hcur act y /\ y <> t)); [intros y; symmetry; apply hcur_rem|].
          apply (sweeping_hit s segs segs (hcur act) e pending); auto.
          * exact (cl_sweep _ _ HI).
          * intros t' Hc' Hs'. pose proof (proj2 (Hle t') (conj Hc' Hs')). congruence.
      - refine (IH _ _ _ Hf _). constructor.
        + apply (cl_plain _ _ HI).
        + apply (cl_done _ _ HI).
        + intros x Hx. apply (cl_pending _ _ HI). right. exact Hx.
        + apply (cl_nosegs _ _ HI).
        + apply (sweeping_miss _ _ _ _ e); [exact (cl_sweep _ _ HI)|].
          intros t Hc Hsd. pose proof (proj2 (Hle t) (conj Hc Hsd)). congruence.
    Qed.

    Lemma hole_opened : forall fuel todo tr3 pending tr',
      Permutation segs todo -> NoDup segs ->
      open_hole segs todo tr2 [] = (tr3, pending) -> flood_fill fuel [] pending tr3 = Ok tr' ->
      forall t, In t (tris tr') <-> (In t (tris tr2) /\ ~ Sw t) \/ Gam t.
    Proof.
      intros fuel todo tr3 pending tr' Hp Hnd Ho Hf t.
      assert (Hl2 : forall x, lookup_ok tr2 x).
      { intros x t0. split.
        - intros Hg. destruct (Hs2 _ _ Hg) as [Hin Hsd]. split; [|exact Hsd]. split; [exact Hin|apply tr2_no_Gam, Hin].
        - intros [[Hin _] Hsd]. apply Hc2; assumption. }
      assert (HI : opening tr2 todo []).
      { constructor.
        - auto.
        - auto.
        - intros e He. split.
          + intros Hin. exfalso. apply (tr2_no_Gam _ Hin). exists e. auto.
          + intros Hn. exfalso. apply Hn. apply (Permutation_in _ Hp), He.
        - intros e [].
        - apply (sweeping_ext _ _ _ (in_trn tr2)).
          + intros t0. unfold in_trn, hcur. split; [|tauto]. intros Hin. split; [exact Hin|apply tr2_no_Gam, Hin].
          + apply sweeping_init. intros e. rewrite app_nil_r. split; apply Permutation_in; [symmetry|]; exact Hp. }
      pose proof (open_hole_inv _ _ _ _ _ Ho (Permutation_NoDup Hp Hnd)
        (fun e He => Permutation_in _ (Permutation_sym Hp) He) HI) as HI'.
      pose proof (flood_fill_clears _ _ _ _ Hf (opening_clearing _ _ HI')) as HC.
      pose proof (sweeping_end _ _ _ _ (cl_sweep _ _ HC) (fun t _ => hcur_dec tr' t) t) as Hend.
      unfold in_trn in Hend at 1. rewrite <- Hend. unfold hcur. split.
      - intros Hin. destruct (Gam_dec t); auto.
      - intros [[Hin _]|(e & He & ->)]; [exact Hin|]. apply (cl_done _ _ HC), He.
    Qed.
  End Hole.

  Lemma segment_include_sound : forall fuel p (tr : triangulation) e cs tr',
    segment_include H fuel p tr e cs = Ok tr' -> adj_sound tr -> adj_sound tr'.
  Proof.
    intros fuel p tr e cs tr' Hs Ha. unfold segment_include in Hs.
    apply bind_ok in Hs. destruct Hs as (conf & _ & Hs). apply bind_ok in Hs. destruct Hs as (oh & _ & Hs).
    apply bind_ok in Hs. destruct Hs as (hull & _ & Hs). apply bind_ok in Hs. destruct Hs as (st1 & _ & Hs).
    apply bind_ok in Hs. destruct Hs as ([[st2 i] d] & _ & Hs). injection Hs as <-.
    apply fold_incl_sound, fold_rem_sound, Ha.
  Qed.

  Lemma insert_missing_sound : forall fuel p segs cs (tr tr' : triangulation),
    insert_missing H fuel p segs cs tr = Ok tr' -> adj_sound tr ->
    adj_sound tr' /\ forall e, In e segs -> exists t, In t (tris tr') /\ side_of e t.
  Proof.
    induction fuel as [|fuel IH]; intros p segs cs tr tr' Hm Ha; cbn [insert_missing] in Hm; [discriminate|].
    destruct (find (fun e => negb (hmem edec e (trn_edges tr))) (ho H (1 :: p) _ segs)) as [e|] eqn:Hfind.
    - apply bind_ok in Hm. destruct Hm as (tr1 & Hs & Hm). apply (IH _ _ _ _ _ Hm).
      apply (segment_include_sound _ _ _ _ _ _ Hs Ha).
    - injection Hm as <-. split; [exact Ha|]. intros e He.
      pose proof (find_none _ _ Hfind e (proj2 (ho_In H _ _ _ _) He)) as Hn. apply negb_false_iff, hmem_In in Hn.
      apply trn_edges_In in Hn. exact Hn.
  Qed.

  (** C37 *)
  Lemma hole_include_spec : forall fuel p (tr : triangulation) h cs tr',
    adj_sound tr -> hole_include H fuel p tr h cs = Ok tr' ->
    exists es tr1 inc del tr2,
      into_edges h = Ok es /\
      vertices_include H fuel (1 :: p) tr (pverts h) cs None [] = Ok (tr1, inc, del) /\
      insert_missing H fuel (2 :: p) (hset edec es) (hset edec (cs ++ hset edec es)) tr1 = Ok tr2 /\
      adj_sound tr2 /\
      (forall e, In e es -> exists t, In t (tris tr2) /\ side_of e t) /\
      let Sw := swept (fun t => In t (tris tr2)) es es in
      (adj_complete tr2 ->
       (forall e, In e es -> fst e <> ghost_vertex /\ snd e <> ghost_vertex) ->
       (forall e t, In e es -> In t (tris tr2) ->
          ~ side_of (snd e, ghost_vertex) t /\ ~ side_of (ghost_vertex, fst e) t) ->
       (forall e t, In e es -> Sw t -> ~ side_of (flip e) t) ->
       (forall t, Sw t -> ~ corner_of ghost_vertex t) ->
       forall t, In t (tris tr') <->
         (In t (tris tr2) /\ ~ Sw t) \/
         exists e, In e es /\ t = Tri (fst e) (snd e) ghost_vertex).
  Proof.
    intros fuel p tr h cs tr' Hs Hb. unfold hole_include in Hb.
    apply bind_ok in Hb. destruct Hb as (es & He & Hb). apply bind_ok in Hb. destruct Hb as ([[tr1 inc] del] & Hv & Hb).
    set (segs := hset edec es) in *. apply bind_ok in Hb. destruct Hb as (tr2 & Hm & Hb).
    destruct (open_hole segs (ho H (3 :: p) _ segs) tr2 []) as [tr3 pending] eqn:Ho.
    pose proof (proj1 (include_reported H _ _ _ _ _ _ _ _ _ _ Hs Hv)) as Hs1.
    destruct (insert_missing_sound _ _ _ _ _ _ Hm Hs1) as [Hs2 Hex].
    assert (Hseg : forall e, In e segs <-> In e es) by (intros e; apply hset_In).
    exists es, tr1, inc, del, tr2. split; [exact He|]. split; [exact Hv|]. split; [exact Hm|]. split; [exact Hs2|]. split.
    { intros e Hin. apply Hex, Hseg, Hin. }
    intros Sw Hc2 Hreal Hfree Hsep Hsolid t.
    assert (Hsw : forall t, swept (in_trn tr2) segs segs t <-> Sw t).
    { intros t0. unfold Sw. split; intros Hw; induction Hw as [e t0 He' Ht Hst|x t0 t' Hw IH Hx Hfr Ht' Hst].
      - apply (swept_start _ _ _ e); [apply Hseg| |]; assumption.
      - apply (swept_next _ _ _ x t0); auto. intros Hn. apply Hfr, Hseg, Hn.
      - apply (swept_start _ _ _ e); [apply Hseg| |]; assumption.
      - apply (swept_next _ _ _ x t0); auto. intros Hn. apply Hfr, Hseg, Hn. }
    rewrite (hole_opened tr2 segs Hs2 Hc2) with (7 := Ho) (8 := Hb).
    - rewrite Hsw. unfold Gam.
      assert (Hg : (exists e, In e segs /\ t = ghost_on e) <-> (exists e, In e es /\ t = Tri (fst e) (snd e) ghost_vertex)).
      { split; intros (e & Hi & ->); exists e; (split; [apply Hseg, Hi|]); destruct e; reflexivity. }
      rewrite Hg. reflexivity.
    - intros e Hin. apply Hreal, Hseg, Hin.
    - intros e t0 Hin. apply Hfree, Hseg, Hin.
    - intros e t0 Hin Hw. apply Hsep; [apply Hseg, Hin|apply Hsw, Hw].
    - intros t0 Hw. apply Hsolid, Hsw, Hw.
    - apply ho_perm.
    - apply hset_NoDup.
  Qed.

  Lemma hole_include_total : forall fuel p (tr : triangulation) h cs es tr1 inc del tr2,
    adj_sound tr -> into_edges h = Ok es ->
    vertices_include H fuel (1 :: p) tr (pverts h) cs None [] = Ok (tr1, inc, del) ->
    insert_missing H fuel (2 :: p) (hset edec es) (hset edec (cs ++ hset edec es)) tr1 = Ok tr2 ->
    7 * length es + 4 * length (tris tr2) < fuel ->
    exists tr', hole_include H fuel p tr h cs = Ok tr'.
  Proof.
    intros fuel p tr h cs es tr1 inc del tr2 Hs He Hv Hm Hf. unfold hole_include. rewrite He. cbn [bind]. rewrite Hv. cbn [bind].
    cbv zeta. rewrite Hm. cbn [bind].
    pose proof (proj1 (include_reported H _ _ _ _ _ _ _ _ _ _ Hs Hv)) as Hs1.
    destruct (insert_missing_sound _ _ _ _ _ _ Hm Hs1) as [Hs2 _].
    destruct (open_hole (hset edec es) (ho H (3 :: p) _ (hset edec es)) tr2 []) as [tr3 pending] eqn:Ho.
    destruct (open_hole_sound _ _ _ _ _ _ Ho Hs2) as (Hs3 & Hl & Hl').
    rewrite ho_length in Hl, Hl'.
    assert (Hle : length (hset edec es) <= length es).
    { apply NoDup_incl_length; [apply hset_NoDup|]. intros x Hx. apply hset_In in Hx. exact Hx. }
    cbn [length] in Hl'. apply flood_fill_total; [exact Hs3|lia].
  Qed.
End Flood.
