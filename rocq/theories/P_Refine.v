(** P_Refine.v — lemmas on the refinement procedures (C47, C48, C49). *)

From Coq Require Import List Bool Arith Lia Permutation.
From Verif Require Import Base Arith Geometry Elements Polyline Procedures Refine Spec P_Base P_Trn P_Poly P_Fuel P_Vertices.
Import ListNotations.

Section RefineP.
  Context {A : Arith} (H : HashOrder).
  Notation vertex := (vertex A).
  Notation edge := (edge A).
  Notation triangle := (triangle A).
  Notation triangulation := (triangulation A).
  Notation polyline := (polyline A).

  (** ** C47 *)
  Lemma tiling_refine : forall (e : edge) l, tiling e l -> forall l1 (p : edge) l2, l = l1 ++ p :: l2 ->
    tiling e (l1 ++ (fst p, edge_midpoint p) :: (edge_midpoint p, snd p) :: l2).
  Proof.
    intros e l Ht. induction Ht as [e|a b m k1 k2 -> T1 IH1 T2 IH2]; intros l1 p l2 E.
    - destruct l1 as [|x l1]; [|destruct l1; discriminate]. injection E as -> <-. cbn.
      destruct p as [a b]. apply (tile_halves a b _ [(a, edge_midpoint (a, b))] [(edge_midpoint (a, b), b)] eq_refl); constructor.
    - assert (Hc : (exists l2', k1 = l1 ++ p :: l2' /\ l2 = l2' ++ k2) \/
                   (exists l1', k2 = l1' ++ p :: l2 /\ l1 = k1 ++ l1')).
      { clear -E. revert l1 E. induction k1 as [|x k1 IH]; intros l1 E.
        - right. exists l1. auto.
        - destruct l1 as [|y l1]; cbn in E; injection E as E1 E2.
          + left. exists k1. subst. auto.
          + subst y. destruct (IH _ E2) as [(l2' & -> & ->)|(l1' & -> & ->)]; [left; exists l2'|right; exists l1']; auto. }
      destruct Hc as [(l2' & -> & ->)|(l1' & -> & ->)].
      + specialize (IH1 _ _ _ eq_refl).
        assert (E' : l1 ++ (fst p, edge_midpoint p) :: (edge_midpoint p, snd p) :: l2' ++ k2 =
          (l1 ++ (fst p, edge_midpoint p) :: (edge_midpoint p, snd p) :: l2') ++ k2)
          by (rewrite <- app_assoc; reflexivity).
        rewrite E'. apply (tile_halves a b _ _ _ eq_refl); assumption.
      + specialize (IH2 _ _ _ eq_refl). rewrite <- app_assoc. apply (tile_halves a b _ _ _ eq_refl); assumption.
  Qed.

  Lemma unencroach_segment_tiles : forall fuel p (tr : triangulation) (e : edge) vs cs bd hs tr' vs' new inc del,
    unencroach_segment H fuel p tr e vs cs bd hs = Ok (tr', vs', new, inc, del) ->
    exists l1 l2, tiling (fst e, edge_midpoint e) l1 /\ tiling (edge_midpoint e, snd e) l2 /\
      forall x, In x new <-> In x (l1 ++ l2).
  Proof.
    intros fuel p tr e vs cs bd hs tr' vs' new inc del Hu. unfold unencroach_segment in Hu.
    destruct fuel as [|fuel]; cbn [unencroach_loop] in Hu; [discriminate|].
    unfold split_segment in Hu. destruct (vertices_include H fuel (1 :: p) tr [edge_midpoint e]
        (filter (fun x => negb (eeqb x e) && negb (eeqb x (opposite e))) cs) bd hs) as [[[tr1 ni] nd]| |]; [|discriminate|discriminate].
    cbn [bind] in Hu.
    set (h1 := (ev1 e, edge_midpoint e)) in *. set (h2 := (edge_midpoint e, ev2 e)) in *.
    set (b1 := existsb (fun v => cont_eqb (edge_encroach h1 v) Inside) vs) in *.
    set (b2 := existsb (fun v => cont_eqb (edge_encroach h2 v) Inside) vs) in *.
    set (d1 := if b1 then [] else [h1]). set (d2 := if b2 then d1 else h2 :: d1).
    (* follow the two halves separately *)
    assert (Hg : forall fuel p pending (tr : triangulation) vs new inc del tr' vs' new' inc' del',
      unencroach_loop H fuel p cs bd hs pending tr vs new inc del = Ok (tr', vs', new', inc', del') ->
      forall e1 e2 l1 l2 done, tiling e1 l1 -> tiling e2 l2 -> Permutation (l1 ++ l2) (pending ++ done) ->
      (forall x, In x new <-> In x done) ->
      exists l1' l2', tiling e1 l1' /\ tiling e2 l2' /\ forall x, In x new' <-> In x (l1' ++ l2')).
    { clear. induction fuel as [|fuel IH]; intros p pending tr vs new inc del tr' vs' new' inc' del' Hu e1 e2 l1 l2 done T1 T2 Hp Hn;
        cbn [unencroach_loop] in Hu; [discriminate|].
      destruct pending as [|q pending].
      - injection Hu as <- <- <- <- <-. exists l1, l2. split; [exact T1|]. split; [exact T2|]. intros x. rewrite Hn. cbn in Hp.
        split; apply Permutation_in; [symmetry|]; exact Hp.
      - unfold split_segment in Hu. destruct (vertices_include H fuel (1 :: p) tr [edge_midpoint q]
          (filter (fun e => negb (eeqb e q) && negb (eeqb e (opposite q))) cs) bd hs) as [[[tr1 ni] nd]| |]; [|discriminate|discriminate].
        cbn [bind] in Hu.
        set (h1 := (ev1 q, edge_midpoint q)) in *. set (h2 := (edge_midpoint q, ev2 q)) in *.
        set (b1 := existsb (fun v => cont_eqb (edge_encroach h1 v) Inside) vs) in *.
        set (b2 := existsb (fun v => cont_eqb (edge_encroach h2 v) Inside) vs) in *.
        set (d1 := if b1 then done else h1 :: done). set (d2 := if b2 then d1 else h2 :: d1).
        assert (Hin : In q (l1 ++ l2)) by (apply (Permutation_in _ (Permutation_sym Hp)); left; reflexivity).
        assert (Hnew : exists k1 k2, tiling e1 k1 /\ tiling e2 k2 /\ Permutation (k1 ++ k2) (h2 :: h1 :: pending ++ done)).
        { apply in_app_or in Hin. destruct Hin as [Hin|Hin]; apply in_split in Hin; destruct Hin as (m1 & m2 & ->).
          - pose proof (tiling_refine _ _ T1 _ _ _ eq_refl) as T1'.
            change (edge_midpoint q, snd q) with h2 in T1'. change (fst q, edge_midpoint q) with h1 in T1'.
            exists (m1 ++ h1 :: h2 :: m2), l2. split; [exact T1'|]. split; [exact T2|].
            rewrite <- app_assoc in *. cbn in *.
            assert (Hp1 : Permutation (m1 ++ m2 ++ l2) (pending ++ done)).
            { apply (Permutation_cons_inv (a := q)). rewrite Permutation_middle. exact Hp. }
            rewrite <- Permutation_middle, <- Permutation_middle, Hp1. apply perm_swap.
          - pose proof (tiling_refine _ _ T2 _ _ _ eq_refl) as T2'.
            change (edge_midpoint q, snd q) with h2 in T2'. change (fst q, edge_midpoint q) with h1 in T2'.
            exists l1, (m1 ++ h1 :: h2 :: m2). split; [exact T1|]. split; [exact T2'|].
            rewrite app_assoc in *.
            assert (Hp1 : Permutation ((l1 ++ m1) ++ m2) (pending ++ done)).
            { apply (Permutation_cons_inv (a := q)). rewrite Permutation_middle. exact Hp. }
            rewrite <- Permutation_middle, <- Permutation_middle, Hp1. apply perm_swap. }
        destruct Hnew as (k1 & k2 & K1 & K2 & E1).
        refine (IH _ _ _ _ _ _ _ _ _ _ _ _ Hu e1 e2 k1 k2 d2 K1 K2 _ _).
        + rewrite E1. clear. unfold d2, d1. destruct b1, b2; cbn.
          * apply Permutation_refl.
          * apply (Permutation_middle (h1 :: pending) done h2).
          * apply perm_skip. apply (Permutation_middle pending done h1).
          * transitivity (h2 :: pending ++ h1 :: done); [apply perm_skip, Permutation_middle|].
            apply (Permutation_middle pending (h1 :: done) h2).
        + intros x. unfold d2, d1. destruct b1, b2; rewrite ?hadd_In, Hn; cbn; intuition. }
    refine (Hg _ _ _ _ _ _ _ _ _ _ _ _ _ Hu h1 h2 [h1] [h2] d2 (tile_whole _) (tile_whole _) _ _).
    - unfold d2, d1. destruct b1, b2; cbn; first [apply Permutation_refl | apply perm_swap].
    - intros x. unfold d2, d1. destruct b1, b2; rewrite ?hadd_In; cbn; intuition.
  Qed.

  (** ** C48 *)
  Lemma distribute_encroachments_spec : forall segments (vs : list vertex) (m : list (edge * list vertex)) e,
    mget edec e (distribute_encroachments segments vs m) =
      if in_dec edec e segments
      then match filter (fun v => cont_eqb (edge_encroach e v) Inside) vs with [] => mget edec e m | l => Some l end
      else mget edec e m.
  Proof.
    intros segments vs. unfold distribute_encroachments. induction segments as [|s segments IH]; intros m e; [reflexivity|].
    cbn [fold_left]. rewrite IH.
    destruct (filter (fun v => cont_eqb (edge_encroach e v) Inside) vs) as [|v0 l0] eqn:Hf.
    - assert (E : mget edec e (match filter (fun v => cont_eqb (edge_encroach s v) Inside) vs with [] => m | v :: l => mset edec s (v :: l) m end) = mget edec e m).
      { destruct (edec s e) as [->|Hn]; [rewrite Hf; reflexivity|].
        destruct (filter (fun v => cont_eqb (edge_encroach s v) Inside) vs); [reflexivity|]. apply mset_get_ne. congruence. }
      rewrite E. destruct (in_dec edec e segments), (in_dec edec e (s :: segments)); reflexivity.
    - destruct (in_dec edec e segments) as [Hi|Hi], (in_dec edec e (s :: segments)) as [Hj|Hj]; try reflexivity.
      + exfalso. apply Hj. right. exact Hi.
      + destruct Hj as [->|Hj]; [|contradiction]. rewrite Hf. apply mset_get_eq.
      + assert (Hn : s <> e) by (intros ->; apply Hj; left; reflexivity).
        destruct (filter (fun v => cont_eqb (edge_encroach s v) Inside) vs); [reflexivity|]. apply mset_get_ne. congruence.
  Qed.

  Lemma distribute_encroachments_exact : forall segments (vs : list vertex) (e : edge),
    match mget edec e (distribute_encroachments segments vs []) with
    | Some l => In e segments /\ l <> [] /\ forall v, In v l <-> In v vs /\ edge_encroach e v = Inside
    | None => In e segments -> forall v, In v vs -> edge_encroach e v <> Inside
    end.
  Proof.
    intros segments vs e. rewrite distribute_encroachments_spec.
    assert (Hc : forall v, cont_eqb (edge_encroach e v) Inside = true <-> edge_encroach e v = Inside).
    { intros v. destruct (edge_encroach e v); cbn; split; congruence. }
    destruct (in_dec edec e segments) as [Hi|Hi].
    - destruct (filter (fun v => cont_eqb (edge_encroach e v) Inside) vs) as [|v0 l0] eqn:Hf; cbn [mget].
      + intros _ v Hv He. assert (Hin : In v (filter (fun v => cont_eqb (edge_encroach e v) Inside) vs))
          by (apply filter_In; split; [exact Hv|apply Hc, He]). rewrite Hf in Hin. destruct Hin.
      + split; [exact Hi|]. split; [discriminate|]. intros v. rewrite <- Hf, filter_In, Hc. reflexivity.
    - cbn. intros Hj. contradiction.
  Qed.

  (** ** C49 *)
  Lemma may_insert_same : forall fuel fuel' p q (t : triangle) v bd hs b b',
    (forall p q, ho H p polyline hs = ho H q polyline hs) ->
    may_insert_triangle H fuel p t v bd hs = Ok b -> may_insert_triangle H fuel' q t v bd hs = Ok b' -> b = b'.
  Proof.
    intros fuel fuel' p q t v bd hs b b' Hst H1 H2.
    assert (E : may_insert_triangle H fuel' q t v bd hs = may_insert_triangle H fuel' p t v bd hs).
    { unfold may_insert_triangle, outside_holes. rewrite (Hst q p). reflexivity. }
    rewrite E in H2. clear E. destruct (Nat.le_ge_cases fuel fuel') as [Hl|Hl].
    - pose proof (may_insert_mono H _ _ Hl p t v bd hs) as Hm. unfold rle in Hm. destruct Hm; congruence.
    - pose proof (may_insert_mono H _ _ Hl p t v bd hs) as Hm. unfold rle in Hm. destruct Hm; congruence.
  Qed.

  Lemma new_triangle_sides : forall (e : edge) v x, side_of x (new_triangle e v) ->
    x = e \/ x = (snd e, v) \/ x = (v, fst e).
  Proof.
    intros [a b] v x. unfold new_triangle, ev1, ev2; cbn.
    destruct (vghost a); [|destruct (vghost b)]; intros Hs; inversion Hs; subst; auto.
  Qed.
  Lemma new_triangle_ghost : forall (e : edge) v, is_ghost (new_triangle e v) = true -> vghost v = false ->
    vghost (fst e) = true \/ vghost (snd e) = true.
  Proof.
    intros [a b] v Hg Hv. unfold new_triangle, ev1, ev2 in Hg; cbn in *.
    destruct (vghost a) eqn:Ha; [auto|]. destruct (vghost b) eqn:Hb; [auto|].
    unfold is_ghost in Hg; cbn in Hg. rewrite Ha, Hb, Hv in Hg. discriminate.
  Qed.

  Section Rejected.
    Variables (tr0 : triangulation) (v : vertex) (cs : list edge) (bd : option polyline) (hs : list polyline).
    Hypothesis Hs0 : adj_sound tr0.
    Hypothesis Hc0 : adj_complete tr0.
    Hypothesis Hnew : forall t, In t (tris tr0) -> ~ corner_of v t.
    Hypothesis Hreal : vghost v = false.
    Hypothesis Hcs : forall e, In e cs -> vghost (fst e) = false /\ vghost (snd e) = false.
    Hypothesis Hout : forall t a b, In t (tris tr0) -> side_of (a, b) t -> vghost a = false -> vghost b = false ->
      continence b a v v <> Inside.
    Hypothesis Hst : forall p q, ho H p polyline hs = ho H q polyline hs.

    Definition accepted (t : triangle) : Prop :=
      is_conflicting t v = true /\ exists fuel p, may_insert_triangle H fuel p t v bd hs = Ok true.
    Definition ghost_ended (e : edge) : Prop := vghost (fst e) = true \/ vghost (snd e) = true.

    Record rcav (pending : list edge) (s : solve_state (A:=A)) : Prop := {
      rc_sound : adj_sound (ss_tr s);
      rc_cm : ss_cm s = [];
      rc_rem : ss_rem s = [];
      rc_del : forall t, In t (ss_del s) -> In t (tris tr0) /\ accepted t;
      rc_pending : forall e, In e pending -> exists t, In t (ss_del s) /\ side_of e t;
      rc_inc : forall t, In t (ss_inc s) -> exists e, t = new_triangle e v /\
        (ghost_ended e -> exists y, In y (tris tr0) /\ side_of (flip e) y /\ ~ accepted y);
      rc_sub : forall t, In t (tris (ss_tr s)) -> In t (tris tr0) \/ In t (ss_inc s);
      rc_sup : forall t, In t (tris tr0) -> In t (tris (ss_tr s)) \/ In t (ss_del s)
    }.

    Lemma ghost_unconstrained : forall e, ghost_ended e -> is_constrained cs e = false.
    Proof.
      intros e Hg. unfold is_constrained. apply orb_false_iff. split; apply hmem_false; intros Hin;
        apply Hcs in Hin; destruct e as [a b]; unfold ghost_ended, opposite, ev1, ev2 in *; cbn in *; intuition congruence.
    Qed.

    (** A neighbour made during this insertion is on a side of an original
        triangle that was not taken, so it is not there behind a ghost side. *)
    Lemma outer_new : forall pending s e outer, rcav pending s -> In e pending ->
      side_of (flip e) outer -> In outer (ss_inc s) -> ~ ghost_ended e /\ outer = new_triangle (flip e) v.
    Proof.
      intros pending s e outer HI He Hsd Hin.
      destruct (rc_pending _ _ HI e He) as (t & Hd & Hst'). destruct (rc_del _ _ HI t Hd) as [Ht Hacc].
      destruct (rc_inc _ _ HI outer Hin) as (e0 & -> & Hb).
      assert (Hfst : fst e <> v) by (intros E; apply (Hnew t Ht); rewrite <- E; apply side_corner1, Hst').
      assert (Hsnd : snd e <> v) by (intros E; apply (Hnew t Ht); rewrite <- E; apply side_corner2, Hst').
      apply new_triangle_sides in Hsd.
      assert (E0 : flip e = e0).
      { destruct Hsd as [Hsd|[Hsd|Hsd]]; [exact Hsd| |]; destruct e as [a b]; cbn in *; injection Hsd as E1 E2; congruence. }
      subst e0. split; [|reflexivity]. intros Hg.
      assert (Hg' : ghost_ended (flip e)) by (destruct e; unfold ghost_ended in *; cbn in *; tauto).
      destruct (Hb Hg') as (y & Hy & Hys & Hna). rewrite flip_flip in Hys.
      pose proof (Hc0 e y Hy Hys). pose proof (Hc0 e t Ht Hst'). assert (y = t) by congruence. subst. contradiction.
    Qed.

    Lemma cavity_rejected : forall fuel p pending s s',
      cavity_loop H fuel p cs bd hs v pending s = Ok s' -> rcav pending s -> rcav [] s'.
    Proof.
      induction fuel as [|fuel IH]; intros p pending s s' Hc HI; cbn [cavity_loop] in Hc; [discriminate|].
      destruct pending as [|e pending]; [injection Hc as <-; exact HI|].
      apply bind_ok in Hc. destruct Hc as (outer & Ho & Hc). apply unwrap_ok in Ho.
      apply bind_ok in Hc. destruct Hc as (may & Hm & Hc).
      rewrite opposite_flip in Ho. destruct (rc_sound _ _ HI _ _ Ho) as [Hin Hsd].
      destruct (is_conflicting outer v && negb (is_constrained cs e) && may) eqn:Hb.
      - apply andb_true_iff in Hb. destruct Hb as [Hb ->]. apply andb_true_iff in Hb. destruct Hb as [Hb1 Hb2].
        apply negb_true_iff in Hb2.
        assert (Hold : In outer (tris tr0)).
        { destruct (rc_sub _ _ HI outer Hin) as [Hold|Hinc]; [exact Hold|]. exfalso.
          destruct (outer_new _ _ e outer HI (or_introl eq_refl) Hsd Hinc) as [Hng ->].
          unfold is_conflicting in Hb1. apply orb_true_iff in Hb1. destruct Hb1 as [Hb1|Hb1].
          - destruct (rc_pending _ _ HI e (or_introl eq_refl)) as (t & Hd & Hst'). destruct (rc_del _ _ HI t Hd) as [Ht _].
            destruct e as [a b]. unfold ghost_ended in Hng. cbn [fst snd] in Hng.
            destruct (vghost a) eqn:Ga; [apply Hng; auto|]. destruct (vghost b) eqn:Gb; [apply Hng; auto|].
            apply (Hout t a b Ht Hst' Ga Gb). unfold new_triangle, flip, ev1, ev2, encircles, is_ghost in Hb1. cbn in Hb1.
            rewrite Ga, Gb in Hb1. cbn in Hb1. rewrite Ga, Gb, Hreal in Hb1. cbn in Hb1.
            destruct (continence b a v v); [reflexivity|discriminate|discriminate].
          - apply andb_true_iff in Hb1. destruct Hb1 as [Hb1 _]. apply new_triangle_ghost in Hb1; [|exact Hreal].
            apply Hng. destruct e; unfold ghost_ended; cbn in *; tauto. }
        refine (IH _ _ _ _ Hc _). rewrite (rc_cm _ _ HI). cbn [mget]. constructor; cbn.
        + apply adj_sound_rem, (rc_sound _ _ HI).
        + reflexivity.
        + apply (rc_rem _ _ HI).
        + intros t Ht. apply hadd_In in Ht. destruct Ht as [->|Ht]; [|apply (rc_del _ _ HI), Ht].
          split; [exact Hold|]. split; [exact Hb1|]. exists fuel, (1 :: p). exact Hm.
        + intros x Hx. apply next_cavities_In in Hx. destruct Hx as [Hx|Hx].
          * exists outer. split; [apply hadd_In; auto|exact Hx].
          * destruct (rc_pending _ _ HI x (or_intror Hx)) as (t & Ht & Hs). exists t. split; [apply hadd_In; auto|exact Hs].
        + apply (rc_inc _ _ HI).
        + intros t Ht. apply rem_tri_In in Ht. apply (rc_sub _ _ HI), Ht.
        + intros t Ht. destruct (rc_sup _ _ HI t Ht) as [Hi|Hd]; [|right; apply hadd_In; auto].
          destruct (tdec t outer) as [->|Hne]; [right; apply hadd_In; auto|]. left. apply rem_tri_In. auto.
      - apply bind_ok in Hc. destruct Hc as ([cm' rem'] & Hd & Hc). unfold distribute_conflicts in Hd.
        rewrite (rc_rem _ _ HI), (rc_cm _ _ HI) in Hd. cbn [split_conflicts bind add_conflicts] in Hd. injection Hd as <- <-.
        refine (IH _ _ _ _ Hc _). constructor; cbn.
        + apply adj_sound_incl, (rc_sound _ _ HI).
        + reflexivity.
        + reflexivity.
        + apply (rc_del _ _ HI).
        + intros x Hx. apply (rc_pending _ _ HI). right. exact Hx.
        + intros t Ht. apply hadd_In in Ht. destruct Ht as [->|Ht]; [|apply (rc_inc _ _ HI), Ht].
          exists e. split; [reflexivity|]. intros Hg.
          assert (Hold : In outer (tris tr0)).
          { destruct (rc_sub _ _ HI outer Hin) as [Hold|Hinc]; [exact Hold|]. exfalso.
            destruct (outer_new _ _ e outer HI (or_introl eq_refl) Hsd Hinc) as [Hng _]. contradiction. }
          exists outer. split; [exact Hold|]. split; [exact Hsd|]. intros [Ha1 (f' & p' & Ha2)].
          rewrite Ha1, (ghost_unconstrained e Hg) in Hb. cbn in Hb.
          pose proof (may_insert_same _ _ _ _ _ _ _ _ _ _ Hst Hm Ha2). congruence.
        + intros t Ht. apply incl_tri_In in Ht. destruct Ht as [->|Ht]; [right; apply hadd_In; auto|].
          destruct (rc_sub _ _ HI t Ht) as [Hi|Hi]; [auto|right; apply hadd_In; auto].
        + intros t Ht. destruct (rc_sup _ _ HI t Ht) as [Hi|Hi]; [left; apply incl_tri_In; auto|auto].
    Qed.

    Lemma visit_neighbours_In : forall (es : list edge) vis pen vis' pen', visit_neighbours tr0 es vis pen = (vis', pen') ->
      (forall t, In t pen -> In t (tris tr0)) -> forall t, In t pen' -> In t (tris tr0).
    Proof.
      induction es as [|e es IH]; intros vis pen vis' pen' Hv Hp; cbn [visit_neighbours] in Hv.
      - injection Hv as <- <-. exact Hp.
      - destruct (adj_get e tr0) as [t0|] eqn:Hg; [|apply (IH _ _ _ _ Hv Hp)].
        destruct (negb (hmem tdec t0 vis) && negb (is_ghost t0)); [|apply (IH _ _ _ _ Hv Hp)].
        apply (IH _ _ _ _ Hv). intros t [<-|Ht]; [apply (Hs0 _ _ Hg)|apply Hp, Ht].
    Qed.

    Lemma flood_single : forall fuel p vis pen cm rest,
      flood_distribute H fuel p tr0 vis pen [] [v] bd hs = Ok (cm, rest) ->
      (forall t, In t pen -> In t (tris tr0)) ->
      cm = [] \/ exists t0, cm = [(t0, [v])] /\ In t0 (tris tr0) /\ accepted t0.
    Proof.
      induction fuel as [|fuel IH]; intros p vis pen cm rest Hf Hp; [discriminate|].
      cbn [flood_distribute] in Hf. destruct pen as [|t pen]; [injection Hf as <- _; auto|].
      destruct (visit_neighbours tr0 (outer_edges t) vis pen) as [vis' pen'] eqn:Hv.
      apply bind_ok in Hf. destruct Hf as ([cm' vs'] & Hd & Hf).
      unfold distribute_conflicts in Hd. cbn [split_conflicts] in Hd.
      apply bind_ok in Hd. destruct Hd as ([conf r] & Hsp & Hd). apply bind_ok in Hsp. destruct Hsp as (may & Hm & Hsp).
      cbn [bind] in Hsp.
      - destruct (cont_eqb (encircles t v) Inside && may) eqn:Hb; injection Hsp as <- <-.
        + cbn [add_conflicts mget mset] in Hd. injection Hd as <- <-. right. exists t.
          assert (Ht : In t (tris tr0)) by (apply Hp; left; reflexivity).
          assert (Hacc : accepted t).
          { apply andb_true_iff in Hb. destruct Hb as [Hb ->]. split; [unfold is_conflicting; rewrite Hb; reflexivity|].
            eexists _, _. exact Hm. }
          destruct fuel as [|fuel]; [discriminate|]. cbn [flood_distribute] in Hf.
          unfold mset in Hf. cbn in Hf. destruct pen'; injection Hf as <- _; auto.
        + cbn [add_conflicts] in Hd. injection Hd as <- <-.
          refine (IH _ _ _ _ _ Hf _). apply (visit_neighbours_In _ _ _ _ _ Hv). intros t' Ht'. apply Hp. right. exact Ht'.
    Qed.

    Lemma solve_single : forall fuel p t0 s, In t0 (tris tr0) -> accepted t0 ->
      solve_conflicts H fuel p tr0 [(t0, [v])] [] cs bd hs = Ok s -> rcav [] s.
    Proof.
      intros fuel p t0 s Ht Ha Hsv. unfold solve_conflicts in Hsv. destruct fuel as [|fuel]; [discriminate|].
      cbn [solve_loop ss_cm map fst] in Hsv. rewrite ho_single in Hsv. cbn [mget] in Hsv.
      destruct (tdec t0 t0) as [_|Hn]; [|contradiction]. cbn [unwrap bind rev app hd_error removelast ss_tr ss_rem ss_inc ss_del] in Hsv.
      apply bind_ok in Hsv. destruct Hsv as (s1 & Hc & Hsv).
      assert (Hmd : mdel tdec t0 [(t0, [v])] = []) by (cbn; destruct (tdec t0 t0); [reflexivity|contradiction]).
      rewrite Hmd in Hc.
      assert (HI : rcav [] s1).
      { apply (cavity_rejected _ _ _ _ _ Hc). constructor; cbn.
        - apply adj_sound_rem, Hs0.
        - reflexivity.
        - reflexivity.
        - intros t [<-|[]]. auto.
        - intros e He. exists t0. split; [auto|]. destruct He as [<-|[<-|[<-|[]]]]; [apply side_te3|apply side_te2|apply side_te1].
        - intros t [].
        - intros t Hi. apply rem_tri_In in Hi. left. apply Hi.
        - intros t Hi. destruct (tdec t t0) as [->|Hne]; [auto|]. left. apply rem_tri_In. auto. }
      destruct fuel as [|fuel]; [discriminate|]. cbn [solve_loop] in Hsv. rewrite (rc_cm _ _ HI) in Hsv. cbn [map] in Hsv.
      rewrite ho_nil in Hsv. injection Hsv as <-. exact HI.
    Qed.
  End Rejected.

  Lemma circumcenter_real : forall a b c (v : vertex), circumcenter a b c = Some v -> vghost v = false.
  Proof.
    intros a b c v Hc. unfold circumcenter in Hc.
    repeat match type of Hc with context [if ?b then _ else _] => destruct b end; try discriminate;
      injection Hc as <-; reflexivity.
  Qed.

  Lemma rejected_no_trace : forall fuel p (tr : triangulation) t cs bd hs tr' enc cc,
    adj_sound tr -> adj_complete tr -> In t (tris tr) -> tri_circumcenter t = Some cc ->
    (forall t', In t' (tris tr) -> ~ corner_of cc t') ->
    (forall e, In e cs -> vghost (fst e) = false /\ vghost (snd e) = false) ->
    (forall t' a b, In t' (tris tr) -> side_of (a, b) t' -> vghost a = false -> vghost b = false ->
       continence b a cc cc <> Inside) ->
    (forall p q, ho H p polyline hs = ho H q polyline hs) ->
    try_circumcenter H fuel p tr t cs bd hs = Ok (tr', inr enc) ->
    (forall t', In t' (tris tr') <-> In t' (tris tr)) /\
    adj_sound tr' /\ enc <> [] /\
    (forall e, In e enc -> constrained cs e /\ edge_encroach e cc = Inside).
  Proof.
    intros fuel p tr t cs bd hs tr' enc cc Hs Hc Ht Hcc Hnew Hcs Hout Hst Htry. unfold try_circumcenter in Htry.
    rewrite Hcc in Htry. cbn [unwrap bind] in Htry.
    apply bind_ok in Htry. destruct Htry as ([cm rest] & Hd & Htry). apply bind_ok in Htry. destruct Htry as (s & Hsv & Htry).
    apply bind_ok in Htry. destruct Htry as (opp & Hopp & Htry).
    set (f := fun e : edge => (hmem edec e cs || hmem edec (opposite e) cs) && cont_eqb (edge_encroach e cc) Inside) in *.
    assert (Henc : forall e, In e (hset edec (filter f opp)) -> constrained cs e /\ edge_encroach e cc = Inside).
    { intros e He. apply hset_In, filter_In in He. destruct He as [_ He]. unfold f in He. apply andb_true_iff in He.
      destruct He as [He1 He2]. split.
      - apply orb_true_iff in He1. rewrite !hmem_In, opposite_flip in He1. exact He1.
      - destruct (edge_encroach e cc); [reflexivity|discriminate|discriminate]. }
    destruct (hset edec (filter f opp)) as [|e0 enc0] eqn:Hset; [discriminate|].
    injection Htry as <- <-.
    assert (Hreal : vghost cc = false).
    { unfold tri_circumcenter in Hcc. destruct (is_ghost t); [discriminate|]. apply (circumcenter_real _ _ _ _ Hcc). }
    assert (Hini : forall t', In t' [t] -> In t' (tris tr)) by (intros t' [<-|[]]; exact Ht).
    unfold distribute_over_triangulation in Hd.
    destruct (flood_single tr cc bd hs Hs _ _ _ _ _ _ Hd Hini) as [->|(t0 & -> & Ht0 & Hacc)].
    { exfalso. unfold solve_conflicts in Hsv. destruct fuel as [|fuel]; [discriminate|]. cbn [solve_loop ss_cm map] in Hsv.
      rewrite ho_nil in Hsv. injection Hsv as <-. cbn [ss_inc foldM] in Hopp. injection Hopp as <-. discriminate. }
    pose proof (solve_single tr cc cs bd hs Hs Hc Hnew Hreal Hcs Hout Hst _ _ _ _ Ht0 Hacc Hsv) as HI.
    split; [|split; [|split; [discriminate|exact Henc]]].
    - intros t'. rewrite fold_incl_In, fold_rem_In, !ho_In. split.
      + intros [[Hi Hn]|Hd'].
        * destruct (rc_sub _ _ _ _ _ _ HI t' Hi); [assumption|contradiction].
        * apply (rc_del _ _ _ _ _ _ HI), Hd'.
      + intros Hi. destruct (rc_sup _ _ _ _ _ _ HI t' Hi) as [Hi'|Hd']; [|auto]. left. split; [exact Hi'|].
        intros Hinc. destruct (rc_inc _ _ _ _ _ _ HI t' Hinc) as (e & -> & _).
        apply (Hnew _ Hi). apply new_triangle_corner.
    - apply fold_incl_sound, fold_rem_sound, (rc_sound _ _ _ _ _ _ HI).
  Qed.
End RefineP.
