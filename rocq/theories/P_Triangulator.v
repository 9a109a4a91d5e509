(** P_Triangulator.v — insert_vertices, insert_segments, insert_hole, frames. *)

From Coq Require Import List Permutation Arith Bool ZArith Lia.
From Verif Require Import Base Arith Geometry Elements Polyline Procedures Refine Triangulator Spec P_Base P_Trn.
Import ListNotations.
Local Open Scope nat_scope.

Section Triangulator.
  Context {A : Arith}.
  Notation vertex := (vertex A).
  Notation edge := (edge A).
  Notation polyline := (polyline A).
  Notation triangulator := (triangulator A).

  Lemma cont_eqb_eq : forall a b, cont_eqb a b = true <-> a = b.
  Proof. intros [] []; cbn; split; congruence. Qed.
  Lemma binc_eqb_eq : forall a b, binc_eqb a b = true <-> a = b.
  Proof. intros [] []; cbn; split; congruence. Qed.
  Lemma orient_eqb_eq : forall a b, orient_eqb a b = true <-> a = b.
  Proof. intros [] []; cbn; split; congruence. Qed.
  Lemma continence_is_eq : forall o c b, continence_is o c b = true <-> o = Some (c, b).
  Proof.
    intros [[c' b']|] c b; cbn; [|split; congruence].
    rewrite andb_true_iff, cont_eqb_eq, binc_eqb_eq. split; [intros [-> ->]; reflexivity|].
    intros He; injection He as -> ->; auto.
  Qed.

  Lemma proper_nonempty : forall p : polyline, proper p -> pverts p <> [].
  Proof. intros p [Hp|Hp] Hn; unfold new_closed, new_opened in Hp; rewrite Hn in Hp; cbn in Hp; discriminate. Qed.
  Lemma proper_closed_proper : forall p : polyline, proper_closed p -> proper p.
  Proof. intros p Hp; left; exact Hp. Qed.
  Lemma proper_closed_opened : forall p : polyline, proper_closed p -> popened p = false.
  Proof.
    intros p Hp. unfold proper_closed, new_closed in Hp. destruct (Nat.ltb _ _); [discriminate|].
    injection Hp as Hp. rewrite <- Hp. reflexivity.
  Qed.

  (** [contains] answers on every proper polyline. *)
  Lemma poly_pairs_total : forall p : polyline, pverts p <> [] -> exists es, poly_pairs p = Ok es.
  Proof.
    intros p Hp. unfold poly_pairs, vertex_pairs. destruct (pverts p); [congruence|]. eexists; reflexivity.
  Qed.
  Lemma poly_contains_total : forall (p : polyline) v, pverts p <> [] ->
    exists o, poly_contains p v = Ok o /\ (o = None <-> popened p = true).
  Proof.
    intros p v Hp. unfold poly_contains. destruct (popened p).
    - exists None. split; [reflexivity|]. split; reflexivity.
    - destruct (poly_pairs_total p Hp) as [es ->]. cbn.
      destruct (contains_loop v es 0%Z); eexists; (split; [reflexivity|]); split; discriminate.
  Qed.

  Lemma contains_is_ok : forall (p : polyline) v c b, contains_is p v c = Ok b ->
    (b = true <-> poly_contains p v = Ok (Some c)).
  Proof.
    intros p v c b Hb. unfold contains_is in Hb. apply bind_ok in Hb.
    destruct Hb as [o [Ho Hb]]. injection Hb as <-. rewrite Ho. destruct o as [c'|].
    - rewrite cont_eqb_eq. split; [intros ->; reflexivity|congruence].
    - split; discriminate.
  Qed.
  Lemma contains_is_total : forall (p : polyline) v c, pverts p <> [] -> exists b, contains_is p v c = Ok b.
  Proof.
    intros p v c Hp. unfold contains_is. destruct (poly_contains_total p v Hp) as [o [-> _]].
    eexists; reflexivity.
  Qed.

  (** ** insert_vertices *)

  Lemma vertex_rejected_ok : forall (t : triangulator) v b, vertex_rejected t v = Ok b ->
    (b = false <-> vertex_admissible t v).
  Proof.
    intros t v b Hb. unfold vertex_rejected in Hb. apply bind_ok in Hb.
    destruct Hb as [i [Hi Hb]]. apply contains_is_ok in Hi. destruct i; cbn [negb] in Hb.
    - apply bind_ok in Hb. destruct Hb as [bad [Hbad Hb]]. pose proof (filterM_in _ _ _ _ Hbad) as Hin.
      assert (Hall : bad = [] <-> forall h, In h (t_holes t) -> poly_contains h v = Ok (Some Outside)).
      { split.
        - intros -> h Hh. destruct (filterM_ok _ _ _ _ Hbad) as [g [Hg _]].
          pose proof (Hg h Hh) as Hf. destruct (g h) eqn:Hgh.
          + exfalso. apply (proj2 (Hin h)). split; [exact Hh|]. exact Hf.
          + apply bind_ok in Hf. destruct Hf as [o [Ho Hf]]. apply contains_is_ok in Ho.
            apply Ho. destruct o; cbn in Hf; congruence.
        - intros Hall. destruct bad as [|h bad]; [reflexivity|]. exfalso.
          destruct (proj1 (Hin h) (or_introl eq_refl)) as [Hh Hf].
          apply bind_ok in Hf. destruct Hf as [o [Ho Hf]]. apply contains_is_ok in Ho.
          rewrite (proj2 Ho (Hall h Hh)) in Hf. discriminate. }
      injection Hb as <-. unfold vertex_admissible. rewrite <- Hall. destruct bad; intuition congruence.
    - injection Hb as <-. split; [discriminate|]. intros [Hb _]. apply Hi in Hb. discriminate.
  Qed.

  Lemma vertex_rejected_total : forall (t : triangulator) v,
    pverts (t_boundary t) <> [] -> (forall h, In h (t_holes t) -> pverts h <> []) ->
    exists b, vertex_rejected t v = Ok b.
  Proof.
    intros t v Hb Hh. unfold vertex_rejected.
    destruct (contains_is_total (t_boundary t) v Inside Hb) as [i ->]. cbn. destruct i; cbn; [|eexists; reflexivity].
    set (f := fun h => let! o := contains_is h v Outside in Ok (negb o)).
    rewrite (filterM_total _ f (fun h => match f h with Ok b => b | _ => true end)).
    - eexists; reflexivity.
    - intros h Hi. unfold f. destruct (contains_is_total h v Outside (Hh h Hi)) as [o ->]. reflexivity.
  Qed.

  Lemma place_vertices_frame : forall H p vs (t : triangulator), same_domain t (place_vertices H p vs t).
  Proof.
    intros H p vs. revert p. induction vs as [|v vs IH]; intros p t; cbn [place_vertices].
    - repeat split.
    - match goal with |- same_domain t (place_vertices _ _ _ ?u) => set (t1 := u) end.
      assert (Hd : same_domain t t1) by (unfold t1; destruct (place_vertex _ _ _); repeat split).
      destruct Hd as (H1 & H2 & H3). destruct (IH (0 :: p) t1) as (K1 & K2 & K3).
      repeat split; congruence.
  Qed.

  Lemma insert_vertices_spec : forall H p (t : triangulator) vs t' r,
    insert_vertices H p t vs = Ok (t', r) ->
    match r with
    | RErr bad => t' = t /\ bad <> [] /\ forall v, In v bad <-> In v vs /\ ~ vertex_admissible t v
    | RFine => same_domain t t' /\ forall v, In v vs -> vertex_admissible t v
    end.
  Proof.
    intros H p t vs t' r Hr. unfold insert_vertices in Hr. destruct vs as [|v0 vs0].
    - injection Hr as <- <-. repeat split; destruct H0.
    - set (vs := v0 :: vs0) in *. apply bind_ok in Hr. destruct Hr as [bad [Hbad Hr]].
      pose proof (filterM_in _ _ _ _ Hbad) as Hin. destruct (filterM_ok _ _ _ _ Hbad) as [g [Hg _]].
      assert (Hspec : forall v, In v bad <-> In v vs /\ ~ vertex_admissible t v).
      { intros v. rewrite Hin. split; intros [Hv Hx]; (split; [exact Hv|]).
        - intros Ha. apply (vertex_rejected_ok t v true Hx) in Ha. discriminate.
        - rewrite (Hg v Hv). f_equal. destruct (g v) eqn:Hgv; [reflexivity|]. exfalso. apply Hx.
          apply (vertex_rejected_ok t v false); [|reflexivity]. rewrite (Hg v Hv), Hgv. reflexivity. }
      destruct bad as [|b bad]; injection Hr as <- <-.
      + split; [apply place_vertices_frame|]. intros v Hv.
        apply (vertex_rejected_ok t v false); [|reflexivity]. rewrite (Hg v Hv). f_equal.
        destruct (g v) eqn:Hgv; [|reflexivity]. exfalso.
        apply (proj2 (Hin v)). split; [exact Hv|]. rewrite (Hg v Hv), Hgv. reflexivity.
      + split; [reflexivity|]. split; [discriminate|]. exact Hspec.
  Qed.

  Lemma insert_vertices_total : forall H p (t : triangulator) vs,
    pverts (t_boundary t) <> [] -> (forall h, In h (t_holes t) -> pverts h <> []) ->
    exists t' r, insert_vertices H p t vs = Ok (t', r).
  Proof.
    intros H p t vs Hb Hh. unfold insert_vertices. destruct vs as [|v0 vs0]; [eexists; eexists; reflexivity|].
    rewrite (filterM_total _ _ (fun v => match vertex_rejected t v with Ok b => b | _ => true end)).
    - cbn [bind]. destruct (filter _ _); eexists; eexists; reflexivity.
    - intros v _. destruct (vertex_rejected_total t v Hb Hh) as [b ->]. reflexivity.
  Qed.

  (** *** what happens to the vertices and segments *)

  Lemma linked_trans : forall (ss : list edge) a b c, linked ss a b -> linked ss b c -> linked ss a c.
  Proof. intros ss a b c Hab. induction Hab; [auto|]. intros Hbc. eapply linked_step; eauto. Qed.
  Lemma linked_mono : forall (ss ss' : list edge), (forall a b, In (a, b) ss -> linked ss' a b) ->
    forall a b, linked ss a b -> linked ss' a b.
  Proof.
    intros ss ss' Hs a b Hab. induction Hab as [|a b c Hab Hbc IH]; [constructor|].
    apply (linked_trans ss' a b c); auto.
  Qed.
  Lemma linked_one : forall (ss : list edge) a b, In (a, b) ss -> linked ss a b.
  Proof. intros ss a b Hi. eapply linked_step; [exact Hi|constructor]. Qed.

  Lemma place_vertex_spec : forall v snapshot (segments ss : list edge),
    (forall s, In s snapshot -> In s segments) ->
    place_vertex v snapshot segments = Some ss ->
    (ss = segments /\ near_endpoint segments v) \/
    (exists s, In s segments /\ edge_contains s v = true /\
       forall x, In x ss <-> x = (fst s, v) \/ x = (v, snd s) \/ (In x segments /\ x <> s)).
  Proof.
    intros v snapshot segments ss. induction snapshot as [|s snapshot IH]; intros Hsub Hp; cbn [place_vertex] in Hp; [discriminate|].
    destruct (veqb (ev1 s) v || veqb (ev2 s) v) eqn:Hend.
    - injection Hp as <-. left. split; [reflexivity|]. exists s. split; [apply Hsub; left; reflexivity|].
      apply orb_true_iff in Hend. exact Hend.
    - destruct (edge_contains s v) eqn:Hc.
      + injection Hp as <-. right. exists s. split; [apply Hsub; left; reflexivity|]. split; [exact Hc|].
        intros x. rewrite !hadd_In, hdel_In. unfold ev1, ev2. intuition congruence.
      + apply IH; [|exact Hp]. intros x Hx; apply Hsub; right; exact Hx.
  Qed.

  Lemma place_vertices_spec : forall H vs p (t : triangulator),
    let t' := place_vertices H p vs t in
    (forall v, In v (t_vertices t) -> In v (t_vertices t')) /\
    (forall v, In v (t_vertices t') -> In v (t_vertices t) \/ In v vs) /\
    (forall a b, linked (t_segments t) a b -> linked (t_segments t') a b) /\
    (forall v, endpoint (t_segments t) v -> endpoint (t_segments t') v) /\
    (forall v, endpoint (t_segments t') v -> endpoint (t_segments t) v \/ In v vs) /\
    (forall v, near_endpoint (t_segments t) v -> near_endpoint (t_segments t') v) /\
    (forall v, In v vs ->
       In v (t_vertices t') \/ endpoint (t_segments t') v \/ near_endpoint (t_segments t') v).
  Proof.
    intros H vs. induction vs as [|v vs IH]; intros p t; cbn [place_vertices].
    - cbn zeta. repeat split; try tauto. intros v [].
    - destruct (place_vertex v (ho H (1 :: p) _ (t_segments t)) (t_segments t)) as [ss|] eqn:Hp.
      + apply place_vertex_spec in Hp; [|intros s Hs; apply ho_In in Hs; exact Hs].
        specialize (IH (0 :: p) (with_segments t ss)). cbn [with_segments t_vertices t_segments] in IH.
        cbn zeta in *. destruct IH as (I1 & I2 & I3 & I4 & I5 & I6 & I7).
        destruct Hp as [[-> Hnear]|[s [Hs [Hc Hss]]]].
        * repeat split; auto.
          -- intros u Hu. destruct (I2 u Hu); auto. right; right; assumption.
          -- intros u Hu. destruct (I5 u Hu); auto. right; right; assumption.
          -- intros u [<-|Hu]; [|auto]. right; right. auto.
        * assert (Hlk : forall a b, In (a, b) (t_segments t) -> linked ss a b).
          { intros a b Hab. destruct (edec (a, b) s) as [<-|Hne].
            - apply (linked_step ss a v b); [apply Hss; left; reflexivity|].
              apply linked_one, Hss. right; left; reflexivity.
            - apply linked_one, Hss. auto. }
          assert (Hep : forall u, endpoint (t_segments t) u -> endpoint ss u).
          { intros u [w [Hu|Hu]].
            - destruct (edec (u, w) s) as [<-|Hne].
              + exists v. left. apply Hss. left; reflexivity.
              + exists w. left. apply Hss. auto.
            - destruct (edec (w, u) s) as [<-|Hne].
              + exists v. right. apply Hss. right; left; reflexivity.
              + exists w. right. apply Hss. auto. }
          assert (Hep' : forall u, endpoint ss u -> endpoint (t_segments t) u \/ u = v).
          { destruct s as [sa sb]. cbn [fst snd] in Hss.
            intros u [w [Hu|Hu]]; apply Hss in Hu; destruct Hu as [He|[He|[Hu _]]].
            - injection He as -> ->. left. exists sb. left; exact Hs.
            - injection He as -> ->. right; reflexivity.
            - left. exists w. left; exact Hu.
            - injection He as -> ->. right; reflexivity.
            - injection He as -> ->. left. exists sa. right; exact Hs.
            - left. exists w. right; exact Hu. }
          assert (Hne : forall u, near_endpoint (t_segments t) u -> near_endpoint ss u).
          { intros u [x [Hx Hu]]. destruct (edec x s) as [->|Hxs].
            - destruct Hu as [Hu|Hu].
              + exists (fst s, v). split; [apply Hss; left; reflexivity|]. left; exact Hu.
              + exists (v, snd s). split; [apply Hss; right; left; reflexivity|]. right; exact Hu.
            - exists x. split; [apply Hss; auto|exact Hu]. }
          repeat split; auto.
          -- intros u Hu. destruct (I2 u Hu); auto. right; right; assumption.
          -- intros a b Hab. apply I3. revert a b Hab. apply linked_mono, Hlk.
          -- intros u Hu. destruct (I5 u Hu) as [Hu'|Hu']; [|right; right; exact Hu'].
             destruct (Hep' u Hu') as [?| ->]; [left; assumption|right; left; reflexivity].
          -- intros u [<-|Hu]; [|auto]. right; left. apply I4. exists (fst s). right. apply Hss. left; reflexivity.
      + specialize (IH (0 :: p) (with_vertices t (hadd vdec v (t_vertices t)))).
        cbn [with_vertices t_vertices t_segments] in IH. cbn zeta in *.
        destruct IH as (I1 & I2 & I3 & I4 & I5 & I6 & I7). repeat split; auto.
        * intros u Hu. apply I1, hadd_In. right; exact Hu.
        * intros u Hu. destruct (I2 u Hu) as [Hu'|Hu']; [|right; right; exact Hu'].
          apply hadd_In in Hu'. destruct Hu' as [->|Hu']; [right; left; reflexivity|left; exact Hu'].
        * intros u Hu. destruct (I5 u Hu); auto. right; right; assumption.
        * intros u [<-|Hu]; [|auto]. left. apply I1, hadd_In. left; reflexivity.
  Qed.

  Lemma insert_vertices_kept : forall H p (t : triangulator) vs t',
    insert_vertices H p t vs = Ok (t', RFine) ->
    (forall v, In v vs -> In v (t_vertices t') \/ endpoint (t_segments t') v \/ near_endpoint (t_segments t') v) /\
    (forall v, In v (t_vertices t) -> In v (t_vertices t')) /\
    (forall v, endpoint (t_segments t) v -> endpoint (t_segments t') v) /\
    (forall a b, linked (t_segments t) a b -> linked (t_segments t') a b) /\
    (forall v, In v (t_vertices t') -> In v (t_vertices t) \/ In v vs) /\
    (forall v, endpoint (t_segments t') v -> endpoint (t_segments t) v \/ In v vs).
  Proof.
    intros H p t vs t' Hr. unfold insert_vertices in Hr. destruct vs as [|v0 vs0].
    - injection Hr as <-. repeat split; try tauto. intros v [].
    - apply bind_ok in Hr. destruct Hr as [bad [Hbad Hr]]. destruct bad as [|b bad]; [|discriminate].
      injection Hr as <-. set (vs := v0 :: vs0).
      destruct (place_vertices_spec H (ho H (1 :: p) _ vs) (2 :: p) t) as (I1 & I2 & I3 & I4 & I5 & I6 & I7).
      repeat split; auto.
      + intros v Hv. apply I7, ho_In, Hv.
      + intros v Hv. destruct (I2 v Hv) as [?|Hx]; [left; assumption|right; apply ho_In in Hx; exact Hx].
      + intros v Hv. destruct (I5 v Hv) as [?|Hx]; [left; assumption|right; apply ho_In in Hx; exact Hx].
  Qed.

  (** ** insert_segments *)

  Lemma segment_rejected_ok : forall fuel (t : triangulator) s b, segment_rejected fuel t s = Ok b ->
    (b = false <-> segment_admissible fuel t s).
  Proof.
    intros fuel t s b Hb. unfold segment_rejected in Hb. cbn [new_opened length Nat.ltb Nat.leb] in Hb.
    cbn [unwrap bind] in Hb. apply bind_ok in Hb. destruct Hb as [c [Hc Hb]].
    unfold segment_admissible. cbn zeta. change (ev1 s) with (fst s) in *. change (ev2 s) with (snd s) in *.
    rewrite Hc. destruct (continence_is c Inside Open) eqn:Hi; cbn [negb] in Hb.
    - apply continence_is_eq in Hi. subst c. apply bind_ok in Hb. destruct Hb as [bad [Hbad Hb]].
      pose proof (filterM_in _ _ _ _ Hbad) as Hin. destruct (filterM_ok _ _ _ _ Hbad) as [g [Hg _]].
      assert (Hall : bad = [] <-> forall h, In h (t_holes t) ->
                poly_continence fuel h (Poly [fst s; snd s] true) = Ok (Some (Outside, Open))).
      { split.
        - intros -> h Hh. pose proof (Hg h Hh) as Hf. destruct (g h) eqn:Hgh.
          + exfalso. apply (proj2 (Hin h)). split; [exact Hh|exact Hf].
          + apply bind_ok in Hf. destruct Hf as [o [Ho Hf]]. rewrite Ho. f_equal.
            apply continence_is_eq. destruct (continence_is o Outside Open); cbn in Hf; congruence.
        - intros Hall. destruct bad as [|h bad]; [reflexivity|]. exfalso.
          destruct (proj1 (Hin h) (or_introl eq_refl)) as [Hh Hf].
          rewrite (Hall h Hh) in Hf. cbn in Hf. discriminate. }
      injection Hb as <-. rewrite <- Hall. destruct bad; intuition congruence.
    - injection Hb as <-. split; [discriminate|]. intros [He _]. injection He as ->. cbn in Hi. discriminate.
  Qed.

  Lemma insert_segments_spec : forall H fuel p (t : triangulator) ss t' r,
    insert_segments H fuel p t ss = Ok (t', r) ->
    match r with
    | RErr bad => t' = t /\ bad <> [] /\ forall s, In s bad <-> In s ss /\ ~ segment_admissible fuel t s
    | RFine => same_domain t t' /\ forall s, In s ss -> segment_admissible fuel t s
    end.
  Proof.
    intros H fuel p t ss t' r Hr. unfold insert_segments in Hr. destruct ss as [|s0 ss0].
    - injection Hr as <- <-. repeat split; destruct H0.
    - set (ss := s0 :: ss0) in *. apply bind_ok in Hr. destruct Hr as [bad [Hbad Hr]].
      pose proof (filterM_in _ _ _ _ Hbad) as Hin. destruct (filterM_ok _ _ _ _ Hbad) as [g [Hg _]].
      destruct bad as [|b bad].
      + apply bind_ok in Hr. destruct Hr as [[vs fresh] [Hab Hr]].
        apply bind_ok in Hr. destruct Hr as [sp [Hsp Hr]]. injection Hr as <- <-.
        split; [repeat split|]. intros s Hs.
        apply (segment_rejected_ok fuel t s false); [|reflexivity]. rewrite (Hg s Hs). f_equal.
        destruct (g s) eqn:Hgs; [|reflexivity]. exfalso.
        apply (proj2 (Hin s)). split; [exact Hs|]. rewrite (Hg s Hs), Hgs. reflexivity.
      + injection Hr as <- <-. split; [reflexivity|]. split; [discriminate|].
        intros s. rewrite Hin. split; intros [Hs Hx]; (split; [exact Hs|]).
        * intros Ha. apply (segment_rejected_ok fuel t s true Hx) in Ha. discriminate.
        * rewrite (Hg s Hs). f_equal. destruct (g s) eqn:Hgs; [reflexivity|]. exfalso. apply Hx.
          apply (segment_rejected_ok fuel t s false); [|reflexivity]. rewrite (Hg s Hs), Hgs. reflexivity.
  Qed.

  (** *** absorption of free vertices *)

  Lemma absorb_vertices_spec : forall s snapshot (vs vs' : list vertex) o,
    absorb_vertices s snapshot vs = (vs', o) ->
    (forall v, In v vs' -> In v vs) /\
    (forall v, In v vs -> In v vs' \/ veqb (fst s) v = true \/ veqb (snd s) v = true \/
                          o = Some [(v, snd s); (fst s, v)]) /\
    length vs' <= length vs /\
    match o with
    | None => forall v, In v snapshot -> edge_contains s v = false
    | Some parts => exists v, In v snapshot /\ edge_contains s v = true /\
                      parts = [(v, snd s); (fst s, v)] /\ ~ In v vs'
    end.
  Proof.
    intros s snapshot. induction snapshot as [|v snapshot IH]; intros vs vs' o Ha; cbn [absorb_vertices] in Ha.
    - injection Ha as <- <-. repeat split; auto. intros v [].
    - unfold ev1, ev2 in Ha.
      set (vs1 := if veqb (fst s) v || veqb (snd s) v then hdel vdec v vs else vs) in *.
      assert (Hsub : forall u, In u vs1 -> In u vs).
      { intros u. unfold vs1. destruct (_ || _); [rewrite hdel_In; tauto|auto]. }
      assert (Hsup : forall u, In u vs -> In u vs1 \/ veqb (fst s) u = true \/ veqb (snd s) u = true).
      { intros u Hu. unfold vs1. destruct (veqb (fst s) v || veqb (snd s) v) eqn:He; [|left; exact Hu].
        destruct (vdec u v) as [->|Hne]; [|left; apply hdel_In; auto].
        right. apply orb_true_iff in He. exact He. }
      assert (Hlen : length vs1 <= length vs).
      { unfold vs1. destruct (_ || _); [apply hdel_length_le|lia]. }
      destruct (edge_contains s v) eqn:Hc.
      + injection Ha as <- <-. repeat split.
        * intros u Hu. apply hdel_In in Hu. apply Hsub, Hu.
        * intros u Hu. destruct (Hsup u Hu) as [Hu1|Hu1]; [|right; tauto].
          destruct (vdec u v) as [->|Hne]; [right; right; right; reflexivity|].
          left. apply hdel_In. auto.
        * pose proof (hdel_length_le vdec v vs1). lia.
        * exists v. repeat split; auto; [left; reflexivity|]. rewrite hdel_In. intros [_ Hn]; apply Hn; reflexivity.
      + destruct (IH _ _ _ Ha) as (I1 & I2 & I3 & I4). repeat split.
        * intros u Hu. apply Hsub, I1, Hu.
        * intros u Hu. destruct (Hsup u Hu) as [Hu1|Hu1]; [|right; tauto]. apply I2, Hu1.
        * lia.
        * destruct o as [parts|].
          -- destruct I4 as [w [Hw Hr]]. exists w. split; [right; exact Hw|exact Hr].
          -- intros u [<-|Hu]; [exact Hc|apply I4, Hu].
  Qed.

  Lemma absorb_split_shorter : forall s snapshot (vs vs' : list vertex) parts,
    (forall v, In v snapshot -> In v vs) ->
    absorb_vertices s snapshot vs = (vs', Some parts) -> length vs' < length vs.
  Proof.
    intros s snapshot vs vs' parts Hsub Ha.
    destruct (absorb_vertices_spec _ _ _ _ _ Ha) as (I1 & _ & _ & v & Hv & _ & _ & Hnv).
    (* vs' is a sublist of vs missing v *)
    assert (Hgen : forall snapshot (vs vs' : list vertex) o, absorb_vertices s snapshot vs = (vs', o) ->
              exists f, vs' = filter f vs).
    { clear. induction snapshot as [|v snapshot IH]; intros vs vs' o Ha; cbn [absorb_vertices] in Ha.
      - injection Ha as <- <-. exists (fun _ => true). symmetry.
        induction vs as [|a vs IHv]; cbn; [reflexivity|]. f_equal; exact IHv.
      - set (vs1 := if veqb (ev1 s) v || veqb (ev2 s) v then hdel vdec v vs else vs) in *.
        assert (Hf1 : exists f, vs1 = filter f vs).
        { unfold vs1. destruct (_ || _); [eexists; reflexivity|]. exists (fun _ => true).
          clear. induction vs as [|a vs IHv]; cbn; [reflexivity|]. f_equal; exact IHv. }
        destruct Hf1 as [f1 Hf1].
        assert (Hff : forall f g (l : list vertex), filter f (filter g l) = filter (fun x => g x && f x) l).
        { intros f g l. induction l as [|a l IHl]; cbn; [reflexivity|].
          destruct (g a); cbn; [destruct (f a); cbn; rewrite IHl; reflexivity|exact IHl]. }
        destruct (edge_contains s v).
        + injection Ha as <- <-. rewrite Hf1. unfold hdel. rewrite Hff. eexists; reflexivity.
        + destruct (IH _ _ _ Ha) as [f2 ->]. rewrite Hf1, Hff. eexists; reflexivity. }
    destruct (Hgen _ _ _ _ Ha) as [f ->]. specialize (Hsub v Hv).
    clear - Hsub Hnv. induction vs as [|a vs IH]; [destruct Hsub|]. cbn in *.
    assert (Hle : forall l : list vertex, length (filter f l) <= length l).
    { induction l as [|b l IHl]; cbn; [lia|]. destruct (f b); cbn; lia. }
    specialize (Hle vs).
    destruct (f a) eqn:Hfa; cbn; [|lia]. destruct Hsub as [->|Hin].
    - exfalso. apply Hnv. left; reflexivity.
    - apply le_n_S. apply IH; [exact Hin|]. intros Hx; apply Hnv; right; exact Hx.
  Qed.

  Lemma absorb_loop_total : forall H fuel p aux (vs : list vertex) acc,
    2 * length vs + length aux < fuel -> exists r, absorb_loop H fuel p aux vs acc = Ok r.
  Proof.
    intros H fuel. induction fuel as [|fuel IH]; intros p aux vs acc Hf; [lia|]. cbn [absorb_loop].
    destruct aux as [|s aux]; [eexists; reflexivity|].
    destruct (absorb_vertices s (ho H (1 :: p) _ vs) vs) as [vs' [parts|]] eqn:Ha.
    - apply IH. pose proof (absorb_split_shorter _ _ _ _ _ (fun v Hv => proj1 (ho_In _ _ _ _ _) Hv) Ha) as Hl.
      destruct (absorb_vertices_spec _ _ _ _ _ Ha) as (_ & _ & _ & v & _ & _ & -> & _).
      cbn [length app] in *. lia.
    - destruct (absorb_vertices_spec _ _ _ _ _ Ha) as (_ & _ & Hl & _). apply IH. cbn [length] in Hf. lia.
  Qed.

  Lemma absorb_loop_spec : forall H fuel p aux (vs : list vertex) acc vs' acc',
    absorb_loop H fuel p aux vs acc = Ok (vs', acc') ->
    (forall v, In v vs' -> In v vs) /\
    (forall s, In s acc -> In s acc') /\
    (forall s v, In s acc' -> In s acc \/ (In v vs' -> edge_contains s v = false)) /\
    (forall s, In s aux -> linked acc' (fst s) (snd s)) /\
    (forall v, endpoint acc' v -> endpoint acc v \/ endpoint aux v \/ In v vs) /\
    (forall v, In v vs -> In v vs' \/ near_endpoint acc' v) /\
    (forall s, In s aux -> (exists w, In (fst s, w) acc') /\ (exists w, In (w, snd s) acc')).
  Proof.
    intros H fuel. induction fuel as [|fuel IH]; intros p aux vs acc vs' acc' Hr; cbn [absorb_loop] in Hr; [discriminate|].
    destruct aux as [|s aux].
    - injection Hr as <- <-. split; [auto|]. split; [auto|]. split; [auto|]. split; [intros s []|].
      split; [auto|]. split; [auto|]. intros s [].
    - destruct (absorb_vertices s (ho H (1 :: p) _ vs) vs) as [vs1 [parts|]] eqn:Ha.
      + destruct (absorb_vertices_spec _ _ _ _ _ Ha) as (A1 & A2 & _ & v & Hv & Hc & -> & Hnv).
        apply ho_In in Hv. cbn [app] in Hr.
        destruct (IH _ _ _ _ _ _ Hr) as (I1 & I2 & I3 & I4 & I5 & I6 & I7).
        assert (L1 : linked acc' v (snd s)) by (apply (I4 (v, snd s)); left; reflexivity).
        assert (L2 : linked acc' (fst s) v) by (apply (I4 (fst s, v)); right; left; reflexivity).
        destruct (I7 (v, snd s) (or_introl eq_refl)) as [[wv Nv] [w2 N2]]. cbn [fst snd] in Nv, N2.
        destruct (I7 (fst s, v) (or_intror (or_introl eq_refl))) as [[w1 N1] _]. cbn [fst snd] in N1.
        split; [auto|]. split; [auto|]. split; [auto|]. split; [|split; [|split]].
        * intros x [<-|Hx]; [apply (linked_trans acc' _ v); assumption|]. apply I4. right; right; exact Hx.
        * intros u Hu. destruct (I5 u Hu) as [?|[[w Hw]|?]]; [auto| |right; right; apply A1; assumption].
          cbn [In] in Hw. destruct s as [sa sb]. cbn [fst snd] in Hw.
          destruct Hw as [[He|[He|Hw]]|[He|[He|Hw]]].
          -- injection He as <- <-. right; right; exact Hv.
          -- injection He as <- <-. right; left. exists sb. left; left; reflexivity.
          -- right; left. exists w. left; right; exact Hw.
          -- injection He as <- <-. right; left. exists sa. right; left; reflexivity.
          -- injection He as <- <-. right; right; exact Hv.
          -- right; left. exists w. right; right; exact Hw.
        * intros u Hu. destruct (A2 u Hu) as [Hu1|Hu1]; [apply I6, Hu1|]. right.
          destruct Hu1 as [Hu1|[Hu1|He]].
          -- exists (fst s, w1). split; [exact N1|left; exact Hu1].
          -- exists (w2, snd s). split; [exact N2|right; exact Hu1].
          -- injection He as ->. exists (u, wv). split; [exact Nv|left]. cbn. unfold veqb.
             destruct (vghost u); cbn; [reflexivity|]. rewrite !aeq_refl. reflexivity.
        * intros x [<-|Hx]; [split; eexists; eassumption|]. apply I7. right; right; exact Hx.
      + destruct (absorb_vertices_spec _ _ _ _ _ Ha) as (A1 & A2 & _ & Hc).
        destruct (IH _ _ _ _ _ _ Hr) as (I1 & I2 & I3 & I4 & I5 & I6 & I7).
        assert (Hs : In s acc') by (apply I2, hadd_In; left; reflexivity).
        split; [auto|]. split; [intros x Hx; apply I2, hadd_In; right; exact Hx|].
        split; [|split; [|split; [|split]]].
        * intros x v Hx. destruct (I3 x v Hx) as [Hx'|Hx']; [|right; exact Hx'].
          apply hadd_In in Hx'. destruct Hx' as [->|Hx']; [|left; exact Hx'].
          right. intros Hv. apply Hc, ho_In, A1, I1, Hv.
        * intros x [<-|Hx]; [|apply I4, Hx]. apply linked_one. destruct s; exact Hs.
        * intros u Hu. destruct (I5 u Hu) as [[w Hw]|[[w Hw]|Hw]].
          -- rewrite !hadd_In in Hw. destruct Hw as [[He|Hw]|[He|Hw]].
             ++ right; left. exists w. left; left; congruence.
             ++ left. exists w. left; exact Hw.
             ++ right; left. exists w. right; left; congruence.
             ++ left. exists w. right; exact Hw.
          -- right; left. exists w. cbn [In]. tauto.
          -- right; right. apply A1, Hw.
        * intros u Hu. destruct (A2 u Hu) as [Hu1|[Hu1|[Hu1|He]]]; [apply I6, Hu1| | |discriminate].
          -- right. exists s. split; [exact Hs|left; exact Hu1].
          -- right. exists s. split; [exact Hs|right; exact Hu1].
        * intros x [<-|Hx]; [|apply I7, Hx]. destruct s as [sa sb]. split; eexists; exact Hs.
  Qed.

  (** ** insert_hole *)

  Lemma foldM_In : forall X Y (f : list Y -> X -> res (list Y)) (Q : X -> Y -> Prop) (l : list X) (acc r : list Y),
    (forall acc x r, In x l -> f acc x = Ok r -> forall y, In y r <-> In y acc \/ Q x y) ->
    foldM f acc l = Ok r -> forall y, In y r <-> In y acc \/ exists x, In x l /\ Q x y.
  Proof.
    intros X Y f Q l. induction l as [|a l IH]; intros acc r Hf Hr y; cbn in Hr.
    - injection Hr as <-. split; [auto|]. intros [Hy|[x [[] _]]]; exact Hy.
    - apply bind_ok in Hr. destruct Hr as [acc1 [Ha Hr]].
      rewrite (IH acc1 r (fun acc x r Hx => Hf acc x r (or_intror Hx)) Hr y).
      rewrite (Hf acc a acc1 (or_introl eq_refl) Ha y). split.
      + intros [[Hy|Hy]|[x [Hx Hy]]]; [auto|right; exists a; cbn; auto|right; exists x; cbn; auto].
      + intros [Hy|[x [[<-|Hx] Hy]]]; [auto|auto|right; exists x; auto].
  Qed.

  Lemma foldM_all_ok : forall X Y (f : Y -> X -> res Y) (l : list X) (acc r : Y),
    foldM f acc l = Ok r -> forall x, In x l -> exists a r', f a x = Ok r'.
  Proof.
    intros X Y f l. induction l as [|a l IH]; intros acc r Hr x Hx; [destruct Hx|]. cbn in Hr.
    apply bind_ok in Hr. destruct Hr as [acc1 [Ha Hr]]. destruct Hx as [<-|Hx]; [eauto|]. eapply IH; eauto.
  Qed.

  Lemma hole_conflicts_spec : forall fuel (t : triangulator) h cv, hole_conflicts fuel t h = Ok cv ->
    forall v, In v cv <-> clash fuel t h v.
  Proof.
    intros fuel t h cv Hc v. unfold hole_conflicts in Hc. apply bind_ok in Hc. destruct Hc as [c [Hb Hc]].
    assert (Hstep : forall (acc : list vertex) (x : polyline) r, In x (t_holes t) ->
      (let! c0 := poly_continence fuel x h in
       Ok (if continence_is c0 Outside Open then acc else hset vdec (acc ++ pverts x))) = Ok r ->
      forall y, In y r <-> In y acc \/ (poly_continence fuel x h <> Ok (Some (Outside, Open)) /\ In y (pverts x))).
    { intros acc x r _ Hr y. apply bind_ok in Hr. destruct Hr as [c' [Hc' Hr]]. injection Hr as <-. rewrite Hc'.
      destruct (continence_is c' Outside Open) eqn:Hi.
      - apply continence_is_eq in Hi. subst c'. intuition congruence.
      - rewrite hset_In, in_app_iff. split; [|tauto]. intros [Hy|Hy]; [auto|]. right. split; [|exact Hy].
        intros He. injection He as ->. cbn in Hi. discriminate. }
    rewrite (foldM_In _ _ _ _ _ _ _ Hstep Hc v). unfold clash. rewrite Hb.
    destruct (continence_is c Inside Open) eqn:Hi.
    - apply continence_is_eq in Hi. subst c. cbn [In]. split; [intros [[]|Hx]; auto|].
      intros [[Hx _]|Hx]; [congruence|auto].
    - rewrite hset_In. split; [intros [Hy|Hx]; [left; split; [|exact Hy]|auto]|intros [[_ Hx]|Hx]; auto].
      intros He. injection He as ->. cbn in Hi. discriminate.
  Qed.

  Lemma hole_segment_conflicts_spec : forall fuel (t : triangulator) h cv,
    hole_segment_conflicts fuel t h = Ok cv -> forall v, In v cv <-> segment_clash fuel t h v.
  Proof.
    intros fuel t h cv Hc v. unfold hole_segment_conflicts in Hc.
    assert (Hstep : forall (acc : list vertex) (s : edge) r, In s (t_segments t) ->
      (let! sp := unwrap (new_opened [ev1 s; ev2 s]) in
       let! c := poly_continence fuel h sp in
       Ok (if continence_is c Outside Open then acc else hadd vdec (ev2 s) (hadd vdec (ev1 s) acc))) = Ok r ->
      forall y, In y r <-> In y acc \/ (poly_continence fuel h (as_poly s) <> Ok (Some (Outside, Open)) /\ (y = fst s \/ y = snd s))).
    { intros acc s r _ Hr y. cbn [new_opened length Nat.ltb Nat.leb unwrap bind] in Hr.
      apply bind_ok in Hr. destruct Hr as [c' [Hc' Hr]]. injection Hr as <-.
      unfold as_poly. unfold ev1, ev2 in *. rewrite Hc'.
      destruct (continence_is c' Outside Open) eqn:Hi.
      - apply continence_is_eq in Hi. subst c'. intuition congruence.
      - rewrite !hadd_In. split; [|tauto]. intros [Hy|[Hy|Hy]]; [right|right|auto]; (split; [|auto]);
          intros He; injection He as ->; cbn in Hi; discriminate. }
    rewrite (foldM_In _ _ _ _ _ _ _ Hstep Hc v). unfold segment_clash. cbn [In]. intuition.
  Qed.

  Lemma insert_hole_spec : forall fuel (t : triangulator) h t' r,
    proper (t_boundary t) -> (forall h', In h' (t_holes t) -> proper h') ->
    insert_hole fuel t h = Ok (t', r) ->
    match r with
    | RErr cv => t' = t /\ cv <> [] /\ ~ hole_admissible fuel t h /\
        ((exists v, clash fuel t h v) -> forall v, In v cv <-> clash fuel t h v) /\
        ((forall v, ~ clash fuel t h v) -> forall v, In v cv <-> segment_clash fuel t h v)
    | RFine => hole_admissible fuel t h /\ same_set (t_holes t') (h :: t_holes t) /\
        t_boundary t' = t_boundary t /\ t_trn t' = t_trn t /\
        t_vertices t' = t_vertices t /\ t_segments t' = t_segments t
    end.
  Proof.
    intros fuel t h t' r Hb Hh Hr. unfold insert_hole in Hr. apply bind_ok in Hr.
    destruct Hr as [cv [Hcv Hr]]. pose proof (hole_conflicts_spec _ _ _ _ Hcv) as Hspec.
    destruct cv as [|v0 cv].
    - apply bind_ok in Hr. destruct Hr as [cv2 [Hcv2 Hr]].
      pose proof (hole_segment_conflicts_spec _ _ _ _ Hcv2) as Hspec2.
      destruct cv2 as [|v0 cv2]; injection Hr as <- <-.
      + assert (Hadm : hole_admissible fuel t h).
        { split; [|split].
          - unfold hole_conflicts in Hcv. apply bind_ok in Hcv. destruct Hcv as [c [Hc _]].
            destruct (continence_is c Inside Open) eqn:Hi; [apply continence_is_eq in Hi; congruence|].
            exfalso. pose proof (proper_nonempty _ Hb) as Hne. destruct (pverts (t_boundary t)) as [|w ws] eqn:Hw; [congruence|].
            apply (proj2 (Hspec w)). left. rewrite Hw. split; [|left; reflexivity].
            rewrite Hc. intros He. injection He as ->. cbn in Hi. discriminate.
          - intros h' Hh'. unfold hole_conflicts in Hcv. apply bind_ok in Hcv. destruct Hcv as [c [_ Hcv]].
            destruct (foldM_all_ok _ _ _ _ _ _ Hcv h' Hh') as [a [r' Hf]]. apply bind_ok in Hf.
            destruct Hf as [c' [Hc' _]].
            destruct (continence_is c' Outside Open) eqn:Hi; [apply continence_is_eq in Hi; congruence|].
            exfalso. pose proof (proper_nonempty _ (Hh h' Hh')) as Hne. destruct (pverts h') as [|w ws] eqn:Hw; [congruence|].
            apply (proj2 (Hspec w)). right. exists h'. rewrite Hw. split; [exact Hh'|]. split; [|left; reflexivity].
            rewrite Hc'. intros He. injection He as ->. cbn in Hi. discriminate.
          - intros s Hs. unfold hole_segment_conflicts in Hcv2.
            destruct (foldM_all_ok _ _ _ _ _ _ Hcv2 s Hs) as [a [r' Hf]].
            cbn [new_opened length Nat.ltb Nat.leb unwrap bind] in Hf. apply bind_ok in Hf.
            destruct Hf as [c' [Hc' _]]. unfold ev1, ev2 in Hc'. fold (as_poly s) in Hc'.
            destruct (continence_is c' Outside Open) eqn:Hi; [apply continence_is_eq in Hi; congruence|].
            exfalso. apply (proj2 (Hspec2 (fst s))). exists s. split; [exact Hs|]. split; [|left; reflexivity].
            rewrite Hc'. intros He. injection He as ->. cbn in Hi. discriminate. }
        split; [exact Hadm|]. cbn. split; [|repeat split].
        intros x. rewrite hadd_In. cbn [In]. intuition congruence.
      + split; [reflexivity|]. split; [discriminate|]. split; [|split].
        * intros [_ [_ Ha]]. destruct (proj1 (Hspec2 v0) (or_introl eq_refl)) as [s [Hs [Hc _]]].
          apply Hc, Ha, Hs.
        * intros [v Hv]. exfalso. apply (proj2 (Hspec v) Hv).
        * intros _ v. apply Hspec2.
    - injection Hr as <- <-. split; [reflexivity|]. split; [discriminate|]. split; [|split].
      + intros [Ha1 [Ha2 _]]. destruct (proj1 (Hspec v0) (or_introl eq_refl)) as [[Hc _]|[h' [Hh' [Hc _]]]]; auto.
      + intros _ v. apply Hspec.
      + intros Hn. exfalso. apply (Hn v0), Hspec. left; reflexivity.
  Qed.

  (** ** frames *)

  Lemma triangulate_frame : forall H fuel p (t t' : triangulator), triangulate H fuel p t = Ok t' ->
    t_boundary t' = t_boundary t /\ t_holes t' = t_holes t /\
    t_vertices t' = t_vertices t /\ t_segments t' = t_segments t.
  Proof.
    intros H fuel p t t' Hr. unfold triangulate in Hr.
    repeat (apply bind_ok in Hr; let x := fresh "x" in let Hx := fresh "Hx" in destruct Hr as [x [Hx Hr]];
            try (destruct x as [[? ?] ?] || destruct x as [? ?])).
    injection Hr as <-. repeat split.
  Qed.

  Lemma triangulate_fresh : forall H fuel p (t : triangulator) tr,
    triangulate H fuel p (with_triangulation t tr) = triangulate H fuel p t.
  Proof. reflexivity. Qed.

  Lemma refine_frame : forall H fuel p (t t' : triangulator) prm cs, refine H fuel p t prm = Ok (t', cs) ->
    t_boundary t' = t_boundary t /\ t_holes t' = t_holes t /\
    t_vertices t' = t_vertices t /\ t_segments t' = t_segments t.
  Proof.
    intros H fuel p t t' prm cs Hr. unfold refine in Hr.
    apply bind_ok in Hr. destruct Hr as [c [_ Hr]].
    apply bind_ok in Hr. destruct Hr as [[[[tr1 sm] ?] ?] [_ Hr]].
    apply bind_ok in Hr. destruct Hr as [[[tr2 ?] sm2] [_ Hr]].
    injection Hr as <- _. repeat split.
  Qed.
End Triangulator.
