(** P_Ring1.v — inputs without an include, and inputs of one ring with free vertices (C147). *)

From Coq Require Import String List Arith Lia Bool ZArith Permutation.
From Verif Require Import Base Arith Geometry Elements Polyline Refine Triangulator Interface Spec SpecI P_Base P_Triangulator P_Tri2 P_Interface P_L1 P_Poly P_E9 ArithF Samples P_Reject.
Import ListNotations.
Local Open Scope string_scope.
Local Open Scope list_scope.
Local Open Scope nat_scope.

Section Ring1.
  Context {A : Arith} (H : HashOrder).
  Notation vertex := (vertex A).
  Notation action := (action A).

  Lemma body_unique : forall fuel (a : action) pl pl', body fuel a pl -> body fuel a pl' -> pl = pl'.
  Proof. intros fuel a pl pl' [[E1 E2]|[E1 E2]] [[E3 E4]|[E3 E4]]; congruence. Qed.
  Lemma body_geometry : forall fuel (a : action) pl, body fuel a pl -> a_geometry a = "polyline" \/ a_geometry a = "circle".
  Proof. intros fuel a pl [[E _]|[E _]]; auto. Qed.
  Lemma means_unique : forall fuel (a : action) (f g : effect (A:=A)), means fuel a f -> means fuel a g -> f = g.
  Proof.
    intros fuel a f g Hf Hg. destruct Hf as [pl Hb Hi|pl Hb Hi|es E Hi Hp|E Hi]; destruct Hg as [pl' Hb' Hi'|pl' Hb' Hi'|es' E' Hi' Hp'|E' Hi']; try congruence;
      rewrite (body_unique _ _ _ _ Hb Hb'); reflexivity.
  Qed.
  Lemma all_means_unique : forall fuel acts (fs gs : list (effect (A:=A))), Forall2 (means fuel) acts fs -> Forall2 (means fuel) acts gs -> fs = gs.
  Proof.
    intros fuel acts fs gs Hf. revert gs. induction Hf as [|a f acts fs Ha Hf IH]; intros gs Hg; inversion Hg; subst; [reflexivity|].
    f_equal; [eapply means_unique; eassumption|apply IH; assumption].
  Qed.
  Lemma all_mean : forall fuel acts (fs : list (effect (A:=A))), Forall2 (means fuel) acts fs -> forall a, In a acts -> exists f, means fuel a f.
  Proof. intros fuel acts fs Hf. induction Hf as [|b f acts fs Hb Hf IH]; intros a Ha; [destruct Ha|]. destruct Ha as [<-|Ha]; eauto. Qed.
  Lemma interpret_means : forall fuel (inp : input A) fs, Forall2 (means fuel) (i_actions inp) fs -> exists d, interpret fuel inp = Ok (Some (d, RP (i_max_area inp) (i_quality inp))) /\
    d_includes d = flat_map included fs /\ d_removes d = flat_map removed fs /\
    (forall e, In e (d_segments d) <-> exists f, In f fs /\ In e (segments_of f)) /\ (forall v, In v (d_vertices d) <-> exists f, In f fs /\ In v (vertices_of f)).
  Proof.
    intros fuel inp fs Hf. destruct (proj2 (proj1 (interpret_exact fuel inp)) (all_mean _ _ _ Hf)) as [[d prm] E].
    destruct (interpret_accepts _ _ _ _ E) as (-> & gs & Hg & K). rewrite <- (all_means_unique _ _ _ _ Hf Hg) in K. exists d. split; [exact E|exact K].
  Qed.

  (** ** Without an include *)
  Lemma no_include : forall fuel p (inp : input A) fs, Forall2 (means fuel) (i_actions inp) fs -> flat_map included fs = [] -> parse H fuel p inp = Ok None.
  Proof.
    intros fuel p inp fs Hf Hi. destruct (interpret_means _ _ _ Hf) as (d & E & Ei & _). unfold parse. rewrite E. cbn [bind]. rewrite Ei, Hi.
    rewrite (proj1 (domain_boundary_spec H fuel (1 :: p) [] (d_removes d)) eq_refl). reflexivity.
  Qed.

  (** ** One ring *)
  Lemma ho_nil : forall p X, ho H p X [] = [].
  Proof. intros p X. apply Permutation_nil, (ho_perm H). Qed.
  Lemma ho_one : forall p X (x : X), ho H p X [x] = [x].
  Proof. intros p X x. apply Permutation_length_1_inv, (ho_perm H). Qed.
  Lemma place_free : forall vs p (t : triangulator A), t_segments t = [] -> let t' := place_vertices H p vs t in
    t_trn t' = t_trn t /\ t_boundary t' = t_boundary t /\ t_holes t' = t_holes t /\ t_segments t' = [] /\ forall v, In v (t_vertices t') <-> In v (t_vertices t) \/ In v vs.
  Proof.
    induction vs as [|v vs IH]; intros p t E; cbn [place_vertices].
    - cbn zeta. repeat (split; [reflexivity || exact E|]). intros x. cbn. tauto.
    - rewrite E, ho_nil. cbn [place_vertex].
      destruct (IH (0 :: p) (with_vertices t (hadd vdec v (t_vertices t))) E) as (E1 & E2 & E3 & E4 & K). cbn zeta in *. rewrite E1, E2, E3, E4.
      repeat (split; [reflexivity|]). intros x. rewrite K. cbn [with_vertices t_vertices]. rewrite hadd_In. cbn. intuition.
  Qed.
  Lemma ring_proper : forall fuel acts fs (pl : polyline A), Forall2 (means fuel) acts fs -> flat_map included fs = [pl] -> proper pl.
  Proof.
    intros fuel acts fs pl Hf Hi. left. assert (Hin : In pl (flat_map included fs)) by (rewrite Hi; left; reflexivity). apply in_flat_map in Hin. destruct Hin as (f & Hin & Hpl).
      clear -Hf Hin Hpl. revert f Hin Hpl. induction Hf as [|a g acts fs Ha Hf IH]; intros f Hin Hpl; [destruct Hin|].
      destruct Hin as [->|Hin]; [|eapply IH; eassumption].
      destruct Ha as [q Hb _|q Hb _|es _ _ _|_ _]; cbn in Hpl; [|contradiction|contradiction|contradiction]. destruct Hpl as [->|[]]. exact (body_proper _ _ _ Hb).
  Qed.
  Lemma ring_boundary : forall fuel p (pl : polyline A), domain_boundary H fuel p [pl] [] = Ok (Some (pl, [])).
  Proof.
    intros fuel p pl. unfold domain_boundary. rewrite (hset_NoDup_id pdec [pl]) by (constructor; [intros []|constructor]). rewrite ho_one.
      assert (Ed : hdel pdec pl [pl] = []) by (destruct (hdel pdec pl [pl]) as [|x l] eqn:Ed; [reflexivity|]; exfalso;
        assert (Hx : In x (hdel pdec pl [pl])) by (rewrite Ed; left; reflexivity); apply hdel_In in Hx; destruct Hx as [[->|[]] Hx]; apply Hx; reflexivity).
      rewrite Ed. reflexivity.
  Qed.
  Lemma one_ring : forall fuel p (inp : input A) fs pl, 0 < fuel -> Forall2 (means fuel) (i_actions inp) fs -> flat_map included fs = [pl] -> flat_map removed fs = [] ->
    (forall f, In f fs -> segments_of f = []) -> let asked v := exists f, In f fs /\ In v (vertices_of f) in
    exists o, parse H fuel p inp = Ok o /\ match o with
    | None => exists v, asked v /\ poly_contains pl v <> Ok (Some Inside)
    | Some (t, prm) => prm = RP (i_max_area inp) (i_quality inp) /\ t_trn t = trn_new /\ t_boundary t = pl /\ t_holes t = [] /\ t_segments t = [] /\
        (forall v, In v (t_vertices t) <-> asked v) /\ forall v, asked v -> poly_contains pl v = Ok (Some Inside)
    end.
  Proof.
    intros fuel p inp fs pl H0 Hf Hi Hr Hs asked. destruct (interpret_means _ _ _ Hf) as (d & E & Ei & Er & Es & Ev).
    assert (Es' : d_segments d = []).
    { destruct (d_segments d) as [|e l]; [reflexivity|]. exfalso. destruct (proj1 (Es e) (or_introl eq_refl)) as (f & Hin & He). rewrite (Hs f Hin) in He. exact He. }
    assert (Hp : proper pl) by exact (ring_proper _ _ _ _ Hf Hi).
    unfold parse. rewrite E. cbn [bind]. rewrite Ei, Hi, Er, Hr, Es'.
    rewrite (ring_boundary fuel (1 :: p) pl). cbn [bind]. unfold domain_holes. cbn [rev]. destruct fuel as [|fuel]; [lia|]. cbn [holes_loop bind]. rewrite ho_nil. cbn [insert_holes bind insert_segments].
    destruct (insert_vertices_answers H (5 :: p) (triangulator_new pl) (d_vertices d) Hp) as (t' & r & Ea); [intros h []|]. rewrite Ea. cbn [bind].
    pose proof (insert_vertices_spec H _ _ _ _ _ Ea) as K. destruct r as [|bad].
    - exists (Some (t', RP (i_max_area inp) (i_quality inp))). split; [reflexivity|]. split; [reflexivity|]. destruct K as [_ Kad].
      assert (P : t_trn t' = trn_new /\ t_boundary t' = pl /\ t_holes t' = [] /\ t_segments t' = [] /\ forall v, In v (t_vertices t') <-> In v (d_vertices d)).
      { unfold insert_vertices in Ea. destruct (d_vertices d) as [|w vs] eqn:Ed.
        - injection Ea as <-. cbn. repeat (split; [reflexivity|]). intros v. tauto.
        - apply bind_ok in Ea. destruct Ea as (bad & _ & Ea). destruct bad; [|discriminate]. injection Ea as <-.
          destruct (place_free (ho H (1 :: 5 :: p) _ (w :: vs)) (2 :: 5 :: p) (triangulator_new pl) eq_refl) as (E1 & E2 & E3 & E4 & E5). cbn zeta in *.
          rewrite E1, E2, E3, E4. repeat (split; [reflexivity|]). intros v. rewrite E5. cbn [triangulator_new t_vertices]. split.
          + intros [[]|Hv]. eapply Permutation_in; [apply Permutation_sym, (ho_perm H)|exact Hv].
          + intros Hv. right. eapply Permutation_in; [apply (ho_perm H)|exact Hv]. }
      destruct P as (P1 & P2 & P3 & P4 & P5). repeat (split; [assumption|]). split; [intros v; rewrite P5; apply Ev|].
      intros v Hv. apply Kad. apply Ev. exact Hv.
    - exists None. split; [reflexivity|]. destruct K as (_ & Hne & Kb). destruct bad as [|v bad]; [contradiction|]. destruct (proj1 (Kb v) (or_introl eq_refl)) as [Hv Hna].
      exists v. split; [apply Ev; exact Hv|]. intros Hc. apply Hna. split; [exact Hc|intros h []].
  Qed.
  (** ** One ring with segments *)
  Lemma absorb_safe : forall fuel p aux vs acc, absorb_loop (A:=A) H fuel p aux vs acc <> Panic.
  Proof.
    induction fuel as [|fuel IH]; intros p aux vs acc; cbn [absorb_loop]; [discriminate|]. destruct aux as [|s aux]; [discriminate|].
    destruct (absorb_vertices s (ho H (1 :: p) _ vs) vs) as [vs' [parts|]]; apply IH.
  Qed.
  Lemma segments_safe : forall fuel p (t : triangulator A) ss, proper (t_boundary t) -> t_holes t = [] -> insert_segments H fuel p t ss <> Panic.
  Proof.
    intros fuel p t ss Hp Hh. unfold insert_segments. destruct ss as [|s ss]; [discriminate|]. apply bind_safe.
    - apply filterM_safe. intros x _. unfold segment_rejected. change (new_opened [ev1 x; ev2 x]) with (Some (Poly [ev1 x; ev2 x] true)). cbn [unwrap bind].
      apply bind_safe; [apply poly_continence_no_panic; [exact Hp|right; reflexivity]|]. intros c _. destruct (negb (continence_is c Inside Open)); [discriminate|].
      rewrite Hh. discriminate.
    - intros [|b bad] _; [|discriminate]. apply bind_safe; [apply absorb_safe|]. intros [vs fresh] _. apply bind_safe; [apply split_sound|]. intros cut _. discriminate.
  Qed.
  Lemma ring_constraints : forall fuel p (inp : input A) fs pl, Forall2 (means fuel) (i_actions inp) fs -> flat_map included fs = [pl] -> flat_map removed fs = [] ->
    let asked v := exists f, In f fs /\ In v (vertices_of f) in let wanted s := exists f, In f fs /\ In s (segments_of f) in
    parse H fuel p inp <> Panic /\ forall o, parse H fuel p inp = Ok o -> match o with
    | None => (exists s, wanted s /\ poly_continence fuel pl (Poly [fst s; snd s] true) <> Ok (Some (Inside, Open))) \/ (exists v, asked v /\ poly_contains pl v <> Ok (Some Inside))
    | Some (t, prm) => prm = RP (i_max_area inp) (i_quality inp) /\ t_boundary t = pl /\ t_holes t = [] /\
        (forall s, wanted s -> poly_continence fuel pl (Poly [fst s; snd s] true) = Ok (Some (Inside, Open))) /\ (forall v, asked v -> poly_contains pl v = Ok (Some Inside))
    end.
  Proof.
    intros fuel p inp fs pl Hf Hi Hr asked wanted. destruct (interpret_means _ _ _ Hf) as (d & E & Ei & Er & Es & Ev). pose proof (ring_proper _ _ _ _ Hf Hi) as Hp.
    unfold parse. rewrite E. cbn [bind]. rewrite Ei, Hi, Er, Hr. rewrite (ring_boundary fuel (1 :: p) pl). cbn [bind]. unfold domain_holes. cbn [rev].
    destruct fuel as [|fuel']; [split; discriminate|]. set (fuel := S fuel') in *. change (holes_loop H fuel (2 :: p) pl [] []) with (Ok (@nil (polyline A))). cbn [bind]. rewrite ho_nil. cbn [insert_holes bind].
    pose proof (segments_safe fuel (4 :: p) (triangulator_new pl) (d_segments d) Hp eq_refl) as Hsafe.
    destruct (insert_segments H fuel (4 :: p) (triangulator_new pl) (d_segments d)) as [[t2 r2]| |] eqn:E2; [|contradiction|split; discriminate]. cbn [bind].
    pose proof (insert_segments_spec H _ _ _ _ _ _ E2) as K2. destruct r2 as [|bad].
    - destruct K2 as [Hsd Kad]. destruct Hsd as (Sd1 & Sd2 & Sd3).
      assert (B2 : t_boundary t2 = pl) by (cbn in *; congruence). assert (H2 : t_holes t2 = []) by (cbn in *; congruence).
      destruct (insert_vertices_answers H (5 :: p) t2 (d_vertices d)) as (t3 & r3 & E3); [rewrite B2; exact Hp|rewrite H2; intros h []|]. rewrite E3. cbn [bind].
      pose proof (insert_vertices_spec H _ _ _ _ _ E3) as K3. destruct r3 as [|bad].
      + destruct K3 as [Hsd' Kv]. destruct Hsd' as (Sd4 & Sd5 & Sd6). split; [discriminate|]. intros o Eo. injection Eo as <-. split; [reflexivity|]. split; [congruence|]. split; [congruence|]. split.
        * intros s Hs. apply Kad. apply Es. exact Hs.
        * intros v Hv. rewrite <- B2. apply Kv. apply Ev. exact Hv.
      + split; [discriminate|]. intros o Eo. injection Eo as <-. right. destruct K3 as (_ & Hne & Kb). destruct bad as [|v bad]; [contradiction|].
        destruct (proj1 (Kb v) (or_introl eq_refl)) as [Hv Hna]. exists v. split; [apply Ev; exact Hv|]. intros Hc. apply Hna. split; [rewrite B2; exact Hc|rewrite H2; intros h []].
    - split; [discriminate|]. intros o Eo. injection Eo as <-. left. destruct K2 as (_ & Hne & Kb). destruct bad as [|s bad]; [contradiction|].
      destruct (proj1 (Kb s) (or_introl eq_refl)) as [Hs Hna]. exists s. split; [apply Es; exact Hs|]. intros Hc. apply Hna. split; [exact Hc|intros h []].
  Qed.
End Ring1.

(** ** A square with two vertices asked for, one of them outside in the second case *)
Definition the_square : polyline ArithF := Poly (map set_at (a_points a_square)) false.
Definition two_points (x : Z) : action ArithF := Act (A:=ArithF) "constraint" "vertices" [] [point_of 3 4; point_of x 2] [].
Definition square_and (x : Z) : input ArithF := Inp (A:=ArithF) [a_square; two_points x] None (fpz 1%Z).
Definition square_effects (x : Z) : list (effect (A:=ArithF)) := [EInclude the_square; EVertices (map set_at (a_points (two_points x)))].

Lemma case_means : forall x, Forall2 (means 30) (i_actions (square_and x)) (square_effects x).
Proof.
  intros x. constructor; [|constructor; [apply means_vertices; reflexivity|constructor]].
  destruct (case_square (two_points x)) as (before & after & E & K).
  assert (Hm : exists f, means 30 a_square f).
  { destruct before as [|b before]; [|injection E as <- _; apply K; left; reflexivity]. injection E as E _. discriminate E. }
  destruct Hm as [f Hf]. destruct Hf as [pl Hb Hi|pl Hb Hi|es E' Hi Hp|E' Hi]; try discriminate.
  apply means_include; [|reflexivity]. destruct Hb as [[Eg Eb]|[Eg Eb]]; [|discriminate]. left. split; [reflexivity|].
  destruct (parse_polyline_some _ _ _ Eb) as [_ ->]. exact Eb.
Qed.
Lemma case_inside : poly_contains the_square (set_at (A:=ArithF) (point_of 5 2)) = Ok (Some Inside) /\ poly_contains the_square (set_at (A:=ArithF) (point_of 15 2)) <> Ok (Some Inside).
Proof. split; [vm_compute; reflexivity|vm_compute; discriminate]. Qed.
Definition one_segment : action ArithF := Act (A:=ArithF) "constraint" "segments" [] [point_of 1 1; point_of 2 5] [].
Definition segment_effects : list (effect (A:=ArithF)) := [EInclude the_square; ESegments [(set_at (A:=ArithF) (point_of 1 1), set_at (A:=ArithF) (point_of 2 5))]].
Lemma case_segment : Forall2 (means 30) (i_actions (square_first one_segment)) segment_effects.
Proof.
  constructor; [pose proof (case_means 5) as K; inversion K; assumption|]. constructor; [|constructor]. apply means_segments; reflexivity.
Qed.
