(** P_Checks2.v — decidable versions of conditions on polylines, for the examples. *)

From Coq Require Import List Bool Arith Lia.
From Verif Require Import Base Arith Geometry Elements Polyline Triangulator Spec SpecM P_Base P_Poly P_Contains P_Nest.
Import ListNotations.
Local Open Scope nat_scope.

Section Checks2.
  Context {A : Arith}.
  Notation vertex := (vertex A).
  Notation edge := (edge A).
  Notation polyline := (polyline A).

  Definition againstb (s s' : edge) : bool :=
    (match intersection (fst s) (snd s) (fst s') (snd s') with Some _ => true | None => false end) &&
    parallel (fst s) (snd s) (fst s') (snd s') && flt (dot (fst s) (snd s) (fst s') (snd s')) c0.
  Lemma againstb_ok : forall s s', againstb s s' = false -> ~ against s s'.
  Proof.
    intros s s' Hb ((v & Hv) & Hp & Hd). unfold againstb in Hb. rewrite Hv, Hp, Hd in Hb. discriminate.
  Qed.
  Definition calmb (ss : list edge) : bool :=
    forallb (fun s => forallb (fun s' => negb (crosses s s') && negb (againstb s s')) ss) ss.
  Lemma calmb_ok : forall ss, calmb ss = true -> calm ss.
  Proof.
    intros ss Hb s s' Hs Hs'. unfold calmb in Hb. rewrite forallb_forall in Hb. specialize (Hb s Hs). rewrite forallb_forall in Hb.
    specialize (Hb s' Hs'). apply andb_true_iff in Hb. destruct Hb as [H1 H2]. apply negb_true_iff in H1, H2.
    split; [apply crosses_crossing, H1|apply againstb_ok, H2].
  Qed.

  Fixpoint apartb (l : list vertex) : bool :=
    match l with
    | [] => true
    | u :: l' => forallb (fun w => negb (veqb u w) && negb (veqb w u)) l' && apartb l'
    end.
  Lemma apartb_ok : forall l, apartb l = true -> apart l.
  Proof.
    induction l as [|u l IH]; intros Hb l1 x l2 y l3 E; [destruct l1; discriminate|]. cbn [apartb] in Hb. apply andb_true_iff in Hb. destruct Hb as [H1 H2].
    destruct l1 as [|z l1]; cbn in E; injection E as -> E.
    - rewrite forallb_forall in H1. assert (Hy : In y l) by (rewrite E; apply in_or_app; right; left; reflexivity). specialize (H1 y Hy).
      apply andb_true_iff in H1. rewrite !negb_true_iff in H1. exact H1.
    - apply (IH H2 l1 x l2 y l3 E).
  Qed.

  Definition cont_is (c : cont) (p : polyline) (m : vertex) : bool :=
    match poly_contains p m with Ok (Some c') => cont_eqb c' c | _ => false end.
  Definition nestedb (inner outer : polyline) (ei eo : list edge) : bool :=
    calmb (ei ++ eo) &&
    forallb (fun e => negb (cont_is Outside inner (midpoint (fst e) (snd e))) && negb (cont_is Outside outer (midpoint (fst e) (snd e)))) ei &&
    forallb (fun e => cont_is Outside inner (midpoint (fst e) (snd e))) eo.
  Lemma nestedb_ok : forall inner outer ei eo, proper_closed inner -> proper_closed outer ->
    into_edges inner = Ok ei -> into_edges outer = Ok eo -> nestedb inner outer ei eo = true -> nested inner outer ei eo.
  Proof.
    intros inner outer ei eo Hi Ho Ei Eo Hb. unfold nestedb in Hb. apply andb_true_iff in Hb. destruct Hb as [Hb H3].
    apply andb_true_iff in Hb. destruct Hb as [H1 H2]. rewrite forallb_forall in H2, H3.
    do 4 (split; [assumption|]). split; [apply calmb_ok, H1|]. split.
    - intros e He. specialize (H2 e He). apply andb_true_iff in H2. destruct H2 as [A1 A2]. unfold cont_is in A1, A2.
      split; intros E; [rewrite E in A1|rewrite E in A2]; discriminate.
    - intros e He. specialize (H3 e He). unfold cont_is in H3. destruct (poly_contains inner _) as [[c|]| |]; try discriminate.
      destruct c; [..|]; first [reflexivity|discriminate].
  Qed.

  Definition boxes_meetb (p1 p2 : polyline) : bool :=
    match poly_bbox p1, poly_bbox p2 with
    | Some b1, Some b2 => match bbox_intersection b1 b2 with Some _ => true | None => false end
    | _, _ => false
    end.
  Lemma boxes_meetb_ok : forall p1 p2, boxes_meetb p1 p2 = true -> boxes_meet p1 p2.
  Proof.
    intros p1 p2 Hb. unfold boxes_meetb in Hb. destruct (poly_bbox p1) as [b1|] eqn:E1; [|discriminate]. destruct (poly_bbox p2) as [b2|] eqn:E2; [|discriminate].
    destruct (bbox_intersection b1 b2) as [b|] eqn:E; [|discriminate]. exists b1, b2, b. auto.
  Qed.

  (** Every rotation of a list. *)
  Fixpoint splits (l1 l2 : list vertex) : list (list vertex * list vertex) :=
    (rev l1, l2) :: match l2 with [] => [] | x :: l2' => splits (x :: l1) l2' end.
  Lemma splits_ok : forall l2 l1 k1 k2, rev l1 ++ l2 = k1 ++ k2 -> length l1 <= length k1 -> In (k1, k2) (splits l1 l2).
  Proof.
    induction l2 as [|x l2 IH]; intros l1 k1 k2 E Hl; cbn [splits].
    - left. rewrite app_nil_r in E. assert (Hk : k2 = []).
      { apply length_zero_iff_nil. apply (f_equal (@length _)) in E. rewrite rev_length, app_length in E. lia. }
      subst k2. rewrite app_nil_r in E. congruence.
    - destruct (Nat.eq_dec (length l1) (length k1)) as [Hq|Hq].
      + left. assert (Hr : length (rev l1) = length k1) by (rewrite rev_length; exact Hq).
        clear IH Hl Hq. revert k1 E Hr. generalize (rev l1). intros r. induction r as [|y r IHr]; intros [|z k1] E Hr; try discriminate.
        * cbn in E. rewrite E. reflexivity.
        * cbn in E. injection E as -> E. injection Hr as Hr. specialize (IHr _ E Hr). injection IHr as -> ->. reflexivity.
      + right. apply IH; [|cbn; lia]. cbn [rev]. rewrite <- app_assoc. exact E.
  Qed.
  Definition turns_leftb (l : list vertex) : bool :=
    forallb (fun k => match into_edges (Poly (snd k ++ fst k) false) with Ok es => flt (area_segments es) c0 | _ => false end) (splits [] l).
  Lemma turns_leftb_ok : forall l, turns_leftb l = true -> forall l' es, rotation l l' -> into_edges (Poly l' false) = Ok es -> flt (area_segments es) c0 = true.
  Proof.
    intros l Hb l' es (l1 & l2 & E1 & ->) He. unfold turns_leftb in Hb. rewrite forallb_forall in Hb.
    specialize (Hb (l1, l2) (splits_ok l [] l1 l2 E1 (Nat.le_0_l _))). cbn [fst snd] in Hb. rewrite He in Hb. exact Hb.
  Qed.

  Definition given_list (t : triangulator A) : list vertex :=
    pverts (t_boundary t) ++ flat_map pverts (t_holes t) ++ flat_map (fun s => [fst s; snd s]) (t_segments t) ++ t_vertices t.
  Lemma given_list_ok : forall t, apartb (ghost_vertex :: given_list t) = true ->
    forall u w, (given t u \/ u = ghost_vertex) -> (given t w \/ w = ghost_vertex) -> veqb u w = true -> u = w.
  Proof.
    intros t Hb. apply apartb_ok in Hb.
    assert (G : forall u, given t u \/ u = ghost_vertex -> In u (ghost_vertex :: given_list t)).
    { intros u [Hu| ->]; [|left; reflexivity]. right. unfold given_list. rewrite !in_app_iff, !in_flat_map.
      destruct Hu as [Hu|[(h & Hh & Hu)|[(s & Hs & Hu)|Hu]]]; [tauto| | |tauto].
      - right. left. exists h. auto.
      - right. right. left. exists s. split; [exact Hs|]. cbn. destruct Hu as [->| ->]; auto. }
    intros u w Hu Hw He. apply (apart_eq _ u w Hb (G u Hu) (G w Hw) He).
  Qed.
End Checks2.
