(** P_Elements.v — triangle and edge accessors. *)

From Coq Require Import List Bool Arith Lia.
From Verif Require Import Base Arith Geometry Elements Spec P_Base P_Trn.
Import ListNotations.

Section ElementsP.
  Context {A : Arith}.
  Notation vertex := (vertex A).
  Notation edge := (edge A).
  Notation triangle := (triangle A).

  Lemma inner_outer : forall (t : triangle),
    (forall e, In e (inner_edges t) <-> side_of e t) /\
    (forall e, In e (outer_edges t) <-> side_of (flip e) t) /\
    length (inner_edges t) = 3 /\ length (outer_edges t) = 3.
  Proof.
    intros [a b c]. split; [intros e; symmetry; apply side_of_inner|]. split; [|split; reflexivity].
    intros [x y]. cbn. split.
    - intros [E|[E|[E|[]]]]; injection E as <- <-; constructor.
    - intros Hs. inversion Hs; subst; auto.
  Qed.

  (** No corner is [==] to another one, in either order of comparison. *)
  Definition corners_apart (t : triangle) : Prop :=
    veqb (tv1 t) (tv2 t) = false /\ veqb (tv2 t) (tv1 t) = false /\
    veqb (tv2 t) (tv3 t) = false /\ veqb (tv3 t) (tv2 t) = false /\
    veqb (tv3 t) (tv1 t) = false /\ veqb (tv1 t) (tv3 t) = false.

  Lemma veqb_same : forall v : vertex, veqb v v = true.
  Proof. intros v. unfold veqb. rewrite !aeq_refl, eqb_reflx. destruct (vghost v); reflexivity. Qed.

  Lemma opposites_inverse : forall (t : triangle), corners_apart t ->
    (forall v, corner_of v t -> exists e, opposite_edge t v = Some e /\ side_of e t /\ ~ (v = fst e \/ v = snd e) /\
       opposite_vertex t e = Some v) /\
    (forall e, side_of e t -> exists v, opposite_vertex t e = Some v /\ corner_of v t /\ ~ (v = fst e \/ v = snd e) /\
       opposite_edge t v = Some e).
  Proof.
    intros [a b c] (E1 & E2 & E3 & E4 & E5 & E6). cbn in *.
    assert (N1 : a <> b) by (intros ->; rewrite veqb_same in E1; discriminate).
    assert (N2 : b <> c) by (intros ->; rewrite veqb_same in E3; discriminate).
    assert (N3 : c <> a) by (intros ->; rewrite veqb_same in E5; discriminate).
    split.
    - intros v Hv. inversion Hv; subst; unfold opposite_edge, opposite_vertex, eeqb; cbn;
        rewrite ?veqb_same, ?E1, ?E2, ?E3, ?E4, ?E5, ?E6; cbn; eexists; (split; [reflexivity|]);
        (split; [constructor|]); cbn; rewrite ?veqb_same, ?E1, ?E2, ?E3, ?E4, ?E5, ?E6; cbn;
        (split; [intuition|reflexivity]).
    - intros e He. inversion He; subst; unfold opposite_edge, opposite_vertex, eeqb; cbn;
        rewrite ?veqb_same, ?E1, ?E2, ?E3, ?E4, ?E5, ?E6; cbn; eexists; (split; [reflexivity|]);
        (split; [constructor|]); cbn; rewrite ?veqb_same, ?E1, ?E2, ?E3, ?E4, ?E5, ?E6; cbn;
        (split; [intuition|reflexivity]).
  Qed.

  Lemma edges_wrap_ends : forall (first : vertex) l, l <> [] ->
    map fst (edges_wrap first l) = l /\ map snd (edges_wrap first l) = tl l ++ [first].
  Proof.
    intros first. induction l as [|v [|w l] IH]; intros Hn; [congruence|cbn; auto|].
    destruct (IH) as [I1 I2]; [discriminate|]. change (edges_wrap first (v :: w :: l)) with ((v, w) :: edges_wrap first (w :: l)).
    cbn [map fst snd]. rewrite I1, I2. cbn. auto.
  Qed.

  Lemma edges_from_vertices_spec : forall (l : list vertex),
    length (edges_from_vertices l) = length l /\
    forall i a b, nth_error (edges_from_vertices l) i = Some (a, b) <->
      nth_error l i = Some a /\ nth_error l (if S i =? length l then 0 else S i) = Some b.
  Proof.
    intros [|v l].
    { cbn. split; [reflexivity|]. intros i a b. split; [destruct i; discriminate|intros [E _]; destruct i; discriminate]. }
    destruct (edges_wrap_ends v (v :: l)) as [E1 E2]; [discriminate|].
    change (edges_from_vertices (v :: l)) with (edges_wrap v (v :: l)).
    assert (Hlen : length (edges_wrap v (v :: l)) = length (v :: l)) by (rewrite <- E1 at 2; rewrite map_length; reflexivity).
    split; [exact Hlen|].
    assert (Ha : forall i, nth_error (v :: l) i = option_map fst (nth_error (edges_wrap v (v :: l)) i)).
    { intros i. rewrite <- E1 at 1. apply nth_error_map. }
    assert (Hb : forall i, i < length (v :: l) ->
       nth_error (v :: l) (if S i =? length (v :: l) then 0 else S i) = option_map snd (nth_error (edges_wrap v (v :: l)) i)).
    { intros i Hi. transitivity (nth_error (map snd (edges_wrap v (v :: l))) i); [|apply nth_error_map].
      rewrite E2. cbn [tl]. cbn [length] in *. destruct (Nat.eqb_spec (S i) (S (length l))) as [E|E].
      - rewrite nth_error_app2 by lia. replace (i - length l) with 0 by lia. reflexivity.
      - rewrite nth_error_app1 by lia. reflexivity. }
    intros i a b. split.
    - intros E. assert (Hi : i < length (v :: l)) by (rewrite <- Hlen; apply nth_error_Some; congruence).
      rewrite Ha, Hb, E by exact Hi. auto.
    - intros [F1 F2]. assert (Hi : i < length (v :: l)) by (apply nth_error_Some; congruence).
      rewrite Ha in F1. rewrite Hb in F2 by exact Hi.
      destruct (nth_error (edges_wrap v (v :: l)) i) as [[x y]|]; [|discriminate].
      cbn in F1, F2. injection F1 as ->. injection F2 as ->. reflexivity.
  Qed.
End ElementsP.
