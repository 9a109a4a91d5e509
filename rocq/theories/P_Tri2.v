(** P_Tri2.v — final forms of the triangulator lemmas. *)

From Coq Require Import List Bool Arith Lia.
From Verif Require Import Base Arith Geometry Elements Polyline Procedures Refine Triangulator
  Spec P_Base P_Triangulator P_Poly.
Import ListNotations.

Section Tri2.
  Context {A : Arith}.
  Notation vertex := (vertex A).
  Notation edge := (edge A).
  Notation polyline := (polyline A).
  Notation triangulator := (triangulator A).

  Lemma insert_vertices_answers : forall H p (t : triangulator) vs,
    proper (t_boundary t) -> (forall h, In h (t_holes t) -> proper h) ->
    exists t' r, insert_vertices H p t vs = Ok (t', r).
  Proof.
    intros H p t vs Hb Hh. apply insert_vertices_total.
    - apply proper_nonempty, Hb.
    - intros h Hi. apply proper_nonempty, Hh, Hi.
  Qed.

  Lemma linked_linked_near : forall (ss ss' : list edge),
    (forall a b, In (a, b) ss -> linked_near ss' a b) ->
    forall a b, linked ss a b -> linked_near ss' a b.
  Proof.
    intros ss ss' Hs a b Hl. induction Hl as [a|a b c Hab Hbc IH]; [constructor|].
    eapply linked_near_trans; [apply Hs, Hab|exact IH].
  Qed.

  Lemma linked_near_same : forall (ss ss' : list edge), (forall s, In s ss -> In s ss') ->
    forall a b, linked_near ss a b -> linked_near ss' a b.
  Proof.
    intros ss ss' Hs a b Hl. induction Hl as [a|a b c Hab Hbc IH|a b c Hab Hbc IH].
    - constructor.
    - eapply near_step; [apply Hs, Hab|exact IH].
    - eapply near_hop; [exact Hab|exact IH].
  Qed.

  Lemma insert_segments_kept : forall H fuel p (t : triangulator) ss t',
    insert_segments H fuel p t ss = Ok (t', RFine) ->
    (forall s, In s ss \/ In s (t_segments t) -> linked_near (t_segments t') (fst s) (snd s)) /\
    (forall v, In v (t_vertices t') -> In v (t_vertices t)).
  Proof.
    intros H fuel p t ss t' Hi. unfold insert_segments in Hi. destruct ss as [|s0 ss].
    { injection Hi as <-. split; [|auto]. intros [a b] [[]|Hs]. eapply near_step; [exact Hs|constructor]. }
    apply bind_ok in Hi. destruct Hi as (bad & Hb & Hi). destruct bad as [|b bad]; [|discriminate].
    apply bind_ok in Hi. destruct Hi as ((vs & fresh) & Ha & Hi).
    apply bind_ok in Hi. destruct Hi as (split & Hs & Hi). injection Hi as <-.
    cbn [t_segments t_vertices with_segments with_vertices].
    apply absorb_loop_spec in Ha. destruct Ha as (A1 & _ & _ & A4 & _ & _ & _).
    apply split_intersections_spec in Hs. destruct Hs as [_ Hl].
    assert (Hsame : forall a b, linked_near split a b -> linked_near (hset edec split) a b).
    { apply linked_near_same. intros s Hx. apply hset_In, Hx. }
    split.
    - intros s [Hin|Hin].
      + apply Hsame. assert (Hlk : linked fresh (fst s) (snd s)).
        { apply A4. rewrite <- in_rev, ho_In. exact Hin. }
        revert Hlk. apply linked_linked_near. intros a b Hab. apply (Hl (a, b)). apply in_or_app. left. apply ho_In, Hab.
      + apply Hsame. apply Hl. apply in_or_app. right. apply ho_In, Hin.
    - exact A1.
  Qed.

  Lemma absorb_terminates : forall H fuel p aux (vs : list vertex),
    2 * length vs + length aux < fuel ->
    exists vs' acc, absorb_loop H fuel p aux vs [] = Ok (vs', acc) /\
    (forall v, In v vs' -> In v vs) /\
    (forall s v, In s acc -> In v vs' -> edge_contains s v = false) /\
    (forall s, In s aux -> linked acc (fst s) (snd s)) /\
    (forall v, endpoint acc v -> endpoint aux v \/ In v vs) /\
    (forall v, In v vs -> In v vs' \/ near_endpoint acc v).
  Proof.
    intros H fuel p aux vs Hf. destruct (absorb_loop_total H fuel p aux vs [] Hf) as [[vs' acc] Hr].
    exists vs', acc. split; [exact Hr|]. apply absorb_loop_spec in Hr.
    destruct Hr as (A1 & A2 & A3 & A4 & A5 & A6 & A7).
    split; [exact A1|]. split; [|split; [exact A4|split; [|exact A6]]].
    - intros s v Hs Hv. destruct (A3 s v Hs) as [[]|Hx]; auto.
    - intros v Hv. destruct (A5 v Hv) as [[w [[]|[]]]|Hx]; exact Hx.
  Qed.
End Tri2.
