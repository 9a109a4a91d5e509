(** P_Trn2.v — final forms of the triangulation lemmas and their witnesses. *)

From Coq Require Import List ZArith Bool.
From Verif Require Import Base Arith Geometry Elements Spec P_Base P_Trn ArithF Samples.
Import ListNotations.

Section Trn2.
  Context {A : Arith}.
  Notation triangle := (triangle A).
  Notation triangulation := (triangulation A).

  Lemma history_adjacency_sound : forall (h : list (tri_op (A:=A))) e t,
    adj_get e (run_history h trn_new) = Some t ->
    In t (tris (run_history h trn_new)) /\ side_of e t.
  Proof. intros h. apply (adj_sound_history h trn_new adj_sound_new). Qed.

  Lemma history_triangles : forall (h : list (tri_op (A:=A))) t,
    NoDup (tris (run_history h trn_new)) /\
    (In t (tris (run_history h trn_new)) <-> present h (fun _ => False) t).
  Proof.
    intros h t. split; [apply NoDup_history; constructor|]. rewrite tris_history.
    apply present_ext. intros x. cbn. tauto.
  Qed.

  Lemma history_adjacency_complete : forall (h : list (tri_op (A:=A))) e t,
    exclusive_history h (fun _ => False) ->
    In t (tris (run_history h trn_new)) -> side_of e t ->
    adj_get e (run_history h trn_new) = Some t.
  Proof.
    intros h e t Hx. apply (adj_complete_history h trn_new adj_complete_new).
    apply (exclusive_history_ext h (fun _ => False)); [|exact Hx]. intros x. cbn. tauto.
  Qed.

  Lemma trn_lists_NoDup : forall tr : triangulation, NoDup (trn_vertices tr) /\ NoDup (trn_edges tr).
  Proof. intros tr. split; apply hset_NoDup. Qed.

  Lemma include_exact : forall (t : triangle) tr t',
    (In t' (tris (fst (include_triangle t tr))) <-> t' = t \/ In t' (tris tr)) /\
    (snd (include_triangle t tr) = true <-> ~ In t (tris tr)).
  Proof. intros t tr t'. split; [apply incl_tri_In|apply include_reports]. Qed.

  Lemma remove_exact : forall (t : triangle) tr t',
    (In t' (tris (fst (remove_triangle t tr))) <-> In t' (tris tr) /\ t' <> t) /\
    (snd (remove_triangle t tr) = true <-> In t (tris tr)).
  Proof. intros t tr t'. split; [apply rem_tri_In|apply remove_reports]. Qed.
End Trn2.

Definition shared_side : list (tri_op (A:=ArithF)) :=
  let t1 := Tri (pt 0 0) (pt 1 0) (pt 0 1) in
  let t2 := Tri (pt 0 0) (pt 1 0) (pt 1 1) in
  [OpInclude t1; OpInclude t2; OpRemove t2].

Lemma adjacency_incomplete : exists (h : list (tri_op (A:=ArithF))) e t,
  In t (tris (run_history h trn_new)) /\ side_of e t /\ adj_get e (run_history h trn_new) <> Some t.
Proof.
  exists shared_side, (pt 0 0, pt 1 0), (Tri (pt 0 0) (pt 1 0) (pt 0 1)).
  split; [|split].
  - apply (hmem_In tdec). vm_compute. reflexivity.
  - constructor.
  - destruct (adj_get (pt 0 0, pt 1 0) (run_history shared_side trn_new)) as [t|] eqn:Hg; [|discriminate].
    exfalso. assert (Hn : match adj_get (pt 0 0, pt 1 0) (run_history shared_side trn_new) with
                          | Some _ => true | None => false end = false) by (vm_compute; reflexivity).
    rewrite Hg in Hn. discriminate.
Qed.

Definition sample_history : list (tri_op (A:=ArithF)) :=
  [OpInclude (Tri (pt 0 0) (pt 1 0) (pt 0 1)); OpInclude (Tri (pt 1 0) (pt 0 0) (pt 0 (-1)));
   OpRemove (Tri (pt 0 0) (pt 1 0) (pt 0 1))].

Definition shares (t t' : triangle ArithF) : bool :=
  existsb (fun e => hmem edec e (inner_edges t')) (inner_edges t).
Lemma shares_not : forall t t' e, shares t t' = false -> side_of e t -> side_of e t' -> False.
Proof.
  intros t t' e Hs He He'. apply side_of_inner in He. apply side_of_inner in He'.
  assert (Hx : shares t t' = true); [|congruence]. unfold shares. apply existsb_exists.
  exists e. split; [exact He|]. apply hmem_In, He'.
Qed.
Lemma sample_exclusive : exclusive_history sample_history (fun _ => False).
Proof.
  assert (H1 : shares (Tri (pt 0 0) (pt 1 0) (pt 0 1)) (Tri (pt 1 0) (pt 0 0) (pt 0 (-1))) = false)
    by (vm_compute; reflexivity).
  assert (H2 : shares (Tri (pt 1 0) (pt 0 0) (pt 0 (-1))) (Tri (pt 0 0) (pt 1 0) (pt 0 1)) = false)
    by (vm_compute; reflexivity).
  unfold sample_history. cbn [exclusive_history]. repeat split; intros t t' e Ht Ht' He He'; cbn beta in *;
    intuition (subst; try reflexivity; try contradiction); exfalso; eauto using shares_not.
Qed.
