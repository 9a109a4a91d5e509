(** P_Trn.v — the triangulation data structure: adjacency, vertices, edges. *)

From Coq Require Import List Permutation Arith Bool Lia.
From Verif Require Import Base Arith Geometry Elements Spec P_Base.
Import ListNotations.

Section Trn.
  Context {A : Arith}.
  Notation vertex := (vertex A).
  Notation edge := (edge A).
  Notation triangle := (triangle A).
  Notation triangulation := (triangulation A).
  Implicit Types (e : edge) (t : triangle) (tr : triangulation) (v : vertex).

  (** ** sides and corners *)

  Lemma side_of_inner : forall e t, side_of e t <-> In e (inner_edges t).
  Proof.
    intros e [a b c]. unfold inner_edges, te1, te2, te3; cbn. split.
    - intros Hs; inversion Hs; subst; auto.
    - intros [<-|[<-|[<-|[]]]]; constructor.
  Qed.

  Lemma corner_of_tverts : forall v t, corner_of v t <-> In v (tverts t).
  Proof.
    intros v [a b c]; cbn. split.
    - intros Hs; inversion Hs; subst; auto.
    - intros [<-|[<-|[<-|[]]]]; constructor.
  Qed.

  Lemma side_of_cases : forall e t, side_of e t <-> e = te1 t \/ e = te2 t \/ e = te3 t.
  Proof. intros e t. rewrite side_of_inner. unfold inner_edges; cbn. intuition congruence. Qed.

  Lemma side_te1 : forall t, side_of (te1 t) t. Proof. intros [a b c]; constructor. Qed.
  Lemma side_te2 : forall t, side_of (te2 t) t. Proof. intros [a b c]; constructor. Qed.
  Lemma side_te3 : forall t, side_of (te3 t) t. Proof. intros [a b c]; constructor. Qed.

  Lemma side_corner1 : forall e t, side_of e t -> corner_of (fst e) t.
  Proof. intros e t Hs; inversion Hs; cbn; constructor. Qed.
  Lemma side_corner2 : forall e t, side_of e t -> corner_of (snd e) t.
  Proof. intros e t Hs; inversion Hs; cbn; constructor. Qed.

  Lemma opposite_flip : forall e, opposite e = flip e.
  Proof. intros [a b]; reflexivity. Qed.
  Lemma flip_flip : forall e, flip (flip e) = e.
  Proof. intros [a b]; reflexivity. Qed.
  Lemma opposite_opposite : forall e, opposite (opposite e) = e.
  Proof. intros [a b]; reflexivity. Qed.

  Lemma is_ghost_ghostly : forall t, is_ghost t = true <-> ghostly t.
  Proof.
    intros [a b c]. unfold is_ghost, ghostly; cbn. rewrite !orb_true_iff. split.
    - intros [[Hg|Hg]|Hg]; [exists a|exists b|exists c]; split; try constructor; exact Hg.
    - intros [v [Hc Hg]]. inversion Hc; subst; auto.
  Qed.

  (** ** tris and adjacency after one operation *)

  Lemma incl_tri_In : forall t t' tr, In t' (tris (incl_tri t tr)) <-> t' = t \/ In t' (tris tr).
  Proof.
    intros t t' tr. unfold incl_tri, include_triangle. destruct (hmem tdec t (tris tr)) eqn:Hm; cbn.
    - apply hmem_In in Hm. intuition congruence.
    - apply hadd_In.
  Qed.

  Lemma rem_tri_In : forall t t' tr, In t' (tris (rem_tri t tr)) <-> In t' (tris tr) /\ t' <> t.
  Proof.
    intros t t' tr. unfold rem_tri, remove_triangle. destruct (hmem tdec t (tris tr)) eqn:Hm; cbn.
    - apply hdel_In.
    - apply hmem_false in Hm. intuition congruence.
  Qed.

  Lemma incl_tri_NoDup : forall t tr, NoDup (tris tr) -> NoDup (tris (incl_tri t tr)).
  Proof.
    intros t tr Hn. unfold incl_tri, include_triangle. destruct (hmem tdec t (tris tr)); cbn; [exact Hn|].
    apply hadd_NoDup, Hn.
  Qed.

  Lemma rem_tri_NoDup : forall t tr, NoDup (tris tr) -> NoDup (tris (rem_tri t tr)).
  Proof.
    intros t tr Hn. unfold rem_tri, remove_triangle. destruct (negb _); cbn; [exact Hn|].
    apply hdel_NoDup, Hn.
  Qed.

  Lemma adj_incl : forall t e tr, ~ In t (tris tr) ->
    adj_get e (incl_tri t tr) =
      if in_dec edec e (inner_edges t) then Some t else adj_get e tr.
  Proof.
    intros t e tr Ht. unfold incl_tri, include_triangle, adj_get.
    rewrite (proj2 (hmem_false tdec t (tris tr)) Ht). cbn [fst adj].
    destruct (in_dec edec e (inner_edges t)) as [Hi|Hi].
    - unfold inner_edges in Hi; cbn in Hi.
      destruct (edec e (te3 t)) as [->|H3]; [apply mset_get_eq|]. rewrite mset_get_ne by exact H3.
      destruct (edec e (te2 t)) as [->|H2]; [apply mset_get_eq|]. rewrite mset_get_ne by exact H2.
      destruct (edec e (te1 t)) as [->|H1]; [apply mset_get_eq|].
      exfalso; intuition congruence.
    - unfold inner_edges in Hi; cbn in Hi.
      rewrite !mset_get_ne by (intros ->; apply Hi; auto). reflexivity.
  Qed.

  Lemma incl_tri_present : forall t tr, In t (tris tr) -> incl_tri t tr = tr.
  Proof.
    intros t tr Ht. unfold incl_tri, include_triangle.
    rewrite (proj2 (hmem_In tdec t (tris tr)) Ht). reflexivity.
  Qed.

  Lemma rem_tri_absent : forall t tr, ~ In t (tris tr) -> rem_tri t tr = tr.
  Proof.
    intros t tr Ht. unfold rem_tri, remove_triangle.
    rewrite (proj2 (hmem_false tdec t (tris tr)) Ht). reflexivity.
  Qed.

  Lemma adj_rem : forall t e tr, In t (tris tr) ->
    adj_get e (rem_tri t tr) =
      if in_dec edec e (inner_edges t) then None else adj_get e tr.
  Proof.
    intros t e tr Ht. unfold rem_tri, remove_triangle, adj_get.
    rewrite (proj2 (hmem_In tdec t (tris tr)) Ht). cbn [negb fst adj].
    destruct (in_dec edec e (inner_edges t)) as [Hi|Hi]; unfold inner_edges in Hi; cbn in Hi.
    - destruct (edec e (te3 t)) as [->|H3]; [apply mdel_get_eq|]. rewrite mdel_get_ne by exact H3.
      destruct (edec e (te2 t)) as [->|H2]; [apply mdel_get_eq|]. rewrite mdel_get_ne by exact H2.
      destruct (edec e (te1 t)) as [->|H1]; [apply mdel_get_eq|].
      exfalso; intuition congruence.
    - rewrite !mdel_get_ne by (intros ->; apply Hi; auto). reflexivity.
  Qed.

  (** ** invariants *)

  (** Adjacency entries point to present triangles having this side. *)
  Lemma adj_sound_new : adj_sound (A:=A) trn_new.
  Proof. intros e t Hg. cbn in Hg. discriminate. Qed.

  Lemma adj_sound_incl : forall t tr, adj_sound tr -> adj_sound (incl_tri t tr).
  Proof.
    intros t tr Hs e t' Hg. destruct (in_dec tdec t (tris tr)) as [Ht|Ht].
    - rewrite incl_tri_present in * by exact Ht. apply Hs, Hg.
    - rewrite adj_incl in Hg by exact Ht. rewrite incl_tri_In.
      destruct (in_dec edec e (inner_edges t)) as [Hi|Hi].
      + injection Hg as <-. split; [left; reflexivity|]. apply side_of_inner, Hi.
      + destruct (Hs e t' Hg) as [Hin Hsd]. split; [right; exact Hin|exact Hsd].
  Qed.

  Lemma adj_sound_rem : forall t tr, adj_sound tr -> adj_sound (rem_tri t tr).
  Proof.
    intros t tr Hs e t' Hg. destruct (in_dec tdec t (tris tr)) as [Ht|Ht].
    - rewrite adj_rem in Hg by exact Ht. rewrite rem_tri_In.
      destruct (in_dec edec e (inner_edges t)) as [Hi|Hi]; [discriminate|].
      destruct (Hs e t' Hg) as [Hin Hsd]. split; [|exact Hsd]. split; [exact Hin|].
      intros ->. apply Hi, side_of_inner, Hsd.
    - rewrite rem_tri_absent in * by exact Ht. apply Hs, Hg.
  Qed.

  Lemma run_op_eq : forall tr o, run_op tr o =
    match o with OpInclude t => incl_tri t tr | OpRemove t => rem_tri t tr end.
  Proof. intros tr [t|t]; reflexivity. Qed.

  Lemma adj_sound_history : forall h tr, adj_sound tr -> adj_sound (run_history h tr).
  Proof.
    induction h as [|o h IH]; intros tr Hs; [exact Hs|]. cbn. apply IH. rewrite run_op_eq.
    destruct o; [apply adj_sound_incl|apply adj_sound_rem]; exact Hs.
  Qed.

  Lemma present_ext : forall h (s s' : triangle -> Prop), (forall x, s x <-> s' x) ->
    forall x, present h s x <-> present h s' x.
  Proof.
    induction h as [|[t|t] h IH]; intros s s' Hs x; cbn; [apply Hs| |];
      apply IH; intros y; rewrite Hs; reflexivity.
  Qed.

  Lemma tris_history : forall h tr t,
    In t (tris (run_history h tr)) <-> present h (fun x => In x (tris tr)) t.
  Proof.
    induction h as [|o h IH]; intros tr t; [reflexivity|]. cbn [run_history fold_left].
    fold (run_history h (run_op tr o)). rewrite IH. destruct o as [u|u]; cbn [present];
      apply present_ext; intros x; rewrite run_op_eq; [apply incl_tri_In|].
    rewrite rem_tri_In. intuition.
  Qed.

  Lemma NoDup_history : forall h tr, NoDup (tris tr) -> NoDup (tris (run_history h tr)).
  Proof.
    induction h as [|o h IH]; intros tr Hs; [exact Hs|]. cbn. apply IH. rewrite run_op_eq.
    destruct o; [apply incl_tri_NoDup|apply rem_tri_NoDup]; exact Hs.
  Qed.

  Lemma adj_complete_new : adj_complete (A:=A) trn_new.
  Proof. intros e t []. Qed.

  Lemma adj_complete_incl : forall t tr, adj_complete tr ->
    (forall t' e, In t' (tris tr) -> side_of e t -> side_of e t' -> t' = t) ->
    adj_complete (incl_tri t tr).
  Proof.
    intros t tr Hc Hx e t' Hin Hsd. destruct (in_dec tdec t (tris tr)) as [Ht|Ht].
    - rewrite incl_tri_present in * by exact Ht. apply Hc; assumption.
    - rewrite adj_incl by exact Ht. apply incl_tri_In in Hin.
      destruct (in_dec edec e (inner_edges t)) as [Hi|Hi].
      + destruct Hin as [->|Hin]; [reflexivity|]. f_equal. symmetry.
        apply (Hx t' e); [exact Hin|apply side_of_inner, Hi|exact Hsd].
      + destruct Hin as [->|Hin]; [exfalso; apply Hi, side_of_inner, Hsd|]. apply Hc; assumption.
  Qed.

  Lemma adj_complete_rem : forall t tr, adj_complete tr -> adj_complete (rem_tri t tr).
  Proof.
    intros t tr Hc e t' Hin Hsd. destruct (in_dec tdec t (tris tr)) as [Ht|Ht].
    - rewrite adj_rem by exact Ht. apply rem_tri_In in Hin. destruct Hin as [Hin Hne].
      destruct (in_dec edec e (inner_edges t)) as [Hi|Hi]; [|apply Hc; assumption].
      exfalso. apply Hne. pose proof (Hc e t Ht (proj2 (side_of_inner e t) Hi)) as H1.
      pose proof (Hc e t' Hin Hsd) as H2. congruence.
    - rewrite rem_tri_absent in * by exact Ht. apply Hc; assumption.
  Qed.

  Lemma exclusive_ext : forall s s' : triangle -> Prop, (forall x, s x <-> s' x) ->
    exclusive s -> exclusive s'.
  Proof. intros s s' Hs Hx t t' e Ht Ht'. apply Hx; apply Hs; assumption. Qed.

  Lemma exclusive_history_ext : forall h (s s' : triangle -> Prop), (forall x, s x <-> s' x) ->
    exclusive_history h s -> exclusive_history h s'.
  Proof.
    induction h as [|[t|t] h IH]; intros s s' Hs [Hx Hh]; cbn.
    - split; [|exact I]. apply (exclusive_ext s s' Hs Hx).
    - split; [apply (exclusive_ext s s' Hs Hx)|].
      refine (IH _ _ _ Hh). intros x. rewrite Hs. reflexivity.
    - split; [apply (exclusive_ext s s' Hs Hx)|].
      refine (IH _ _ _ Hh). intros x. rewrite Hs. reflexivity.
  Qed.

  Lemma adj_complete_history : forall h tr,
    adj_complete tr -> exclusive_history h (fun x => In x (tris tr)) ->
    adj_complete (run_history h tr).
  Proof.
    induction h as [|o h IH]; intros tr Hc Hh; [exact Hc|]. cbn [run_history fold_left].
    fold (run_history h (run_op tr o)). rewrite run_op_eq. destruct o as [t|t]; cbn in Hh.
    - destruct Hh as [_ Hh]. apply IH.
      + apply adj_complete_incl; [exact Hc|].
        assert (Hx : exclusive (fun x => x = t \/ In x (tris tr))) by (destruct h as [|[]]; apply Hh).
        intros t' e Hin H1 H2. apply (Hx t' t e); auto.
      + refine (exclusive_history_ext _ _ _ _ Hh). intros x. symmetry. apply incl_tri_In.
    - destruct Hh as [_ Hh]. apply IH; [apply adj_complete_rem, Hc|].
      refine (exclusive_history_ext _ _ _ _ Hh). intros x. rewrite rem_tri_In. tauto.
  Qed.

  (** ** vertices() and edges() *)

  Lemma trn_vertices_In : forall tr v,
    In v (trn_vertices tr) <-> vghost v = false /\ exists t, In t (tris tr) /\ corner_of v t.
  Proof.
    intros tr v. unfold trn_vertices. rewrite hset_In, filter_In, in_flat_map, negb_true_iff.
    split.
    - intros [[t [Ht Hv]] Hg]. split; [exact Hg|]. exists t. split; [exact Ht|]. apply corner_of_tverts, Hv.
    - intros [Hg [t [Ht Hv]]]. split; [|exact Hg]. exists t. split; [exact Ht|]. apply corner_of_tverts, Hv.
  Qed.

  Lemma trn_edges_In : forall tr e,
    In e (trn_edges tr) <-> exists t, In t (tris tr) /\ side_of e t.
  Proof.
    intros tr e. unfold trn_edges. rewrite hset_In, in_flat_map.
    split; intros [t [Ht He]]; exists t; (split; [exact Ht|]); apply side_of_inner, He.
  Qed.

  Lemma fold_incl_In : forall l tr t,
    In t (tris (fold_left (fun tr t => incl_tri t tr) l tr)) <-> In t (tris tr) \/ In t l.
  Proof.
    induction l as [|a l IH]; intros tr t; cbn; [intuition|]. rewrite IH, incl_tri_In. intuition congruence.
  Qed.
  Lemma fold_rem_In : forall l tr t,
    In t (tris (fold_left (fun tr t => rem_tri t tr) l tr)) <-> In t (tris tr) /\ ~ In t l.
  Proof.
    induction l as [|a l IH]; intros tr t; cbn; [intuition|]. rewrite IH, rem_tri_In. intuition congruence.
  Qed.
  Lemma fold_incl_NoDup : forall l tr, NoDup (tris tr) ->
    NoDup (tris (fold_left (fun tr t => incl_tri t tr) l tr)).
  Proof. induction l as [|a l IH]; intros tr Hn; cbn; [exact Hn|]. apply IH, incl_tri_NoDup, Hn. Qed.
  Lemma fold_rem_NoDup : forall l tr, NoDup (tris tr) ->
    NoDup (tris (fold_left (fun tr t => rem_tri t tr) l tr)).
  Proof. induction l as [|a l IH]; intros tr Hn; cbn; [exact Hn|]. apply IH, rem_tri_NoDup, Hn. Qed.
  Lemma fold_incl_sound : forall l tr, adj_sound tr ->
    adj_sound (fold_left (fun tr t => incl_tri t tr) l tr).
  Proof. induction l as [|a l IH]; intros tr Hn; cbn; [exact Hn|]. apply IH, adj_sound_incl, Hn. Qed.
  Lemma fold_rem_sound : forall l tr, adj_sound tr ->
    adj_sound (fold_left (fun tr t => rem_tri t tr) l tr).
  Proof. induction l as [|a l IH]; intros tr Hn; cbn; [exact Hn|]. apply IH, adj_sound_rem, Hn. Qed.

  Lemma include_reports : forall t tr,
    snd (include_triangle t tr) = true <-> ~ In t (tris tr).
  Proof.
    intros t tr. unfold include_triangle. destruct (hmem tdec t (tris tr)) eqn:Hm; cbn.
    - apply hmem_In in Hm. intuition congruence.
    - apply hmem_false in Hm. intuition.
  Qed.
  Lemma remove_reports : forall t tr,
    snd (remove_triangle t tr) = true <-> In t (tris tr).
  Proof.
    intros t tr. unfold remove_triangle. destruct (hmem tdec t (tris tr)) eqn:Hm; cbn.
    - apply hmem_In in Hm. intuition congruence.
    - apply hmem_false in Hm. intuition congruence.
  Qed.
End Trn.
