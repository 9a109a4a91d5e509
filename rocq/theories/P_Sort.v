(** P_Sort.v — what Vertex::sort does keep: the vertices, and the order in a column. *)

From Coq Require Import Reals List Lra Lia Bool Permutation Sorted.
From Verif Require Import Base Arith ArithR Geometry Spec SpecR Samples P_Base P_RX.
Import ListNotations.

Section Any.
  Context {A : Arith}.
  Lemma insert_keeps : forall (l : list (vertex A)) x r, sort_insert x l = Ok r -> Permutation (x :: l) r.
  Proof.
    induction l as [|y l IH]; intros x r E; cbn [sort_insert] in E; [injection E as <-; apply Permutation_refl|].
    apply bind_ok in E. destruct E as (c & _ & E). destruct c; [injection E as <-; apply Permutation_refl| |injection E as <-; apply Permutation_refl].
    apply bind_ok in E. destruct E as (r' & E' & E). injection E as <-. apply perm_trans with (y :: x :: l); [constructor|]. apply perm_skip, IH, E'.
  Qed.
  Lemma sort_keeps : forall (l r : list (vertex A)), vertex_sort l = Ok r -> Permutation l r.
  Proof.
    induction l as [|x l IH]; intros r E; cbn [vertex_sort] in E; [injection E as <-; constructor|]. apply bind_ok in E. destruct E as (r' & E' & E).
    apply perm_trans with (x :: r'); [apply perm_skip, IH, E'|apply insert_keeps, E].
  Qed.
End Any.

Local Open Scope R_scope.
Lemma pcmp_real : forall a b : R, pcmp (A:=ArithR) a b = Some (if Rlt_dec a b then Lt else if Req_EM_T a b then Eq else Gt).
Proof.
  intros a b. unfold pcmp. cbn [flt feq ArithR]. unfold Rltb, Reqb. destruct (Rlt_dec a b); [reflexivity|]. destruct (Req_EM_T a b); [reflexivity|]. destruct (Rlt_dec b a); [reflexivity|]. exfalso. lra.
Qed.
Lemma insert_returns : forall (l : list pnt) x, exists r, sort_insert x l = Ok r.
Proof.
  induction l as [|y l IH]; intros x; cbn [sort_insert]; [eauto|]. unfold sort_cmp. rewrite !pcmp_real. destruct (IH x) as (r & E).
  destruct (Rlt_dec (vx y) (vx x)); [|destruct (Req_EM_T (vx y) (vx x))]; cbn [unwrap bind];
    repeat (match goal with |- context [Rlt_dec ?u ?v] => destruct (Rlt_dec u v) | |- context [Req_EM_T ?u ?v] => destruct (Req_EM_T u v) end); cbn [unwrap bind]; rewrite ?E; cbn [bind]; eauto.
Qed.
Lemma sort_returns : forall l : list pnt, exists r, vertex_sort l = Ok r.
Proof. induction l as [|x l (r & E)]; cbn [vertex_sort]; [eauto|]. rewrite E. cbn [bind]. apply insert_returns. Qed.

Definition rises (a b : pnt) : Prop := Y a <= Y b.
Lemma insert_column : forall (l : list pnt) x r, (forall w, In w l -> X w = X x) -> StronglySorted rises l -> sort_insert x l = Ok r -> StronglySorted rises r.
Proof.
  induction l as [|y l IH]; intros x r HX HS E; cbn [sort_insert] in E; [injection E as <-; repeat constructor|]. inversion HS as [|? ? HS' HA]; subst.
  unfold sort_cmp in E. rewrite !pcmp_real in E. pose proof (HX y (or_introl eq_refl)) as Ey. unfold X in Ey. rewrite Ey in E. destruct (Rlt_dec (vx x) (vx x)) as [L|_]; [exfalso; lra|].
  destruct (Req_EM_T (vx x) (vx x)) as [_|N]; [|exfalso; apply N; reflexivity]. cbn [unwrap bind] in E. destruct (Rlt_dec (vy y) (vy x)) as [L|L].
  - apply bind_ok in E. destruct E as (r' & E' & E). injection E as <-. constructor; [apply (IH x r'); auto; intros w Hw; apply HX; right; exact Hw|].
    apply Forall_forall. intros w Hw. apply (Permutation_in _ (Permutation_sym (insert_keeps _ _ _ E'))) in Hw. destruct Hw as [<-|Hw]; [unfold rises, Y; lra|]. rewrite Forall_forall in HA. apply HA, Hw.
  - assert (Er : r = x :: y :: l) by (destruct (Req_EM_T (vy y) (vy x)); injection E as <-; reflexivity). subst r. constructor; [exact HS|]. constructor; [unfold rises, Y; lra|].
    apply Forall_forall. intros w Hw. rewrite Forall_forall in HA. specialize (HA w Hw). unfold rises, Y in *. lra.
Qed.
Lemma sort_column : forall (l : list pnt), (forall v w, In v l -> In w l -> X v = X w) -> exists r, vertex_sort l = Ok r /\ Permutation l r /\ StronglySorted (fun a b => Y a <= Y b) r.
Proof.
  intros l HX. destruct (sort_returns l) as (r & E). exists r. split; [exact E|]. split; [apply sort_keeps, E|]. revert r E. induction l as [|x l IH]; intros r E; cbn [vertex_sort] in E; [injection E as <-; constructor|].
  apply bind_ok in E. destruct E as (r' & E' & E). apply (insert_column r' x r); [|apply IH; [intros v w Hv Hw; apply HX; right; assumption|exact E']|exact E].
  intros w Hw. apply (Permutation_in _ (Permutation_sym (sort_keeps _ _ E'))) in Hw. apply HX; [right; exact Hw|left; reflexivity].
Qed.
Lemma case_column : let l := [at_ 2 5; at_ 2 1; at_ 2 3] in forall v w, In v l -> In w l -> X v = X w.
Proof. intros l v w [<-|[<-|[<-|[]]]] [<-|[<-|[<-|[]]]]; reflexivity. Qed.
