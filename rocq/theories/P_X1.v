(** P_X1.v — refinement with nothing to do. *)

From Coq Require Import List Bool Arith Lia.
From Verif Require Import Base Arith Geometry Elements Polyline Procedures Refine Triangulator Spec SpecM SpecX P_Base P_Refine P_Worked.
Import ListNotations.

Section Rest.
  Context {A : Arith}.
  Notation vertex := (vertex A).
  Notation edge := (edge A).
  Notation triangle := (triangle A).
  Notation triangulation := (triangulation A).
  Notation polyline := (polyline A).
  Variable H : HashOrder.

  Lemma consecutive_In : forall (l : list vertex) e, In e (consecutive l) <-> exists l1 a b l2, l = l1 ++ a :: b :: l2 /\ e = (a, b).
  Proof.
    induction l as [|v l IH]; intros e; [split; [intros []|intros ([|x l1] & a & b & l2 & E & _); discriminate E]|].
    destruct l as [|w l]; [split; [intros []|intros ([|x [|y l1]] & a & b & l2 & E & _); discriminate E]|].
    change (consecutive (v :: w :: l)) with ((v, w) :: consecutive (w :: l)). cbn [In]. rewrite IH. split.
    - intros [<-|(l1 & a & b & l2 & E & ->)]; [exists [], v, w, l; split; reflexivity|]. exists (v :: l1), a, b, l2. rewrite E. split; reflexivity.
    - intros ([|x l1] & a & b & l2 & E & ->); [injection E as -> -> ->; left; reflexivity|]. injection E as -> E. right. exists l1, a, b, l2. split; [exact E|reflexivity].
  Qed.
  Lemma into_edges_sides : forall pl : polyline, pverts pl <> [] -> exists es, into_edges pl = Ok es /\ forall e, In e es <-> polyline_side pl e.
  Proof.
    intros pl Hn. unfold into_edges, poly_pairs, vertex_pairs. destruct (pverts pl) as [|v l] eqn:Ev; [congruence|]. eexists. split; [reflexivity|]. intros e. split.
    - destruct (popened pl) eqn:Eo.
      + rewrite consecutive_In. intros (l1 & a & b & l2 & E & ->). apply side_step with l1 l2. rewrite Ev. exact E.
      + rewrite in_app_iff, consecutive_In. intros [(l1 & a & b & l2 & E & ->)|[<-|[]]]; [apply side_step with l1 l2; rewrite Ev; exact E|apply side_closing; assumption].
    - intros Hs. destruct Hs as [l1 a b l2 E|a l' Eo E]; rewrite Ev in E.
      + assert (Hi : In (a, b) (consecutive (v :: l))) by (apply consecutive_In; exists l1, a, b, l2; split; [exact E|reflexivity]). destruct (popened pl); [exact Hi|apply in_or_app; left; exact Hi].
      + injection E as <- <-. rewrite Eo. apply in_or_app. right. left. reflexivity.
  Qed.
  Lemma all_edges_sides : forall (hs : list polyline) acc, (forall h, In h hs -> pverts h <> []) ->
    exists es, foldM (fun acc h => let! es := into_edges h in Ok (acc ++ es)) acc hs = Ok es /\ forall e, In e es <-> In e acc \/ exists h, In h hs /\ polyline_side h e.
  Proof.
    induction hs as [|h hs IH]; intros acc Hn; cbn [foldM]; [exists acc; split; [reflexivity|]; intros e; split; [auto|intros [He|(h & [] & _)]; exact He]|].
    destruct (into_edges_sides h (Hn h (or_introl eq_refl))) as (es & E & He). rewrite E. cbn [bind]. destruct (IH (acc ++ es) (fun h' Hh => Hn h' (or_intror Hh))) as (es' & E' & He'). exists es'. split; [exact E'|].
    intros e. rewrite He', in_app_iff, He. split.
    - intros [[Ha|Hs]|(h' & Hh & Hs)]; [auto|right; exists h; split; [left; reflexivity|exact Hs]|right; exists h'; split; [right; exact Hh|exact Hs]].
    - intros [Ha|(h' & [<-|Hh] & Hs)]; [auto|auto|right; exists h'; auto].
  Qed.
  Lemma constraints_sides : forall t : triangulator A, pverts (t_boundary t) <> [] -> (forall h, In h (t_holes t) -> pverts h <> []) ->
    exists cs, refine_constraints t = Ok cs /\ forall e, In e cs <-> constraint_on t e.
  Proof.
    intros t Hb Hh. unfold refine_constraints, all_edges. destruct (all_edges_sides (t_holes t) [] Hh) as (hes & E1 & H1). rewrite E1. cbn [bind].
    destruct (into_edges_sides _ Hb) as (bes & E2 & H2). rewrite E2. cbn [bind]. eexists. split; [reflexivity|]. intros e. rewrite hset_In, !in_app_iff, H1, H2. unfold constraint_on. cbn [In]. tauto.
  Qed.

  Lemma nobody_encroaches : forall cs (vs : list vertex), (forall e v, In e cs -> In v vs -> edge_encroach e v <> Inside) -> distribute_encroachments cs vs [] = [].
  Proof.
    intros cs vs Hf. unfold distribute_encroachments. assert (Q : forall m : list (edge * list vertex), fold_left (fun m e => match filter (fun v => cont_eqb (edge_encroach e v) Inside) vs with [] => m | enc => mset edec e enc m end) cs m = m); [|apply Q].
    induction cs as [|e cs IH]; intros m; cbn [fold_left]; [reflexivity|]. assert (E : filter (fun v => cont_eqb (edge_encroach e v) Inside) vs = []).
    { assert (Hv : forall v, In v vs -> edge_encroach e v <> Inside) by (intros v Hv; apply Hf; [left; reflexivity|exact Hv]). clear - Hv. induction vs as [|v vs IHv]; [reflexivity|]. cbn [filter].
      pose proof (Hv v (or_introl eq_refl)) as N. destruct (edge_encroach e v); cbn [cont_eqb]; [congruence| |]; apply IHv; intros w Hw; apply Hv; right; exact Hw. }
    rewrite E. apply IH. intros e' v He Hv. apply Hf; [right; exact He|exact Hv].
  Qed.
  Lemma fine_filter : forall (prm : refine_params A) (ts : list triangle), (forall x, In x ts -> is_ghost x = false /\ ~ misses prm x) ->
    filterM (is_irregular prm) ts = Ok [] /\ filterM (is_large prm) ts = Ok [].
  Proof.
    intros prm ts Hx.
    assert (Hi : forall x, In x ts -> is_irregular prm x = Ok false /\ is_large prm x = Ok false).
    { intros x Hin. destruct (Hx x Hin) as [Hg Hm]. split.
      - destruct (is_irregular prm x) as [[|]| |] eqn:E; try reflexivity.
        + exfalso. apply Hm. left. apply (thin_spec _ _ _ E). reflexivity.
        + exfalso. unfold is_irregular, quality in E. rewrite Hg in E. destruct (_ && _) in E; [discriminate E|]. destruct (fle _ _) in E; discriminate E.
        + exfalso. unfold is_irregular, quality in E. rewrite Hg in E. destruct (_ && _) in E; [discriminate E|]. destruct (fle _ _) in E; discriminate E.
      - destruct (is_large prm x) as [[|]| |] eqn:E; try reflexivity.
        + exfalso. apply Hm. right. apply (large_spec _ _ _ E). reflexivity.
        + exfalso. unfold is_large, tri_area in E. rewrite Hg in E. discriminate E.
        + exfalso. unfold is_large, tri_area in E. rewrite Hg in E. discriminate E. }
    assert (Q : filter (fun _ : triangle => false) ts = []) by (clear; induction ts; auto).
    split; rewrite (filterM_total _ _ (fun _ => false)); try (rewrite Q; reflexivity); intros x Hin; apply Hi; exact Hin.
  Qed.

  Lemma refine_rests : forall fuel p (t : triangulator A) (prm : refine_params A), 1 <= fuel ->
    pverts (t_boundary t) <> [] -> (forall h, In h (t_holes t) -> pverts h <> []) ->
    (forall e v, constraint_on t e -> In v (trn_vertices (t_trn t)) -> edge_encroach e v <> Inside) ->
    (forall x, In x (tris (t_trn t)) -> is_ghost x = false -> ~ misses prm x) ->
    exists cs, refine H fuel p t prm = Ok (t, cs) /\ forall e, In e cs <-> constraint_on t e.
  Proof.
    intros fuel p t prm Hf Hb Hh Hfree Hfine. destruct (constraints_sides t Hb Hh) as (cs & Ec & Hc). unfold refine. rewrite Ec. cbn [bind]. unfold unencroach.
    rewrite (nobody_encroaches cs) by (intros e v He Hv; apply Hfree; [apply Hc, He|exact Hv]). destruct fuel as [|fuel]; [lia|]. cbn [unencroach_all map]. rewrite ho_nil. cbn [bind]. unfold split_irregular.
    destruct (fine_filter prm (filter (fun t => negb (is_ghost t)) (tris (t_trn t)))) as [E1 E2].
    { intros x Hx. apply filter_In in Hx. destruct Hx as [Hx Hg]. apply negb_true_iff in Hg. split; [exact Hg|apply Hfine; assumption]. }
    rewrite E1, E2. cbn [bind split_loop_irregular]. rewrite !ho_nil. cbn [bind]. eexists. split; [destruct t; reflexivity|]. intros e.
    assert (R : forall c (x : edge), In x (replace_split [] c) <-> In x c).
    { intros c x. unfold replace_split. cbn [map hset]. rewrite hset_In, app_nil_r, filter_In. split; [tauto|]. intros Hx. split; [exact Hx|reflexivity]. }
    rewrite !R. apply Hc.
  Qed.
End Rest.
