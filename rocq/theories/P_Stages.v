(** P_Stages.v — the stages of [triangulate]. *)

From Coq Require Import List Permutation Arith Bool Lia.
From Verif Require Import Base Arith Geometry Elements Polyline Procedures Refine Triangulator Spec SpecM
  P_Base P_Trn P_Vertices P_Flood P_Hull P_Refine P_Worked P_Checks.
Import ListNotations.
Local Open Scope nat_scope.

Section Stages.
  Context {A : Arith} (H : HashOrder).
  Notation vertex := (vertex A).
  Notation edge := (edge A).
  Notation triangle := (triangle A).
  Notation triangulation := (triangulation A).
  Notation polyline := (polyline A).
  Notation triangulator := (triangulator A).

  (** ** Edges and vertices of polylines *)

  Lemma consecutive_ends : forall (l : list vertex) e, In e (consecutive l) -> In (fst e) l /\ In (snd e) l.
  Proof.
    intros l. induction l as [|v l IH]; intros e He; [destruct He|]. destruct l as [|w l]; [destruct He|].
    destruct He as [<-|He]; [cbn; auto|]. destruct (IH e He). split; right; assumption.
  Qed.

  Lemma last_In : forall (l : list vertex) v, In (last (v :: l) v) (v :: l).
  Proof.
    intros l v. generalize v at 2 as d. revert v. induction l as [|w l IH]; intros v d; [left; reflexivity|]. right. exact (IH w d).
  Qed.

  Lemma into_edges_ends : forall (b : polyline) es, into_edges b = Ok es -> forall e, In e es -> In (fst e) (pverts b) /\ In (snd e) (pverts b).
  Proof.
    intros [l o] es He e Hi. unfold into_edges, poly_pairs, vertex_pairs in He. cbn [pverts popened] in *. destruct l as [|v l]; [discriminate|].
    injection He as <-. destruct o; [apply consecutive_ends, Hi|]. apply in_app_or in Hi. destruct Hi as [Hi|[<-|[]]]; [apply consecutive_ends, Hi|].
    split; [apply last_In|left; reflexivity].
  Qed.

  Lemma arrange_walk_In : forall fuel (m : list (vertex * vertex)) h t acc vs, arrange_walk fuel m h t acc = Ok vs ->
    forall v, In v vs -> In v acc \/ exists k, In (k, v) m.
  Proof.
    intros fuel. induction fuel as [|fuel IH]; intros m h t acc vs Hw v Hv; [discriminate|]. cbn [arrange_walk] in Hw.
    destruct (mget vdec t m) as [n|] eqn:E; [|injection Hw as <-; auto]. destruct (veqb n h); [injection Hw as <-; auto|].
    destruct (IH _ _ _ _ _ Hw v Hv) as [Hi|Hi]; [|auto]. apply in_app_or in Hi. destruct Hi as [Hi|[<-|[]]]; [auto|].
    right. exists t. apply mget_In in E. exact E.
  Qed.

  Lemma poly_arrange_In : forall fuel p (es : list edge) pl, poly_arrange H fuel p es = Ok (Some pl) ->
    forall v, In v (pverts pl) -> exists e, In e es /\ (v = fst e \/ v = snd e).
  Proof.
    intros fuel p es pl Ha v Hv. unfold poly_arrange in Ha. apply bind_ok in Ha. destruct Ha as (h & Hh & Ha).
    apply bind_ok in Ha. destruct Ha as (vs & Hw & Ha). destruct (Nat.eqb (length vs) (length es)); [|discriminate].
    apply bind_ok in Ha. destruct Ha as (pl' & Hc & E). injection E as ->. apply unwrap_closed in Hc. destruct Hc as [-> _]. cbn [pverts] in Hv.
    destruct (arrange_walk_In _ _ _ _ _ _ Hw v Hv) as [[<-|[]]|(k & Hk)].
    - apply unwrap_ok in Hh. assert (Hi : In h (ho H (1 :: p) _ (map fst (mcollect vdec (ho H (0 :: p) _ es))))).
      { destruct (ho H (1 :: p) _ _); [discriminate|]. injection Hh as ->. left. reflexivity. }
      apply ho_In, mcollect_keys, in_map_iff in Hi. destruct Hi as (e & E & Hi). apply ho_In in Hi. exists e. auto.
    - apply mcollect_In, ho_In in Hk. exists (k, v). auto.
  Qed.

  Lemma hull_In : forall fuel p (ts : list triangle) pl, triangles_hull H fuel p ts = Ok (Some pl) ->
    forall v, In v (pverts pl) -> exists t, In t ts /\ corner_of v t.
  Proof.
    intros fuel p ts pl Ht v Hv. unfold triangles_hull in Ht. destruct (poly_arrange_In _ _ _ _ Ht v Hv) as (e & He & Hve).
    apply hull_edges_spec in He. destruct He as [(t & Hi & Hs) _]. exists t. split; [exact Hi|].
    destruct Hve as [-> | ->]; [apply side_corner1, Hs|apply side_corner2, Hs].
  Qed.

  (** ** Corners *)

  Definition within (W : vertex -> Prop) (tr : triangulation) : Prop :=
    forall t w, In t (tris tr) -> corner_of w t -> W w.

  Lemma within_sub : forall W (tr tr' : triangulation), (forall t, In t (tris tr') -> In t (tris tr)) -> within W tr -> within W tr'.
  Proof. intros W tr tr' Hs Hw t w Ht. apply Hw, Hs, Ht. Qed.

  Lemma ghost_on_corner : forall (e : edge) w, corner_of w (ghost_on e) -> w = fst e \/ w = snd e \/ w = ghost_vertex.
  Proof. intros [a b] w Hc. apply corner_of_tverts in Hc. destruct Hc as [<-|[<-|[<-|[]]]]; auto. Qed.

  Lemma initial_within : forall (W : vertex -> Prop) a b, W a -> W b -> W ghost_vertex -> within W (from_initial_segment a b).
  Proof.
    intros W a b Ha Hb Hg t w Ht Hc. unfold from_initial_segment in Ht. apply incl_tri_In in Ht. destruct Ht as [-> | Ht].
    - apply corner_of_tverts in Hc. destruct Hc as [<-|[<-|[<-|[]]]]; assumption.
    - apply incl_tri_In in Ht. destruct Ht as [-> | []]. apply corner_of_tverts in Hc. destruct Hc as [<-|[<-|[<-|[]]]]; assumption.
  Qed.

  Lemma vertices_within : forall W fuel p (tr : triangulation) vs cs bd hs tr' inc del, adj_sound tr ->
    vertices_include H fuel p tr vs cs bd hs = Ok (tr', inc, del) -> within W tr -> (forall v, In v vs -> W v) -> within W tr'.
  Proof.
    intros W fuel p tr vs cs bd hs tr' inc del Hs Hv Hw Hvs t w Ht Hc. destruct (include_corners H _ _ _ _ _ _ _ _ _ _ Hs Hv t w Ht Hc) as [(t0 & H1 & H2)|Hi].
    - apply (Hw _ _ H1 H2).
    - apply Hvs, Hi.
  Qed.

  Lemma remove_behind_sub : forall frontier es (tr : triangulation) pending tr' pending', adj_sound tr ->
    remove_behind frontier es tr pending = (tr', pending') -> adj_sound tr' /\ forall t, In t (tris tr') -> In t (tris tr).
  Proof.
    intros frontier es. induction es as [|e es IH]; intros tr pending tr' pending' Hs Hr; cbn [remove_behind] in Hr; [injection Hr as <- _; auto|].
    destruct (adj_get e tr) as [t|]; [|exact (IH _ _ _ _ Hs Hr)]. destruct (IH _ _ _ _ (adj_sound_rem t tr Hs) Hr) as [H1 H2]. split; [exact H1|].
    intros x Hx. apply H2, rem_tri_In in Hx. apply Hx.
  Qed.

  Lemma flood_fill_sub : forall fuel frontier pending (tr tr' : triangulation), adj_sound tr ->
    flood_fill fuel frontier pending tr = Ok tr' -> adj_sound tr' /\ forall t, In t (tris tr') -> In t (tris tr).
  Proof.
    intros fuel frontier. induction fuel as [|fuel IH]; intros pending tr tr' Hs Hf; [discriminate|]. cbn [flood_fill] in Hf.
    destruct pending as [|e pending]; [injection Hf as <-; auto|]. destruct (adj_get e tr) as [t|]; [|exact (IH _ _ _ Hs Hf)].
    destruct (IH _ _ _ (adj_sound_rem t tr Hs) Hf) as [H1 H2]. split; [exact H1|]. intros x Hx. apply H2, rem_tri_In in Hx. apply Hx.
  Qed.

  Lemma boundary_within : forall (W : vertex -> Prop) fuel p (tr : triangulation) b cs tr', adj_sound tr -> boundary_include H fuel p tr b cs = Ok tr' ->
    adj_sound tr' /\ (within W tr -> W ghost_vertex -> (forall v, In v (pverts b) -> W v) -> within W tr').
  Proof.
    intros W fuel p tr b cs tr' Hs Hb. unfold boundary_include in Hb. apply bind_ok in Hb. destruct Hb as (es & He & Hb).
    apply bind_ok in Hb. destruct Hb as ([[tr1 inc] del] & Hv & Hb).
    destruct (remove_behind _ _ tr1 []) as [tr2 pending] eqn:Hr. apply bind_ok in Hb. destruct Hb as (tr3 & Hf & E). injection E as <-.
    pose proof (proj1 (include_reported H _ _ _ _ _ _ _ _ _ _ Hs Hv)) as Hs1. destruct (remove_behind_sub _ _ _ _ _ _ Hs1 Hr) as [Hs2 Sub2].
    destruct (flood_fill_sub _ _ _ _ _ Hs2 Hf) as [Hs3 Sub3]. split.
    - unfold include_ghosts. generalize (ho H (3 :: p) _ (hset edec (map opposite es))). intros l. revert tr3 Hf Hs3 Sub3.
      induction l as [|e l IH]; intros tr3 _ Hs3 _; [exact Hs3|]. cbn [fold_left].
      clear Hr. revert tr3 Hs3. assert (G : forall l (tr : triangulation), adj_sound tr -> adj_sound (fold_left (fun tr e => incl_tri (ghost_on e) tr) l tr)).
      { intros l'. induction l' as [|x l' IH']; intros tr' Hs'; [exact Hs'|]. cbn. apply IH', adj_sound_incl, Hs'. }
      intros tr3 Hs3. apply G, adj_sound_incl, Hs3.
    - intros Hw Hg Hvs t w Ht Hc. apply include_ghosts_In in Ht. destruct Ht as [Ht|(e & He' & ->)].
      + apply (vertices_within W _ _ _ _ _ _ _ _ _ _ Hs Hv Hw Hvs t w); [apply Sub2, Sub3, Ht|exact Hc].
      + apply ho_In, hset_In, in_map_iff in He'. destruct He' as (x & <- & Hx). destruct (into_edges_ends _ _ He x Hx) as [E1 E2].
        destruct (ghost_on_corner _ _ Hc) as [-> | [-> | ->]]; [apply Hvs; exact E2|apply Hvs; exact E1|exact Hg].
  Qed.

  Lemma segment_conflicts_sub : forall fuel (tr : triangulation) s cs ts, segment_conflicts fuel tr s cs = Ok ts ->
    forall t, In t ts -> In t (tris tr) /\ is_ghost t = false.
  Proof.
    intros fuel tr s cs ts Hc t Ht. unfold segment_conflicts in Hc. apply bind_ok in Hc. destruct Hc as (l & Hf & E). injection E as <-.
    apply filter_In in Ht. destruct Ht as [Ht _]. apply (filterM_in _ _ _ _ Hf) in Ht. destruct Ht as [Ht _]. apply filter_In in Ht.
    rewrite negb_true_iff in Ht. exact Ht.
  Qed.

  Lemma segment_within : forall (W : vertex -> Prop) fuel p (tr : triangulation) s cs tr', adj_sound tr -> segment_include H fuel p tr s cs = Ok tr' ->
    adj_sound tr' /\ (within W tr -> W ghost_vertex -> W (fst s) -> W (snd s) -> within W tr').
  Proof.
    intros W fuel p tr s cs tr' Hs Hi. split; [apply (segment_include_sound H _ _ _ _ _ _ Hi Hs)|]. intros Hw Hg H1 H2 t w Ht Hc.
    unfold segment_include in Hi. apply bind_ok in Hi. destruct Hi as (conf & Hconf & Hi). apply bind_ok in Hi. destruct Hi as (oh & Hoh & Hi).
    apply bind_ok in Hi. destruct Hi as (hull & Hh & Hi). apply unwrap_ok in Hh. subst oh. apply bind_ok in Hi. destruct Hi as (st1 & Hb & Hi).
    apply bind_ok in Hi. destruct Hi as ([[st2 i] d] & Hv & E). injection E as <-.
    assert (Hcw : forall t w, In t conf -> corner_of w t -> W w).
    { intros t0 w0 Ht0. apply Hw, (segment_conflicts_sub _ _ _ _ _ Hconf), Ht0. }
    apply fold_incl_In in Ht. destruct Ht as [Ht|Ht].
    - apply fold_rem_In in Ht. apply (Hw t w (proj1 Ht) Hc).
    - apply ho_In, filter_In in Ht. destruct Ht as [Ht _].
      destruct (boundary_within W _ _ _ _ _ _ (initial_sound (ev1 s) (ev2 s)) Hb) as [Hs1 Hw1].
      refine (vertices_within W _ _ _ _ _ _ _ _ _ _ Hs1 Hv _ _ t w Ht Hc).
      + apply Hw1; [apply initial_within; assumption|exact Hg|]. intros v Hv'. destruct (hull_In _ _ _ _ Hoh v Hv') as (t0 & Ht0 & Hc0). apply (Hcw t0 v Ht0 Hc0).
      + intros v Hv'. apply ho_In, hset_In, in_flat_map in Hv'. destruct Hv' as (t0 & Ht0 & Hc0). apply corner_of_tverts in Hc0. apply (Hcw t0 v Ht0 Hc0).
  Qed.

  Lemma missing_within : forall (W : vertex -> Prop) segs cs, (forall e, In e segs -> W (fst e) /\ W (snd e)) -> W ghost_vertex ->
    forall fuel p (tr tr' : triangulation), adj_sound tr -> insert_missing H fuel p segs cs tr = Ok tr' -> within W tr -> adj_sound tr' /\ within W tr'.
  Proof.
    intros W segs cs He Hg fuel. induction fuel as [|fuel IH]; intros p tr tr' Hs Hm Hw; [discriminate|]. cbn [insert_missing] in Hm.
    destruct (find _ _) as [e|] eqn:Hf; [|injection Hm as <-; auto]. apply bind_ok in Hm. destruct Hm as (tr1 & H1 & Hm).
    apply find_some in Hf. destruct Hf as [Hf _]. apply ho_In in Hf. destruct (He e Hf) as [E1 E2].
    destruct (segment_within W _ _ _ _ _ _ Hs H1) as [S1 S2]. apply (IH _ _ _ S1 Hm). apply S2; assumption.
  Qed.

  Lemma open_hole_within : forall (W : vertex -> Prop) frontier es (tr : triangulation) pending tr' pending', adj_sound tr ->
    open_hole frontier es tr pending = (tr', pending') -> W ghost_vertex -> (forall e, In e es -> W (fst e) /\ W (snd e)) -> within W tr ->
    adj_sound tr' /\ within W tr'.
  Proof.
    intros W frontier es. induction es as [|e es IH]; intros tr pending tr' pending' Hs Ho Hg He Hw; cbn [open_hole] in Ho; [injection Ho as <- _; auto|].
    assert (Hadd : forall tr0 : triangulation, within W tr0 -> within W (incl_tri (ghost_on e) tr0)).
    { intros tr0 Hw0 t w Ht Hc. apply incl_tri_In in Ht. destruct Ht as [-> | Ht]; [|apply (Hw0 t w Ht Hc)].
      destruct (He e (or_introl eq_refl)). destruct (ghost_on_corner _ _ Hc) as [-> | [-> | ->]]; assumption. }
    destruct (adj_get e tr) as [t|].
    - refine (IH _ _ _ _ _ Ho Hg (fun x Hx => He x (or_intror Hx)) _); [apply adj_sound_incl, adj_sound_rem, Hs|]. apply Hadd.
      apply (within_sub W tr); [|exact Hw]. intros x Hx. apply rem_tri_In in Hx. apply Hx.
    - refine (IH _ _ _ _ _ Ho Hg (fun x Hx => He x (or_intror Hx)) _); [apply adj_sound_incl, Hs|]. apply Hadd, Hw.
  Qed.

  Lemma hole_within : forall (W : vertex -> Prop) fuel p (tr : triangulation) h cs tr', adj_sound tr -> hole_include H fuel p tr h cs = Ok tr' ->
    W ghost_vertex -> (forall v, In v (pverts h) -> W v) -> within W tr -> adj_sound tr' /\ within W tr'.
  Proof.
    intros W fuel p tr h cs tr' Hs Hb Hg Hvs Hw. unfold hole_include in Hb. apply bind_ok in Hb. destruct Hb as (es & He & Hb).
    apply bind_ok in Hb. destruct Hb as ([[tr1 inc] del] & Hv & Hb). apply bind_ok in Hb. destruct Hb as (tr2 & Hm & Hb).
    destruct (open_hole _ _ tr2 []) as [tr3 pending] eqn:Ho.
    assert (Hes : forall e, In e (hset edec es) -> W (fst e) /\ W (snd e)).
    { intros e Hi. apply hset_In in Hi. destruct (into_edges_ends _ _ He e Hi). split; apply Hvs; assumption. }
    pose proof (proj1 (include_reported H _ _ _ _ _ _ _ _ _ _ Hs Hv)) as Hs1.
    destruct (missing_within W _ _ Hes Hg _ _ _ _ Hs1 Hm (vertices_within W _ _ _ _ _ _ _ _ _ _ Hs Hv Hw Hvs)) as [Hs2 Hw2].
    destruct (open_hole_within W _ _ _ _ _ _ Hs2 Ho Hg (fun e Hi => Hes e (proj1 (ho_In H _ _ _ _) Hi)) Hw2) as [Hs3 Hw3].
    destruct (flood_fill_sub _ _ _ _ _ Hs3 Hb) as [Hs4 Sub4]. split; [exact Hs4|]. apply (within_sub W tr3); assumption.
  Qed.

  Lemma holes_stage : forall (W : vertex -> Prop) fuel hs p (tr : triangulation) cs tr' cs', adj_sound tr ->
    include_holes H fuel p hs tr cs = Ok (tr', cs') -> W ghost_vertex -> (forall h v, In h hs -> In v (pverts h) -> W v) -> within W tr ->
    adj_sound tr' /\ within W tr' /\ forall e, In e cs' <-> In e cs \/ exists h es, In h hs /\ into_edges h = Ok es /\ In e es.
  Proof.
    intros W fuel hs. induction hs as [|h hs IH]; intros p tr cs tr' cs' Hs Hi Hg Hvs Hw; cbn [include_holes] in Hi.
    - injection Hi as <- <-. split; [exact Hs|]. split; [exact Hw|]. intros e. split; [auto|]. intros [He|(h & es & [] & _)]; exact He.
    - apply bind_ok in Hi. destruct Hi as (tr1 & H1 & Hi). apply bind_ok in Hi. destruct Hi as (es & He & Hi).
      destruct (hole_within W _ _ _ _ _ _ Hs H1 Hg (fun v => Hvs h v (or_introl eq_refl)) Hw) as [S1 W1].
      destruct (IH _ _ _ _ _ S1 Hi Hg (fun h' v Hh' => Hvs h' v (or_intror Hh')) W1) as (S2 & W2 & C2). split; [exact S2|]. split; [exact W2|].
      intros e. rewrite C2, hset_In, in_app_iff. split.
      + intros [[Hc|Hc]|(h' & es' & Hh' & He' & Hin)]; [auto|right; exists h, es; cbn; auto|right; exists h', es'; cbn; auto].
      + intros [Hc|(h' & es' & [<-|Hh'] & He' & Hin)]; [auto| |right; exists h', es'; auto]. rewrite He in He'. injection He' as <-. auto.
  Qed.

  Lemma segments_stage : forall (W : vertex -> Prop) fuel ss p (tr : triangulation) cs tr' cs', adj_sound tr ->
    include_segments H fuel p ss tr cs = Ok (tr', cs') -> W ghost_vertex -> (forall s, In s ss -> W (fst s) /\ W (snd s)) -> within W tr ->
    adj_sound tr' /\ within W tr' /\ forall e, In e cs' <-> In e cs \/ In e ss.
  Proof.
    intros W fuel ss. induction ss as [|s ss IH]; intros p tr cs tr' cs' Hs Hi Hg Hvs Hw; cbn [include_segments] in Hi.
    - injection Hi as <- <-. split; [exact Hs|]. split; [exact Hw|]. intros e. cbn. tauto.
    - apply bind_ok in Hi. destruct Hi as (tr1 & H1 & Hi). destruct (segment_within W _ _ _ _ _ _ Hs H1) as [S1 W1].
      destruct (Hvs s (or_introl eq_refl)) as [E1 E2].
      destruct (IH _ _ _ _ _ S1 Hi Hg (fun x Hx => Hvs x (or_intror Hx)) (W1 Hw Hg E1 E2)) as (S2 & W2 & C2). split; [exact S2|]. split; [exact W2|].
      intros e. rewrite C2, hadd_In. cbn [In]. intuition.
  Qed.

  (** C73, C74 *)
  Lemma triangulate_stages : forall fuel p (t t' : triangulator), triangulate H fuel p t = Ok t' ->
    exists q tr3 vs cs inc del,
      vertices_include H fuel q tr3 vs cs (Some (t_boundary t)) (t_holes t) = Ok (t_trn t', inc, del) /\
      Permutation (t_vertices t) vs /\ (forall e, In e cs <-> fixed_edge t e) /\
      adj_sound tr3 /\ adj_sound (t_trn t') /\
      (forall x w, In x (tris tr3) -> corner_of w x -> given t w \/ w = ghost_vertex) /\
      (forall x w, In x (tris (t_trn t')) -> corner_of w x -> given t w \/ w = ghost_vertex).
  Proof.
    intros fuel p t t' Hr. unfold triangulate in Hr.
    apply bind_ok in Hr. destruct Hr as (v1 & H1 & Hr). apply unwrap_ok, nth_error_In in H1.
    apply bind_ok in Hr. destruct Hr as (v2 & H2 & Hr). apply unwrap_ok, nth_error_In in H2. cbn zeta in Hr.
    apply bind_ok in Hr. destruct Hr as (tr1 & Hb & Hr). apply bind_ok in Hr. destruct Hr as (bes & Hbe & Hr).
    apply bind_ok in Hr. destruct Hr as ([tr2 cs2] & Hh & Hr). apply bind_ok in Hr. destruct Hr as ([tr3 cs3] & Hs & Hr).
    apply bind_ok in Hr. destruct Hr as ([[tr4 inc] del] & Hv & E). injection E as <-.
    set (W := fun w => given t w \/ w = ghost_vertex).
    assert (Wb : forall v, In v (pverts (t_boundary t)) -> W v) by (intros v Hi; left; left; exact Hi).
    assert (Wg : W ghost_vertex) by (right; reflexivity).
    destruct (boundary_within W _ _ _ _ _ _ (initial_sound v1 v2) Hb) as [S1 W1].
    specialize (W1 (initial_within W v1 v2 (Wb _ H1) (Wb _ H2) Wg) Wg Wb).
    destruct (holes_stage W _ _ _ _ _ _ _ S1 Hh Wg) as (S2 & W2 & C2); [|exact W1|].
    { intros h v Hi Hin. apply ho_In in Hi. left. right. left. exists h. auto. }
    destruct (segments_stage W _ _ _ _ _ _ _ S2 Hs Wg) as (S3 & W3 & C3); [|exact W2|].
    { intros s Hi. apply ho_In in Hi. split; left; right; right; left; exists s; auto. }
    exists (6 :: p), tr3, (ho H (7 :: p) _ (t_vertices t)), cs3, inc, del.
    split; [exact Hv|]. split; [apply ho_perm|]. split; [|split; [exact S3|split; [|split; [exact W3|]]]].
    - intros e. rewrite C3, C2, hset_In, ho_In. unfold fixed_edge. split.
      + intros [[He|(h & es & Hi & Hes & Hin)]|He]; [left; exists bes; auto| |auto]. right. left. exists h, es. apply ho_In in Hi. auto.
      + intros [(es & Hes & Hin)|[(h & es & Hi & Hes & Hin)|He]]; [|left; right; exists h, es; rewrite ho_In; auto|auto].
        rewrite Hbe in Hes. injection Hes as <-. auto.
    - cbn [t_trn with_triangulation]. apply (include_reported H _ _ _ _ _ _ _ _ _ _ S3 Hv).
    - cbn [t_trn with_triangulation]. apply (vertices_within W _ _ _ _ _ _ _ _ _ _ S3 Hv W3). intros v Hi. apply ho_In in Hi. left. right. right. right. exact Hi.
  Qed.

  Lemma triangulate_no_new_vertex : forall fuel p (t t' : triangulator), triangulate H fuel p t = Ok t' ->
    adj_sound (t_trn t') /\
    forall x w, In x (tris (t_trn t')) -> corner_of w x -> given t w \/ w = ghost_vertex.
  Proof.
    intros fuel p t t' Hr. destruct (triangulate_stages _ _ _ _ Hr) as (q & tr3 & vs & cs & inc & del & _ & _ & _ & _ & Hs & _ & Hw). split; [exact Hs|exact Hw].
  Qed.

  Lemma triangulate_keeps_fixed : forall fuel p (t t' : triangulator), triangulate H fuel p t = Ok t' ->
    exists q tr3 vs cs inc del,
      vertices_include H fuel q tr3 vs cs (Some (t_boundary t)) (t_holes t) = Ok (t_trn t', inc, del) /\
      Permutation (t_vertices t) vs /\
      ((forall u w, (given t u \/ u = ghost_vertex) -> (given t w \/ w = ghost_vertex) -> veqb u w = true -> u = w) ->
       forall e, fixed_edge t e \/ fixed_edge t (flip e) -> some_side (tris tr3) e -> some_side (tris (t_trn t')) e).
  Proof.
    intros fuel p t t' Hr. destruct (triangulate_stages _ _ _ _ Hr) as (q & tr3 & vs & cs & inc & del & Hv & Hp & Hc & S3 & _ & W3 & _).
    exists q, tr3, vs, cs, inc, del. split; [exact Hv|]. split; [exact Hp|]. intros Hsep e He Hside.
    refine (proj1 (include_constrained H _ _ _ _ _ _ _ _ _ _ S3 _ Hv) e _ Hside).
    - assert (K : forall u, known tr3 vs u -> given t u \/ u = ghost_vertex).
      { intros u [(x & Hx & Hcx)|Hi]; [apply (W3 x u Hx Hcx)|]. left. right. right. right. apply (Permutation_in _ (Permutation_sym Hp) Hi). }
      intros u w Hu Hw. apply Hsep; apply K; assumption.
    - unfold constrained. rewrite !Hc. exact He.
  Qed.

  (** ** Refinement of a triangulator *)

  Lemma unencroach_sound : forall fuel p cs bd hs em (tr : triangulation) sm inc del tr' sm' inc' del', adj_sound tr ->
    unencroach_all H fuel p cs bd hs em tr sm inc del = Ok (tr', sm', inc', del') -> adj_sound tr'.
  Proof.
    intros fuel. induction fuel as [|fuel IH]; intros p cs bd hs em tr sm inc del tr' sm' inc' del' Hs Hu; [discriminate|]. cbn [unencroach_all] in Hu.
    destruct (ho H (1 :: p) _ (map fst em)) as [|e l]; [injection Hu as <- _ _ _; exact Hs|].
    apply bind_ok in Hu. destruct Hu as (vs & _ & Hu). apply bind_ok in Hu. destruct Hu as ([[[[tr1 v1] new] i1] d1] & H1 & Hu).
    refine (IH _ _ _ _ _ _ _ _ _ _ _ _ _ _ Hu). apply (unencroach_segment_changes H _ _ _ _ _ _ _ _ _ _ _ _ _ Hs H1).
  Qed.

  Lemma all_edges_In : forall (hs : list polyline) es, all_edges hs = Ok es ->
    forall e, In e es <-> exists h l, In h hs /\ into_edges h = Ok l /\ In e l.
  Proof.
    intros hs es He. unfold all_edges in He.
    assert (G : forall (l : list polyline) acc r, foldM (fun acc h => let! es := into_edges h in Ok (acc ++ es)) acc l = Ok r ->
      forall e, In e r <-> In e acc \/ exists h k, In h l /\ into_edges h = Ok k /\ In e k).
    { clear He. induction l as [|h l IH]; intros acc r Hf e; cbn [foldM] in Hf.
      - injection Hf as <-. split; [tauto|]. intros [Hi|(h & k & [] & _)]. exact Hi.
      - apply bind_ok in Hf. destruct Hf as (acc' & Ha & Hf). apply bind_ok in Ha. destruct Ha as (k & Hk & Ha). injection Ha as <-.
        rewrite (IH _ _ Hf e), in_app_iff. split.
        + intros [[Hi|Hi]|(h' & k' & Hh & Hk' & Hi)]; [tauto| |]; right; [exists h, k|exists h', k']; cbn; auto.
        + intros [Hi|(h' & k' & [->|Hh] & Hk' & Hi)]; [tauto| |]; [rewrite Hk in Hk'; injection Hk' as <-; tauto|]. right. exists h', k'. auto. }
    intros e. rewrite (G _ _ _ He e). cbn. tauto.
  Qed.
  Lemma refine_constraints_fixed : forall (t : triangulator) cs, refine_constraints t = Ok cs -> forall e, In e cs <-> fixed_edge t e.
  Proof.
    intros t cs Hc e. unfold refine_constraints in Hc. apply bind_ok in Hc. destruct Hc as (hes & Hh & Hc).
    apply bind_ok in Hc. destruct Hc as (bes & Hb & Hc). injection Hc as <-. rewrite (hset_In edec), !in_app_iff, (all_edges_In _ _ Hh). unfold fixed_edge.
    rewrite Hb. split.
    - intros [Hx|[Hx|Hx]]; [right; left; exact Hx|left; exists bes; auto|tauto].
    - intros [(es & E & Hx)|[Hx|Hx]]; [injection E as <-; tauto|tauto|tauto].
  Qed.

  Lemma refine_tries : forall fuel p (t t' : triangulator) prm cs', adj_sound (t_trn t) -> refine H fuel p t prm = Ok (t', cs') ->
    exists cs sm i d tr1 tried gone cs2,
      (forall e, In e cs <-> fixed_edge t e) /\
      unencroach H fuel (1 :: p) (t_trn t) cs (Some (t_boundary t)) (t_holes t) = Ok (tr1, sm, i, d) /\
      refining H prm (Some (t_boundary t)) (t_holes t) (tris tr1) tr1 (replace_split sm cs) tried gone (t_trn t') cs2 /\
      adj_sound tr1 /\
      forall x, In x (tris (t_trn t')) -> is_ghost x = false -> misses prm x -> In x tried \/ In x gone.
  Proof.
    intros fuel p t t' prm cs' Hs Hr. unfold refine in Hr. apply bind_ok in Hr. destruct Hr as (cs & Hc & Hr).
    apply bind_ok in Hr. destruct Hr as ([[[tr1 sm] i] d] & Hu & Hr). cbn zeta in Hr. apply bind_ok in Hr. destruct Hr as ([[tr2 cs2] sm2] & Hsp & E).
    injection E as <- _. unfold unencroach in Hu. pose proof (unencroach_sound _ _ _ _ _ _ _ _ _ _ _ _ _ _ Hs Hu) as Hs1.
    destruct (split_irregular_tries H _ _ _ _ _ _ _ _ _ _ Hs1 Hsp) as (tried & gone & R1 & R2).
    exists cs, sm, i, d, tr1, tried, gone, cs2. split; [intros e; apply (refine_constraints_fixed _ _ Hc)|]. split; [exact Hu|]. split; [exact R1|]. split; [exact Hs1|exact R2].
  Qed.
End Stages.
