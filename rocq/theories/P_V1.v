(** P_V1.v — turns of rings; missing sides of holes; lists for drawing; lists of
    coordinates. *)

From Coq Require Import Reals List ZArith Lra Lia Bool Permutation.
From Verif Require Import Base Arith Geometry Elements Polyline Procedures Interface ArithR Spec SpecR SpecS SpecU
  P_Base P_Trn P_Poly P_Bool P_H1 P_Interface.
Import ListNotations.

(** ** Turns *)
Section Turns.
  Variable H : HashOrder.
  Notation edge := (edge ArithR).

  Lemma continues_could : forall (s t : edge), continues (fst s) (snd s) t = true <-> could_follow s t.
  Proof.
    intros [v1 v2] [v3 v4]. unfold continues, could_follow. cbn [fst snd].
    destruct (veqb v1 v3), (veqb v1 v4), (veqb v2 v4), (veqb v2 v3); cbn; intuition discriminate.
  Qed.
  Lemma turn_some : forall (a b c : vertex ArithR), exists th : R, angle a b c = Some th.
  Proof. intros a b c. unfold angle. destruct (orient_eqb _ _); eauto. Qed.
  Definition rising (desc : bool) (s t t' : edge) : Prop := if desc then turn_le s t' t else turn_le s t t'.
  Lemma rising_refl : forall desc s t, rising desc s t t.
  Proof. intros desc s t. destruct (turn_some (fst s) (snd s) (snd t)) as [a Ha]. destruct desc; exists a, a; (split; [exact Ha|split; [exact Ha|apply Rle_refl]]). Qed.
  Lemma rising_trans : forall desc s t t' t'', rising desc s t t' -> rising desc s t' t'' -> rising desc s t t''.
  Proof.
    intros desc s t t' t'' H1 H2. destruct desc; cbn in *.
    - destruct H1 as (a & b & Ha & Hb & L), H2 as (c & d & Hc & Hd & L'). rewrite Ha in Hd. injection Hd as <-. exists c, b. split; [exact Hc|]. split; [exact Hb|]. lra.
    - destruct H1 as (a & b & Ha & Hb & L), H2 as (c & d & Hc & Hd & L'). rewrite Hb in Hc. injection Hc as <-. exists a, d. split; [exact Ha|]. split; [exact Hd|]. lra.
  Qed.
  Lemma before_rising : forall desc (s t t' : edge), if before desc (fst s) (snd s) t t' then rising desc s t t' else rising desc s t' t.
  Proof.
    intros desc s t t'. unfold before, ang, rising, turn_le. unfold ev2.
    destruct (turn_some (fst s) (snd s) (snd t)) as [a Ha]. destruct (turn_some (fst s) (snd s) (snd t')) as [b Hb]. rewrite Ha, Hb.
    destruct desc.
    - change (flt (a:=ArithR) b a) with (Rltb b a). unfold Rltb. destruct (Rlt_dec b a); [exists b, a|exists a, b]; repeat split; auto; lra.
    - change (flt (a:=ArithR) a b) with (Rltb a b). unfold Rltb. destruct (Rlt_dec a b); [exists a, b|exists b, a]; repeat split; auto; lra.
  Qed.
  Lemma first_least : forall desc (s : edge) l x, first_by_angle desc (fst s) (snd s) l = Ok x -> forall t, In t l -> rising desc s x t.
  Proof.
    intros desc s l x Hf. unfold first_by_angle in Hf. destruct l as [|y l]; [discriminate|]. destruct (_ && _); [discriminate|]. injection Hf as <-.
    assert (Hall : forall l y, rising desc s (fold_left (fun best s0 => if before desc (fst s) (snd s) s0 best then s0 else best) l y) y /\
      forall t, In t l -> rising desc s (fold_left (fun best s0 => if before desc (fst s) (snd s) s0 best then s0 else best) l y) t).
    { clear l y. induction l as [|z l IH]; intros y; cbn [fold_left]; [split; [apply rising_refl|intros t []]|].
      pose proof (before_rising desc s z y) as B. destruct (IH (if before desc (fst s) (snd s) z y then z else y)) as [I1 I2].
      assert (By : rising desc s (if before desc (fst s) (snd s) z y then z else y) y) by (destruct (before _ _ _ _ _); [exact B|apply rising_refl]).
      assert (Bz : rising desc s (if before desc (fst s) (snd s) z y then z else y) z) by (destruct (before _ _ _ _ _); [apply rising_refl|exact B]).
      split; [exact (rising_trans _ _ _ _ _ I1 By)|]. intros t [<-|Ht]; [exact (rising_trans _ _ _ _ _ I1 Bz)|apply I2, Ht]. }
    destruct (Hall l y) as [G1 G2]. intros t [<-|Ht]; [exact G1|exact (G2 t Ht)].
  Qed.

  (** The turns of a chain, first segment first; [poss] is what is left. *)
  Definition turns (desc : bool) (ch left : list edge) : Prop :=
    forall l1 s s' l2, ch = l1 ++ s :: s' :: l2 -> could_follow s s' /\ forall t, In t l2 \/ In t left -> could_follow s t -> rising desc s s' t.
  Lemma turns_one : forall desc h left, turns desc [h] left.
  Proof. intros desc h left l1 s s' l2 E. destruct l1 as [|x [|y l1]]; discriminate. Qed.
  Lemma last_two : forall (ch : list edge) s x l1 a b l2, (ch ++ [s]) ++ [x] = l1 ++ a :: b :: l2 ->
    (l2 = [] /\ a = s /\ b = x) \/ exists l2', l2 = l2' ++ [x] /\ ch ++ [s] = l1 ++ a :: b :: l2'.
  Proof.
    intros ch s x l1 a b l2 E. destruct l2 as [|y l2] using rev_ind.
    - left. assert (E' : (ch ++ [s]) ++ [x] = (l1 ++ [a]) ++ [b]) by (rewrite <- (app_assoc l1); exact E).
      apply app_inj_tail in E'. destruct E' as [E1 ->]. apply app_inj_tail in E1. destruct E1 as [_ ->]. auto.
    - right. exists l2. clear IHl2. assert (E' : (ch ++ [s]) ++ [x] = (l1 ++ a :: b :: l2) ++ [y]) by (rewrite <- (app_assoc l1); exact E).
      apply app_inj_tail in E'. destruct E' as [E1 ->]. auto.
  Qed.
  Lemma chain_turns : forall fuel p desc (chain poss chain' poss' : list edge), chain_loop H fuel p desc chain poss = Ok (chain', poss') ->
    turns desc (rev chain) poss -> turns desc (rev chain') poss'.
  Proof.
    induction fuel as [|fuel IH]; intros p desc chain poss chain' poss' Hc Ht; cbn [chain_loop] in Hc; [discriminate|].
    destruct chain as [|[v1 v2] chain]; [discriminate|].
    destruct (filter (continues v1 v2) (ho H (1 :: p) edge poss)) as [|n ns] eqn:Hn; [injection Hc as <- <-; exact Ht|].
    apply bind_ok in Hc. destruct Hc as [x [Hx Hc]]. refine (IH _ _ _ _ _ _ Hc _).
    rewrite <- Hn in Hx. pose proof (first_least desc (v1, v2) _ x Hx) as Hleast. apply first_by_angle_In in Hx. apply filter_In in Hx. destruct Hx as [Hxp Hxc].
    apply ho_In in Hxp. cbn [rev] in Ht |- *. intros l1 s s' l2 E. destruct (last_two _ _ _ _ _ _ _ E) as [(-> & -> & ->)|(l2' & -> & E')].
    - split; [apply continues_could, Hxc|]. intros t [[]|Hl] Hf. apply hdel_In in Hl. apply Hleast. apply filter_In. split; [apply ho_In, Hl|].
      apply continues_could in Hf. exact Hf.
    - destruct (Ht l1 s s' l2' E') as [H1 H2]. split; [exact H1|]. intros t Hl. apply H2. destruct Hl as [Hl|Hl].
      + apply in_app_or in Hl. destruct Hl as [Hl|[<-|[]]]; [left; exact Hl|right; exact Hxp].
      + right. apply hdel_In in Hl. apply Hl.
  Qed.

  Lemma build_turns : forall fuel p (poss unused : list edge) acc pls u, build_loop H fuel p poss unused acc = Ok (pls, u) ->
    exists rings, pls = acc ++ map (fun r => Poly (map fst r) false) rings /\ smallest_turns rings /\ forall r t, In r rings -> In t r -> In t poss.
  Proof.
    induction fuel as [|fuel IH]; intros p poss unused acc pls u Hb; cbn [build_loop] in Hb; [discriminate|].
    destruct (ho H (1 :: p) _ poss) as [|h rest] eqn:Hh.
    - injection Hb as <- <-. exists []. rewrite app_nil_r. split; [reflexivity|]. split; [intros pre r post l1 s s' l2 E; destruct pre; discriminate|intros r t []].
    - assert (Hhp : In h poss) by (apply (ho_In H (1 :: p)); rewrite Hh; left; reflexivity).
      apply bind_ok in Hb. destruct Hb as [[chain poss'] [Hc Hb]].
      pose proof (chain_turns _ _ _ _ _ _ _ Hc (turns_one false h _)) as Ht.
      destruct (chain_loop_spec _ _ _ _ _ _ _ _ Hc I) as (l & -> & _ & _ & Hsub & Hrest).
      assert (Hp' : forall t, In t poss' -> In t poss) by (intros t Hi; apply Hrest in Hi; destruct Hi as [Hi _]; apply hdel_In in Hi; apply Hi).
      assert (Hch : forall t, In t (rev (l ++ [h])) -> In t poss).
      { intros t Hi. rewrite <- in_rev in Hi. apply in_app_or in Hi. destruct Hi as [Hi|[<-|[]]]; [|exact Hhp]. apply Hsub, hdel_In in Hi. apply Hi. }
      destruct (chain_closed (l ++ [h])).
      + apply bind_ok in Hb. destruct Hb as [pl [Hpl Hb]]. apply unwrap_ok in Hpl. unfold new_closed in Hpl. destruct (Nat.ltb _ _); [discriminate|]. injection Hpl as <-.
        destruct (IH _ _ _ _ _ _ Hb) as (rings & -> & Hs & Hi). exists (rev (l ++ [h]) :: rings). split; [cbn [map]; rewrite <- app_assoc; reflexivity|]. split.
        * intros pre r post l1 s s' l2 E Er. destruct pre as [|r0 pre].
          -- cbn in E. injection E as <- <-. destruct (Ht l1 s s' l2 Er) as [H1 H2]. split; [exact H1|]. intros t Hi'. apply H2. destruct Hi' as [Hi'|(r' & Hr' & Hi')]; [auto|right; eauto].
          -- cbn in E. injection E as _ E. exact (Hs pre r post l1 s s' l2 E Er).
        * intros r t [<-|Hr] Hr'; [apply Hch, Hr'|apply Hp'; eauto].
      + destruct (IH _ _ _ _ _ _ Hb) as (rings & -> & Hs & Hi). exists rings. split; [reflexivity|]. split; [exact Hs|]. intros r t Hr Hr'. apply Hp'; eauto.
  Qed.

  Lemma intersection_turns : forall fuel p p1 p2 pls u, poly_intersection (A:=ArithR) H fuel p p1 p2 = Ok (pls, u) ->
    exists rings, pls = map (fun r => Poly (map fst r) false) rings /\ smallest_turns rings.
  Proof.
    assert (E0 : smallest_turns []) by (intros pre r post l1 s s' l2 E; destruct pre; discriminate).
    intros fuel p p1 p2 pls u Hi. unfold poly_intersection in Hi.
    apply bind_ok in Hi. destruct Hi as (s1 & _ & Hi). apply bind_ok in Hi. destruct Hi as (s2 & _ & Hi). apply bind_ok in Hi. destruct Hi as (sp & _ & Hi).
    destruct (_ || _); [injection Hi as <- <-; exists []; auto|]. apply bind_ok in Hi. destruct Hi as (b1 & _ & Hi). apply bind_ok in Hi. destruct Hi as (b2 & _ & Hi).
    destruct (bbox_intersection b1 b2); [|injection Hi as <- <-; exists []; auto].
    apply bind_ok in Hi. destruct Hi as ([rd un] & _ & Hi). apply bind_ok in Hi. destruct Hi as ([rd' un'] & _ & Hi).
    destruct (build_turns _ _ _ _ _ _ _ Hi) as (rings & -> & Hs & _). exists rings. auto.
  Qed.
  Lemma subtraction_turns : forall fuel p p1 p2 pls u, poly_subtraction (A:=ArithR) H fuel p p1 p2 = Ok (pls, u) ->
    exists rings, pls = map (fun r => Poly (map fst r) false) rings /\ smallest_turns rings.
  Proof.
    assert (E0 : smallest_turns []) by (intros pre r post l1 s s' l2 E; destruct pre; discriminate).
    intros fuel p p1 p2 pls u Hi. unfold poly_subtraction in Hi.
    apply bind_ok in Hi. destruct Hi as (s1 & _ & Hi). apply bind_ok in Hi. destruct Hi as (s2 & _ & Hi). apply bind_ok in Hi. destruct Hi as (sp & _ & Hi).
    apply bind_ok in Hi. destruct Hi as (b1 & _ & Hi). apply bind_ok in Hi. destruct Hi as (b2 & _ & Hi). apply bind_ok in Hi. destruct Hi as (c & _ & Hi).
    destruct (_ || _); [injection Hi as <- <-; exists []; auto|].
    apply bind_ok in Hi. destruct Hi as ([rd un] & _ & Hi). apply bind_ok in Hi. destruct Hi as ([rd' un'] & _ & Hi).
    destruct (build_turns _ _ _ _ _ _ _ Hi) as (rings & -> & Hs & _). exists rings. auto.
  Qed.
  Lemma union_loop_turns : forall fuel p (poss unused : list edge) pl u, union_loop H fuel p poss unused = Ok (Some (pl, u)) ->
    exists r, pl = Poly (map fst r) false /\ largest_turns r.
  Proof.
    induction fuel as [|fuel IH]; intros p poss unused pl u Hu; cbn [union_loop] in Hu; [discriminate|].
    destruct (ho H (1 :: p) _ poss) as [|h rest]; [discriminate|].
    apply bind_ok in Hu. destruct Hu as [[chain poss'] [Hc Hu]]. pose proof (chain_turns _ _ _ _ _ _ _ Hc (turns_one true h _)) as Ht.
    apply bind_ok in Hu. destruct Hu as [ccw [_ Hu]]. destruct ccw; [|exact (IH _ _ _ _ _ Hu)].
    apply bind_ok in Hu. destruct Hu as [pl' [Hpl Hu]]. apply unwrap_ok in Hpl. injection Hu as <- <-.
    unfold new_closed in Hpl. destruct (Nat.ltb _ _); [discriminate|]. injection Hpl as <-. exists (rev chain). split; [reflexivity|].
    intros l1 s s' l2 E. destruct (Ht l1 s s' l2 E) as [H1 H2]. split; [exact H1|]. intros t Hi Hf. exact (H2 t (or_introl Hi) Hf).
  Qed.
  Lemma union_turns : forall fuel p p1 p2 pl u, poly_union (A:=ArithR) H fuel p p1 p2 = Ok (Some (pl, u)) ->
    exists r, pl = Poly (map fst r) false /\ largest_turns r.
  Proof.
    intros fuel p p1 p2 pl u Hi. unfold poly_union in Hi. destruct (_ || _); [discriminate|].
    apply bind_ok in Hi. destruct Hi as (b1 & _ & Hi). apply bind_ok in Hi. destruct Hi as (b2 & _ & Hi).
    destruct (bbox_intersection b1 b2); [|discriminate].
    apply bind_ok in Hi. destruct Hi as (s1 & _ & Hi). apply bind_ok in Hi. destruct Hi as (s2 & _ & Hi). apply bind_ok in Hi. destruct Hi as (sp & _ & Hi).
    apply bind_ok in Hi. destruct Hi as ([rd un] & _ & Hi). exact (union_loop_turns _ _ _ _ _ _ Hi).
  Qed.
End Turns.

(** ** Missing sides *)
Section Missing.
  Context {A : Arith}.
  Variable H : HashOrder.
  Notation edge := (edge A). Notation triangle := (triangle A). Notation triangulation := (triangulation A).
  Lemma missing_touches : forall fuel p (segs cs : list edge) (tr tr' : triangulation), insert_missing H fuel p segs cs tr = Ok tr' ->
    (forall s, In s segs -> In s (trn_edges tr')) /\
    (forall t, In t (tris tr) -> ~ In t (tris tr') -> exists f s, In s segs /\ gives_way f cs s t) /\
    (forall t, In t (tris tr') -> ~ In t (tris tr) -> is_ghost t = false /\
       forall w, corner_of w t -> (exists s, In s segs /\ (w = fst s \/ w = snd s)) \/ exists t0, In t0 (tris tr) /\ corner_of w t0).
  Proof.
    induction fuel as [|fuel IH]; intros p segs cs tr tr' Hm; cbn [insert_missing] in Hm; [discriminate|].
    destruct (find _ (ho H (1 :: p) edge segs)) as [e|] eqn:Ef.
    - apply find_some in Ef. destruct Ef as [He _]. apply ho_In in He. apply bind_ok in Hm. destruct Hm as (tr1 & Hs & Hm).
      destruct (segment_touches H _ _ _ _ _ _ Hs) as (new & Hiff & Hnew). destruct (IH _ _ _ _ _ Hm) as (I1 & I2 & I3). split; [exact I1|]. split.
      + intros t Ht Hn. destruct (in_dec tdec t (tris tr1)) as [H1|H1]; [exact (I2 t H1 Hn)|].
        destruct (in_dec tdec t new) as [Hw|Hw]; [exfalso; apply H1, Hiff; auto|].
        exists fuel, e. split; [exact He|].
        assert (K : ~ ~ gives_way fuel cs e t) by (intros K; apply H1, Hiff; auto).
        unfold segment_include in Hs. apply bind_ok in Hs. destruct Hs as (conf & Hconf & _). pose proof (conflicts_gives_way _ _ _ _ _ Hconf t) as Hg.
        destruct (in_dec tdec t conf) as [Hi|Hi]; [apply Hg, Hi|]. exfalso. apply K. intros Q. apply Hi, Hg. auto.
      + assert (N : forall t, In t (tris tr1) -> ~ In t (tris tr) -> is_ghost t = false /\
          forall w, corner_of w t -> (exists s, In s segs /\ (w = fst s \/ w = snd s)) \/ exists t0, In t0 (tris tr) /\ corner_of w t0).
        { intros t Ht Hn. apply Hiff in Ht. destruct Ht as [[Ht _]|Ht]; [contradiction|]. destruct (Hnew t Ht) as [G Hw]. split; [exact G|].
          intros w Hc. destruct (Hw w Hc) as [Q|[Q|(t0 & H0 & _ & Q)]]; [left; eauto|left; eauto|right; eauto]. }
        assert (C : forall w t0, In t0 (tris tr1) -> corner_of w t0 -> (exists s, In s segs /\ (w = fst s \/ w = snd s)) \/ exists t0, In t0 (tris tr) /\ corner_of w t0).
        { intros w t0 H0 Hc. destruct (in_dec tdec t0 (tris tr)) as [Hi|Hi]; [right; eauto|apply (N t0 H0 Hi), Hc]. }
        intros t Ht Hn. destruct (in_dec tdec t (tris tr1)) as [H1|H1]; [exact (N t H1 Hn)|]. destruct (I3 t Ht H1) as [G Hw]. split; [exact G|].
        intros w Hc. destruct (Hw w Hc) as [Q|(t0 & H0 & Q)]; [auto|exact (C w t0 H0 Q)].
    - injection Hm as <-. split; [|split; intros t Ht Hn; contradiction].
      intros s Hs. pose proof (find_none _ _ Ef s) as F. cbn beta in F. rewrite negb_false_iff, hmem_In in F. apply F, ho_In, Hs.
  Qed.
End Missing.

(** ** Lists for drawing *)
Section Drawing.
  Context {A : Arith}.
  Variable H : HashOrder.
  Notation edge := (edge A). Notation triangle := (triangle A). Notation triangulation := (triangulation A).
  Lemma filter_perm : forall (f : triangle -> bool) l l', Permutation l l' -> Permutation (filter f l) (filter f l').
  Proof.
    intros f l l' Hp. induction Hp as [|t l l' Hp IH|t t' l|l l' l'' H1 IH1 H2 IH2]; cbn.
    - constructor.
    - destruct (f t); [constructor|]; exact IH.
    - destruct (f t), (f t'); try apply Permutation_refl. apply perm_swap.
    - transitivity (filter f l'); assumption.
  Qed.
  Lemma triangles_drawn : forall F32 (cast : T A -> F32) p (tr : triangulation), exists ts,
    Permutation ts (filter (fun t => negb (is_ghost t)) (tris tr)) /\
    glium_triangles H cast p tr = concat (map (fun t => map (fun v => (cast (vx v), cast (vy v))) [tv1 t; tv2 t; tv3 t]) ts).
  Proof.
    intros F32 cast p tr. exists (filter (fun t => negb (is_ghost t)) (ho H p _ (tris tr))). split; [apply filter_perm, Permutation_sym, ho_perm || apply filter_perm, ho_perm|].
    unfold glium_triangles. generalize (filter (fun t => negb (is_ghost t)) (ho H p _ (tris tr))). intros l.
    induction l as [|t l IH]; [reflexivity|]. cbn [flat_map map concat]. rewrite map_app, IH. reflexivity.
  Qed.
  Lemma edges_drawn : forall F32 (cast : T A -> F32) p (tr : triangulation), exists es,
    NoDup es /\ (forall e, In e es -> solid_side tr e) /\ (forall e, solid_side tr e -> In e es \/ In (flip e) es) /\ (forall e, In e es -> In (flip e) es -> e = flip e) /\
    glium_edges H cast p tr = concat (map (fun e => map (fun v => (cast (vx v), cast (vy v))) [fst e; snd e]) es).
  Proof.
    intros F32 cast p tr. destruct (glium_edges_spec H (1 :: p) tr) as (H1 & H2 & H3 & H4).
    set (es := ho H (2 :: p) _ (glium_edge_list H (1 :: p) tr)). assert (Hi : forall e, In e es <-> In e (glium_edge_list H (1 :: p) tr)) by (intros e; apply ho_In).
    exists es. split; [|split; [|split; [|split]]].
    - apply (Permutation_NoDup (l := glium_edge_list H (1 :: p) tr)); [apply Permutation_sym, ho_perm || apply ho_perm|exact H1].
    - intros e He. apply H3, Hi, He.
    - intros e He. rewrite !Hi. apply H4, He.
    - intros e. rewrite !Hi. apply H2.
    - unfold glium_edges. fold es. clearbody es. clear Hi. induction es as [|e l IH]; [reflexivity|]. cbn [flat_map map concat]. rewrite map_app, IH. reflexivity.
  Qed.
End Drawing.

(** ** Lists of coordinates *)
Section Coordinates.
  Context {A : Arith}.
  Lemma pairs_read : forall (ps : list (T A * T A)), vertices_from_coordinates (flat_map (fun c => [fst c; snd c]) ps) = Ok (map (fun c => V (fst c) (snd c) false) ps).
  Proof.
    intros ps. unfold vertices_from_coordinates. assert (E : Nat.even (length (flat_map (fun c : T A * T A => [fst c; snd c]) ps)) = true) by (induction ps as [|c ps IH]; [reflexivity|exact IH]).
    rewrite E. f_equal. clear E. induction ps as [|c ps IH]; [reflexivity|]. cbn [flat_map app pair_up map]. rewrite IH. reflexivity.
  Qed.
  Lemma odd_refused : forall l : list (T A), Nat.odd (length l) = true -> vertices_from_coordinates l = Panic /\ edges_from_coordinates l = Panic.
  Proof.
    intros l Ho. unfold vertices_from_coordinates, edges_from_coordinates. unfold Nat.odd in Ho. apply negb_true_iff in Ho. rewrite Ho. auto.
  Qed.
  Lemma wrap_edges : forall l (a : vertex A), edges_wrap a l = combine l (tl l ++ [a]).
  Proof. induction l as [|x l IH]; intros a; [reflexivity|]. destruct l as [|y l]; [reflexivity|]. change (edges_wrap a (x :: y :: l)) with ((x, y) :: edges_wrap a (y :: l)). rewrite IH. reflexivity. Qed.
  Lemma edges_read : forall (ps : list (T A * T A)), edges_from_coordinates (flat_map (fun c => [fst c; snd c]) ps) =
    Ok (let vs := map (fun c => V (fst c) (snd c) false) ps in combine vs (tl vs ++ firstn 1 vs)).
  Proof.
    intros ps. unfold edges_from_coordinates. assert (E : Nat.even (length (flat_map (fun c : T A * T A => [fst c; snd c]) ps)) = true) by (induction ps as [|x q IH]; [reflexivity|exact IH]).
    rewrite E, pairs_read. cbn [bind]. f_equal. unfold edges_from_vertices. destruct ps as [|c ps]; [reflexivity|]. cbn [map]. rewrite wrap_edges. reflexivity.
  Qed.
  Lemma ends_read : forall a (l : list (vertex A)) b, poly_head (A:=A) (Poly (a :: l ++ [b]) true) = Ok (Some a) /\ poly_tail (A:=A) (Poly (a :: l ++ [b]) true) = Ok (Some b) /\
    forall l' : list (vertex A), poly_head (A:=A) (Poly l' false) = Ok None /\ poly_tail (A:=A) (Poly l' false) = Ok None.
  Proof. intros a l b. split; [reflexivity|]. split; [|intros l'; split; reflexivity]. unfold poly_tail. cbn. rewrite rev_app_distr. reflexivity. Qed.
  Lemma glium_read : forall F32 (ps : list (F32 * F32)), glium_from_coordinates (flat_map (fun c => [fst c; snd c]) ps) = Ok ps.
  Proof. intros F32 ps. induction ps as [|[x y] ps IH]; [reflexivity|]. cbn [flat_map app glium_from_coordinates fst snd]. rewrite IH. reflexivity. Qed.
  Lemma glium_odd : forall F32 (l : list F32), Nat.odd (length l) = true -> glium_from_coordinates l = Panic.
  Proof.
    intros F32. assert (G : forall n (l : list F32), length l <= n -> Nat.odd (length l) = true -> glium_from_coordinates l = Panic).
    { induction n as [|n IH]; intros l Hl Ho; [destruct l; [discriminate|cbn in Hl; lia]|]. destruct l as [|x [|y l]]; [discriminate|reflexivity|].
      cbn [glium_from_coordinates]. rewrite IH; [reflexivity|cbn in Hl; lia|exact Ho]. }
    intros l Ho. exact (G _ l (Nat.le_refl _) Ho).
  Qed.
End Coordinates.
