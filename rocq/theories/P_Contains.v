(** P_Contains.v — Polyline::contains: independence of the starting vertex (any
    arithmetic); direction, winding number and triangles (reals). *)

From Coq Require Import Reals List ZArith Lra Lia Psatz Bool Permutation.
From Verif Require Import Base Arith Geometry Elements Polyline ArithR SpecR P_Base P_R1 P_R2.
Import ListNotations.

Section AnyArith.
  Context {A : Arith}.
  Notation vertex := (vertex A).
  Notation edge := (edge A).
  Notation polyline := (polyline A).
  Local Open Scope f64_scope.

  (** What one side adds to the parity; [None] for the early [Boundary]. *)
  Definition cstep (v : vertex) (s : edge) : option Z :=
    let (v1, v2) := s in
    if vx v1 =? vx v2 then
      if (vx v1 =? vx v) && (((vy v1 <=? vy v) && (vy v <=? vy v2)) || ((vy v2 <=? vy v) && (vy v <=? vy v1)))
      then None else Some 0%Z
    else if ((vx v1 <? vx v) && (vx v2 <? vx v)) || ((vx v <? vx v1) && (vx v <? vx v2)) then Some 0%Z
    else
      let k := if (vx v1 =? vx v) || (vx v2 =? vx v) then 1%Z else 2%Z in
      match orientation v1 v2 v with Colinear => None | CCW => Some k | CW => Some (- k)%Z end.
  Fixpoint csum (v : vertex) (l : list edge) : option Z :=
    match l with
    | [] => Some 0%Z
    | s :: l' => match cstep v s, csum v l' with Some a, Some b => Some (a + b)%Z | _, _ => None end
    end.

  Lemma contains_loop_csum : forall v (l : list edge) k, contains_loop v l k = option_map (Z.add k) (csum v l).
  Proof.
    intros v. induction l as [|[a b] l IH]; intros k; cbn [contains_loop csum option_map]; [f_equal; lia|].
    unfold cstep. destruct (vx a =? vx b).
    { destruct (_ && _); cbn; [reflexivity|]. rewrite IH. destruct (csum v l); cbn; [f_equal; lia|reflexivity]. }
    destruct (((vx a <? vx v) && (vx b <? vx v)) || _); cbn.
    { rewrite IH. destruct (csum v l); cbn; [f_equal; lia|reflexivity]. }
    destruct (orientation a b v); [| |reflexivity]; rewrite IH; destruct (csum v l); cbn; try reflexivity; f_equal; lia.
  Qed.

  Lemma csum_app : forall v (l l' : list edge), csum v (l ++ l') =
    match csum v l, csum v l' with Some a, Some b => Some (a + b)%Z | _, _ => None end.
  Proof.
    intros v l l'. induction l as [|s l IH]; cbn; [destruct (csum v l'); reflexivity|]. rewrite IH.
    destruct (cstep v s), (csum v l), (csum v l'); try reflexivity. f_equal. lia.
  Qed.
  Lemma csum_perm : forall v (l l' : list edge), Permutation l l' -> csum v l = csum v l'.
  Proof.
    intros v l l' Hp. induction Hp as [|s l l' Hp IH|s s' l|l l' l'' H1 IH1 H2 IH2]; cbn.
    - reflexivity.
    - rewrite IH. reflexivity.
    - destruct (cstep v s), (cstep v s'), (csum v l); try reflexivity. f_equal. lia.
    - congruence.
  Qed.
  Lemma csum_none : forall v (l : list edge), csum v l = None <-> exists s, In s l /\ cstep v s = None.
  Proof.
    intros v. induction l as [|s l IH]; cbn [csum].
    - split; [discriminate|intros (s & [] & _)].
    - destruct (cstep v s) as [a|] eqn:Hs.
      + destruct (csum v l) as [b|].
        * split; [discriminate|]. intros (s' & [<-|Hi] & Hn); [congruence|].
          assert (Hx : Some b = None) by (apply IH; eauto). discriminate.
        * split; [|reflexivity]. intros _. destruct (proj1 IH eq_refl) as (s' & Hi & Hn). exists s'. split; [right; exact Hi|exact Hn].
      + split; [|reflexivity]. intros _. exists s. split; [left; reflexivity|exact Hs].
  Qed.

  Lemma poly_contains_csum : forall (l : list vertex) (v : vertex) es, vertex_pairs l false = Ok es ->
    poly_contains (Poly l false) v =
    Ok (Some (match csum v es with None => Boundary | Some z => if Z.eqb z 0 then Outside else Inside end)).
  Proof.
    intros l v es He. unfold poly_contains, poly_pairs. cbn [popened pverts]. rewrite He. cbn [bind].
    rewrite contains_loop_csum. destruct (csum v es); cbn [option_map]; reflexivity.
  Qed.

  (** Closed sides as consecutive pairs of the closed list. *)
  Lemma consecutive_app : forall (l l' : list vertex) x, consecutive (l ++ x :: l') = consecutive (l ++ [x]) ++ consecutive (x :: l').
  Proof.
    induction l as [|a l IH]; intros l' x; [reflexivity|]. destruct l as [|b l].
    - reflexivity.
    - change (consecutive ((a :: b :: l) ++ x :: l')) with ((a, b) :: consecutive ((b :: l) ++ x :: l')).
      rewrite IH. reflexivity.
  Qed.
  Lemma consecutive_last : forall (l : list vertex) a w, consecutive (a :: l) ++ [(last (a :: l) w, w)] = consecutive ((a :: l) ++ [w]).
  Proof.
    induction l as [|b l IH]; intros a w; [reflexivity|].
    change (consecutive (a :: b :: l)) with ((a, b) :: consecutive (b :: l)).
    change (last (a :: b :: l) w) with (last (b :: l) w).
    change (consecutive ((a :: b :: l) ++ [w])) with ((a, b) :: consecutive ((b :: l) ++ [w])).
    rewrite <- IH. reflexivity.
  Qed.
  Lemma last_irrel : forall (l : list vertex) a w w', last (a :: l) w = last (a :: l) w'.
  Proof. induction l as [|b l IH]; intros a w w'; [reflexivity|]. apply (IH b). Qed.
  Lemma vertex_pairs_closed : forall (l : list vertex) a, vertex_pairs (a :: l) false = Ok (consecutive ((a :: l) ++ [a])).
  Proof. intros l a. unfold vertex_pairs. rewrite consecutive_last. reflexivity. Qed.

  Lemma contains_rotate : forall (l1 l2 : list vertex) v,
    poly_contains (Poly (l1 ++ l2) false) v = poly_contains (Poly (l2 ++ l1) false) v.
  Proof.
    intros [|a l1] [|b l2] v; try reflexivity; [rewrite app_nil_r; reflexivity|rewrite app_nil_r; reflexivity|].
    cbn [app]. rewrite (poly_contains_csum _ v _ (vertex_pairs_closed (l1 ++ b :: l2) a)).
    rewrite (poly_contains_csum _ v _ (vertex_pairs_closed (l2 ++ a :: l1) b)).
    rewrite (csum_perm v (consecutive ((a :: l1 ++ b :: l2) ++ [a])) (consecutive ((b :: l2 ++ a :: l1) ++ [b]))); [reflexivity|].
    replace ((a :: l1 ++ b :: l2) ++ [a]) with ((a :: l1) ++ b :: (l2 ++ [a])) by (cbn; rewrite <- app_assoc; reflexivity).
    replace ((b :: l2 ++ a :: l1) ++ [b]) with ((b :: l2) ++ a :: (l1 ++ [b])) by (cbn; rewrite <- app_assoc; reflexivity).
    rewrite consecutive_app, (consecutive_app (b :: l2)). apply Permutation_app_comm.
  Qed.
End AnyArith.

Local Open Scope R_scope.

(** ** Direction (C10) *)
Definition turn (s : edge ArithR) : edge ArithR := (snd s, fst s).

Lemma cstep_turn : forall (v : pnt) s, cstep v (turn s) = option_map Z.opp (cstep v s).
Proof.
  intros v [a b]. unfold turn, cstep. cbn [fst snd]. rewrite (orientation_swap a b v).
  unR. change (vx a) with (X a). change (vx b) with (X b). change (vx v) with (X v).
  change (vy a) with (Y a). change (vy b) with (Y b). change (vy v) with (Y v).
  destruct (Reqb_spec (X b) (X a)) as [E1|E1], (Reqb_spec (X a) (X b)) as [E2|E2]; try (exfalso; lra).
  - rewrite E1. destruct (Reqb (X a) (X v)); cbn [andb]; [|reflexivity].
    rewrite (orb_comm (Rleb (Y b) (Y v) && Rleb (Y v) (Y a))). destruct (_ || _); reflexivity.
  - rewrite (andb_comm (Rltb (X b) (X v))), (andb_comm (Rltb (X v) (X b))).
    destruct ((Rltb (X a) (X v) && Rltb (X b) (X v)) || _); [reflexivity|].
    rewrite (orb_comm (Reqb (X b) (X v))). destruct (orientation a b v); cbn; try reflexivity.
    f_equal. destruct (_ || _); reflexivity.
Qed.

Lemma csum_turn : forall (v : pnt) l, csum v (map turn l) = option_map Z.opp (csum v l).
Proof.
  intros v. induction l as [|s l IH]; [reflexivity|]. cbn [map csum]. rewrite cstep_turn, IH.
  destruct (cstep v s), (csum v l); cbn; try reflexivity. f_equal. lia.
Qed.

Lemma consecutive_rev : forall l : list pnt, consecutive (rev l) = rev (map turn (consecutive l)).
Proof.
  induction l as [|a l IH]; [reflexivity|]. destruct l as [|b l]; [reflexivity|].
  change (consecutive (a :: b :: l)) with ((a, b) :: consecutive (b :: l)). cbn [map rev].
  rewrite <- IH. cbn [rev]. rewrite <- app_assoc. cbn [app]. rewrite consecutive_app. reflexivity.
Qed.

Lemma contains_reverse : forall (l : list pnt) (v : pnt),
  poly_contains (Poly (rev l) false) v = poly_contains (Poly l false) v.
Proof.
  intros [|a l] v; [reflexivity|]. cbn [rev]. rewrite (contains_rotate (rev l) [a]). cbn [app].
  rewrite (poly_contains_csum _ v _ (vertex_pairs_closed (rev l) a)), (poly_contains_csum _ v _ (vertex_pairs_closed l a)).
  replace ((a :: rev l) ++ [a]) with (rev ((a :: l) ++ [a])) by (rewrite rev_app_distr; reflexivity).
  rewrite consecutive_rev. rewrite <- (csum_perm v _ _ (Permutation_rev _)), csum_turn.
  destruct (csum v (consecutive ((a :: l) ++ [a]))) as [z|]; cbn; [|reflexivity].
  destruct (Z.eqb_spec z 0) as [->|Hz]; [reflexivity|]. destruct (Z.eqb_spec (- z) 0); [lia|reflexivity].
Qed.

(** ** Winding number (C08) *)
Definition phi (v p : pnt) : Z :=
  if Req_EM_T (X p) (X v) then (if Rlt_dec (Y p) (Y v) then 1 else -1)%Z
  else if Rlt_dec (X v) (X p) then (-2)%Z else 0%Z.

Lemma cstep_winding : forall (v a b : pnt) z, cstep v (a, b) = Some z ->
  z = (4 * ray_crossing v (a, b) + phi v b - phi v a)%Z.
Proof.
  intros v a b z Hz. unfold cstep in Hz. pose proof eps_pos.
  destruct (orientation_spec a b v) as (O1 & O2 & O3). unfold ray_crossing, phi.
  unR. change (vx a) with (X a) in *. change (vx b) with (X b) in *. change (vx v) with (X v) in *.
  change (vy a) with (Y a) in *. change (vy b) with (Y b) in *. change (vy v) with (Y v) in *.
  destruct (Reqb_spec (X a) (X b)) as [Eab|Nab].
  - destruct (Reqb_spec (X a) (X v)) as [Eav|Nav]; cbn [andb] in Hz.
    + destruct (_ || _) eqn:Hb in Hz; [discriminate|]. injection Hz as <-.
      destruct (Rleb_spec (Y a) (Y v)), (Rleb_spec (Y v) (Y b)), (Rleb_spec (Y b) (Y v)), (Rleb_spec (Y v) (Y a)); cbn in Hb; try discriminate;
      repeat match goal with |- context [if ?d then _ else _] => destruct d end; try reflexivity; exfalso; lra.
    + injection Hz as <-. repeat match goal with |- context [if ?d then _ else _] => destruct d end; try reflexivity; exfalso; lra.
  - destruct (_ || _) eqn:Hb in Hz.
    + injection Hz as <-.
      destruct (Rltb_spec (X a) (X v)), (Rltb_spec (X b) (X v)), (Rltb_spec (X v) (X a)), (Rltb_spec (X v) (X b)); cbn in Hb; try discriminate;
      repeat match goal with |- context [if ?d then _ else _] => destruct d end; try reflexivity; exfalso; lra.
    + destruct (Rltb_spec (X a) (X v)), (Rltb_spec (X b) (X v)), (Rltb_spec (X v) (X a)), (Rltb_spec (X v) (X b)); cbn in Hb; try discriminate; clear Hb;
      destruct (Reqb_spec (X a) (X v)) as [Ea|Na], (Reqb_spec (X b) (X v)) as [Eb|Nb]; try (exfalso; lra); cbn [orb] in Hz;
      (destruct (orientation a b v); [assert (Ho : eps < area2 a b v) by (apply O1; reflexivity)
                                    |assert (Ho : area2 a b v < - eps) by (apply O2; reflexivity)|discriminate]);
      injection Hz as <-;
      repeat match goal with |- context [if ?d then _ else _] => destruct d end; try reflexivity; exfalso; unfold area2 in *; nra.
Qed.

Lemma csum_path : forall (v : pnt) (l : list pnt) a z, csum v (consecutive (a :: l)) = Some z ->
  z = (4 * winding v (consecutive (a :: l)) + phi v (last l a) - phi v a)%Z.
Proof.
  intros v. induction l as [|b l IH]; intros a z Hz.
  - cbn [consecutive csum] in Hz. injection Hz as <-. unfold winding. cbn. lia.
  - change (consecutive (a :: b :: l)) with ((a, b) :: consecutive (b :: l)) in *. cbn [csum] in Hz.
    destruct (cstep v (a, b)) as [x|] eqn:Hx; [|discriminate]. destruct (csum v (consecutive (b :: l))) as [y|] eqn:Hy; [|discriminate].
    injection Hz as <-. apply cstep_winding in Hx. apply IH in Hy. rewrite Hx, Hy.
    unfold winding. cbn [map fold_right].
    replace (last (b :: l) a) with (last l b).
    + unfold winding. lia.
    + destruct l as [|c l]; [reflexivity|]. change (last (b :: c :: l) a) with (last (c :: l) a). apply last_irrel.
Qed.

Lemma path_sides_consecutive : forall l : list pnt, path_sides l = consecutive l.
Proof. reflexivity. Qed.

Lemma cstep_none : forall (v : pnt) s, cstep v s = None <-> touches_side v s.
Proof.
  intros v [a b]. unfold cstep, touches_side. pose proof eps_pos.
  destruct (orientation_spec a b v) as (O1 & O2 & O3).
  unR. change (vx a) with (X a) in *. change (vx b) with (X b) in *. change (vx v) with (X v) in *.
  change (vy a) with (Y a) in *. change (vy b) with (Y b) in *. change (vy v) with (Y v) in *.
  assert (Bx : Rmin (X a) (X b) <= X v <= Rmax (X a) (X b) <-> (X a <= X v <= X b \/ X b <= X v <= X a)).
  { unfold Rmin, Rmax. destruct (Rle_dec (X a) (X b)); lra. }
  assert (By : Rmin (Y a) (Y b) <= Y v <= Rmax (Y a) (Y b) <-> (Y a <= Y v <= Y b \/ Y b <= Y v <= Y a)).
  { unfold Rmin, Rmax. destruct (Rle_dec (Y a) (Y b)); lra. }
  rewrite Bx, By. clear Bx By.
  destruct (Reqb_spec (X a) (X b)) as [Eab|Nab].
  - destruct (Reqb_spec (X a) (X v)) as [Eav|Nav]; cbn [andb].
    + assert (Ez : area2 a b v = 0) by (unfold area2; rewrite <- Eab, <- Eav; ring). rewrite Ez.
      destruct (Rleb_spec (Y a) (Y v)), (Rleb_spec (Y v) (Y b)), (Rleb_spec (Y b) (Y v)), (Rleb_spec (Y v) (Y a)); cbn;
        (split; [intros Hd; try discriminate|intros (P & Q & W); try reflexivity]); try (specialize (W Eab)); lra.
    + split; [discriminate|]. intros (P & _). exfalso. lra.
  - destruct (Rltb_spec (X a) (X v)), (Rltb_spec (X b) (X v)), (Rltb_spec (X v) (X a)), (Rltb_spec (X v) (X b)); cbn [andb orb];
      try (exfalso; lra);
      try (split; [discriminate|intros (P & _); exfalso; lra]);
      (destruct (orientation a b v); split; intros Hd; try discriminate; try reflexivity;
       [exfalso; destruct Hd as (_ & Hd & _); apply O3 in Hd; discriminate
       |exfalso; destruct Hd as (_ & Hd & _); apply O3 in Hd; discriminate
       |split; [lra|]; split; [apply O3; reflexivity|intros; lra]]).
Qed.

Lemma contains_winding : forall (l : list pnt) (v : pnt), l <> [] ->
  exists k, poly_contains (Poly l false) v = Ok (Some k) /\
    (k = Boundary <-> exists s, In s (polygon_sides l) /\ touches_side v s) /\
    (k = Inside -> winding v (polygon_sides l) <> 0%Z) /\
    (k = Outside -> winding v (polygon_sides l) = 0%Z).
Proof.
  intros [|a l] v Hn; [congruence|]. rewrite (poly_contains_csum _ v _ (vertex_pairs_closed l a)).
  eexists. split; [reflexivity|]. change (polygon_sides (a :: l)) with (consecutive (A:=ArithR) ((a :: l) ++ [a])).
  assert (Hb : csum v (consecutive ((a :: l) ++ [a])) = None <-> exists s, In s (consecutive ((a :: l) ++ [a])) /\ touches_side v s).
  { rewrite csum_none. split; intros (s & Hi & Hs); exists s; (split; [exact Hi|]); apply cstep_none; exact Hs. }
  destruct (csum v (consecutive ((a :: l) ++ [a]))) as [z|] eqn:Hz.
  - pose proof (csum_path v (l ++ [a]) a z Hz) as Hw. rewrite last_last in Hw.
    change (consecutive (a :: l ++ [a])) with (consecutive ((a :: l) ++ [a])) in Hw.
    set (w := winding v (consecutive ((a :: l) ++ [a]))) in *.
    destruct (Z.eqb_spec z 0) as [E|E].
    + repeat split; try discriminate; [|intros _; lia]. intros Hs. apply Hb in Hs. discriminate.
    + repeat split; try discriminate; [|intros _; lia]. intros Hs. apply Hb in Hs. discriminate.
  - repeat split; try discriminate. intros _. apply Hb. reflexivity.
Qed.

Lemma on_segment_touches : forall (v a b : pnt), on_segment a b v -> touches_side v (a, b).
Proof.
  intros v a b Hs. apply on_segment_box in Hs. destruct Hs as [[Bx By] Ha]. pose proof eps_pos. unfold touches_side.
  repeat split; lra.
Qed.
Lemma contains_on_side : forall (l : list pnt) (v a b : pnt), In (a, b) (polygon_sides l) -> on_segment a b v ->
  poly_contains (Poly l false) v = Ok (Some Boundary).
Proof.
  intros l v a b Hi Hs. assert (Hn : l <> []) by (intros ->; destruct Hi).
  destruct (contains_winding l v Hn) as (k & -> & Hb & _). destruct Hb as [_ Hb]. rewrite Hb; [reflexivity|].
  exists (a, b). split; [exact Hi|]. apply on_segment_touches, Hs.
Qed.
