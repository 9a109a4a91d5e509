(** P_Nest.v — Boolean operations on a polyline within another one. *)

From Coq Require Import Reals List Permutation Arith Bool Lia.
From Verif Require Import Base Arith Geometry Elements Polyline ArithR Spec SpecR SpecM P_Base P_Trn P_Triangulator P_Poly P_Contains P_R6 P_Hull P_Bool.
Import ListNotations.
Local Open Scope nat_scope.

Section NestP.
  Context {A : Arith} (H : HashOrder).
  Notation vertex := (vertex A).
  Notation edge := (edge A).
  Notation polyline := (polyline A).

  Lemma apart_app : forall l1 l2 : list vertex, apart (l1 ++ l2) -> apart l1 /\ apart l2.
  Proof.
    intros l1 l2 Ha. split; intros a x b y c E.
    - apply (Ha a x b y (c ++ l2)). rewrite E. rewrite <- !app_assoc. cbn. rewrite <- !app_assoc. reflexivity.
    - apply (Ha (l1 ++ a) x b y c). rewrite E, <- app_assoc. reflexivity.
  Qed.
  Lemma apart_in : forall (l1 l2 : list vertex) u w, apart (l1 ++ l2) -> In u l1 -> In w l2 -> veqb u w = false /\ veqb w u = false.
  Proof. intros l1 l2 u w Ha Hu Hw. exact (pairwise_split _ _ l1 l2 u w Ha Hu Hw). Qed.
  Lemma apart_eq : forall (l : list vertex) u w, apart l -> In u l -> In w l -> veqb u w = true -> u = w.
  Proof.
    intros l u w Ha Hu Hw He. apply in_split in Hu. destruct Hu as (l1 & l2 & ->).
    apply in_app_or in Hw. destruct Hw as [Hw|[Hw|Hw]]; [|exact Hw|].
    - destruct (apart_in l1 (u :: l2) w u Ha Hw (or_introl eq_refl)). congruence.
    - change (l1 ++ u :: l2) with (l1 ++ [u] ++ l2) in Ha. rewrite app_assoc in Ha.
      destruct (apart_in (l1 ++ [u]) l2 u w Ha); [apply in_or_app; right; left; reflexivity|exact Hw|congruence].
  Qed.
  Lemma apart_NoDup : forall l : list vertex, apart l -> NoDup l.
  Proof.
    induction l as [|a l IH]; intros Ha; [constructor|]. constructor.
    - intros Hi. destruct (apart_in [a] l a a Ha (or_introl eq_refl) Hi) as [E _]. rewrite veqb_refl in E. discriminate.
    - apply IH. apply (apart_app [a] l Ha).
  Qed.
  Lemma apart_sym : forall l1 l2 : list vertex, apart (l1 ++ l2) -> apart (l2 ++ l1).
  Proof.
    intros l1 l2 Ha. assert (Hnd : NoDup (l2 ++ l1)).
    { apply (Permutation_NoDup (l := l1 ++ l2)); [apply Permutation_app_comm|apply apart_NoDup, Ha]. }
    intros a x b y c E.
    assert (Hx : In x (l1 ++ l2)) by (apply (Permutation_in x (Permutation_app_comm l2 l1)); rewrite E; apply in_or_app; right; left; reflexivity).
    assert (Hy : In y (l1 ++ l2)) by (apply (Permutation_in y (Permutation_app_comm l2 l1)); rewrite E; apply in_or_app; right; right; apply in_or_app; right; left; reflexivity).
    assert (Hne : x <> y).
    { intros ->. rewrite E in Hnd. apply NoDup_remove_2 in Hnd. apply Hnd. apply in_or_app. right. apply in_or_app. right. left. reflexivity. }
    split.
    - destruct (veqb x y) eqn:Ev; [|reflexivity]. exfalso. apply Hne, (apart_eq _ x y Ha Hx Hy Ev).
    - destruct (veqb y x) eqn:Ev; [|reflexivity]. exfalso. apply Hne. symmetry. apply (apart_eq _ y x Ha Hy Hx Ev).
  Qed.

  (** ** Sides *)

  Lemma consecutive_starts : forall (m : list vertex) z c d, In (c, d) (consecutive (m ++ [z])) -> In c m.
  Proof.
    induction m as [|a m IH]; intros z c d Hi; [destruct Hi|]. destruct m as [|b m].
    - destruct Hi as [E|[]]. injection E as <- _. left. reflexivity.
    - destruct Hi as [E|Hi]; [injection E as <- _; left; reflexivity|]. right. apply (IH z c d Hi).
  Qed.
  Lemma map_fst_consecutive : forall (m : list vertex) z, map fst (consecutive (m ++ [z])) = m.
  Proof.
    induction m as [|a m IH]; intros z; [reflexivity|]. destruct m as [|b m]; [reflexivity|].
    change (consecutive ((a :: b :: m) ++ [z])) with ((a, b) :: consecutive ((b :: m) ++ [z])). cbn [map fst]. rewrite IH. reflexivity.
  Qed.
  Lemma consecutive_NoDup : forall (m : list vertex) z, NoDup m -> NoDup (consecutive (m ++ [z])).
  Proof. intros m z Hm. apply (NoDup_map_inv fst). rewrite map_fst_consecutive. exact Hm. Qed.

  Lemma filter_one : forall X (f : X -> bool) l x, NoDup l -> In x l -> f x = true -> (forall y, In y l -> f y = true -> y = x) ->
    filter f l = [x].
  Proof.
    intros X f l x Hnd. induction Hnd as [|a l Ha Hl IH]; intros Hi Hf Hu; [destruct Hi|]. cbn [filter]. destruct Hi as [->|Hi].
    - rewrite Hf. f_equal. clear IH. assert (Hn : forall y, In y l -> f y = false).
      { intros y Hy. destruct (f y) eqn:Ey; [|reflexivity]. rewrite (Hu y (or_intror Hy) Ey) in Hy. contradiction. }
      clear Hu Ha Hl. induction l as [|b l IH]; [reflexivity|]. cbn. rewrite (Hn b (or_introl eq_refl)). apply IH. intros y Hy. apply Hn. right. exact Hy.
    - destruct (f a) eqn:Ea.
      + exfalso. rewrite (Hu a (or_introl eq_refl) Ea) in Ha. contradiction.
      + apply IH; [exact Hi|exact Hf|]. intros y Hy. apply Hu. right. exact Hy.
  Qed.

  Lemma hdel_perm : forall (x : edge) l l', NoDup l -> Permutation l (x :: l') -> Permutation (hdel edec x l) l'.
  Proof.
    intros x l l' Hnd Hp. assert (Hnd' : NoDup (x :: l')) by (apply (Permutation_NoDup Hp Hnd)). inversion Hnd' as [|? ? Hx Hl']; subst.
    apply NoDup_Permutation; [apply hdel_NoDup, Hnd|exact Hl'|]. intros y. rewrite hdel_In. split.
    - intros [Hy Hne]. apply (Permutation_in y Hp) in Hy. destruct Hy as [->|Hy]; [congruence|exact Hy].
    - intros Hy. split; [apply (Permutation_in y (Permutation_sym Hp)); right; exact Hy|]. intros ->. contradiction.
  Qed.

  (** ** One chain around a polygon *)

  Lemma chain_polygon : forall todo done (a w x : vertex) fuel p desc poss,
    apart (a :: done ++ w :: x :: todo) \/ (done = [] /\ a = w /\ apart (w :: x :: todo) /\ todo <> []) ->
    NoDup poss -> Permutation poss (consecutive (x :: todo ++ [a])) -> S (length todo) < fuel ->
    forall chain, chain_loop H fuel p desc ((w, x) :: chain) poss = Ok (rev (consecutive (x :: todo ++ [a])) ++ (w, x) :: chain, []).
  Proof.
    intros todo. induction todo as [|y todo IH]; intros done a w x fuel p desc poss Hap Hnd Hperm Hf chain;
      (destruct fuel as [|fuel]; [lia|]); cbn [chain_loop].
    - destruct Hap as [Hap|(_ & _ & _ & Hn)]; [|congruence]. cbn [app consecutive] in Hperm.
      assert (Hps : poss = [(x, a)]) by (apply Permutation_sym in Hperm; apply Permutation_length_1_inv in Hperm; exact Hperm). subst poss.
      rewrite ho_single. cbn [filter].
      assert (Hxw : veqb w x = false) by (apply (apart_in (a :: done ++ [w]) [x] w x); [cbn; rewrite <- app_assoc; exact Hap|right; apply in_or_app; right; left; reflexivity|left; reflexivity]).
      assert (Hwa : veqb w a = false) by (apply (apart_in [a] (done ++ [w; x]) a w Hap); [left; reflexivity|apply in_or_app; right; left; reflexivity]).
      assert (Hxa : veqb x a = false) by (apply (apart_in [a] (done ++ [w; x]) a x Hap); [left; reflexivity|apply in_or_app; right; right; left; reflexivity]).
      unfold continues at 1. rewrite Hxw, Hwa, Hxa, veqb_refl. cbn [orb first_by_angle bind andb negb fold_left].
      destruct fuel as [|fuel]; [cbn in Hf; lia|]. cbn [chain_loop hdel]. unfold hdel. cbn [filter].
      destruct (edec (x, a) (x, a)) as [_|n]; [|congruence]. rewrite ho_nil. reflexivity.
    - assert (Hap' : apart (w :: x :: y :: todo)).
      { destruct Hap as [Hap|(_ & _ & Hap & _)]; [|exact Hap]. apply (apart_app (a :: done)). exact Hap. }
      assert (Hxy : In (x, y) poss) by (apply (Permutation_in _ (Permutation_sym Hperm)); left; reflexivity).
      pose proof (apart_NoDup _ Hap') as Hndv. inversion Hndv as [|? ? Hw Hndx]; subst. inversion Hndx as [|? ? Hx Hndy]; subst.
      assert (Hcand : filter (continues w x) (ho H (1 :: p) _ poss) = [(x, y)]).
      { apply filter_one.
        - apply (Permutation_NoDup (ho_perm H _ _ _) Hnd).
        - apply ho_In, Hxy.
        - unfold continues.
          rewrite (proj1 (apart_in [w] (x :: y :: todo) w x Hap' (or_introl eq_refl) (or_introl eq_refl))).
          rewrite (proj1 (apart_in [w] (x :: y :: todo) w y Hap' (or_introl eq_refl) (or_intror (or_introl eq_refl)))).
          rewrite (proj1 (apart_in [w; x] (y :: todo) x y Hap' (or_intror (or_introl eq_refl)) (or_introl eq_refl))).
          cbn [orb]. apply veqb_refl.
        - intros [c d] Hi Hc. apply ho_In in Hi. apply (Permutation_in _ Hperm) in Hi. destruct Hi as [E|Hi]; [symmetry; exact E|].
          exfalso. unfold continues in Hc. destruct (_ || _); [discriminate|]. apply (consecutive_starts (y :: todo) a) in Hi.
          assert (x = c) by (apply (apart_eq _ x c Hap'); [right; left; reflexivity|right; right; exact Hi|exact Hc]). subst c. contradiction. }
      rewrite Hcand. cbn [first_by_angle bind andb negb fold_left existsb].
      assert (Hpos : Permutation (hdel edec (x, y) poss) (consecutive (y :: todo ++ [a]))).
      { apply hdel_perm; [exact Hnd|exact Hperm]. }
      assert (Hnext : exists done', apart (a :: done' ++ x :: y :: todo)).
      { destruct Hap as [Hap|(-> & -> & Hap & _)]; [exists (done ++ [w]); rewrite <- app_assoc; exact Hap|exists []; exact Hap]. }
      destruct Hnext as [done' Hnext].
      rewrite (IH done' a x y); [|left; exact Hnext| |exact Hpos|].
      + change (x :: (y :: todo) ++ [a]) with (x :: y :: todo ++ [a]).
        change (consecutive (x :: y :: todo ++ [a])) with ((x, y) :: consecutive (y :: todo ++ [a])). cbn [rev]. rewrite <- app_assoc. reflexivity.
      + apply hdel_NoDup, Hnd.
      + cbn in Hf. lia.
  Qed.

  (** The sides of a closed list, from any side. *)
  Lemma side_first : forall (a : vertex) l h, In h (consecutive ((a :: l) ++ [a])) -> l <> [] ->
    exists b c l', rotation (a :: l) (b :: c :: l') /\ h = (b, c) /\
      Permutation (consecutive ((a :: l) ++ [a])) (consecutive ((b :: c :: l') ++ [b])).
  Proof.
    intros a l [b c] Hi Hl.
    assert (Hsp : exists l1 l2, a :: l = l1 ++ b :: l2 /\ (l2 ++ [a]) = c :: tl (l2 ++ [a])).
    { clear Hl. revert Hi. generalize (a :: l) as m. intros m. clear l. induction m as [|x m IH]; intros Hi; [destruct Hi|].
      destruct m as [|y m].
      - destruct Hi as [E|[]]. injection E as -> ->. exists [], []. split; reflexivity.
      - destruct Hi as [E|Hi].
        + injection E as -> ->. exists [], (c :: m). split; reflexivity.
        + destruct (IH Hi) as (l1 & l2 & E1 & E2). exists (x :: l1), l2. split; [cbn; rewrite E1; reflexivity|exact E2]. }
    destruct Hsp as (l1 & l2 & E1 & E2).
    assert (Hperm : Permutation (consecutive ((a :: l) ++ [a])) (consecutive ((b :: l2 ++ l1) ++ [b]))).
    { rewrite E1. destruct l1 as [|a' l1].
      - cbn in E1. injection E1 as -> ->. rewrite app_nil_r. apply Permutation_refl.
      - injection E1 as -> ->. replace (((a' :: l1) ++ b :: l2) ++ [a']) with ((a' :: l1) ++ b :: (l2 ++ [a'])) by (rewrite <- app_assoc; reflexivity).
        replace ((b :: l2 ++ a' :: l1) ++ [b]) with ((b :: l2) ++ a' :: (l1 ++ [b])) by (cbn; rewrite <- app_assoc; reflexivity).
        rewrite consecutive_app, (consecutive_app (b :: l2)). apply Permutation_app_comm. }
    assert (Hhd : exists l', l2 ++ l1 = c :: l').
    { destruct l2 as [|c' l2].
      - cbn in E2. injection E2 as ->. destruct l1 as [|a' l1]; [cbn in E1; injection E1 as -> ->; congruence|].
        injection E1 as -> ->. eexists. reflexivity.
      - cbn in E2. injection E2 as ->. eexists. reflexivity. }
    destruct Hhd as [l' E']. exists b, c, l'. split; [|split; [reflexivity|]].
    - exists l1, (b :: l2). split; [exact E1|]. cbn. rewrite E'. reflexivity.
    - rewrite E' in Hperm. exact Hperm.
  Qed.

  Lemma chain_closed_polygon : forall (b : vertex) l, 2 <= length l -> chain_closed (rev (consecutive ((b :: l) ++ [b]))) = true.
  Proof.
    intros b l Hl. unfold chain_closed.
    assert (Hlen : length (consecutive ((b :: l) ++ [b])) = S (length l)).
    { pose proof (map_length (@fst vertex vertex) (consecutive ((b :: l) ++ [b]))) as E. rewrite map_fst_consecutive in E. symmetry. exact E. }
    apply andb_true_iff. split; [apply Nat.ltb_lt; rewrite rev_length, Hlen; lia|].
    destruct l as [|c l]; [cbn in Hl; lia|].
    assert (E1 : rev (consecutive ((b :: c :: l) ++ [b])) = (last (b :: c :: l) b, b) :: rev (consecutive (b :: c :: l))).
    { rewrite <- consecutive_last, rev_app_distr. reflexivity. }
    assert (E2 : rev (rev (consecutive ((b :: c :: l) ++ [b]))) = (b, c) :: consecutive ((c :: l) ++ [b])) by (rewrite rev_involutive; reflexivity).
    revert E1 E2. generalize (rev (consecutive ((b :: c :: l) ++ [b]))). intros X E1 E2.
    destruct X as [|[x1 x2] X]; [discriminate|]. injection E1 as -> -> _.
    match goal with |- context [rev ?z] => destruct (rev z) as [|[y1 y2] Y]; [discriminate|] end.
    injection E2 as -> _ _. apply veqb_refl.
  Qed.

  Lemma first_chain : forall (a : vertex) l poss h fuel p desc, apart (a :: l) -> 2 <= length l -> NoDup poss ->
    Permutation poss (consecutive ((a :: l) ++ [a])) -> In h poss -> S (S (length l)) < fuel ->
    exists l', rotation (a :: l) l' /\ 3 <= length l' /\
      chain_loop H fuel p desc [h] (hdel edec h poss) = Ok (rev (consecutive (l' ++ [hd a l'])), []).
  Proof.
    intros a l poss h fuel p desc Hap Hl Hnd Hperm Hh Hf.
    destruct (side_first a l h) as (b & c & l' & Hrot & -> & Hp').
    { apply (Permutation_in _ Hperm Hh). }
    { intros ->. cbn in Hl. lia. }
    exists (b :: c :: l'). split; [exact Hrot|]. destruct Hrot as (l1 & l2 & E1 & E2).
    assert (Hlen : length (b :: c :: l') = S (length l)).
    { rewrite E2, app_length, Nat.add_comm, <- app_length, <- E1. reflexivity. }
    split; [rewrite Hlen; lia|]. cbn [hd].
    assert (Hap' : apart (b :: c :: l')) by (rewrite E2; apply apart_sym; rewrite <- E1; exact Hap).
    rewrite (chain_polygon l' [] b b c).
    - change ((b :: c :: l') ++ [b]) with (b :: c :: l' ++ [b]).
      change (consecutive (b :: c :: l' ++ [b])) with ((b, c) :: consecutive (c :: l' ++ [b])). reflexivity.
    - right. split; [reflexivity|]. split; [reflexivity|]. split; [exact Hap'|]. intros ->. cbn in Hlen. lia.
    - apply hdel_NoDup, Hnd.
    - apply hdel_perm; [exact Hnd|]. transitivity (consecutive ((a :: l) ++ [a])); [exact Hperm|exact Hp'].
    - cbn in Hlen. lia.
  Qed.

  Lemma build_polygon : forall (a : vertex) l poss unused fuel p, apart (a :: l) -> 2 <= length l -> NoDup poss ->
    Permutation poss (consecutive ((a :: l) ++ [a])) -> S (S (S (length l))) < fuel ->
    exists l', rotation (a :: l) l' /\ build_loop H fuel p poss unused [] = Ok ([Poly l' false], unused).
  Proof.
    intros a l poss unused fuel p Hap Hl Hnd Hperm Hf. destruct fuel as [|fuel]; [lia|]. cbn [build_loop].
    destruct (ho H (1 :: p) _ poss) as [|h rest] eqn:Hh.
    { exfalso. apply ho_nil_inv in Hh. subst poss. apply Permutation_nil in Hperm. destruct l; discriminate. }
    assert (Hhp : In h poss) by (apply (ho_In H (1 :: p)); rewrite Hh; left; reflexivity).
    destruct (first_chain a l poss h fuel (2 :: p) false Hap Hl Hnd Hperm Hhp) as (l' & Hrot & Hl' & Hc); [lia|].
    exists l'. split; [exact Hrot|]. rewrite Hc. cbn [bind]. destruct l' as [|b l']; [cbn in Hl'; lia|]. cbn [hd].
    rewrite chain_closed_polygon by (cbn in Hl'; lia). rewrite rev_involutive. unfold ev1. rewrite map_fst_consecutive.
    assert (Hnc : new_closed (b :: l') = Some (Poly (b :: l') false)).
    { unfold new_closed. destruct (Nat.ltb (length (b :: l')) 3) eqn:E; [apply Nat.ltb_lt in E; lia|reflexivity]. }
    rewrite Hnc. cbn [unwrap bind]. destruct fuel as [|fuel]; [lia|]. cbn [build_loop]. rewrite ho_nil. reflexivity.
  Qed.
  (** ** A polyline within another one *)

  Lemma by_midpoint_run : forall keep (g : edge -> bool) poss (read unused : list edge),
    (forall s, In s poss -> keep (midpoint (fst s) (snd s)) = Ok (g s)) ->
    exists r u, by_midpoint keep poss read unused = Ok (r, u).
  Proof.
    intros keep g poss. induction poss as [|s poss IH]; intros read unused Hk; cbn [by_midpoint]; [eauto|].
    unfold ev1, ev2. rewrite (Hk s (or_introl eq_refl)). cbn [bind]. destruct (g s); apply IH; intros x Hx; apply Hk; right; exact Hx.
  Qed.

  Lemma cancel_loop_calm : forall (p1 p2 : polyline) poss fuel read unused, proper_closed p1 -> proper_closed p2 ->
    (forall s s', In s (read ++ poss) -> In s' (read ++ poss) -> ~ against s s') -> length poss < fuel ->
    cancel_loop fuel p1 p2 poss read unused = Ok (read ++ poss, unused).
  Proof.
    intros p1 p2 poss. induction poss as [|[v1 v2] poss IH]; intros fuel read unused H1 H2 Hn Hf; (destruct fuel as [|fuel]; [lia|]); cbn [cancel_loop].
    - rewrite app_nil_r. reflexivity.
    - rewrite extractM_none.
      + cbn [bind]. rewrite IH; [rewrite <- app_assoc; reflexivity|exact H1|exact H2| |cbn in Hf; lia].
        rewrite <- app_assoc. exact Hn.
      + intros s Hs. apply opposed_false; [exact H1|exact H2|]. apply Hn; apply in_or_app; [right; left; reflexivity|left; exact Hs].
  Qed.

  Lemma cancel_opposed_calm : forall (p1 p2 : polyline) fuel (segs : list edge), proper_closed p1 -> proper_closed p2 -> segs <> [] ->
    (forall s s', In s segs -> In s' segs -> ~ against s s') -> length segs < fuel ->
    cancel_opposed fuel p1 p2 (rev segs) = Ok (segs, []).
  Proof.
    intros p1 p2 fuel segs H1 H2 Hne Hn Hf. unfold cancel_opposed. rewrite rev_involutive. destruct segs as [|s segs]; [congruence|].
    rewrite cancel_loop_calm; [reflexivity|exact H1|exact H2|exact Hn|cbn in Hf; lia].
  Qed.

  Lemma calm_split : forall (segs : list edge) fuel, calm segs -> length segs < fuel -> split_intersections fuel segs = Ok (rev segs).
  Proof.
    intros segs fuel Hc Hf. apply split_intersections_identity; [exact Hf|]. intros l1 x l2 y l3 E.
    apply Hc; apply in_rev; rewrite E; apply in_or_app; right; [right; apply in_or_app; right; left; reflexivity|left; reflexivity].
  Qed.

  Lemma closed_shape : forall p : polyline, proper_closed p -> exists a l, p = Poly (a :: l) false /\ 2 <= length l /\
    into_edges p = Ok (consecutive ((a :: l) ++ [a])).
  Proof.
    intros [vs op] Hp. unfold proper_closed, new_closed in Hp. cbn [pverts] in Hp. destruct (Nat.ltb (length vs) 3) eqn:E; [discriminate|].
    injection Hp as <-. apply Nat.ltb_ge in E. destruct vs as [|a l]; [cbn in E; lia|]. exists a, l. split; [reflexivity|]. split; [cbn in E; lia|].
    unfold into_edges, poly_pairs. cbn [pverts popened]. apply vertex_pairs_closed.
  Qed.
  Lemma consecutive_length : forall (l : list vertex) z, length (consecutive (l ++ [z])) = length l.
  Proof.
    intros l z. pose proof (map_length (@fst vertex vertex) (consecutive (l ++ [z]))) as E. rewrite map_fst_consecutive in E. symmetry. exact E.
  Qed.

  Lemma keep_intersection_run : forall (p1 p2 : polyline) m, proper_closed p1 -> proper_closed p2 ->
    exists b, keep_intersection p1 p2 m = Ok b /\
      (b = true <-> poly_contains p1 m <> Ok (Some Outside) /\ poly_contains p2 m <> Ok (Some Outside)).
  Proof.
    intros p1 p2 m H1 H2. destruct (is_outside_total p1 m H1) as (b1 & E1 & B1). destruct (is_outside_total p2 m H2) as (b2 & E2 & B2).
    unfold keep_intersection, andM. rewrite E1, E2. cbn [bind]. destruct b1; cbn [negb]; [|destruct b2]; (eexists; split; [reflexivity|]).
    - split; [discriminate|]. intros [Hn _]. exfalso. apply Hn, B1. reflexivity.
    - split; [discriminate|]. intros [_ Hn]. exfalso. apply Hn, B2. reflexivity.
    - split; [|reflexivity]. intros _. split; [rewrite <- B1|rewrite <- B2]; discriminate.
  Qed.
  Lemma keep_union_run : forall (p1 p2 : polyline) m, proper_closed p1 -> proper_closed p2 ->
    exists b, keep_union p1 p2 m = Ok b /\
      (b = true <-> poly_contains p1 m = Ok (Some Outside) \/ poly_contains p2 m = Ok (Some Outside)).
  Proof.
    intros p1 p2 m H1 H2. destruct (is_outside_total p1 m H1) as (b1 & E1 & B1). destruct (is_outside_total p2 m H2) as (b2 & E2 & B2).
    unfold keep_union, orM. rewrite E1, E2. cbn [bind]. destruct b1; (eexists; split; [reflexivity|]).
    - split; [|reflexivity]. intros _. left. apply B1. reflexivity.
    - rewrite <- B1, B2. split; [tauto|]. intros [Hx|Hx]; [discriminate|exact Hx].
  Qed.

  Lemma box_sym : forall p1 p2 : polyline, boxes_meet p1 p2 -> exists b1 b2 b, poly_bbox p1 = Some b1 /\ poly_bbox p2 = Some b2 /\ bbox_intersection b1 b2 = Some b.
  Proof. intros p1 p2 Hb. exact Hb. Qed.

  (** The result only depends on which sides are kept. *)
  Lemma intersection_kept : forall (p1 p2 k : polyline) e1 e2 fuel p,
    proper_closed p1 -> proper_closed p2 -> proper_closed k -> boxes_meet p1 p2 ->
    into_edges p1 = Ok e1 -> into_edges p2 = Ok e2 -> calm (e1 ++ e2) -> apart (pverts k) ->
    (forall ek, into_edges k = Ok ek -> forall s, In s ek <-> In s (e1 ++ e2) /\
       poly_contains p1 (midpoint (fst s) (snd s)) <> Ok (Some Outside) /\
       poly_contains p2 (midpoint (fst s) (snd s)) <> Ok (Some Outside)) ->
    S (S (length e1 + length e2)) < fuel ->
    exists l u, poly_intersection H fuel p p1 p2 = Ok ([Poly l false], u) /\ rotation (pverts k) l /\
      forall ek s, into_edges k = Ok ek -> (In s u <-> In s (e1 ++ e2) /\ ~ In s ek).
  Proof.
    intros p1 p2 k e1 e2 fuel p H1 H2 Hk (b1 & b2 & b & B1 & B2 & B3) E1 E2 Hcalm Hap Hkeep Hf.
    destruct (closed_shape k Hk) as (a & l & -> & Hl & Ek). specialize (Hkeep _ Ek). cbn [pverts] in *.
    pose proof (calm_split (e1 ++ e2) fuel Hcalm) as Hsp. rewrite app_length in Hsp. specialize (Hsp ltac:(lia)).
    assert (Hne : e1 ++ e2 <> []).
    { pose proof (poly_pairs_nonempty p1 e1 (proper_closed_proper _ H1) E1) as Hx. destruct e1; [congruence|discriminate]. }
    assert (Hca : cancel_opposed fuel p1 p2 (rev (e1 ++ e2)) = Ok (e1 ++ e2, [])).
    { apply cancel_opposed_calm; [exact H1|exact H2|exact Hne| |rewrite app_length; lia]. intros s s' Hs Hs'. apply (Hcalm s s' Hs Hs'). }
    destruct (by_midpoint_run (keep_intersection p1 p2) (fun s => match keep_intersection p1 p2 (midpoint (fst s) (snd s)) with Ok b => b | _ => false end)
      (rev (e1 ++ e2)) [] []) as (r & u & Hm).
    { intros s _. destruct (keep_intersection_run p1 p2 (midpoint (fst s) (snd s)) H1 H2) as (c & -> & _). reflexivity. }
    destruct (by_midpoint_spec _ _ _ _ _ _ Hm) as (M1 & M2 & _).
    assert (Hset : forall s, In s r <-> In s (consecutive ((a :: l) ++ [a]))).
    { intros s. rewrite M1, Hkeep, <- in_rev. destruct (keep_intersection_run p1 p2 (midpoint (fst s) (snd s)) H1 H2) as (c & -> & C).
      rewrite <- C. split; [intros [[]|[Hs Hc]]|intros [Hs Hc]; right]; (split; [exact Hs|]); [injection Hc as ->; reflexivity|rewrite Hc; reflexivity]. }
    assert (Hperm : Permutation (hset edec r) (consecutive ((a :: l) ++ [a]))).
    { apply NoDup_Permutation; [apply hset_NoDup|apply consecutive_NoDup, apart_NoDup, Hap|]. intros s. rewrite hset_In. apply Hset. }
    assert (Hlen : S (length l) <= length e1 + length e2).
    { rewrite <- app_length. change (S (length l)) with (length (a :: l)). rewrite <- (consecutive_length (a :: l) a). apply NoDup_incl_length.
      - apply consecutive_NoDup, apart_NoDup, Hap.
      - intros s Hs. apply Hkeep, Hs. }
    destruct (build_polygon a l (hset edec r) u fuel p Hap Hl (hset_NoDup edec r) Hperm) as (l' & Hrot & Hb); [lia|].
    exists l', u. split; [|split; [exact Hrot|]].
    - unfold poly_intersection. change (poly_pairs p1) with (into_edges p1). change (poly_pairs p2) with (into_edges p2).
      rewrite E1, E2. cbn [bind]. rewrite Hsp. cbn [bind]. rewrite (proper_closed_opened _ H1), (proper_closed_opened _ H2). cbn [orb].
      rewrite B1, B2. cbn [unwrap bind]. rewrite B3, Hca. cbn [bind]. rewrite Hm. cbn [bind]. exact Hb.
    - intros ek s Ee. rewrite Ek in Ee. injection Ee as <-. rewrite M2, <- Hset, M1, <- in_rev.
      destruct (keep_intersection_run p1 p2 (midpoint (fst s) (snd s)) H1 H2) as (c & -> & _). destruct c; cbn [In].
      + split; [intros [[]|[_ Hx]]; discriminate|]. intros [Hs Hn]. exfalso. apply Hn. right. split; [exact Hs|reflexivity].
      + split; [intros [[]|[Hs _]]|intros [Hs _]; right]; (split; [exact Hs|]); [intros [[]|[_ Hx]]; discriminate|reflexivity].
  Qed.

  Lemma calm_sym : forall e1 e2 : list edge, calm (e1 ++ e2) -> calm (e2 ++ e1).
  Proof. intros e1 e2 Hc s s' Hs Hs'. apply Hc; apply (Permutation_in _ (Permutation_app_comm e2 e1)); assumption. Qed.

  Lemma intersection_nested : forall (p1 p2 inner outer : polyline) ei eo fuel p,
    (p1 = inner /\ p2 = outer) \/ (p1 = outer /\ p2 = inner) -> nested inner outer ei eo -> boxes_meet p1 p2 -> apart (pverts inner) ->
    S (S (length ei + length eo)) < fuel ->
    exists l u, poly_intersection H fuel p p1 p2 = Ok ([Poly l false], u) /\ rotation (pverts inner) l /\
      forall s, In s u <-> In s eo.
  Proof.
    intros p1 p2 inner outer ei eo fuel p Hor (Hi & Ho & Ei & Eo & Hc & Hin & Hout) Hb Hap Hf.
    assert (Hdis : forall s, In s eo -> ~ In s ei) by (intros s Hs Hs'; apply (proj1 (Hin s Hs')), Hout, Hs).
    destruct Hor as [[-> ->]|[-> ->]].
    - destruct (intersection_kept inner outer inner ei eo fuel p Hi Ho Hi Hb Ei Eo Hc Hap) as (l & u & I1 & I2 & I3); [|lia|].
      + intros ek Ek s. rewrite Ei in Ek. injection Ek as <-. rewrite in_app_iff. split.
        * intros Hs. split; [tauto|]. apply Hin, Hs.
        * intros [[Hs|Hs] [Hx Hy]]; [exact Hs|]. exfalso. apply Hx, Hout, Hs.
      + exists l, u. split; [exact I1|]. split; [exact I2|]. intros s. rewrite (I3 ei s Ei), in_app_iff. specialize (Hdis s). tauto.
    - destruct (intersection_kept outer inner inner eo ei fuel p Ho Hi Hi Hb Eo Ei (calm_sym _ _ Hc) Hap) as (l & u & I1 & I2 & I3); [|lia|].
      + intros ek Ek s. rewrite Ei in Ek. injection Ek as <-. rewrite in_app_iff. split.
        * intros Hs. split; [tauto|]. destruct (Hin s Hs). tauto.
        * intros [[Hs|Hs] [Hx Hy]]; [|exact Hs]. exfalso. apply Hy, Hout, Hs.
      + exists l, u. split; [exact I1|]. split; [exact I2|]. intros s. rewrite (I3 ei s Ei), in_app_iff. specialize (Hdis s). tauto.
  Qed.

  (** ** Union *)

  Lemma union_polygon : forall (a : vertex) l poss unused fuel p, apart (a :: l) -> 2 <= length l -> NoDup poss ->
    Permutation poss (consecutive ((a :: l) ++ [a])) -> S (S (S (length l))) < fuel ->
    (forall l' es, rotation (a :: l) l' -> into_edges (Poly l' false) = Ok es -> flt (area_segments es) c0 = true) ->
    exists l', rotation (a :: l) l' /\ union_loop H fuel p poss unused = Ok (Some (Poly l' false, hset edec unused)).
  Proof.
    intros a l poss unused fuel p Hap Hl Hnd Hperm Hf Harea. destruct fuel as [|fuel]; [lia|]. cbn [union_loop].
    destruct (ho H (1 :: p) _ poss) as [|h rest] eqn:Hh.
    { exfalso. apply ho_nil_inv in Hh. subst poss. apply Permutation_nil in Hperm. destruct l; discriminate. }
    assert (Hhp : In h poss) by (apply (ho_In H (1 :: p)); rewrite Hh; left; reflexivity).
    destruct (first_chain a l poss h fuel (2 :: p) true Hap Hl Hnd Hperm Hhp) as (l' & Hrot & Hl' & Hc); [lia|].
    exists l'. split; [exact Hrot|]. rewrite Hc. cbn [bind]. destruct l' as [|b l']; [cbn in Hl'; lia|]. cbn [hd].
    rewrite chain_closed_polygon by (cbn in Hl'; lia). rewrite rev_involutive.
    unfold segments_orientation. rewrite (Harea (b :: l') (consecutive ((b :: l') ++ [b])) Hrot (vertex_pairs_closed l' b)). cbn [bind orient_eqb].
    unfold ev1. rewrite map_fst_consecutive.
    assert (Hnc : new_closed (b :: l') = Some (Poly (b :: l') false)).
    { unfold new_closed. destruct (Nat.ltb (length (b :: l')) 3) eqn:E; [apply Nat.ltb_lt in E; lia|reflexivity]. }
    rewrite Hnc. reflexivity.
  Qed.

  Lemma union_nested : forall (p1 p2 inner outer : polyline) ei eo fuel p,
    (p1 = inner /\ p2 = outer) \/ (p1 = outer /\ p2 = inner) -> nested inner outer ei eo -> boxes_meet p1 p2 -> apart (pverts outer) ->
    (forall l es, rotation (pverts outer) l -> into_edges (Poly l false) = Ok es -> flt (area_segments es) c0 = true) ->
    S (S (length ei + length eo)) < fuel ->
    exists l u, poly_union H fuel p p1 p2 = Ok (Some (Poly l false, u)) /\ rotation (pverts outer) l /\
      forall s, In s u <-> In s ei.
  Proof.
    intros p1 p2 inner outer ei eo fuel p Hor (Hi & Ho & Ei & Eo & Hc & Hin & Hout) (b1 & b2 & b & B1 & B2 & B3) Hap Harea Hf.
    assert (Hdis : forall s, In s eo -> ~ In s ei) by (intros s Hs Hs'; apply (proj1 (Hin s Hs')), Hout, Hs).
    assert (Hall : proper_closed p1 /\ proper_closed p2 /\ exists e1 e2, into_edges p1 = Ok e1 /\ into_edges p2 = Ok e2 /\ calm (e1 ++ e2) /\
      length e1 + length e2 = length ei + length eo /\ (forall s, In s (e1 ++ e2) <-> In s ei \/ In s eo) /\
      forall s, In s (e1 ++ e2) -> (In s eo <-> poly_contains p1 (midpoint (fst s) (snd s)) = Ok (Some Outside) \/ poly_contains p2 (midpoint (fst s) (snd s)) = Ok (Some Outside))).
    { destruct Hor as [[-> ->]|[-> ->]].
      - split; [exact Hi|]. split; [exact Ho|]. exists ei, eo. split; [exact Ei|]. split; [exact Eo|]. split; [exact Hc|]. split; [reflexivity|].
        split; [intros s; apply in_app_iff|]. intros s Hs. split; [intros Hx; left; apply Hout, Hx|].
        apply in_app_or in Hs. destruct Hs as [Hs|Hs]; [|intros _; exact Hs]. destruct (Hin s Hs). tauto.
      - split; [exact Ho|]. split; [exact Hi|]. exists eo, ei. split; [exact Eo|]. split; [exact Ei|]. split; [apply calm_sym, Hc|]. split; [lia|].
        split; [intros s; rewrite in_app_iff; tauto|]. intros s Hs. split; [intros Hx; right; apply Hout, Hx|].
        apply in_app_or in Hs. destruct Hs as [Hs|Hs]; [intros _; exact Hs|]. destruct (Hin s Hs). tauto. }
    destruct Hall as (H1 & H2 & e1 & e2 & E1 & E2 & Hc' & Hle & Hmem & Hkeep).
    destruct (closed_shape outer Ho) as (a & l & -> & Hl & Ek). cbn [pverts] in *.
    assert (Eeo : consecutive ((a :: l) ++ [a]) = eo) by (rewrite Ek in Eo; injection Eo; trivial).
    subst eo. pose proof (calm_split (e1 ++ e2) fuel Hc') as Hsp. rewrite app_length in Hsp. specialize (Hsp ltac:(lia)).
    destruct (by_midpoint_run (keep_union p1 p2) (fun s => match keep_union p1 p2 (midpoint (fst s) (snd s)) with Ok b => b | _ => false end)
      (rev (rev (e1 ++ e2))) [] []) as (r & u & Hm).
    { intros s _. destruct (keep_union_run p1 p2 (midpoint (fst s) (snd s)) H1 H2) as (c & -> & _). reflexivity. }
    destruct (by_midpoint_spec _ _ _ _ _ _ Hm) as (M1 & M2 & _).
    assert (Hset : forall s, In s r <-> In s (consecutive ((a :: l) ++ [a]))).
    { intros s. rewrite M1, rev_involutive. destruct (keep_union_run p1 p2 (midpoint (fst s) (snd s)) H1 H2) as (c & -> & C). split.
      - intros [[]|[Hs Hx]]. injection Hx as ->. apply (Hkeep s Hs), C. reflexivity.
      - intros Hs. assert (Hs' : In s (e1 ++ e2)) by (apply Hmem; right; exact Hs). right. split; [exact Hs'|]. f_equal. apply C, (Hkeep s Hs'), Hs. }
    assert (Hperm : Permutation (hset edec r) (consecutive ((a :: l) ++ [a]))).
    { apply NoDup_Permutation; [apply hset_NoDup|apply consecutive_NoDup, apart_NoDup, Hap|]. intros s. rewrite hset_In. apply Hset. }
    assert (Hlen : length (consecutive ((a :: l) ++ [a])) = S (length l)) by apply consecutive_length.
    destruct (union_polygon a l (hset edec r) u fuel p Hap Hl (hset_NoDup edec r) Hperm) as (l' & Hrot & Hb); [|exact Harea|].
    { lia. }
    exists l', (hset edec u). split; [|split; [exact Hrot|]].
    - unfold poly_union. rewrite (proper_closed_opened _ H1), (proper_closed_opened _ H2). cbn [orb]. rewrite B1, B2. cbn [unwrap bind]. rewrite B3.
      change (poly_pairs p1) with (into_edges p1). change (poly_pairs p2) with (into_edges p2). rewrite E1, E2. cbn [bind]. rewrite Hsp. cbn [bind].
      rewrite Hm. cbn [bind]. exact Hb.
    - intros s. rewrite hset_In, M2, rev_involutive. destruct (keep_union_run p1 p2 (midpoint (fst s) (snd s)) H1 H2) as (c & -> & C). split.
      + intros [[]|[Hs Hx]]. injection Hx as ->. apply Hmem in Hs. destruct Hs as [Hs|Hs]; [exact Hs|].
        exfalso. assert (Hs' : In s (e1 ++ e2)) by (apply Hmem; right; exact Hs). apply (Hkeep s Hs'), C in Hs. discriminate.
      + intros Hs. right. assert (Hs' : In s (e1 ++ e2)) by (apply Hmem; left; exact Hs). split; [exact Hs'|]. f_equal.
        destruct c; [|reflexivity]. exfalso. apply (Hdis s); [|exact Hs]. apply (Hkeep s Hs'), C. reflexivity.
  Qed.
End NestP.

(** Over exact arithmetic the orientation is that of the list of sides. *)
Lemma union_nested_exact : forall (H : HashOrder) (p1 p2 inner outer : polyline ArithR) ei eo fuel p,
  (p1 = inner /\ p2 = outer) \/ (p1 = outer /\ p2 = inner) -> nested inner outer ei eo -> boxes_meet p1 p2 -> apart (pverts outer) ->
  (area_segments eo < 0)%R -> S (S (length ei + length eo)) < fuel ->
  exists l u, poly_union H fuel p p1 p2 = Ok (Some (Poly l false, u)) /\ rotation (pverts outer) l /\
    forall s, In s u <-> In s ei.
Proof.
  intros H p1 p2 inner outer ei eo fuel p Hor Hn Hb Hap Harea Hf. apply (union_nested H p1 p2 inner outer ei eo fuel p Hor Hn Hb Hap); [|exact Hf].
  destruct Hn as (_ & Ho & _ & Eo & _). destruct (closed_shape outer Ho) as (a & l & -> & _ & Ek). cbn [pverts] in *.
  intros l' es (l1 & l2 & E1 & ->) Hes. change (flt (area_segments es) c0) with (Rltb (area_segments es) (INR 0)).
  assert (Ee : eo = polygon_sides (l1 ++ l2)).
  { assert (E : consecutive ((a :: l) ++ [a]) = eo) by (rewrite Ek in Eo; injection Eo; trivial). rewrite <- E, <- E1. reflexivity. }
  assert (Es : es = polygon_sides (l2 ++ l1)).
  { destruct (l2 ++ l1) as [|b k] eqn:E2; [discriminate|]. unfold into_edges, poly_pairs in Hes. cbn [pverts popened] in Hes. rewrite vertex_pairs_closed in Hes.
    symmetry. injection Hes; trivial. }
  rewrite Es, <- area_rotate, <- Ee. unfold Rltb. destruct (Rlt_dec _ _) as [_|n]; [reflexivity|]. exfalso. apply n. cbn. exact Harea.
Qed.
