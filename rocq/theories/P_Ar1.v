(** P_Ar1.v — [Polyline::arrange]: when it returns, and what. *)

From Coq Require Import List ZArith Arith Permutation Lia Bool.
From Verif Require Import Base Arith Geometry Elements Polyline SpecO P_Base ArithF Samples.
Import ListNotations.
Local Open Scope nat_scope.
Local Open Scope list_scope.

(** ** Orders that put a given element of the second container first *)
Definition ho_at (k : nat) : HashOrder :=
  {| ho := fun p X l => match p with 1 :: _ => rot k l | _ => l end;
     ho_perm := fun p X l => match p return Permutation l (match p with 1 :: _ => rot k l | _ => l end) with 1 :: _ => rot_perm X k l | _ => Permutation_refl l end |}.

Lemma rot_head : forall X (l : list X) k a, nth_error l k = Some a -> hd_error (rot k l) = Some a.
Proof.
  intros X l k a E. unfold rot. revert k E. induction l as [|x l IH]; intros [|k] E; try discriminate E.
  - cbn in *. exact E.
  - cbn [nth_error] in E. specialize (IH k E). cbn [skipn firstn]. destruct (skipn k l) as [|y q] eqn:Q; [|exact IH].
    exfalso. pose proof (skipn_length k l) as L. rewrite Q in L. cbn in L. assert (nth_error l k <> None) as N by congruence. apply nth_error_Some in N. lia.
Qed.

Section Ar.
  Context {A : Arith}.
  Notation vertex := (vertex A).
  Notation edge := (edge A).
  Implicit Types (E : list edge) (a b h t u v w : vertex) (s l vs acc : list vertex).

  (** ** The edges as a map *)
  Definition map_of (H : HashOrder) (p : path) (E : list edge) : list (vertex * vertex) := mcollect vdec (ho H (0 :: p) _ E).

  Lemma map_get : forall H p E a b, one_way E -> (mget vdec a (map_of H p E) = Some b <-> In (a, b) E).
  Proof.
    intros H p E a b Hn. unfold map_of. pose proof (ho_perm H (0 :: p) _ E) as P. split.
    - intros G. apply mget_In in G. apply mcollect_In in G. apply (Permutation_in _ (Permutation_sym P)). exact G.
    - intros I. rewrite mcollect_get. apply In_mget.
      + apply (Permutation_NoDup (l := map fst E)); [|exact Hn]. apply Permutation_map. transitivity (ho H (0 :: p) _ E); [exact P|apply Permutation_rev].
      + apply -> in_rev. apply (Permutation_in _ P). exact I.
  Qed.
  Lemma map_none : forall H p E a, mget vdec a (map_of H p E) = None <-> ~ starts_at E a.
  Proof.
    intros H p E a. rewrite mget_None. unfold map_of. rewrite mcollect_keys. pose proof (ho_perm H (0 :: p) _ E) as P.
    assert (In a (map fst (ho H (0 :: p) _ E)) <-> starts_at E a) as Q; [|tauto]. split.
    - intros I. apply in_map_iff in I. destruct I as ((x & y) & Ex & I). cbn in Ex. subst x. exists y. apply (Permutation_in _ (Permutation_sym P)). exact I.
    - intros (y & I). apply in_map_iff. exists (a, y). split; [reflexivity|]. apply (Permutation_in _ P). exact I.
  Qed.
  Lemma map_key : forall H p E a, In a (map fst (map_of H p E)) <-> starts_at E a.
  Proof.
    intros H p E a. pose proof (map_none H p E a) as Q. rewrite mget_None in Q. destruct (in_dec vdec a (map fst (map_of H p E))) as [I|I].
    - split; [|tauto]. intros _. unfold starts_at. unfold map_of in I. rewrite mcollect_keys in I. apply in_map_iff in I. destruct I as ((x & y) & Ex & I). cbn in Ex. subst x.
      exists y. apply (Permutation_in _ (Permutation_sym (ho_perm H (0 :: p) _ E))). exact I.
    - split; [tauto|]. tauto.
  Qed.

  Definition head_of (H : HashOrder) (p : path) (E : list edge) : option vertex := hd_error (ho H (1 :: p) _ (map fst (map_of H p E))).
  Lemma head_start : forall H p E h, head_of H p E = Some h -> starts_at E h.
  Proof.
    intros H p E h Q. apply (map_key H p). unfold head_of in Q. apply (Permutation_in _ (Permutation_sym (ho_perm H (1 :: p) _ _))).
    destruct (ho H (1 :: p) _ (map fst (map_of H p E))) as [|x q]; [discriminate Q|]. injection Q as <-. left. reflexivity.
  Qed.
  Lemma head_any : forall p E a, starts_at E a -> exists H, head_of H p E = Some a.
  Proof.
    intros p E a Ha. apply (map_key (ho_at 0) p) in Ha. assert (forall k, map_of (ho_at k) p E = map_of (ho_at 0) p E) as Q by reflexivity.
    destruct (In_nth_error _ _ Ha) as (k & Hk). exists (ho_at k). unfold head_of. rewrite Q. cbn [ho ho_at]. apply rot_head. exact Hk.
  Qed.
  Lemma head_some : forall H p E, E <> [] -> exists h, head_of H p E = Some h.
  Proof.
    intros H p E Hne. assert (exists a, starts_at E a) as (a & S) by (destruct E as [|(a & b) E0]; [congruence|exists a, b; left; reflexivity]).
    apply (map_key H p) in S. unfold head_of. apply (Permutation_in _ (ho_perm H (1 :: p) _ _)) in S. revert S.
    generalize (map fst (map_of H p E)). intros ks S. destruct (ho H (1 :: p) _ ks) as [|x q]; [destruct S|]. exists x. reflexivity.
  Qed.

  (** ** The walk *)
  Inductive trail (m : list (vertex * vertex)) (h : vertex) : vertex -> list vertex -> Prop :=
  | trail_home : forall t w, mget vdec t m = Some w -> veqb w h = true -> trail m h t []
  | trail_end : forall t, mget vdec t m = None -> trail m h t []
  | trail_step : forall t w s, mget vdec t m = Some w -> veqb w h = false -> trail m h w s -> trail m h t (w :: s).

  Lemma walk_trail : forall n m h t acc vs, arrange_walk n m h t acc = Ok vs -> exists s, vs = acc ++ s /\ trail m h t s.
  Proof.
    induction n as [|n IH]; intros m h t acc vs W; [discriminate W|]. cbn [arrange_walk] in W.
    destruct (mget vdec t m) as [w|] eqn:G.
    - destruct (veqb w h) eqn:V.
      + injection W as <-. exists []. split; [symmetry; apply app_nil_r|]. apply (trail_home m h t w G V).
      + destruct (IH _ _ _ _ _ W) as (s & -> & Ht). exists (w :: s). split; [rewrite <- app_assoc; reflexivity|]. apply (trail_step m h t w s G V Ht).
    - injection W as <-. exists []. split; [symmetry; apply app_nil_r|]. apply (trail_end m h t G).
  Qed.
  Lemma trail_walk : forall m h t s, trail m h t s -> forall n acc, length s < n -> arrange_walk n m h t acc = Ok (acc ++ s).
  Proof.
    intros m h t s Ht. induction Ht as [t w G V|t G|t w s G V Ht IH]; intros n acc L; (destruct n as [|n]; [lia|]); cbn [arrange_walk]; rewrite G; try rewrite V.
    - rewrite app_nil_r. reflexivity.
    - rewrite app_nil_r. reflexivity.
    - cbn [length] in L. rewrite IH by lia. rewrite <- app_assoc. reflexivity.
  Qed.
  Lemma trail_fun : forall m h t s, trail m h t s -> forall s', trail m h t s' -> s' = s.
  Proof.
    intros m h t s Ht. induction Ht as [t w G V|t G|t w s G V Ht IH]; intros s' Ht'; inversion Ht' as [t' w' G' V'|t' G'|t' w' s1 G' V' T']; subst; try congruence.
    assert (w' = w) by congruence. subst w'. f_equal. apply IH. exact T'.
  Qed.
  Lemma trail_later : forall m h t s, trail m h t s -> forall u, In u s -> exists s', trail m h u s' /\ length s' < length s.
  Proof.
    intros m h t s Ht. induction Ht as [t w G V|t G|t w s G V Ht IH]; intros u Hu; [destruct Hu|destruct Hu|]. destruct Hu as [<-|Hu].
    - exists s. split; [exact Ht|cbn; lia].
    - destruct (IH u Hu) as (s' & T' & L). exists s'. split; [exact T'|cbn; lia].
  Qed.
  Lemma trail_NoDup : forall m h t s, trail m h t s -> NoDup (t :: s).
  Proof.
    intros m h t s Ht. induction Ht as [t w G V|t G|t w s G V Ht IH]; try (repeat constructor; intros []; fail).
    constructor; [|exact IH]. intros I. assert (trail m h t (w :: s)) as T0 by (apply (trail_step m h t w s G V Ht)).
    destruct (trail_later _ _ _ _ T0 t I) as (s' & T' & L). rewrite (trail_fun _ _ _ _ T0 _ T') in L. lia.
  Qed.

  (** Coming back, or stopping, is what makes the walk end. *)
  Definition settled E (h b : vertex) : Prop := b = h \/ ~ starts_at E b.
  Lemma leads_start : forall E a b, leads E a b -> starts_at E a.
  Proof. intros E a b L. destruct L as [a b I|a b c I L]; exists b; exact I. Qed.
  Lemma leads_trail : forall H p E h t b, one_way E -> told_apart E -> starts_at E h -> leads E t b -> settled E h b -> exists s, trail (map_of H p E) h t s.
  Proof.
    intros H p E h t b Hn Ha Hh L. induction L as [t b I|t c b I L IH]; intros Hs.
    - destruct (veqb b h) eqn:V; [exists []; apply (trail_home _ h t b); [apply map_get; assumption|exact V]|].
      exists [b]. apply (trail_step _ h t b []); [apply map_get; assumption|exact V|]. apply trail_end. apply map_none. destruct Hs as [->|Hs]; [|exact Hs].
      exfalso. assert (veqb h h = true) as Q by (apply (Ha h h Hh); [exists t; exact I|reflexivity]). congruence.
    - destruct (IH Hs) as (s & Ts). destruct (veqb c h) eqn:V; [exists []; apply (trail_home _ h t c); [apply map_get; assumption|exact V]|].
      exists (c :: s). apply (trail_step _ h t c s); [apply map_get; assumption|exact V|exact Ts].
  Qed.
  Lemma trail_leads : forall H p E h t s, one_way E -> told_apart E -> starts_at E h -> starts_at E t -> trail (map_of H p E) h t s -> exists b, leads E t b /\ settled E h b.
  Proof.
    intros H p E h t s Hn Ha Hh Ht T. induction T as [t w G V|t G|t w s G V T IH].
    - apply map_get in G; [|exact Hn]. exists w. split; [apply leads_one; exact G|]. left. apply (Ha h w Hh); [exists t; exact G|exact V].
    - apply map_none in G. contradiction.
    - apply map_get in G; [|exact Hn]. destruct T as [t' w' G' V'|t' G'|t' w' s' G' V' T'].
      + destruct IH as (b & L & S); [exists w'; apply map_get in G'; assumption|]. exists b. split; [apply (leads_on E t t' b G L)|exact S].
      + exists t'. split; [apply leads_one; exact G|right; apply map_none in G'; exact G'].
      + destruct IH as (b & L & S); [exists w'; apply map_get in G'; assumption|]. exists b. split; [apply (leads_on E t t' b G L)|exact S].
  Qed.

  Lemma arrange_unfold : forall H n p E, poly_arrange H n p E =
    bind (unwrap (head_of H p E)) (fun head => bind (arrange_walk n (map_of H p E) head head [head]) (fun vs =>
    if Nat.eqb (length vs) (length E) then bind (unwrap (new_closed vs)) (fun pl => Ok (Some pl)) else Ok None)).
  Proof. reflexivity. Qed.

  Lemma arrange_out : forall H n p E h, head_of H p E = Some h -> poly_arrange H n p E <> NoFuel -> exists s, trail (map_of H p E) h h s.
  Proof.
    intros H n p E h Hh Q. rewrite arrange_unfold, Hh in Q. cbn [unwrap bind] in Q. destruct (arrange_walk n (map_of H p E) h h [h]) as [vs| |] eqn:W; cbn [bind] in Q.
    - destruct (walk_trail _ _ _ _ _ _ W) as (s & _ & T). exists s. exact T.
    - exfalso. clear Q Hh. revert W. generalize [h]. generalize h at 2. induction n as [|n IH]; intros t acc W; [discriminate W|]. cbn [arrange_walk] in W.
      destruct (mget vdec t (map_of H p E)) as [w|]; [|discriminate W]. destruct (veqb w h); [discriminate W|]. apply (IH _ _ W).
    - congruence.
  Qed.
  Lemma arrange_result : forall H n p E h s, head_of H p E = Some h -> trail (map_of H p E) h h s -> length s < n ->
    poly_arrange H n p E = (if Nat.eqb (length (h :: s)) (length E) then bind (unwrap (new_closed (h :: s))) (fun pl => Ok (Some pl)) else Ok None).
  Proof.
    intros H n p E h s Hh T L. rewrite arrange_unfold, Hh. cbn [unwrap bind]. rewrite (trail_walk _ _ _ _ T n [h] L). reflexivity.
  Qed.
  Lemma branch_fuel : forall E l, (if Nat.eqb (length l) (length E) then bind (unwrap (new_closed l)) (fun pl => Ok (Some pl)) else Ok None) <> NoFuel.
  Proof.
    intros E l. destruct (Nat.eqb _ _); [|congruence]. unfold new_closed. destruct (Nat.ltb (length l) 3); cbn; congruence.
  Qed.

  (** The vertices of a trail but the last one start edges. *)
  Lemma trail_bound : forall H p E h t s, trail (map_of H p E) h t s -> length s <= length E.
  Proof.
    intros H p E h t s T. pose proof (trail_NoDup _ _ _ _ T) as Nd.
    assert (forall m h t s, trail m h t s -> incl s (map snd m)) as Hi.
    { clear. intros m h t s T. induction T as [t w G V|t G|t w s G V T IH]; intros x Hx; [destruct Hx|destruct Hx|]. destruct Hx as [<-|Hx]; [|apply IH; exact Hx].
      apply mget_In in G. apply in_map_iff. exists (t, w). split; [reflexivity|exact G]. }
    assert (length s <= length (map snd (ho H (0 :: p) _ E))) as L.
    { apply NoDup_incl_length; [inversion Nd; assumption|]. intros x Hx. apply (Hi _ _ _ _ T) in Hx. apply in_map_iff in Hx. destruct Hx as (kv & Ek & I).
      apply in_map_iff. exists kv. split; [exact Ek|]. apply mcollect_In in I. exact I. }
    rewrite map_length in L. pose proof (Permutation_length (ho_perm H (0 :: p) edge E)) as Q. apply (Nat.le_trans _ _ _ L). apply Nat.eq_le_incl. symmetry. exact Q.
  Qed.

  Theorem arrange_returns_at : forall H p E h, one_way E -> told_apart E -> head_of H p E = Some h ->
    ((exists n, poly_arrange H n p E <> NoFuel) <-> exists b, leads E h b /\ settled E h b).
  Proof.
    intros H p E h Hn Ha Hh. pose proof (head_start _ _ _ _ Hh) as Hs. split.
    - intros (n & Q). destruct (arrange_out _ _ _ _ _ Hh Q) as (s & T). apply (trail_leads H p E h h s); assumption.
    - intros (b & L & Se). destruct (leads_trail H p E h h b Hn Ha Hs L Se) as (s & T). exists (S (length s)).
      rewrite (arrange_result _ _ _ _ _ _ Hh T) by lia. apply branch_fuel.
  Qed.
  Theorem arrange_returns : forall p E, one_way E -> told_apart E ->
    ((forall H, exists n, poly_arrange H n p E <> NoFuel) <-> forall a, starts_at E a -> exists b, leads E a b /\ (b = a \/ ~ starts_at E b)).
  Proof.
    intros p E Hn Ha. split.
    - intros Q a Hs. destruct (head_any p E a Hs) as (H & Hh). apply (arrange_returns_at H p E a Hn Ha Hh). apply Q.
    - intros Q H. destruct (head_of H p E) as [h|] eqn:Hh.
      + apply (arrange_returns_at H p E h Hn Ha Hh). apply Q. apply (head_start _ _ _ _ Hh).
      + exists 0. rewrite arrange_unfold, Hh. cbn. discriminate.
  Qed.
  Theorem arrange_steps : forall H p E, (exists n, poly_arrange H n p E <> NoFuel) -> poly_arrange H (S (length E)) p E <> NoFuel.
  Proof.
    intros H p E (n & Q). destruct (head_of H p E) as [h|] eqn:Hh.
    - destruct (arrange_out _ _ _ _ _ Hh Q) as (s & T). pose proof (trail_bound _ _ _ _ _ _ T) as L. rewrite (arrange_result _ _ _ _ _ _ Hh T) by lia. apply branch_fuel.
    - rewrite arrange_unfold, Hh. cbn. discriminate.
  Qed.

  (** ** What is returned *)
  Lemma chain_fst : forall l d, map fst (chain l) = removelast l /\ (l <> [] -> map fst (chain l) ++ [last l d] = l).
  Proof.
    intros l d. induction l as [|x l IH]; [split; [reflexivity|congruence]|]. destruct l as [|y l].
    - split; [reflexivity|]. reflexivity.
    - destruct IH as [I1 I2]. split.
      + change (chain (x :: y :: l)) with ((x, y) :: chain (y :: l)). cbn [map fst]. rewrite I1. reflexivity.
      + intros _. change (chain (x :: y :: l)) with ((x, y) :: chain (y :: l)). cbn [map fst]. change (last (x :: y :: l) d) with (last (y :: l) d).
        rewrite <- app_comm_cons. rewrite I2 by discriminate. reflexivity.
  Qed.
  Lemma ring_fst : forall l, map fst (ring l) = l.
  Proof.
    intros [|x l]; [reflexivity|]. unfold ring. rewrite map_app. cbn [map fst]. apply (chain_fst (x :: l) x). discriminate.
  Qed.
  Lemma trail_chain : forall H p E h t s, one_way E -> trail (map_of H p E) h t s -> incl (chain (t :: s)) E.
  Proof.
    intros H p E h t s Hn T. induction T as [t w G V|t G|t w s G V T IH]; intros e He; [destruct He|destruct He|]. destruct He as [<-|He]; [|apply IH; exact He].
    apply map_get in G; assumption.
  Qed.
  Lemma trail_last : forall H p E h t s d, one_way E -> told_apart E -> no_dead_end E -> starts_at E h -> starts_at E t -> trail (map_of H p E) h t s -> In (last (t :: s) d, h) E.
  Proof.
    intros H p E h t s d Hn Ha Hd Hh Ht T. induction T as [t w G V|t G|t w s G V T IH].
    - apply map_get in G; [|exact Hn]. cbn [last]. replace h with w; [exact G|]. apply (Ha h w Hh); [exists t; exact G|exact V].
    - apply map_none in G. contradiction.
    - apply map_get in G; [|exact Hn]. change (last (t :: w :: s) d) with (last (w :: s) d). apply IH. apply (Hd (t, w) G).
  Qed.
  Theorem arrange_is_ring : forall H n p E pl, one_way E -> told_apart E -> no_dead_end E -> poly_arrange H n p E = Ok (Some pl) ->
    popened pl = false /\ NoDup (pverts pl) /\ 3 <= length (pverts pl) /\ Permutation (ring (pverts pl)) E.
  Proof.
    intros H n p E pl Hn Ha Hd Q. pose proof Q as Q0. rewrite arrange_unfold in Q. destruct (head_of H p E) as [h|] eqn:Hh; [|discriminate Q]. cbn [unwrap bind] in Q.
    destruct (arrange_walk n (map_of H p E) h h [h]) as [vs| |] eqn:W; [|discriminate Q|discriminate Q]. cbn [bind] in Q.
    destruct (walk_trail _ _ _ _ _ _ W) as (s & -> & T). change ([h] ++ s) with (h :: s) in Q. pose proof (head_start _ _ _ _ Hh) as Hs.
    destruct (Nat.eqb (length (h :: s)) (length E)) eqn:L; [|discriminate Q]. apply Nat.eqb_eq in L. unfold new_closed in Q.
    destruct (Nat.ltb (length (h :: s)) 3) eqn:L3; [discriminate Q|]. apply Nat.ltb_ge in L3. cbn [unwrap bind] in Q. injection Q as <-. cbn [popened pverts].
    pose proof (trail_NoDup _ _ _ _ T) as Nd. repeat split; try assumption. apply NoDup_Permutation_bis.
    - apply (NoDup_map_inv fst). rewrite ring_fst. exact Nd.
    - apply Nat.eq_le_incl. rewrite <- L. rewrite <- (ring_fst (h :: s)) at 1. apply map_length.
    - intros e He. unfold ring in He. apply in_app_or in He. destruct He as [He|[<-|[]]].
      + apply (trail_chain H p E h h s Hn T). exact He.
      + apply (trail_last H p E h h s h); assumption.
  Qed.

  (** ** A ring is recovered whatever the order of its sides *)
  Lemma chain_snoc : forall l b a d, chain ((b :: l) ++ [a]) = chain (b :: l) ++ [(last (b :: l) d, a)].
  Proof.
    induction l as [|x l IH]; intros b a d; [reflexivity|]. change (chain ((b :: x :: l) ++ [a])) with ((b, x) :: chain ((x :: l) ++ [a])). rewrite (IH x a d).
    reflexivity.
  Qed.
  Lemma ring_step : forall l a, Permutation (ring (l ++ [a])) (ring (a :: l)).
  Proof.
    intros [|b l] a; [reflexivity|]. change (ring ((b :: l) ++ [a])) with (chain ((b :: l) ++ [a]) ++ [(last ((b :: l) ++ [a]) b, b)]). rewrite last_last. rewrite (chain_snoc l b a a).
    change (ring (a :: b :: l)) with ((a, b) :: (chain (b :: l) ++ [(last (b :: l) a, a)])). symmetry. apply Permutation_cons_append.
  Qed.
  Lemma ring_swap : forall l1 l2, Permutation (ring (l2 ++ l1)) (ring (l1 ++ l2)).
  Proof.
    induction l1 as [|a l1 IH]; intros l2; [rewrite app_nil_r; reflexivity|]. transitivity (ring ((l1 ++ l2) ++ [a])); [|apply ring_step].
    rewrite <- app_assoc. transitivity (ring ((l2 ++ [a]) ++ l1)); [|apply IH]. rewrite <- app_assoc. reflexivity.
  Qed.
  Lemma ring_rot : forall k l, Permutation (ring (rot k l)) (ring l).
  Proof. intros k l. unfold rot. rewrite <- (firstn_skipn k l) at 3. apply ring_swap. Qed.

  Lemma sides_trail : forall H p E h, one_way E -> told_apart E -> starts_at E h -> forall s t d, incl (chain (t :: s)) E -> In (last (t :: s) d, h) E -> ~ In h s ->
    trail (map_of H p E) h t s.
  Proof.
    intros H p E h Hn Ha Hh. induction s as [|w s IH]; intros t d Hc Hl Ni.
    - cbn [last] in Hl. apply (trail_home _ h t h); [apply map_get; assumption|]. apply (Ha h h Hh); [exists t; exact Hl|reflexivity].
    - assert (In (t, w) E) as I by (apply Hc; left; reflexivity). apply (trail_step _ h t w s).
      + apply map_get; assumption.
      + destruct (veqb w h) eqn:V; [|reflexivity]. exfalso. apply Ni. left. apply (Ha h w Hh); [exists t; exact I|exact V].
      + apply (IH w d); [intros e He; apply Hc; right; exact He|exact Hl|intros I'; apply Ni; right; exact I'].
  Qed.
  Theorem ring_recovered : forall H n p l E, NoDup l -> 3 <= length l -> Permutation (ring l) E -> told_apart E -> length l <= n ->
    exists k, poly_arrange H n p E = Ok (Some (Poly (rot k l) false)).
  Proof.
    intros H n p l E Nd L3 P Ha Ln. assert (length E = length l) as LE.
    { rewrite <- (Permutation_length P). rewrite <- (ring_fst l) at 2. symmetry. apply map_length. }
    assert (one_way E) as Hn.
    { unfold one_way. apply (Permutation_NoDup (l := l)); [|exact Nd]. rewrite <- (ring_fst l) at 1. apply Permutation_map. exact P. }
    destruct (head_some H p E) as (h & Hh); [intros ->; cbn in LE; lia|]. pose proof (head_start _ _ _ _ Hh) as Hs.
    assert (In h l) as Il.
    { destruct Hs as (w & I). rewrite <- (ring_fst l). apply in_map_iff. exists (h, w). split; [reflexivity|]. apply (Permutation_in _ (Permutation_sym P)). exact I. }
    destruct (In_nth_error _ _ Il) as (k & Hk). pose proof (rot_head _ _ _ _ Hk) as Hr. exists k.
    pose proof (rot_perm _ k l) as Pr. destruct (rot k l) as [|h' s] eqn:R; [discriminate Hr|]. injection Hr as ->.
    assert (Permutation (ring (h :: s)) E) as P2 by (rewrite <- R; transitivity (ring l); [apply ring_rot|exact P]).
    pose proof (Permutation_NoDup Pr Nd) as Nd2. pose proof (Permutation_length Pr) as Lr.
    assert (trail (map_of H p E) h h s) as T.
    { apply (sides_trail H p E h Hn Ha Hs s h h).
      - intros e He. apply (Permutation_in _ P2). unfold ring. apply in_or_app. left. exact He.
      - apply (Permutation_in _ P2). unfold ring. apply in_or_app. right. left. reflexivity.
      - inversion Nd2; assumption. }
    rewrite (arrange_result H n p E h s Hh T) by (cbn [length] in Lr; lia). rewrite <- Lr, LE, Nat.eqb_refl. unfold new_closed. rewrite <- Lr.
    destruct (Nat.ltb (length l) 3) eqn:Q; [apply Nat.ltb_lt in Q; lia|]. reflexivity.
  Qed.

  (** ** A chain that does not close is returned closed from its second vertex *)
  Lemma chain_trail : forall H p E h, one_way E -> told_apart E -> starts_at E h -> forall s t d, incl (chain (t :: s)) E -> ~ starts_at E (last (t :: s) d) -> ~ In h s ->
    trail (map_of H p E) h t s.
  Proof.
    intros H p E h Hn Ha Hh. induction s as [|w s IH]; intros t d Hc Hl Ni.
    - cbn [last] in Hl. apply trail_end. apply map_none. exact Hl.
    - assert (In (t, w) E) as I by (apply Hc; left; reflexivity). apply (trail_step _ h t w s).
      + apply map_get; assumption.
      + destruct (veqb w h) eqn:V; [|reflexivity]. exfalso. apply Ni. left. apply (Ha h w Hh); [exists t; exact I|exact V].
      + apply (IH w d); [intros e He; apply Hc; right; exact He|exact Hl|intros I'; apply Ni; right; exact I'].
  Qed.
  Lemma chain_length : forall l a, length (chain (a :: l)) = length l.
  Proof. induction l as [|b l IH]; intros a; [reflexivity|]. change (chain (a :: b :: l)) with ((a, b) :: chain (b :: l)). cbn [length]. rewrite IH. reflexivity. Qed.
  Theorem chain_closed : forall p l v E, NoDup (v :: l) -> 3 <= length l -> Permutation (chain (v :: l)) E -> told_apart E ->
    exists H, forall n, length l <= n -> poly_arrange H n p E = Ok (Some (Poly l false)).
  Proof.
    intros p l v E Nd L3 P Ha. assert (length E = length l) as LE by (rewrite <- (Permutation_length P); apply chain_length).
    destruct l as [|h s]; [cbn in L3; lia|]. 
    assert (forall x, starts_at E x <-> In x (removelast (v :: h :: s))) as Hs.
    { intros x. rewrite <- (proj1 (chain_fst (v :: h :: s) v)). split.
      - intros (w & I). apply in_map_iff. exists (x, w). split; [reflexivity|]. apply (Permutation_in _ (Permutation_sym P)). exact I.
      - intros I. apply in_map_iff in I. destruct I as ((x' & w) & Ex & I). cbn in Ex. subst x'. exists w. apply (Permutation_in _ P). exact I. }
    assert (one_way E) as Hn.
    { unfold one_way. apply (Permutation_NoDup (l := map fst (chain (v :: h :: s)))); [apply Permutation_map; exact P|]. rewrite (proj1 (chain_fst (v :: h :: s) v)).
      rewrite (app_removelast_last v (l := v :: h :: s)) in Nd by discriminate. apply NoDup_remove_1 in Nd. rewrite app_nil_r in Nd. exact Nd. }
    assert (starts_at E h) as Hh.
    { apply Hs. destruct s as [|x s]; [cbn in L3; lia|]. right. left. reflexivity. }
    destruct (head_any p E h Hh) as (H & Hd). exists H. intros n Ln.
    assert (trail (map_of H p E) h h s) as T.
    { apply (chain_trail H p E h Hn Ha Hh s h v).
      - intros e He. apply (Permutation_in _ P). right. exact He.
      - rewrite Hs. intros I. change (last (h :: s) v) with (last (v :: h :: s) v) in I. rewrite (app_removelast_last v (l := v :: h :: s)) in Nd by discriminate.
        apply NoDup_remove_2 in Nd. rewrite app_nil_r in Nd. contradiction.
      - inversion Nd as [|? ? _ Nd']. inversion Nd'; assumption. }
    rewrite (arrange_result H n p E h s Hd T) by (cbn [length] in Ln; lia). rewrite LE, Nat.eqb_refl. unfold new_closed.
    destruct (Nat.ltb (length (h :: s)) 3) eqn:Q; [apply Nat.ltb_lt in Q; lia|]. reflexivity.
  Qed.

  Theorem arrange_iff_ring : forall H p E, one_way E -> told_apart E -> no_dead_end E ->
    ((exists n pl, poly_arrange H n p E = Ok (Some pl)) <-> exists l, NoDup l /\ 3 <= length l /\ Permutation (ring l) E).
  Proof.
    intros H p E Hn Ha Hd. split.
    - intros (n & pl & Q). destruct (arrange_is_ring _ _ _ _ _ Hn Ha Hd Q) as (_ & Nd & L & P). exists (pverts pl). repeat split; assumption.
    - intros (l & Nd & L & P). destruct (ring_recovered H (length l) p l E Nd L P Ha (Nat.le_refl _)) as (k & Q). exists (length l), (Poly (rot k l) false). exact Q.
  Qed.

  (** The sides of a closed polyline. *)
  Lemma chain_consecutive : forall l, consecutive l = chain l.
  Proof. induction l as [|a l IH]; [reflexivity|]. destruct l as [|b l]; [reflexivity|]. change (chain (a :: b :: l)) with ((a, b) :: chain (b :: l)). rewrite <- IH. reflexivity. Qed.
  Theorem closed_sides : forall l, l <> [] -> into_edges (Poly l false) = Ok (ring l).
  Proof.
    intros [|a l] Hne; [congruence|]. unfold into_edges, poly_pairs, vertex_pairs, ring. cbn [pverts popened]. rewrite chain_consecutive. reflexivity.
  Qed.

  (** A check for the hypothesis on the library's equality. *)
  Definition told_apartb (E : list edge) : bool :=
    forallb (fun e => forallb (fun e' => Bool.eqb (veqb (snd e') (fst e)) (if vdec (snd e') (fst e) then true else false)) E) E.
  Lemma told_apartb_ok : forall E, told_apartb E = true -> told_apart E.
  Proof.
    intros E C a b (w & Ia) (u & Ib). unfold told_apartb in C. rewrite forallb_forall in C. specialize (C _ Ia). cbv beta in C. rewrite forallb_forall in C. specialize (C _ Ib). cbn [fst snd] in C.
    apply Bool.eqb_prop in C. rewrite C. destruct (vdec b a) as [->|N]; split; intros Q; try reflexivity; try discriminate Q; contradiction.
  Qed.
  Fixpoint nodupb (l : list vertex) : bool :=
    match l with
    | [] => true
    | a :: l' => (if in_dec vdec a l' then false else true) && nodupb l'
    end.
  Lemma nodupb_ok : forall l, nodupb l = true -> NoDup l.
  Proof.
    induction l as [|a l IH]; intros C; [constructor|]. cbn [nodupb] in C. apply andb_true_iff in C. destruct C as [C1 C2]. constructor; [|apply IH; exact C2].
    destruct (in_dec vdec a l) as [I|N]; [discriminate C1|exact N].
  Qed.
  Definition one_wayb (E : list edge) : bool := nodupb (map fst E).
  Lemma one_wayb_ok : forall E, one_wayb E = true -> one_way E.
  Proof. intros E C. apply nodupb_ok. exact C. Qed.
  Definition no_dead_endb (E : list edge) : bool := forallb (fun e => if in_dec vdec (snd e) (map fst E) then true else false) E.
  Lemma no_dead_endb_ok : forall E, no_dead_endb E = true -> no_dead_end E.
  Proof.
    intros E C e He. unfold no_dead_endb in C. rewrite forallb_forall in C. specialize (C e He). cbv beta in C. destruct (in_dec vdec (snd e) (map fst E)) as [I|]; [|discriminate C].
    apply in_map_iff in I. destruct I as ((x & y) & Ex & I). cbn in Ex. subst x. exists y. exact I.
  Qed.
  Definition outb (H : HashOrder) (n : nat) (p : path) (E : list edge) : bool := match poly_arrange H n p E with NoFuel => true | _ => false end.
  Lemma outb_ok : forall H n p E, outb H n p E = true -> poly_arrange H n p E = NoFuel.
  Proof. intros H n p E C. unfold outb in C. destruct (poly_arrange H n p E); [discriminate C|discriminate C|reflexivity]. Qed.
End Ar.

(** A square's sides, and the same square with a tail that runs into it. *)
Definition square_round : list (vertex ArithF) := [pt 0 0; pt 2 0; pt 2 2; pt 0 2].
Definition square_tail : list (edge ArithF) := ring square_round ++ [(pt (-1) 0, pt 0 0)].
Section Check.
  Context {A : Arith}.
  Variables (l : list (vertex A)) (E E' C : list (edge A)) (H : HashOrder).
  Definition check_round : bool := one_wayb E && (told_apartb E && (no_dead_endb E && (nodupb l && (told_apartb C && (one_wayb E' && (told_apartb E' && outb H 100 [] E')))))).
  Lemma check_round_ok : check_round = true -> one_way E /\ told_apart E /\ no_dead_end E /\ NoDup l /\ told_apart C /\ one_way E' /\ told_apart E' /\ poly_arrange H 100 [] E' = NoFuel.
  Proof.
    unfold check_round. rewrite !andb_true_iff. intros (C1 & C2 & C3 & C4 & C5 & C6 & C7 & C8).
    exact (conj (one_wayb_ok _ C1) (conj (told_apartb_ok _ C2) (conj (no_dead_endb_ok _ C3) (conj (nodupb_ok _ C4) (conj (told_apartb_ok _ C5) (conj (one_wayb_ok _ C6) (conj (told_apartb_ok _ C7) (outb_ok _ _ _ _ C8)))))))).
  Qed.
End Check.
Lemma round_checked : check_round square_round (ring square_round) square_tail (chain square_round) ho_id = true.
Proof. vm_compute. reflexivity. Qed.
