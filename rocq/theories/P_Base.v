(** P_Base.v — lemmas on outcomes, hash containers and iteration orders. *)

From Coq Require Import List Permutation Arith Bool Lia.
From Verif Require Import Base.
Import ListNotations.

(** ** Outcomes *)

Lemma bind_ok : forall X Y (e : res X) (k : X -> res Y) y,
  bind e k = Ok y -> exists x, e = Ok x /\ k x = Ok y.
Proof. intros X Y [x| |] k y Hk; cbn in Hk; try discriminate. exists x; split; [reflexivity|exact Hk]. Qed.

Lemma unwrap_ok : forall X (o : option X) x, unwrap o = Ok x -> o = Some x.
Proof. intros X [y|] x Hx; cbn in Hx; congruence. Qed.

(** Inverts one [bind] of a hypothesis. *)
Ltac inv_bind Hb :=
  let x := fresh "x" in let Hx := fresh "Hx" in
  apply bind_ok in Hb; destruct Hb as [x [Hx Hb]].

Lemma filterM_ok : forall X (f : X -> res bool) l r,
  filterM f l = Ok r ->
  exists g : X -> bool, (forall x, In x l -> f x = Ok (g x)) /\ r = filter g l.
Proof.
  intros X f l. induction l as [|a l IH]; intros r Hr; cbn in Hr.
  - exists (fun _ => true). split; [intros x []|]. cbn. congruence.
  - apply bind_ok in Hr. destruct Hr as [b [Hb Hr]].
    apply bind_ok in Hr. destruct Hr as [r' [Hr' Hr]].
    destruct (IH r' Hr') as [g [Hg Hrg]].
    exists (fun x => match f x with Ok c => c | _ => g x end). split.
    + intros x [Hx|Hx]; [subst x; rewrite Hb; reflexivity|]. rewrite (Hg x Hx). reflexivity.
    + cbn. rewrite Hb. injection Hr as Hr.
      assert (Heq : filter (fun x => match f x with Ok c => c | _ => g x end) l = filter g l).
      { apply filter_ext_in. intros x Hx. rewrite (Hg x Hx). reflexivity. }
      rewrite Heq, <- Hr, <- Hrg. destruct b; reflexivity.
Qed.

(** Direct specification: exactly the elements on which the test said yes. *)
Lemma filterM_in : forall X (f : X -> res bool) l r,
  filterM f l = Ok r -> forall x, In x r <-> In x l /\ f x = Ok true.
Proof.
  intros X f l r Hr x. destruct (filterM_ok X f l r Hr) as [g [Hg ->]].
  rewrite filter_In. split.
  - intros [Hx Hgx]. split; [exact Hx|]. rewrite (Hg x Hx), Hgx. reflexivity.
  - intros [Hx Hfx]. split; [exact Hx|]. rewrite (Hg x Hx) in Hfx. congruence.
Qed.

Lemma filterM_NoDup : forall X (f : X -> res bool) l r,
  filterM f l = Ok r -> NoDup l -> NoDup r.
Proof.
  intros X f l r Hr Hn. destruct (filterM_ok X f l r Hr) as [g [_ ->]].
  apply NoDup_filter. exact Hn.
Qed.

Lemma filterM_total : forall X (f : X -> res bool) (g : X -> bool) l,
  (forall x, In x l -> f x = Ok (g x)) -> filterM f l = Ok (filter g l).
Proof.
  intros X f g l. induction l as [|a l IH]; intros Hf; [reflexivity|]. cbn.
  rewrite (Hf a (or_introl eq_refl)). cbn. rewrite IH by (intros x Hx; apply Hf; right; exact Hx).
  reflexivity.
Qed.

(** ** Hash sets *)

Section Sets.
  Context {K : Type} (dec : forall x y : K, {x = y} + {x <> y}).
  Notation hmem := (hmem dec). Notation hadd := (hadd dec).
  Notation hdel := (hdel dec). Notation hset := (hset dec).

  Lemma hmem_In : forall x s, hmem x s = true <-> In x s.
  Proof.
    intros x s. unfold hmem. rewrite existsb_exists. split.
    - intros [y [Hy Hd]]. destruct (dec x y); [subst; exact Hy|discriminate].
    - intros Hx. exists x. split; [exact Hx|]. destruct (dec x x); congruence.
  Qed.

  Lemma hmem_false : forall x s, hmem x s = false <-> ~ In x s.
  Proof.
    intros x s. rewrite <- hmem_In. destruct (hmem x s); split; intros Hx; congruence.
  Qed.

  Lemma hadd_In : forall x y s, In y (hadd x s) <-> y = x \/ In y s.
  Proof.
    intros x y s. unfold hadd. destruct (hmem x s) eqn:Hm.
    - apply hmem_In in Hm. split; [auto|]. intros [->|Hy]; assumption.
    - rewrite in_app_iff. cbn. intuition congruence.
  Qed.

  Lemma hadd_NoDup : forall x s, NoDup s -> NoDup (hadd x s).
  Proof.
    intros x s Hn. unfold hadd. destruct (hmem x s) eqn:Hm; [exact Hn|].
    apply hmem_false in Hm. apply (Permutation_NoDup (Permutation_cons_append s x)).
    constructor; assumption.
  Qed.

  Lemma hdel_In : forall x y s, In y (hdel x s) <-> In y s /\ y <> x.
  Proof.
    intros x y s. unfold hdel. rewrite filter_In. destruct (dec x y); intuition congruence.
  Qed.

  Lemma hdel_NoDup : forall x s, NoDup s -> NoDup (hdel x s).
  Proof. intros x s. apply NoDup_filter. Qed.

  Lemma fold_hadd_In : forall l s y,
    In y (fold_left (fun s x => hadd x s) l s) <-> In y s \/ In y l.
  Proof.
    induction l as [|a l IH]; intros s y; cbn; [intuition|].
    rewrite IH, hadd_In. intuition congruence.
  Qed.

  Lemma fold_hadd_NoDup : forall l s,
    NoDup s -> NoDup (fold_left (fun s x => hadd x s) l s).
  Proof. induction l as [|a l IH]; intros s Hs; cbn; [exact Hs|]. apply IH, hadd_NoDup, Hs. Qed.

  Lemma hset_In : forall l y, In y (hset l) <-> In y l.
  Proof. intros l y. unfold hset. rewrite fold_hadd_In. cbn. intuition. Qed.

  Lemma hset_NoDup : forall l, NoDup (hset l).
  Proof. intros l. apply fold_hadd_NoDup. constructor. Qed.

  Lemma fold_hdel_In : forall l s y,
    In y (fold_left (fun s x => hdel x s) l s) <-> In y s /\ ~ In y l.
  Proof.
    induction l as [|a l IH]; intros s y; cbn; [intuition|].
    rewrite IH, hdel_In. intuition congruence.
  Qed.

  Lemma fold_hadd_NoDup_id : forall l s,
    NoDup (s ++ l) -> fold_left (fun s x => hadd x s) l s = s ++ l.
  Proof.
    induction l as [|a l IH]; intros s Hn; cbn; [symmetry; apply app_nil_r|].
    assert (Ha : ~ In a s).
    { intros Ha. apply NoDup_remove_2 in Hn. apply Hn, in_or_app. left; exact Ha. }
    unfold hadd. rewrite (proj2 (hmem_false a s) Ha). rewrite IH.
    - rewrite <- app_assoc. reflexivity.
    - rewrite <- app_assoc. exact Hn.
  Qed.
  Lemma hset_NoDup_id : forall l, NoDup l -> hset l = l.
  Proof. intros l Hn. apply (fold_hadd_NoDup_id l []). exact Hn. Qed.

  Lemma hdel_not_In : forall x s, ~ In x s -> hdel x s = s.
  Proof.
    intros x s. induction s as [|a s IH]; intros Hx; cbn; [reflexivity|].
    destruct (dec x a) as [->|Hne]; [exfalso; apply Hx; left; reflexivity|].
    f_equal. apply IH. intros Hi; apply Hx; right; exact Hi.
  Qed.

  Lemma hdel_length : forall x s, NoDup s -> In x s -> S (length (hdel x s)) = length s.
  Proof.
    intros x s. induction s as [|a s IH]; intros Hn Hx; [destruct Hx|].
    inversion Hn as [|? ? Ha Hn']; subst. cbn. destruct (dec x a) as [->|Hne].
    - f_equal. fold (hdel a s). rewrite hdel_not_In; [reflexivity|exact Ha].
    - cbn. f_equal. apply IH; [exact Hn'|]. destruct Hx as [Hx|Hx]; [congruence|exact Hx].
  Qed.

  Lemma hdel_length_le : forall x s, length (hdel x s) <= length s.
  Proof.
    intros x s. unfold hdel. induction s as [|a s IH]; cbn; [lia|].
    destruct (dec x a); cbn; lia.
  Qed.

  Lemma hdel_length_lt : forall x s, In x s -> length (hdel x s) < length s.
  Proof.
    intros x s. induction s as [|a s IH]; intros Hx; [destruct Hx|]. cbn.
    pose proof (hdel_length_le x s) as Hle. unfold hdel in *.
    destruct (dec x a) as [->|Hne]; cbn; [lia|].
    destruct Hx as [Hx|Hx]; [congruence|]. specialize (IH Hx). lia.
  Qed.
End Sets.

(** ** Hash maps *)

Section Maps.
  Context {K V : Type} (dec : forall x y : K, {x = y} + {x <> y}).
  Implicit Types (m l : list (K * V)).

  Lemma mget_In : forall m k v, mget dec k m = Some v -> In (k, v) m.
  Proof.
    induction m as [|[k' v'] m IH]; intros k v Hg; cbn in Hg; [discriminate|].
    destruct (dec k k') as [->|]; [left; congruence|right; auto].
  Qed.

  Lemma mget_None : forall m k, mget dec k m = None <-> ~ In k (map fst m).
  Proof.
    induction m as [|[k' v'] m IH]; intros k; cbn; [intuition|].
    destruct (dec k k') as [->|Hne].
    - split; [discriminate|]. intros Hn; exfalso; apply Hn; left; reflexivity.
    - rewrite IH. intuition congruence.
  Qed.

  Lemma mget_Some_key : forall m k v, mget dec k m = Some v -> In k (map fst m).
  Proof. intros m k v Hg. apply mget_In in Hg. apply (in_map fst) in Hg. exact Hg. Qed.

  Lemma key_mget : forall m k, In k (map fst m) -> exists v, mget dec k m = Some v.
  Proof.
    intros m k Hk. destruct (mget dec k m) as [v|] eqn:Hg; [exists v; reflexivity|].
    apply mget_None in Hg. contradiction.
  Qed.

  Lemma In_mget : forall m k v, NoDup (map fst m) -> In (k, v) m -> mget dec k m = Some v.
  Proof.
    induction m as [|[k' v'] m IH]; intros k v Hn Hi; [destruct Hi|]. cbn in *.
    inversion Hn as [|? ? Hk Hn']; subst. destruct Hi as [Hi|Hi].
    - injection Hi as -> ->. destruct (dec k k); congruence.
    - destruct (dec k k') as [->|]; [|auto].
      exfalso. apply Hk. apply (in_map fst) in Hi. exact Hi.
  Qed.

  Lemma mdel_get_eq : forall m k, mget dec k (mdel dec k m) = None.
  Proof.
    intros m k. apply mget_None. intros Hk. apply in_map_iff in Hk.
    destruct Hk as [[k' v] [Hf Hi]]. cbn in Hf; subst k'. apply filter_In in Hi.
    cbn in Hi. destruct (dec k k); [destruct Hi; discriminate|congruence].
  Qed.

  Lemma mdel_get_ne : forall m k k', k' <> k -> mget dec k' (mdel dec k m) = mget dec k' m.
  Proof.
    induction m as [|[k0 v0] m IH]; intros k k' Hne; [reflexivity|]. cbn.
    destruct (dec k k0) as [->|Hk].
    - cbn. destruct (dec k' k0); [congruence|apply IH; exact Hne].
    - cbn. destruct (dec k' k0); [reflexivity|apply IH; exact Hne].
  Qed.

  Lemma mset_get_eq : forall m k v, mget dec k (mset dec k v m) = Some v.
  Proof. intros m k v. cbn. destruct (dec k k); congruence. Qed.

  Lemma mset_get_ne : forall m k k' v, k' <> k -> mget dec k' (mset dec k v m) = mget dec k' m.
  Proof.
    intros m k k' v Hne. cbn. destruct (dec k' k); [congruence|]. apply mdel_get_ne, Hne.
  Qed.

  Lemma mdel_keys : forall m k k', In k' (map fst (mdel dec k m)) <-> In k' (map fst m) /\ k' <> k.
  Proof.
    intros m k k'. rewrite !in_map_iff. split.
    - intros [[a v] [Ha Hi]]. cbn in Ha; subst a. apply filter_In in Hi. cbn in Hi.
      destruct Hi as [Hi Hd]. split; [exists (k', v); auto|]. destruct (dec k k'); congruence.
    - intros [[[a v] [Ha Hi]] Hne]. cbn in Ha; subst a. exists (k', v). split; [reflexivity|].
      apply filter_In. split; [exact Hi|]. cbn. destruct (dec k k'); congruence.
  Qed.

  Lemma mdel_In : forall m k kv, In kv (mdel dec k m) <-> In kv m /\ fst kv <> k.
  Proof.
    intros m k kv. unfold mdel. rewrite filter_In. destruct (dec k (fst kv)); intuition congruence.
  Qed.

  Lemma mset_keys : forall m k v k', In k' (map fst (mset dec k v m)) <-> k' = k \/ In k' (map fst m).
  Proof.
    intros m k v k'. cbn. rewrite mdel_keys. destruct (dec k' k); intuition congruence.
  Qed.

  Lemma mset_In : forall m k v kv, In kv (mset dec k v m) <-> kv = (k, v) \/ (In kv m /\ fst kv <> k).
  Proof. intros m k v kv. cbn. rewrite mdel_In. intuition congruence. Qed.

  Lemma mdel_NoDup : forall m k, NoDup (map fst m) -> NoDup (map fst (mdel dec k m)).
  Proof.
    intros m k. induction m as [|[k' v] m IH]; intros Hn; cbn; [constructor|].
    inversion Hn as [|? ? Hk Hn']; subst. destruct (dec k k') as [->|Hne]; cbn; [auto|].
    constructor; [|auto]. intros Hi. apply mdel_keys in Hi. apply Hk, Hi.
  Qed.

  Lemma mset_NoDup : forall m k v, NoDup (map fst m) -> NoDup (map fst (mset dec k v m)).
  Proof.
    intros m k v Hn. cbn. constructor; [|apply mdel_NoDup; exact Hn].
    intros Hi. apply mdel_keys in Hi. apply (proj2 Hi). reflexivity.
  Qed.

  Lemma mdel_length_le : forall m k, length (mdel dec k m) <= length m.
  Proof. intros m k. unfold mdel. induction m as [|a m IH]; cbn; [lia|]. destruct (dec k (fst a)); cbn; lia. Qed.

  Lemma mdel_length_lt : forall m k, In k (map fst m) -> length (mdel dec k m) < length m.
  Proof.
    intros m k. induction m as [|a m IH]; intros Hk; [destruct Hk|]. cbn in *.
    pose proof (mdel_length_le m k) as Hle. unfold mdel in *.
    destruct (dec k (fst a)) as [->|Hne]; cbn; [lia|].
    destruct Hk as [Hk|Hk]; [congruence|]. specialize (IH Hk). lia.
  Qed.

  Lemma mcollect_fold_get : forall l m k,
    mget dec k (fold_left (fun m kv => mset dec (fst kv) (snd kv) m) l m) =
    match mget dec k (rev l) with Some v => Some v | None => mget dec k m end.
  Proof.
    induction l as [|[k0 v0] l IH]; intros m k; [reflexivity|]. cbn [fold_left fst snd rev].
    rewrite IH. clear IH.
    assert (Happ : forall a b : list (K * V), mget dec k (a ++ b) =
              match mget dec k a with Some v => Some v | None => mget dec k b end).
    { induction a as [|[ka va] a IHa]; intros b; [reflexivity|]. cbn.
      destruct (dec k ka); [reflexivity|apply IHa]. }
    rewrite Happ. destruct (mget dec k (rev l)); [reflexivity|].
    cbn [mget]. destruct (dec k k0) as [->|Hne].
    - apply mset_get_eq.
    - apply mset_get_ne. exact Hne.
  Qed.

  Lemma mcollect_In : forall l kv, In kv (mcollect dec l) -> In kv l.
  Proof.
    intros l kv. unfold mcollect.
    assert (Hgen : forall m, In kv (fold_left (fun m kv => mset dec (fst kv) (snd kv) m) l m) ->
                             In kv m \/ In kv l).
    { induction l as [|[k0 v0] l IH]; intros m Hi; cbn [fold_left fst snd] in Hi; [left; exact Hi|].
      destruct (IH _ Hi) as [Hm|Hl]; [|right; right; exact Hl].
      apply mset_In in Hm. destruct Hm as [->|[Hm _]]; [right; left; reflexivity|left; exact Hm]. }
    intros Hi. destruct (Hgen [] Hi) as [[]|Hl]. exact Hl.
  Qed.

  Lemma mcollect_keys : forall l k, In k (map fst (mcollect dec l)) <-> In k (map fst l).
  Proof.
    intros l k. unfold mcollect.
    assert (Hgen : forall m, In k (map fst (fold_left (fun m kv => mset dec (fst kv) (snd kv) m) l m)) <->
                             In k (map fst m) \/ In k (map fst l)).
    { induction l as [|[k0 v0] l IH]; intros m; cbn [fold_left fst snd map]; [cbn; intuition|].
      rewrite IH, mset_keys. cbn. intuition congruence. }
    rewrite Hgen. cbn. intuition.
  Qed.

  Lemma mcollect_NoDup : forall l, NoDup (map fst (mcollect dec l)).
  Proof.
    intros l. unfold mcollect.
    assert (Hgen : forall m, NoDup (map fst m) ->
              NoDup (map fst (fold_left (fun m kv => mset dec (fst kv) (snd kv) m) l m))).
    { induction l as [|[k0 v0] l IH]; intros m Hm; cbn [fold_left fst snd]; [exact Hm|].
      apply IH, mset_NoDup, Hm. }
    apply Hgen. constructor.
  Qed.

  Lemma mcollect_get : forall l k, mget dec k (mcollect dec l) = mget dec k (rev l).
  Proof.
    intros l k. unfold mcollect. rewrite mcollect_fold_get.
    destruct (mget dec k (rev l)); reflexivity.
  Qed.
End Maps.

(** ** Iteration orders *)

Lemma ho_In : forall H p X (l : list X) x, In x (ho H p X l) <-> In x l.
Proof.
  intros H p X l x. split; apply Permutation_in; [apply Permutation_sym|]; apply ho_perm.
Qed.

Lemma ho_NoDup : forall H p X (l : list X), NoDup l -> NoDup (ho H p X l).
Proof. intros H p X l. apply Permutation_NoDup, ho_perm. Qed.

Lemma ho_length : forall H p X (l : list X), length (ho H p X l) = length l.
Proof. intros H p X l. symmetry. apply Permutation_length, ho_perm. Qed.

Lemma ho_nil : forall H p X, ho H p X [] = [].
Proof. intros H p X. apply Permutation_nil, ho_perm. Qed.

Lemma ho_nil_inv : forall H p X (l : list X), ho H p X l = [] -> l = [].
Proof.
  intros H p X l Hl. apply Permutation_nil. rewrite <- Hl. apply Permutation_sym, ho_perm.
Qed.

Lemma ho_single : forall H p X (x : X), ho H p X [x] = [x].
Proof. intros H p X x. apply Permutation_length_1_inv, ho_perm. Qed.
