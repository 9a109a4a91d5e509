(** P_Arrange.v — Edge::arrange. *)

From Coq Require Import List Permutation Arith Bool Lia.
From Verif Require Import Base Arith Geometry Elements Polyline Spec P_Base P_Trn P_Triangulator P_Poly.
Import ListNotations.
Local Open Scope nat_scope.

Section Arrange.
  Context {A : Arith}.
  Notation vertex := (vertex A).
  Notation edge := (edge A).
  Notation vmap := (@vmap A).

  Definition rel (m : vmap) (k v : vertex) : Prop := exists s, mget vdec k m = Some s /\ In v s.
  Definition wf (m : vmap) : Prop :=
    NoDup (map fst m) /\ forall k s, mget vdec k m = Some s -> s <> [] /\ NoDup s.

  Lemma wf_nil : wf [].
  Proof. split; [constructor|]. intros k s Hs. cbn in Hs. discriminate. Qed.

  Lemma vmap_insert_wf : forall k v m, wf m -> wf (vmap_insert k v m).
  Proof.
    intros k v m [Hn Hs]. unfold vmap_insert. destruct (mget vdec k m) as [s|] eqn:Hg.
    - split; [apply mset_NoDup, Hn|]. intros k' s' Hg'. destruct (vdec k' k) as [->|Hne].
      + rewrite mset_get_eq in Hg'. injection Hg' as <-. destruct (Hs k s Hg) as [H1 H2]. split.
        * intros He. assert (Hv : In v (hadd vdec v s)) by (apply hadd_In; left; reflexivity). rewrite He in Hv. destruct Hv.
        * apply hadd_NoDup, H2.
      + rewrite mset_get_ne in Hg' by exact Hne. apply (Hs k' s' Hg').
    - split; [apply mset_NoDup, Hn|]. intros k' s' Hg'. destruct (vdec k' k) as [->|Hne].
      + rewrite mset_get_eq in Hg'. injection Hg' as <-. split; [discriminate|]. constructor; [intros []|constructor].
      + rewrite mset_get_ne in Hg' by exact Hne. apply (Hs k' s' Hg').
  Qed.

  Lemma vmap_insert_rel : forall k v m k' v',
    rel (vmap_insert k v m) k' v' <-> (k' = k /\ v' = v) \/ rel m k' v'.
  Proof.
    intros k v m k' v'. unfold vmap_insert, rel. destruct (mget vdec k m) as [s|] eqn:Hg; destruct (vdec k' k) as [->|Hne].
    - rewrite mset_get_eq, Hg. split.
      + intros [s' [He Hi]]. injection He as <-. apply hadd_In in Hi. destruct Hi as [->|Hi]; [left; auto|right; eauto].
      + intros [[_ ->]|[s' [He Hi]]]; (exists (hadd vdec v s); split; [reflexivity|]; apply hadd_In); [left; reflexivity|].
        injection He as <-. right; exact Hi.
    - rewrite mset_get_ne by exact Hne. intuition congruence.
    - rewrite mset_get_eq, Hg. split.
      + intros [s' [He Hi]]. injection He as <-. destruct Hi as [<-|[]]. left; auto.
      + intros [[_ ->]|[s' [He Hi]]]; [|discriminate]. exists [v]. split; [reflexivity|left; reflexivity].
    - rewrite mset_get_ne by exact Hne. intuition congruence.
  Qed.

  Lemma vmap_remove_spec : forall k v m, wf m -> rel m k v ->
    exists m', vmap_remove k v m = Ok m' /\ wf m' /\
      forall k' v', rel m' k' v' <-> rel m k' v' /\ ~ (k' = k /\ v' = v).
  Proof.
    intros k v m [Hn Hs] [s [Hg Hv]]. unfold vmap_remove. rewrite Hg. cbn [unwrap bind].
    destruct (Hs k s Hg) as [_ Hnd]. destruct (hdel vdec v s) as [|w ws] eqn:Hd.
    - eexists. split; [reflexivity|]. split.
      + split; [apply mdel_NoDup, Hn|]. intros k' s' Hg'. destruct (vdec k' k) as [->|Hne].
        * rewrite mdel_get_eq in Hg'. discriminate.
        * rewrite mdel_get_ne in Hg' by exact Hne. apply (Hs k' s' Hg').
      + intros k' v'. unfold rel. destruct (vdec k' k) as [->|Hne].
        * rewrite mdel_get_eq, Hg. split; [intros [s' [He _]]; discriminate|].
          intros [[s' [He Hi]] Hno]. injection He as <-. exfalso. destruct (vdec v' v) as [->|Hvn]; [auto|].
          assert (Hx : In v' (hdel vdec v s)) by (apply hdel_In; auto). rewrite Hd in Hx. destruct Hx.
        * rewrite mdel_get_ne by exact Hne. intuition congruence.
    - eexists. split; [reflexivity|]. rewrite <- Hd. split.
      + split; [apply mset_NoDup, Hn|]. intros k' s' Hg'. destruct (vdec k' k) as [->|Hne].
        * rewrite mset_get_eq in Hg'. injection Hg' as <-. split; [rewrite Hd; discriminate|apply hdel_NoDup, Hnd].
        * rewrite mset_get_ne in Hg' by exact Hne. apply (Hs k' s' Hg').
      + intros k' v'. unfold rel. destruct (vdec k' k) as [->|Hne].
        * rewrite mset_get_eq, Hg. split.
          -- intros [s' [He Hi]]. injection He as <-. apply hdel_In in Hi. destruct Hi as [Hi Hvn]. split; [eauto|tauto].
          -- intros [[s' [He Hi]] Hno]. injection He as <-. eexists. split; [reflexivity|]. apply hdel_In. split; [exact Hi|].
             intros ->. apply Hno. auto.
        * rewrite mset_get_ne by exact Hne. intuition congruence.
  Qed.

  (** The two maps hold exactly the edges of [E]. *)
  Definition holds (ht th : vmap) (E : list edge) : Prop :=
    wf ht /\ wf th /\ NoDup E /\
    (forall a b, rel ht a b <-> In (a, b) E) /\ (forall a b, rel th b a <-> In (a, b) E).

  Lemma into_hashmap_holds : forall H p (E : list edge), NoDup E ->
    let '(ht, th) := into_hashmap H p E in holds ht th E.
  Proof.
    intros H p E HE. unfold into_hashmap.
    assert (Hgen : forall l (ht th : vmap), wf ht -> wf th ->
      let '(ht', th') := fold_left (fun '(ht, th) e =>
        (vmap_insert (ev1 e) (ev2 e) ht, vmap_insert (ev2 e) (ev1 e) th)) l (ht, th) in
      wf ht' /\ wf th' /\ (forall a b, rel ht' a b <-> rel ht a b \/ In (a, b) l) /\
      (forall a b, rel th' b a <-> rel th b a \/ In (a, b) l)).
    { induction l as [|e l IH]; intros ht th W1 W2; cbn [fold_left].
      - split; [exact W1|]. split; [exact W2|]. split; intros a b; cbn [In]; tauto.
      - specialize (IH _ _ (vmap_insert_wf (ev1 e) (ev2 e) ht W1) (vmap_insert_wf (ev2 e) (ev1 e) th W2)).
        destruct (fold_left _ l _) as [ht' th']. destruct IH as (I1 & I2 & I3 & I4).
        split; [exact I1|]. split; [exact I2|]. destruct e as [x y]. cbn [ev1 ev2 fst snd] in *. split; intros a b.
        + rewrite I3, vmap_insert_rel. cbn [In]. intuition congruence.
        + rewrite I4, vmap_insert_rel. cbn [In]. intuition congruence. }
    specialize (Hgen (ho H (0 :: p) _ E) [] [] wf_nil wf_nil).
    destruct (fold_left _ _ _) as [ht th]. destruct Hgen as (I1 & I2 & I3 & I4).
    split; [exact I1|]. split; [exact I2|]. split; [exact HE|].
    assert (Hno : forall a b, ~ rel [] a b) by (intros a b [s [Hs _]]; cbn in Hs; discriminate).
    split; intros a b; [rewrite I3, ho_In|rewrite I4, ho_In]; specialize (Hno a b) as N1; specialize (Hno b a) as N2; tauto.
  Qed.

  Lemma remove_edge_holds : forall ht th E a b, holds ht th E -> In (a, b) E ->
    exists ht' th', remove_edge ht th a b = Ok (ht', th') /\ holds ht' th' (hdel edec (a, b) E).
  Proof.
    intros ht th E a b (W1 & W2 & Hn & R1 & R2) Hi. unfold remove_edge.
    destruct (vmap_remove_spec a b ht W1 (proj2 (R1 a b) Hi)) as (ht' & -> & W1' & R1').
    destruct (vmap_remove_spec b a th W2 (proj2 (R2 a b) Hi)) as (th' & -> & W2' & R2').
    cbn [bind]. exists ht', th'. split; [reflexivity|].
    split; [exact W1'|]. split; [exact W2'|]. split; [apply hdel_NoDup, Hn|]. split; intros x y.
    - rewrite R1', R1, hdel_In. split; intros [Hx Hy]; (split; [exact Hx|]); [intros He; injection He as -> ->; auto|intros [-> ->]; auto].
    - rewrite R2', R2, hdel_In. split; intros [Hx Hy]; (split; [exact Hx|]); [intros He; injection He as -> ->; auto|intros [-> ->]; auto].
  Qed.
  Lemma remove_edge_holds' : forall ht th E a b, holds ht th E -> In (a, b) E ->
    exists ht' th', remove_edge th ht b a = Ok (th', ht') /\ holds ht' th' (hdel edec (a, b) E).
  Proof.
    intros ht th E a b (W1 & W2 & Hn & R1 & R2) Hi. unfold remove_edge.
    destruct (vmap_remove_spec b a th W2 (proj2 (R2 a b) Hi)) as (th' & -> & W2' & R2').
    destruct (vmap_remove_spec a b ht W1 (proj2 (R1 a b) Hi)) as (ht' & -> & W1' & R1').
    cbn [bind]. exists ht', th'. split; [reflexivity|].
    split; [exact W1'|]. split; [exact W2'|]. split; [apply hdel_NoDup, Hn|]. split; intros x y.
    - rewrite R1', R1, hdel_In. split; intros [Hx Hy]; (split; [exact Hx|]); [intros He; injection He as -> ->; auto|intros [-> ->]; auto].
    - rewrite R2', R2, hdel_In. split; intros [Hx Hy]; (split; [exact Hx|]); [intros He; injection He as -> ->; auto|intros [-> ->]; auto].
  Qed.

  Lemma hdel_perm : forall (e : edge) E, NoDup E -> In e E -> Permutation E (e :: hdel edec e E).
  Proof.
    intros e E Hn Hi. apply NoDup_Permutation; [exact Hn| |].
    - constructor; [|apply hdel_NoDup, Hn]. rewrite hdel_In. tauto.
    - intros x. cbn. rewrite hdel_In. destruct (edec x e) as [->|Hne]; [tauto|]. split; [auto|]. intros [He|[Hx _]]; [congruence|exact Hx].
  Qed.

  Lemma straight_iff : forall a b c : vertex, straight a b c = true ->
    orientation a b c = Colinear /\ flt c0 (dot a b b c) = true.
  Proof.
    intros a b c Hs. unfold straight in Hs. apply andb_true_iff in Hs. destruct Hs as [H1 H2].
    apply orient_eqb_eq in H1. auto.
  Qed.

  Lemma arrange_extend_spec : forall H fuel p ht th head tail E (ch : list edge),
    holds ht th E -> merged head tail ch -> length E < fuel ->
    exists h' t' ht' th' E' ch',
      arrange_extend H fuel p ht th head tail = Ok ((h', t'), (ht', th')) /\
      holds ht' th' E' /\ merged h' t' ch' /\ Permutation (ch ++ E) (ch' ++ E') /\ length E' <= length E.
  Proof.
    intros H fuel. induction fuel as [|fuel IH]; intros p ht th head tail E ch Hh Hm Hf; [lia|].
    cbn [arrange_extend]. pose proof Hh as (W1 & W2 & Hn & R1 & R2).
    destruct (find (straight head tail) _) as [t|] eqn:Hfind.
    - apply find_some in Hfind. destruct Hfind as [Hin Hst].
      assert (Hi : In (tail, t) E).
      { destruct (mget vdec tail ht) as [s|] eqn:Hg; [|destruct Hin]. apply ho_In in Hin. apply R1. exists s; auto. }
      destruct (remove_edge_holds ht th E tail t Hh Hi) as (ht' & th' & -> & Hh').
      cbn [bind]. apply straight_iff in Hst. destruct Hst as [Ho Hd].
      pose proof (hdel_length edec (tail, t) E Hn Hi) as Hlen.
      destruct (IH (0 :: p) ht' th' head t _ (ch ++ [(tail, t)]) Hh' (merged_after _ _ _ _ Hm Ho Hd)) as
        (h' & t' & ht2 & th2 & E' & ch' & Hr & Hh2 & Hm2 & Hp & Hl); [lia|].
      exists h', t', ht2, th2, E', ch'. split; [exact Hr|]. split; [exact Hh2|]. split; [exact Hm2|]. split; [|lia].
      rewrite <- Hp, <- app_assoc. cbn. apply Permutation_app_head, hdel_perm; assumption.
    - clear Hfind. destruct (find (straight tail head) _) as [h|] eqn:Hfind.
      + apply find_some in Hfind. destruct Hfind as [Hin Hst].
        assert (Hi : In (h, head) E).
        { destruct (mget vdec head th) as [s|] eqn:Hg; [|destruct Hin]. apply ho_In in Hin. apply R2. exists s; auto. }
        destruct (remove_edge_holds' ht th E h head Hh Hi) as (ht' & th' & -> & Hh').
        cbn [bind]. apply straight_iff in Hst. destruct Hst as [Ho Hd].
        pose proof (hdel_length edec (h, head) E Hn Hi) as Hlen.
        destruct (IH (0 :: p) ht' th' h tail _ ((h, head) :: ch) Hh' (merged_before _ _ _ _ Hm Ho Hd)) as
          (h' & t' & ht2 & th2 & E' & ch' & Hr & Hh2 & Hm2 & Hp & Hl); [lia|].
        exists h', t', ht2, th2, E', ch'. split; [exact Hr|]. split; [exact Hh2|]. split; [exact Hm2|]. split; [|lia].
        rewrite <- Hp. cbn. rewrite (Permutation_middle ch). apply Permutation_app_head, hdel_perm; assumption.
      + exists head, tail, ht, th, E, ch. split; [reflexivity|]. split; [exact Hh|]. split; [exact Hm|]. split; [apply Permutation_refl|lia].
  Qed.

  Lemma arrange_loop_spec : forall H fuel p ht th E acc,
    holds ht th E -> length E < fuel ->
    exists r (groups : list (edge * list edge)), arrange_loop H fuel p ht th acc = Ok r /\
      Permutation E (concat (map snd groups)) /\
      (forall e l, In (e, l) groups -> merged (fst e) (snd e) l) /\
      (forall e, In e r <-> In e acc \/ In e (map fst groups)) /\
      (NoDup acc -> NoDup r).
  Proof.
    intros H fuel. induction fuel as [|fuel IH]; intros p ht th E acc Hh Hf; [lia|].
    cbn [arrange_loop]. pose proof Hh as ([Hk W1] & W2 & Hn & R1 & R2).
    destruct (ho H (1 :: p) _ ht) as [|[head tails] rest] eqn:Hho.
    - apply ho_nil_inv in Hho. subst ht. exists acc, []. split; [reflexivity|].
      assert (HE : E = []).
      { destruct E as [|[a b] E]; [reflexivity|]. exfalso. destruct (proj2 (R1 a b) (or_introl eq_refl)) as [s [Hs _]]. cbn in Hs. discriminate. }
      subst E. cbn. split; [constructor|]. split; [intros e l []|]. split; [tauto|auto].
    - assert (Hin : In (head, tails) ht) by (apply (ho_In H (1 :: p)); rewrite Hho; left; reflexivity).
      pose proof (In_mget vdec _ _ _ Hk Hin) as Hg. destruct (W1 head tails Hg) as [Hne _].
      destruct (ho H (2 :: p) _ tails) as [|tail ts] eqn:Hts; [apply ho_nil_inv in Hts; contradiction|].
      cbn [hd_error unwrap bind].
      assert (Hti : In tail tails) by (apply (ho_In H (2 :: p)); rewrite Hts; left; reflexivity).
      assert (Hi : In (head, tail) E) by (apply R1; exists tails; auto).
      destruct (remove_edge_holds ht th E head tail Hh Hi) as (ht1 & th1 & -> & Hh1). cbn [bind].
      pose proof (hdel_length edec (head, tail) E Hn Hi) as Hlen.
      destruct (arrange_extend_spec H fuel (3 :: p) ht1 th1 head tail _ [(head, tail)] Hh1 (merged_one _ _)) as
        (h' & t' & ht2 & th2 & E' & ch' & -> & Hh2 & Hm2 & Hp & Hl); [lia|]. cbn [bind].
      destruct (IH (0 :: p) ht2 th2 E' (hadd edec (h', t') acc) Hh2) as (r & groups & Hr & I1 & I2 & I3 & I4); [lia|].
      exists r, (((h', t'), ch') :: groups). split; [exact Hr|]. split; [|split; [|split]].
      + cbn. rewrite <- I1. transitivity ((head, tail) :: hdel edec (head, tail) E).
        * apply hdel_perm; assumption.
        * exact Hp.
      + intros e l [He|He]; [|apply I2, He]. injection He as <- <-. exact Hm2.
      + intros e. rewrite I3, hadd_In. cbn. intuition congruence.
      + intros Hnd. apply I4, hadd_NoDup, Hnd.
  Qed.

  Lemma edge_arrange_spec : forall H fuel p (edges : list edge),
    NoDup edges -> length edges < fuel ->
    exists r (groups : list (edge * list edge)), edge_arrange H fuel p edges = Ok r /\
      Permutation edges (concat (map snd groups)) /\
      (forall e l, In (e, l) groups -> merged (fst e) (snd e) l) /\
      (forall e, In e r <-> In e (map fst groups)) /\ NoDup r.
  Proof.
    intros H fuel p edges Hn Hf. unfold edge_arrange.
    pose proof (into_hashmap_holds H (0 :: p) edges Hn) as Hh. destruct (into_hashmap H (0 :: p) edges) as [ht th].
    destruct (arrange_loop_spec H fuel (1 :: p) ht th edges [] Hh Hf) as (r & groups & Hr & I1 & I2 & I3 & I4).
    exists r, groups. split; [exact Hr|]. split; [exact I1|]. split; [exact I2|]. split; [|apply I4; constructor].
    intros e. rewrite I3. cbn [In]. tauto.
  Qed.

  Lemma merged_chain : forall a b (l : list edge), merged a b l -> chain_from a b l.
  Proof.
    intros a b l Hm. induction Hm as [a b|a b c l Hm IH _ _|a b c l Hm IH _ _]; [constructor|apply chain_from_snoc, IH|apply chain_cons, IH].
  Qed.
End Arrange.
