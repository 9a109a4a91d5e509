(** P_Bool.v — Boolean operations on polylines. *)

From Coq Require Import List Permutation Arith Bool Lia.
From Verif Require Import Base Arith Geometry Elements Polyline Spec SpecM P_Base P_Trn P_Triangulator P_Poly P_Contains P_Hull P_Stages.
Import ListNotations.
Local Open Scope nat_scope.

Lemma nodup_app' : forall X (l l' : list X), NoDup l -> NoDup l' -> (forall x, In x l -> ~ In x l') -> NoDup (l ++ l').
Proof.
  intros X l l' Hl Hl' Hd. induction Hl as [|x l Hx Hl IH]; [exact Hl'|]. cbn. constructor.
  - rewrite in_app_iff. intros [Hi|Hi]; [apply Hx, Hi|]. apply (Hd x (or_introl eq_refl) Hi).
  - apply IH. intros y Hy. apply Hd. right. exact Hy.
Qed.

Section BoolP.
  Context {A : Arith} (H : HashOrder).
  Notation vertex := (vertex A).
  Notation edge := (edge A).
  Notation polyline := (polyline A).

  (** ** The chains *)

  Lemma chain_closed_ring : forall (l : list edge) h, ~ In h l -> NoDup l -> trail (rev (l ++ [h])) ->
    chain_closed (l ++ [h]) = true -> ring (rev (l ++ [h])).
  Proof.
    intros l h Hhl Hnd Htr Hcl. set (ch := rev (l ++ [h])) in *.
    assert (Hndc : NoDup ch).
    { unfold ch. rewrite rev_app_distr. cbn. constructor; [rewrite <- in_rev; exact Hhl|]. apply NoDup_rev, Hnd. }
    unfold chain_closed in Hcl. apply andb_true_iff in Hcl. destruct Hcl as [Hlen Hcl]. apply Nat.ltb_lt in Hlen.
    split; [exact Hndc|]. split; [exact Htr|]. split; [unfold ch; rewrite rev_length; lia|]. intros d.
    assert (Hrv : l ++ [h] = rev ch) by (unfold ch; symmetry; apply rev_involutive).
    assert (Hl : last ch d = hd d (rev ch)).
    { clear. induction ch as [|a k IHk] using rev_ind; [reflexivity|]. rewrite last_last, rev_app_distr. reflexivity. }
    rewrite Hl, <- Hrv. clearbody ch. destruct (l ++ [h]) as [|[a b] k]; [discriminate|]. destruct ch as [|[c e] k']; [discriminate|].
    rewrite Hrv, rev_involutive in Hcl. exact Hcl.
  Qed.

  Lemma build_loop_spec : forall fuel p (poss unused : list edge) acc pls u,
    build_loop H fuel p poss unused acc = Ok (pls, u) ->
    exists chains, pls = acc ++ map (fun c => Poly (map fst c) false) chains /\
      (forall c, In c chains -> ring c) /\ NoDup (concat chains) /\
      (forall s, In s (concat chains) -> In s poss) /\
      (forall s, In s u <-> In s unused \/ (In s poss /\ ~ In s (concat chains))).
  Proof.
    intros fuel. induction fuel as [|fuel IH]; intros p poss unused acc pls u Hb; [discriminate|]. cbn [build_loop] in Hb.
    destruct (ho H (1 :: p) _ poss) as [|h rest] eqn:Hh.
    { injection Hb as <- <-. apply ho_nil_inv in Hh. subst poss. exists []. rewrite app_nil_r. split; [reflexivity|].
      split; [intros c []|]. split; [constructor|]. split; [intros s []|]. intros s. cbn. tauto. }
    assert (Hhp : In h poss) by (apply (ho_In H (1 :: p)); rewrite Hh; left; reflexivity).
    apply bind_ok in Hb. destruct Hb as ([chain poss'] & Hc & Hb).
    destruct (chain_loop_spec _ _ _ _ _ _ _ _ Hc I) as (l & -> & Hnd & Htr & Hsub & Hrest).
    assert (Hhl : ~ In h l) by (intros Hin; apply Hsub, hdel_In in Hin; apply (proj2 Hin); reflexivity).
    assert (Hch : forall s, In s (rev (l ++ [h])) <-> In s l \/ s = h).
    { intros s. rewrite <- in_rev, in_app_iff. cbn. intuition congruence. }
    assert (Hchp : forall s, In s (rev (l ++ [h])) -> In s poss).
    { intros s Hs. apply Hch in Hs. destruct Hs as [Hs| ->]; [|exact Hhp]. apply Hsub, hdel_In in Hs. apply Hs. }
    assert (Hp' : forall s, In s poss' <-> In s poss /\ ~ In s (rev (l ++ [h]))).
    { intros s. rewrite Hrest, hdel_In, Hch. tauto. }
    destruct (chain_closed (l ++ [h])) eqn:Hcl.
    - apply bind_ok in Hb. destruct Hb as (pl & Hpl & Hb). apply unwrap_closed in Hpl. destruct Hpl as [-> _].
      pose proof (chain_closed_ring l h Hhl Hnd Htr Hcl) as Hring.
      destruct (IH _ _ _ _ _ _ Hb) as (chains & -> & C1 & C2 & C3 & C4). exists (rev (l ++ [h]) :: chains).
      split; [cbn [map]; rewrite <- app_assoc; reflexivity|]. split; [intros c [<-|Hi]; [exact Hring|apply C1, Hi]|].
      cbn [concat]. split; [|split].
      + apply nodup_app'; [apply Hring|exact C2|]. intros x Hx Hx'. apply C3, Hp' in Hx'. tauto.
      + intros s Hs. apply in_app_or in Hs. destruct Hs as [Hs|Hs]; [apply Hchp, Hs|apply C3, Hp' in Hs; apply Hs].
      + intros s. rewrite C4, Hp', in_app_iff. tauto.
    - destruct (IH _ _ _ _ _ _ Hb) as (chains & -> & C1 & C2 & C3 & C4). exists chains. split; [reflexivity|]. split; [exact C1|]. split; [exact C2|].
      split; [intros s Hs; apply C3, Hp' in Hs; apply Hs|]. intros s. rewrite C4, fold_hadd_In, Hp'. split.
      + intros [[Hs|Hs]|[[Hs Hn] Hn']]; [tauto| |tauto]. right. split; [apply Hchp, Hs|]. intros Hi. apply C3, Hp' in Hi. tauto.
      + intros [Hs|[Hs Hn]]; [tauto|]. destruct (in_dec edec s (rev (l ++ [h]))); tauto.
  Qed.
  (** ** What is kept *)

  Lemma is_outside_true : forall (p : polyline) m, is_outside p m = Ok true -> poly_contains p m = Ok (Some Outside).
  Proof.
    intros p m Hm. unfold is_outside, contains_unwrap in Hm. apply bind_ok in Hm. destruct Hm as [c [Hc Hm]].
    apply bind_ok in Hc. destruct Hc as [o [Ho Hc]]. apply unwrap_ok in Hc. subst o.
    injection Hm as Hm. apply cont_eqb_eq in Hm. subst c. exact Ho.
  Qed.
  Lemma is_outside_false : forall (p : polyline) m, is_outside p m = Ok false -> poly_contains p m <> Ok (Some Outside).
  Proof.
    intros p m Hm Hc. unfold is_outside, contains_unwrap in Hm. rewrite Hc in Hm. discriminate.
  Qed.
  Lemma is_outside_total : forall (p : polyline) m, proper_closed p -> exists b, is_outside p m = Ok b /\
    (b = true <-> poly_contains p m = Ok (Some Outside)).
  Proof.
    intros p m Hp. destruct (contains_unwrap_total p m (proper_nonempty _ (proper_closed_proper p Hp)) (proper_closed_opened p Hp)) as [c Hc].
    assert (E : is_outside p m = Ok (cont_eqb c Outside)) by (unfold is_outside; rewrite Hc; reflexivity).
    exists (cont_eqb c Outside). split; [exact E|]. split.
    - intros Ht. rewrite Ht in E. apply is_outside_true, E.
    - intros Ht. destruct (cont_eqb c Outside) eqn:Ec; [reflexivity|]. exfalso. apply (is_outside_false _ _ E Ht).
  Qed.

  Lemma keep_intersection_true : forall (p1 p2 : polyline) m, keep_intersection p1 p2 m = Ok true ->
    poly_contains p1 m <> Ok (Some Outside) /\ poly_contains p2 m <> Ok (Some Outside).
  Proof.
    intros p1 p2 m Hk. unfold keep_intersection, andM in Hk. apply bind_ok in Hk. destruct Hk as (b & Hb & Hk).
    apply bind_ok in Hb. destruct Hb as (b' & Hb & E). injection E as <-. destruct b'; [discriminate|]. cbn [negb] in Hk.
    apply bind_ok in Hk. destruct Hk as (b' & Hb' & E). injection E as E. destruct b'; [discriminate|].
    split; apply is_outside_false; assumption.
  Qed.
  Lemma keep_subtraction_true : forall (p1 p2 : polyline) m, keep_subtraction p1 p2 m = Ok true ->
    poly_contains p1 m <> Ok (Some Outside) /\ poly_contains p2 m <> Ok (Some Inside).
  Proof.
    intros p1 p2 m Hk. unfold keep_subtraction in Hk. apply bind_ok in Hk. destruct Hk as (c1 & H1 & Hk).
    apply bind_ok in Hk. destruct Hk as (c2 & H2 & Hk). injection Hk as Hk. apply andb_true_iff in Hk. destruct Hk as [K1 K2].
    unfold contains_unwrap in H1, H2. split; intros E; [rewrite E in H1; injection H1 as <-|rewrite E in H2; injection H2 as <-]; discriminate.
  Qed.

  (** ** Segments that run against each other *)

  Lemma extractM_some : forall X (f : X -> res bool) l x r, extractM f l = Ok (Some (x, r)) ->
    f x = Ok true /\ In x l /\ (forall y, In y l <-> y = x \/ In y r).
  Proof.
    intros X f l. induction l as [|a l IH]; intros x r He; cbn [extractM] in He; [discriminate|].
    apply bind_ok in He. destruct He as (b & Hb & He). destruct b.
    - injection He as <- <-. split; [exact Hb|]. split; [left; reflexivity|]. intros y. cbn. intuition congruence.
    - apply bind_ok in He. destruct He as (o & Ho & He). destruct o as [[z r']|]; [|discriminate]. injection He as <- <-.
      destruct (IH _ _ Ho) as (I1 & I2 & I3). split; [exact I1|]. split; [right; exact I2|]. intros y. cbn. rewrite I3. intuition congruence.
  Qed.
  Lemma extractM_none : forall X (f : X -> res bool) l, (forall x, In x l -> f x = Ok false) -> extractM f l = Ok None.
  Proof.
    intros X f l Hf. induction l as [|a l IH]; [reflexivity|]. cbn [extractM]. rewrite (Hf a (or_introl eq_refl)). cbn [bind].
    rewrite IH; [reflexivity|]. intros x Hx. apply Hf. right. exact Hx.
  Qed.

  Lemma opposed_against : forall (p1 p2 : polyline) v1 v2 s, opposed p1 p2 v1 v2 s = Ok true -> against (v1, v2) s.
  Proof.
    intros p1 p2 v1 v2 [v3 v4] Ho. unfold opposed in Ho. destruct (intersection v1 v2 v3 v4) as [iv|] eqn:Hi; [|discriminate].
    apply bind_ok in Ho. destruct Ho as (out & _ & Ho). injection Ho as Ho. apply andb_true_iff in Ho. destruct Ho as [Ho _].
    apply andb_true_iff in Ho. destruct Ho as [O1 O2]. split; [exists iv; exact Hi|]. split; assumption.
  Qed.
  Lemma orM_total : forall a b : res bool, (exists x, a = Ok x) -> (exists x, b = Ok x) -> exists x, orM a b = Ok x.
  Proof. intros a b [x ->] [y ->]. unfold orM. cbn. destruct x; eauto. Qed.
  Lemma opposed_false : forall (p1 p2 : polyline) v1 v2 s, proper_closed p1 -> proper_closed p2 -> ~ against (v1, v2) s ->
    opposed p1 p2 v1 v2 s = Ok false.
  Proof.
    intros p1 p2 v1 v2 [v3 v4] H1 H2 Hn. unfold opposed. destruct (intersection v1 v2 v3 v4) as [iv|] eqn:Hi; [|reflexivity].
    assert (T1 : forall v, exists x, is_outside p1 v = Ok x) by (intros v; destruct (is_outside_total p1 v H1) as (b & E & _); eauto).
    assert (T2 : forall v, exists x, is_outside p2 v = Ok x) by (intros v; destruct (is_outside_total p2 v H2) as (b & E & _); eauto).
    match goal with |- bind ?e _ = _ => assert (Ht : exists x, e = Ok x) end.
    { repeat apply orM_total; first [apply T1|apply T2]. }
    destruct Ht as [x ->]. cbn [bind]. f_equal. destruct (parallel v1 v2 v3 v4) eqn:Ep; [|reflexivity].
    destruct (flt (dot v1 v2 v3 v4) c0) eqn:Ed; [|reflexivity]. exfalso. apply Hn. split; [exists iv; exact Hi|]. split; assumption.
  Qed.

  Lemma cancel_loop_spec : forall fuel (p1 p2 : polyline) ss poss read unused r u,
    cancel_loop fuel p1 p2 poss read unused = Ok (r, u) ->
    (forall s, In s poss \/ In s read \/ In s unused -> trimmed ss s) ->
    (forall s, In s r \/ In s u -> trimmed ss s) /\
    (forall s, In s poss \/ In s read \/ In s unused -> In s r \/ In s u).
  Proof.
    intros fuel p1 p2 ss. induction fuel as [|fuel IH]; intros poss read unused r u Hc Ht; [discriminate|]. cbn [cancel_loop] in Hc.
    destruct poss as [|[v1 v2] poss]; [injection Hc as <- <-; split; intros s Hs; [apply Ht; tauto|cbn in Hs; tauto]|].
    apply bind_ok in Hc. destruct Hc as (o & Ho & Hc). destruct o as [[[v3 v4] read']|].
    - destruct (extractM_some _ _ _ _ _ Ho) as (E1 & E2 & E3). apply opposed_against in E1.
      apply bind_ok in Hc. destruct Hc as (c1 & _ & Hc). apply bind_ok in Hc. destruct Hc as (c2 & _ & Hc).
      assert (T12 : trimmed ss (v1, v2)) by (apply Ht; left; left; reflexivity).
      assert (T34 : trimmed ss (v3, v4)) by (apply Ht; right; left; exact E2).
      assert (Hsub : forall s, In s poss -> In s (if c2 then (v1, v4) :: (if c1 then (v3, v2) :: poss else poss) else (if c1 then (v3, v2) :: poss else poss))).
      { intros s Hs. destruct c1, c2; cbn; tauto. }
      destruct (IH _ _ _ _ _ Hc) as [I1 I2].
      + intros s [Hs|[Hs|Hs]].
        * assert (Hor : s = (v1, v4) \/ s = (v3, v2) \/ In s poss) by (destruct c1, c2; cbn in Hs; intuition congruence).
          destruct Hor as [->|[->|Hp]]; [exact (trimmed_first _ _ _ T12 T34 E1)|exact (trimmed_second _ _ _ T12 T34 E1)|].
          apply Ht. left. right. exact Hp.
        * apply Ht. right. left. apply E3. right. exact Hs.
        * rewrite !hadd_In in Hs. destruct Hs as [->|[->|Hs]]; [exact T34|exact T12|]. apply Ht. tauto.
      + split; [exact I1|]. intros s Hs. apply I2. rewrite !hadd_In. destruct Hs as [[<-|Hs]|[Hs|Hs]]; [tauto| | |tauto].
        * left. apply Hsub, Hs.
        * apply E3 in Hs. destruct Hs as [->|Hs]; tauto.
    - destruct (IH _ _ _ _ _ Hc) as [I1 I2].
      + intros s [Hs|[Hs|Hs]]; apply Ht; [cbn; tauto| |tauto]. apply in_app_or in Hs. destruct Hs as [Hs|[<-|[]]]; cbn; tauto.
      + split; [exact I1|]. intros s Hs. apply I2. rewrite in_app_iff. cbn in *. tauto.
  Qed.

  Lemma cancel_opposed_spec : forall fuel (p1 p2 : polyline) split r u, cancel_opposed fuel p1 p2 split = Ok (r, u) ->
    (forall s, In s r \/ In s u -> trimmed split s) /\ (forall s, In s split -> In s r \/ In s u).
  Proof.
    intros fuel p1 p2 split r u Hc. unfold cancel_opposed in Hc. destruct (rev split) as [|s0 poss] eqn:Hr; [discriminate|].
    assert (Hin : forall s, In s split <-> s0 = s \/ In s poss) by (intros s; rewrite in_rev, Hr; reflexivity).
    destruct (cancel_loop_spec _ _ _ split _ _ _ _ _ Hc) as [I1 I2].
    - intros s Hs. apply trimmed_in, Hin. cbn in Hs. tauto.
    - split; [exact I1|]. intros s Hs. apply I2. apply Hin in Hs. cbn. tauto.
  Qed.

  (** ** Results *)

  Lemma poly_intersection_spec : forall fuel p (p1 p2 : polyline) pls u,
    poly_intersection H fuel p p1 p2 = Ok (pls, u) ->
    popened p1 = true \/ popened p2 = true \/ boxes_meet p1 p2 ->
    exists s1 s2 split chains,
      into_edges p1 = Ok s1 /\ into_edges p2 = Ok s2 /\ split_intersections fuel (s1 ++ s2) = Ok split /\
      pls = map (fun c => Poly (map fst c) false) chains /\
      (popened p1 = true \/ popened p2 = true -> chains = []) /\
      (forall c, In c chains -> ring c) /\ NoDup (concat chains) /\
      (forall s, In s (concat chains) -> trimmed split s /\
         poly_contains p1 (midpoint (fst s) (snd s)) <> Ok (Some Outside) /\
         poly_contains p2 (midpoint (fst s) (snd s)) <> Ok (Some Outside)) /\
      (forall s, In s u -> trimmed split s) /\
      (forall s, In s split -> In s (concat chains) \/ In s u).
  Proof.
    intros fuel p p1 p2 pls u Hu Hb. unfold poly_intersection in Hu.
    apply bind_ok in Hu. destruct Hu as [s1 [Hs1 Hu]]. apply bind_ok in Hu. destruct Hu as [s2 [Hs2 Hu]].
    apply bind_ok in Hu. destruct Hu as [split [Hsp Hu]]. exists s1, s2, split.
    destruct (popened p1 || popened p2) eqn:Hop.
    { injection Hu as <- <-. exists []. do 4 (split; [first [assumption|reflexivity]|]). split; [reflexivity|]. split; [intros c []|].
      split; [constructor|]. split; [intros s []|]. split; intros s Hs; [apply trimmed_in, (hset_In edec), Hs|right; apply (hset_In edec), Hs]. }
    apply orb_false_iff in Hop. destruct Hop as [Hop1 Hop2].
    destruct Hb as [Hb|[Hb|(b1 & b2 & b & B1 & B2 & B3)]]; [congruence|congruence|].
    rewrite B1, B2 in Hu. cbn [unwrap bind] in Hu. rewrite B3 in Hu.
    apply bind_ok in Hu. destruct Hu as [[read unused] [Hc Hu]]. destruct (cancel_opposed_spec _ _ _ _ _ _ Hc) as [K1 K2].
    apply bind_ok in Hu. destruct Hu as [[read' unused'] [Hm Hu]].
    destruct (by_midpoint_spec _ _ _ _ _ _ Hm) as (M1 & M2 & M3).
    destruct (build_loop_spec _ _ _ _ _ _ _ Hu) as (chains & -> & C1 & C2 & C3 & C4). exists chains.
    do 3 (split; [assumption|]). split; [reflexivity|]. split; [intros [E|E]; congruence|]. split; [exact C1|]. split; [exact C2|].
    split; [|split].
    - intros s Hs. apply C3, hset_In, M1 in Hs. destruct Hs as [[]|[Hs Hk]]. rewrite <- in_rev in Hs.
      split; [apply K1; tauto|]. apply keep_intersection_true, Hk.
    - intros s Hs. apply C4 in Hs. rewrite hset_In, M1, M2 in Hs. rewrite <- in_rev in Hs. apply K1. cbn in Hs. tauto.
    - intros s Hs. apply K2 in Hs. destruct (in_dec edec s (concat chains)) as [Hi|Hi]; [tauto|]. right. apply C4.
      rewrite hset_In, M1, M2, <- in_rev. destruct Hs as [Hs|Hs]; [|tauto].
      destruct (M3 s) as [[|] Hk]; [apply -> in_rev; exact Hs|tauto|tauto].
  Qed.

  Lemma poly_intersection_far : forall fuel p (p1 p2 : polyline) r, poly_intersection H fuel p p1 p2 = Ok r ->
    popened p1 = false -> popened p2 = false -> ~ boxes_meet p1 p2 -> r = ([], []).
  Proof.
    intros fuel p p1 p2 r Hu H1 H2 Hn. unfold poly_intersection in Hu.
    apply bind_ok in Hu. destruct Hu as [s1 [Hs1 Hu]]. apply bind_ok in Hu. destruct Hu as [s2 [Hs2 Hu]].
    apply bind_ok in Hu. destruct Hu as [split [Hsp Hu]]. rewrite H1, H2 in Hu. cbn [orb] in Hu.
    apply bind_ok in Hu. destruct Hu as [b1 [E1 Hu]]. apply bind_ok in Hu. destruct Hu as [b2 [E2 Hu]].
    apply unwrap_ok in E1, E2. destruct (bbox_intersection b1 b2) as [b|] eqn:Eb.
    - exfalso. apply Hn. exists b1, b2, b. auto.
    - injection Hu as <-. reflexivity.
  Qed.

  Lemma poly_subtraction_spec : forall fuel p (p1 p2 : polyline) pls u,
    poly_subtraction H fuel p p1 p2 = Ok (pls, u) ->
    exists s1 s2 split chains,
      into_edges p1 = Ok s1 /\ into_edges (Poly (rev (pverts p2)) (popened p2)) = Ok s2 /\
      split_intersections fuel (s1 ++ s2) = Ok split /\
      pls = map (fun c => Poly (map fst c) false) chains /\
      (popened p1 = true \/ popened p2 = true \/ ~ boxes_meet p1 p2 \/
         poly_continence fuel p1 p2 = Ok (Some (Inside, Open)) -> chains = []) /\
      (forall c, In c chains -> ring c) /\ NoDup (concat chains) /\
      (forall s, In s (concat chains) -> trimmed split s /\
         poly_contains p1 (midpoint (fst s) (snd s)) <> Ok (Some Outside) /\
         poly_contains p2 (midpoint (fst s) (snd s)) <> Ok (Some Inside)) /\
      (forall s, In s u -> trimmed split s) /\
      (forall s, In s split -> In s (concat chains) \/ In s u).
  Proof.
    intros fuel p p1 p2 pls u Hu. unfold poly_subtraction in Hu.
    apply bind_ok in Hu. destruct Hu as [s1 [Hs1 Hu]]. apply bind_ok in Hu. destruct Hu as [s2 [Hs2 Hu]].
    apply bind_ok in Hu. destruct Hu as [split [Hsp Hu]]. exists s1, s2, split.
    apply bind_ok in Hu. destruct Hu as [b1 [E1 Hu]]. apply bind_ok in Hu. destruct Hu as [b2 [E2 Hu]].
    apply unwrap_ok in E1, E2. apply bind_ok in Hu. destruct Hu as [c [Ec Hu]].
    match type of Hu with (if ?b then _ else _) = _ => destruct b eqn:Hop end.
    { injection Hu as <- <-. exists []. do 4 (split; [first [assumption|reflexivity]|]). split; [reflexivity|]. split; [intros c' []|].
      split; [constructor|]. split; [intros s []|]. split; intros s Hs; [apply trimmed_in, (hset_In edec), Hs|right; apply (hset_In edec), Hs]. }
    apply orb_false_iff in Hop. destruct Hop as [Hop Hc4]. apply orb_false_iff in Hop. destruct Hop as [Hop Hb].
    apply orb_false_iff in Hop. destruct Hop as [Hop1 Hop2].
    assert (Hm : boxes_meet p1 p2) by (destruct (bbox_intersection b1 b2) as [b|] eqn:Eb; [exists b1, b2, b; auto|discriminate]).
    apply bind_ok in Hu. destruct Hu as [[read unused] [Hc Hu]]. destruct (cancel_opposed_spec _ _ _ _ _ _ Hc) as [K1 K2].
    apply bind_ok in Hu. destruct Hu as [[read' unused'] [Hmd Hu]].
    destruct (by_midpoint_spec _ _ _ _ _ _ Hmd) as (M1 & M2 & M3).
    destruct (build_loop_spec _ _ _ _ _ _ _ Hu) as (chains & -> & C1 & C2 & C3 & C4). exists chains.
    do 3 (split; [assumption|]). split; [reflexivity|]. split.
    { intros [E|[E|[E|E]]]; [congruence|congruence|tauto|]. rewrite E in Ec. injection Ec as <-. discriminate. }
    split; [exact C1|]. split; [exact C2|].
    split; [|split].
    - intros s Hs. apply C3, hset_In, M1 in Hs. destruct Hs as [[]|[Hs Hk]]. rewrite <- in_rev in Hs.
      split; [apply K1; tauto|]. apply keep_subtraction_true, Hk.
    - intros s Hs. apply C4 in Hs. rewrite hset_In, M1, M2 in Hs. rewrite <- in_rev in Hs. apply K1. cbn in Hs. tauto.
    - intros s Hs. apply K2 in Hs. destruct (in_dec edec s (concat chains)) as [Hi|Hi]; [tauto|]. right. apply C4.
      rewrite hset_In, M1, M2, <- in_rev. destruct Hs as [Hs|Hs]; [|tauto].
      destruct (M3 s) as [[|] Hk]; [apply -> in_rev; exact Hs|tauto|tauto].
  Qed.
End BoolP.
