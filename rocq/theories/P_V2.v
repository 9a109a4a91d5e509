(** P_V2.v — segments that cancel in boolean operations. *)

From Coq Require Import List Bool Permutation Lia.
From Verif Require Import Base Arith Geometry Elements Polyline ArithR Spec SpecR SpecM SpecU P_Base P_Trn P_Poly P_Bool.
Import ListNotations.

Section CancelP.
  Context {A : Arith}.
  Variable H : HashOrder.
  Notation edge := (edge A).
  Notation polyline := (polyline A).

  Lemma orM_iff : forall a b x, orM a b = Ok x -> (x = true <-> a = Ok true \/ b = Ok true).
  Proof.
    intros a b x E. unfold orM in E. apply bind_ok in E. destruct E as (y & -> & E). destruct y.
    - injection E as <-. split; auto.
    - rewrite E. split; [intros ->; auto|intros [Q|Q]; [discriminate|congruence]].
  Qed.
  Lemma andM_iff : forall c b x, andM (Ok c) b = Ok x -> (x = true <-> c = true /\ b = Ok true).
  Proof.
    intros c b x E. unfold andM in E. cbn [bind] in E. destruct c.
    - rewrite E. split; [intros ->; auto|intros [_ Q]; congruence].
    - injection E as <-. split; [discriminate|intros [Q _]; exact Q].
  Qed.
  Lemma orM_ok : forall a b x, orM a b = Ok x -> (exists y, a = Ok y) /\ (a = Ok false -> b = Ok x).
  Proof.
    intros a b x E. unfold orM in E. apply bind_ok in E. destruct E as (y & -> & E). split; [eauto|]. intros Q. injection Q as ->. exact E.
  Qed.
  (** The chains of [||] as written. *)
  Lemma orM_true : forall a b, orM a b = Ok true <-> a = Ok true \/ (a = Ok false /\ b = Ok true).
  Proof.
    intros a b. unfold orM. destruct a as [[|]| |]; cbn [bind]; split; auto; try (intros [Q|[Q _]]; discriminate); try discriminate.
    - intros [Q|[_ Q]]; [discriminate|exact Q].
  Qed.
  Lemma outside_iff : forall (p : polyline) v, is_outside p v = Ok true <-> poly_contains p v = Ok (Some Outside).
  Proof.
    intros p v. unfold is_outside, contains_unwrap. destruct (poly_contains p v) as [[c|]| |]; cbn; try (split; discriminate).
    destruct c; cbn; split; intros Q; try discriminate; reflexivity.
  Qed.

  Ltac orsteps E :=
    lazymatch type of E with
    | orM ?a ?b = Ok ?x => let F := fresh in pose proof (orM_iff a b x E) as F; destruct (orM_ok a b x E) as [[? ?] ?]
    end.

  Variables p1 p2 : polyline.
  Notation out v := (is_outside p1 v = Ok true \/ is_outside p2 v = Ok true).
  Lemma out_beyond : forall v, out v <-> beyond p1 p2 v.
  Proof. intros v. unfold beyond. rewrite !outside_iff. reflexivity. Qed.

  Lemma orM_list : forall (l : list (res bool)) b x, fold_right orM b l = Ok x -> (x = true <-> Exists (fun a => a = Ok true) (l ++ [b])).
  Proof.
    induction l as [|a l IH]; intros b x E; cbn [fold_right app] in *.
    - rewrite E. split; [intros ->; constructor; reflexivity|intros Q; inversion Q as [y l' Q'|y l' Q']; [congruence|inversion Q']].
    - rewrite Exists_cons. destruct (orM_ok _ _ _ E) as [[[|] ->] E'].
      + cbn in E. injection E as <-. split; auto.
      + specialize (E' eq_refl). rewrite <- (IH _ _ E'). split; [auto|]. intros [Q|Q]; [discriminate|exact Q].
  Qed.
  Lemma ex_cons : forall (a : res bool) l, Exists (fun a => a = Ok true) (a :: l) <-> a = Ok true \/ Exists (fun a => a = Ok true) l.
  Proof. intros. rewrite Exists_cons. reflexivity. Qed.
  Lemma ex_nil : Exists (fun a : res bool => a = Ok true) [] <-> False.
  Proof. rewrite Exists_nil. reflexivity. Qed.

  Lemma opposed_iff : forall s s' b, opposed p1 p2 (fst s) (snd s) s' = Ok b -> (b = true <-> cancels p1 p2 s s').
  Proof.
    intros [v1 v2] [v3 v4] b Ho. unfold opposed in Ho. cbn [fst snd] in *. unfold cancels, against. cbn [fst snd].
    destruct (intersection v1 v2 v3 v4) as [iv|] eqn:Hi; [|injection Ho as <-; split; [discriminate|intros [[[v Q] _] _]; congruence]].
    apply bind_ok in Ho. destruct Ho as (x & Hx & Ho). injection Ho as <-.
    apply (orM_list [_; _; _; _; _; _; _] _) in Hx. cbn [app] in Hx. rewrite !ex_cons, ex_nil in Hx. rewrite !andb_true_iff, !orb_true_iff, Hx. rewrite <- !out_beyond.
    split.
    - intros [[Q1 Q2] Q3]. split; [split; [eauto|split; assumption]|]. tauto.
    - intros [[_ [Q1 Q2]] Q3]. split; [split; assumption|]. tauto.
  Qed.
  Lemma leaves_second_iff : forall s s' b,
    andM (Ok (negb (veqb (snd s) (fst s')))) (orM (Ok (veqb (fst s) (snd s'))) (orM (is_outside p1 (fst s)) (orM (is_outside p2 (fst s)) (orM (is_outside p1 (snd s')) (is_outside p2 (snd s')))))) = Ok b ->
    (b = true <-> leaves_second p1 p2 s s').
  Proof.
    intros s s' b E. rewrite (andM_iff _ _ _ E). unfold leaves_second. rewrite negb_true_iff. destruct (veqb (snd s) (fst s')) eqn:V; [split; intros [Q _]; discriminate|].
    unfold andM in E. cbn [bind negb] in E. apply (orM_list [_; _; _; _] _) in E as E'. cbn [app] in E'. rewrite !ex_cons, ex_nil in E'. rewrite <- !out_beyond.
    match type of E with ?t = _ => assert (K : t = Ok true <-> b = true) by (rewrite E; split; [intros Q; injection Q; trivial|intros ->; reflexivity]) end.
    rewrite K, E'. assert (V' : Ok (veqb (fst s) (snd s')) = Ok true <-> veqb (fst s) (snd s') = true) by (split; [intros Q; injection Q; trivial|intros ->; reflexivity]).
    rewrite V'. tauto.
  Qed.
  Lemma leaves_first_iff : forall s s' b,
    andM (Ok (negb (veqb (fst s) (snd s')))) (orM (Ok (veqb (snd s) (fst s'))) (orM (is_outside p1 (snd s)) (orM (is_outside p2 (snd s)) (orM (is_outside p1 (fst s')) (is_outside p2 (fst s')))))) = Ok b ->
    (b = true <-> leaves_first p1 p2 s s').
  Proof.
    intros s s' b E. rewrite (andM_iff _ _ _ E). unfold leaves_first. rewrite negb_true_iff. destruct (veqb (fst s) (snd s')) eqn:V; [split; intros [Q _]; discriminate|].
    unfold andM in E. cbn [bind negb] in E. apply (orM_list [_; _; _; _] _) in E as E'. cbn [app] in E'. rewrite !ex_cons, ex_nil in E'. rewrite <- !out_beyond.
    match type of E with ?t = _ => assert (K : t = Ok true <-> b = true) by (rewrite E; split; [intros Q; injection Q; trivial|intros ->; reflexivity]) end.
    rewrite K, E'. assert (V' : Ok (veqb (snd s) (fst s')) = Ok true <-> veqb (snd s) (fst s') = true) by (split; [intros Q; injection Q; trivial|intros ->; reflexivity]).
    rewrite V'. tauto.
  Qed.

  Lemma extractM_perm : forall X (f : X -> res bool) l x r, extractM f l = Ok (Some (x, r)) -> exists l1 l2, l = l1 ++ x :: l2 /\ r = l1 ++ l2.
  Proof.
    intros X f l. induction l as [|a l IH]; intros x r He; cbn [extractM] in He; [discriminate|].
    apply bind_ok in He. destruct He as (b & Hb & He). destruct b.
    - injection He as <- <-. exists [], l. auto.
    - apply bind_ok in He. destruct He as (o & Ho & He). destruct o as [[z r']|]; [|discriminate]. injection He as <- <-.
      destruct (IH _ _ Ho) as (l1 & l2 & -> & ->). exists (a :: l1), l2. auto.
  Qed.
  Lemma extractM_nothing : forall X (f : X -> res bool) l, extractM f l = Ok None -> forall x, In x l -> f x = Ok false.
  Proof.
    intros X f l. induction l as [|a l IH]; intros He x; cbn [extractM] in He; [intros []|].
    apply bind_ok in He. destruct He as (b & Hb & He). destruct b; [discriminate|]. apply bind_ok in He. destruct He as (o & Ho & He). destruct o as [[z r']|]; [discriminate|].
    intros [<-|Hx]; [exact Hb|exact (IH Ho x Hx)].
  Qed.
  Lemma pairs_drop : forall X (R : X -> X -> Prop) l1 x l2, ForallOrdPairs R (l1 ++ x :: l2) -> ForallOrdPairs R (l1 ++ l2).
  Proof.
    intros X R l1 x l2. induction l1 as [|y l1 IH]; cbn; intros Hf; inversion Hf as [|z l Ha Hf']; subst; [exact Hf'|].
    constructor; [|exact (IH Hf')]. apply Forall_app in Ha. destruct Ha as [Ha Hb]. inversion Hb. apply Forall_app. auto.
  Qed.
  Lemma pairs_snoc : forall X (R : X -> X -> Prop) l x, ForallOrdPairs R l -> (forall y, In y l -> R y x) -> ForallOrdPairs R (l ++ [x]).
  Proof.
    intros X R l x. induction l as [|y l IH]; intros Hf Hx; cbn; [repeat constructor|]. inversion Hf as [|z l' Ha Hf']; subst.
    constructor; [apply Forall_app; split; [exact Ha|constructor; [apply Hx; left; reflexivity|constructor]]|]. apply IH; [exact Hf'|intros z Hz; apply Hx; right; exact Hz].
  Qed.

  Lemma cancel_settles : forall fuel poss read unused r u, cancel_loop fuel p1 p2 poss read unused = Ok (r, u) ->
    ForallOrdPairs (fun s' s => ~ cancels p1 p2 s s') read -> settles p1 p2 (poss ++ read) r.
  Proof.
    induction fuel as [|fuel IH]; intros poss read unused r u Hc Hr; [discriminate|]. cbn [cancel_loop] in Hc.
    destruct poss as [|[v1 v2] poss]; [injection Hc as <- <-; apply settled; [apply Permutation_refl|exact Hr]|].
    apply bind_ok in Hc. destruct Hc as (o & Ho & Hc). destruct o as [[[v3 v4] read']|].
    - destruct (extractM_some _ _ _ _ _ Ho) as (E1 & _ & _). destruct (extractM_perm _ _ _ _ _ Ho) as (l1 & l2 & -> & ->).
      apply (opposed_iff (v1, v2)) in E1. apply proj1 in E1. specialize (E1 eq_refl).
      apply bind_ok in Hc. destruct Hc as (c1 & H1 & Hc). apply bind_ok in Hc. destruct Hc as (c2 & H2 & Hc).
      apply (leaves_second_iff (v1, v2) (v3, v4)) in H1. apply (leaves_first_iff (v1, v2) (v3, v4)) in H2.
      pose proof (IH _ _ _ _ _ Hc (pairs_drop _ _ _ _ _ Hr)) as Hs.
      apply (settle p1 p2 _ (poss ++ l1 ++ l2) (v1, v2) (v3, v4) (if c2 then [(v1, v4)] else []) (if c1 then [(v3, v2)] else [])).
      + cbn [app]. apply perm_skip. rewrite !app_assoc. apply Permutation_sym, Permutation_middle.
      + exact E1.
      + destruct c2; [left; split; [apply H2; reflexivity|reflexivity]|right; split; [intros Q; apply H2 in Q; discriminate|reflexivity]].
      + destruct c1; [left; split; [apply H1; reflexivity|reflexivity]|right; split; [intros Q; apply H1 in Q; discriminate|reflexivity]].
      + destruct c1, c2; exact Hs.
    - assert (Hn : forall s', In s' read -> ~ cancels p1 p2 (v1, v2) s').
      { intros s' Hs' Q. pose proof (extractM_nothing _ _ _ Ho s' Hs') as F. apply (opposed_iff (v1, v2)) in F. apply F in Q. discriminate. }
      pose proof (IH _ _ _ _ _ Hc (pairs_snoc _ _ _ _ Hr Hn)) as Hs.
      inversion Hs as [l r' Hp Hf|l m s s' k1 k2 r' Hp Hca K1 K2 Hs']; subst.
      + apply settled; [|exact Hf]. etransitivity; [|exact Hp]. cbn [app]. rewrite app_assoc. apply Permutation_cons_append.
      + apply (settle p1 p2 _ m s s' k1 k2); try assumption. etransitivity; [|exact Hp]. cbn [app]. rewrite app_assoc. apply Permutation_cons_append.
  Qed.
  Lemma cancelled : forall fuel split r u, cancel_opposed fuel p1 p2 split = Ok (r, u) -> settles p1 p2 split r.
  Proof.
    intros fuel split r u Hc. unfold cancel_opposed in Hc. destruct (rev split) as [|s poss] eqn:Hr; [discriminate|].
    assert (Hs : settles p1 p2 (poss ++ [s]) r) by (apply (cancel_settles _ _ _ _ _ _ Hc); repeat constructor).
    assert (Hp : Permutation split (poss ++ [s])).
    { etransitivity; [apply Permutation_rev|]. rewrite Hr. apply Permutation_cons_append. }
    inversion Hs as [l r' Hp' Hf|l m a b k1 k2 r' Hp' Hca K1 K2 Hs']; subst.
    - apply settled; [|exact Hf]. etransitivity; eassumption.
    - apply (settle p1 p2 _ m a b k1 k2); try assumption. etransitivity; eassumption.
  Qed.
  Lemma settles_calm : forall l r, settles p1 p2 l r -> forall s s', In s r -> In s' r -> s <> s' -> ~ cancels p1 p2 s s' \/ ~ cancels p1 p2 s' s.
  Proof.
    intros l r Hs. induction Hs as [l r Hp Hf|l m s s' l1 l2 r Hp Hc K1 K2 Hs IH]; [|exact IH].
    clear Hp. induction Hf as [|x r Ha Hf IH]; intros s s' H1 H2 Hne; [destruct H1|]. rewrite Forall_forall in Ha.
    destruct H1 as [<-|H1], H2 as [<-|H2]; [contradiction|right; apply Ha, H2|left; apply Ha, H1|exact (IH s s' H1 H2 Hne)].
  Qed.
End CancelP.

Section Results.
  Context {A : Arith}.
  Variable H : HashOrder.
  Notation polyline := (polyline A).

  Lemma keep_intersection_iff : forall (p1 p2 : polyline) m b, keep_intersection p1 p2 m = Ok b -> (b = true <-> ~ beyond p1 p2 m).
  Proof.
    intros p1 p2 m b Hk. unfold keep_intersection, andM in Hk. unfold beyond. rewrite <- !outside_iff.
    apply bind_ok in Hk. destruct Hk as (x & Hx & Hk). apply bind_ok in Hx. destruct Hx as (y & Hy & Hx). injection Hx as <-. rewrite Hy.
    destruct y; cbn in Hk; [injection Hk as <-; split; [discriminate|intros Q; exfalso; apply Q; auto]|].
    apply bind_ok in Hk. destruct Hk as (z & Hz & Hk). injection Hk as <-. rewrite Hz. destruct z; cbn; split; try discriminate; auto.
    intros _ [Q|Q]; discriminate.
  Qed.
  Lemma keep_subtraction_iff : forall (p1 p2 : polyline) m b, keep_subtraction p1 p2 m = Ok b ->
    (b = true <-> poly_contains p1 m <> Ok (Some Outside) /\ poly_contains p2 m <> Ok (Some Inside)).
  Proof.
    intros p1 p2 m b Hk. unfold keep_subtraction in Hk. apply bind_ok in Hk. destruct Hk as (c1 & H1 & Hk).
    apply bind_ok in Hk. destruct Hk as (c2 & H2 & Hk). injection Hk as <-. unfold contains_unwrap in H1, H2.
    destruct (poly_contains p1 m) as [[d1|]| |]; try discriminate. destruct (poly_contains p2 m) as [[d2|]| |]; try discriminate.
    injection H1 as <-. injection H2 as <-. destruct d1, d2; cbn; (split; [intros Q; try discriminate; split; discriminate|intros [Q1 Q2]; congruence]).
  Qed.

  Lemma intersection_cancels : forall fuel p (p1 p2 : polyline) pls u, poly_intersection H fuel p p1 p2 = Ok (pls, u) ->
    popened p1 = false -> popened p2 = false -> boxes_meet p1 p2 ->
    exists s1 s2 split r chains,
      into_edges p1 = Ok s1 /\ into_edges p2 = Ok s2 /\ split_intersections fuel (s1 ++ s2) = Ok split /\ settles p1 p2 split r /\
      pls = map (fun c => Poly (map fst c) false) chains /\
      (forall s, In s (concat chains) -> In s r /\ ~ beyond p1 p2 (midpoint (fst s) (snd s))) /\
      (forall s, In s r -> In s (concat chains) \/ In s u) /\
      forall s s', In s (concat chains) -> In s' (concat chains) -> s <> s' -> ~ cancels p1 p2 s s' \/ ~ cancels p1 p2 s' s.
  Proof.
    intros fuel p p1 p2 pls u Hu H1 H2 (b1 & b2 & b & B1 & B2 & B3). unfold poly_intersection in Hu.
    apply bind_ok in Hu. destruct Hu as [s1 [Hs1 Hu]]. apply bind_ok in Hu. destruct Hu as [s2 [Hs2 Hu]].
    apply bind_ok in Hu. destruct Hu as [split [Hsp Hu]]. exists s1, s2, split. rewrite H1, H2, B1, B2 in Hu. cbn [orb unwrap bind] in Hu. rewrite B3 in Hu.
    apply bind_ok in Hu. destruct Hu as [[read unused] [Hc Hu]]. pose proof (cancelled p1 p2 _ _ _ _ Hc) as Hset. exists read.
    apply bind_ok in Hu. destruct Hu as [[read' unused'] [Hm Hu]]. destruct (by_midpoint_spec _ _ _ _ _ _ Hm) as (M1 & M2 & M3).
    destruct (build_loop_spec _ _ _ _ _ _ _ _ Hu) as (chains & -> & C1 & C2 & C3 & C4). exists chains.
    assert (Hin : forall s, In s (concat chains) -> In s read /\ ~ beyond p1 p2 (midpoint (fst s) (snd s))).
    { intros s Hs. apply C3, hset_In, M1 in Hs. destruct Hs as [[]|[Hs Hk]]. rewrite <- in_rev in Hs. split; [exact Hs|]. apply (keep_intersection_iff _ _ _ _ Hk). reflexivity. }
    do 4 (split; [assumption|]). split; [reflexivity|]. split; [exact Hin|]. split.
    - intros s Hs. destruct (in_dec edec s (concat chains)) as [Hi|Hi]; [tauto|]. right. apply C4. rewrite hset_In, M1, M2, <- in_rev.
      destruct (M3 s) as [[|] Hk]; [apply -> in_rev; exact Hs|tauto|tauto].
    - intros s s' Hs Hs'. apply Hin in Hs, Hs'. exact (settles_calm _ _ _ _ Hset s s' (proj1 Hs) (proj1 Hs')).
  Qed.
  Lemma subtraction_cancels : forall fuel p (p1 p2 : polyline) pls u, poly_subtraction H fuel p p1 p2 = Ok (pls, u) ->
    popened p1 = false -> popened p2 = false -> boxes_meet p1 p2 -> poly_continence fuel p1 p2 <> Ok (Some (Inside, Open)) ->
    exists s1 s2 split r chains,
      into_edges p1 = Ok s1 /\ into_edges (Poly (rev (pverts p2)) false) = Ok s2 /\ split_intersections fuel (s1 ++ s2) = Ok split /\ settles p1 p2 split r /\
      pls = map (fun c => Poly (map fst c) false) chains /\
      (forall s, In s (concat chains) -> In s r /\
         poly_contains p1 (midpoint (fst s) (snd s)) <> Ok (Some Outside) /\ poly_contains p2 (midpoint (fst s) (snd s)) <> Ok (Some Inside)) /\
      (forall s, In s r -> In s (concat chains) \/ In s u) /\
      forall s s', In s (concat chains) -> In s' (concat chains) -> s <> s' -> ~ cancels p1 p2 s s' \/ ~ cancels p1 p2 s' s.
  Proof.
    intros fuel p p1 p2 pls u Hu H1 H2 (b1 & b2 & b & B1 & B2 & B3) Hco. unfold poly_subtraction in Hu.
    apply bind_ok in Hu. destruct Hu as [s1 [Hs1 Hu]]. apply bind_ok in Hu. destruct Hu as [s2 [Hs2 Hu]].
    apply bind_ok in Hu. destruct Hu as [split [Hsp Hu]]. exists s1, s2, split. rewrite B1, B2 in Hu. cbn [unwrap bind] in Hu. rewrite B3, H1, H2 in Hu. cbn [orb] in Hu.
    apply bind_ok in Hu. destruct Hu as [c [Ec Hu]].
    assert (Hcc : continence_is c Inside Open = false).
    { destruct (continence_is c Inside Open) eqn:E; [|reflexivity]. exfalso. apply Hco. rewrite Ec. destruct c as [[[] []]|]; cbn in E; try discriminate. reflexivity. }
    rewrite Hcc in Hu.
    apply bind_ok in Hu. destruct Hu as [[read unused] [Hc Hu]]. pose proof (cancelled p1 p2 _ _ _ _ Hc) as Hset. exists read.
    apply bind_ok in Hu. destruct Hu as [[read' unused'] [Hm Hu]]. destruct (by_midpoint_spec _ _ _ _ _ _ Hm) as (M1 & M2 & M3).
    destruct (build_loop_spec _ _ _ _ _ _ _ _ Hu) as (chains & -> & C1 & C2 & C3 & C4). exists chains.
    assert (Hin : forall s, In s (concat chains) -> In s read /\ poly_contains p1 (midpoint (fst s) (snd s)) <> Ok (Some Outside) /\ poly_contains p2 (midpoint (fst s) (snd s)) <> Ok (Some Inside)).
    { intros s Hs. apply C3, hset_In, M1 in Hs. destruct Hs as [[]|[Hs Hk]]. rewrite <- in_rev in Hs. split; [exact Hs|]. apply (keep_subtraction_iff _ _ _ _ Hk). reflexivity. }
    rewrite H2 in Hs2. do 4 (split; [assumption|]). split; [reflexivity|]. split; [exact Hin|]. split.
    - intros s Hs. destruct (in_dec edec s (concat chains)) as [Hi|Hi]; [tauto|]. right. apply C4. rewrite hset_In, M1, M2, <- in_rev.
      destruct (M3 s) as [[|] Hk]; [apply -> in_rev; exact Hs|tauto|tauto].
    - intros s s' Hs Hs'. apply Hin in Hs, Hs'. exact (settles_calm _ _ _ _ Hset s s' (proj1 Hs) (proj1 Hs')).
  Qed.
End Results.
