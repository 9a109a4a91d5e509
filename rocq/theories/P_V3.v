(** P_V3.v — the map from new segments to those they are parts of. *)

From Coq Require Import List Bool.
From Verif Require Import Base Arith Geometry Elements Polyline Procedures Refine Triangulator Spec SpecV P_Base P_Trn P_Refine P_Triangulator.
Import ListNotations.

Section SplitMap.
  Context {A : Arith}.
  Variable H : HashOrder.
  Notation edge := (edge A).
  Notation triangulation := (triangulation A).

  Lemma fold_mset_keys : forall (e : edge) l m s, In s (map fst (fold_left (fun m s => mset (edec (A:=A)) s e m) l m)) <-> In s l \/ In s (map fst m).
  Proof.
    intros e l. induction l as [|x l IH]; intros m s; cbn [fold_left]; [cbn; tauto|]. rewrite IH, mset_keys. cbn [In]. intuition congruence.
  Qed.
  Lemma fold_mset_NoDup : forall (e : edge) l m, NoDup (map fst m) -> NoDup (map fst (fold_left (fun m s => mset (edec (A:=A)) s e m) l m)).
  Proof. intros e l. induction l as [|x l IH]; intros m Hm; cbn [fold_left]; [exact Hm|]. apply IH, mset_NoDup, Hm. Qed.
  Lemma fold_mset_parents : forall (e : edge) l m s e', In (s, e') (fold_left (fun m s => mset (edec (A:=A)) s e m) l m) -> (e' = e /\ In s l) \/ In (s, e') m.
  Proof.
    intros e l. induction l as [|x l IH]; intros m s e' Hi; cbn [fold_left] in Hi; [auto|]. apply IH in Hi. destruct Hi as [[-> Hi]|Hi]; [left; cbn; auto|].
    apply mset_In in Hi. destruct Hi as [E|[Hi _]]; [injection E as -> ->; left; cbn; auto|auto].
  Qed.
  Lemma dist_NoDup : forall segments vs (m : list (edge * list (vertex A))), NoDup (map fst m) -> NoDup (map fst (distribute_encroachments segments vs m)).
  Proof.
    intros segments vs. unfold distribute_encroachments. induction segments as [|s segments IH]; intros m Hn; cbn [fold_left]; [exact Hn|]. apply IH.
    destruct (filter _ vs); [exact Hn|apply mset_NoDup, Hn].
  Qed.

  (** What is known of the map: its keys are the segments that were not there at
      the start, each is a part of the segment it is mapped to. *)
  Definition tracks (start cstr : list edge) (sm : list (edge * edge)) : Prop :=
    NoDup (map fst sm) /\ (forall s, In s (map fst sm) -> In s cstr) /\ (forall s, In s cstr -> In s start \/ In s (map fst sm)) /\
    (forall s e, In (s, e) sm -> comes_from start e /\ part_of e s).
  Lemma tracked : forall start cstr sm e, tracks start cstr sm -> In e cstr -> comes_from start e.
  Proof.
    intros start cstr sm e (T0 & T1 & T2 & T3) Hi. destruct (T2 e Hi) as [Hs|Hk]; [apply from_start, Hs|]. apply in_map_iff in Hk. destruct Hk as ([s e0] & Es & Hk). cbn [fst] in Es. subst s.
    destruct (T3 _ _ Hk) as [F P]. exact (from_part _ _ _ F P).
  Qed.

  Lemma tracks_one : forall start cstr sm e new, tracks start cstr sm -> comes_from start e -> cut_into e new ->
    tracks start (fold_left (fun c s => hadd (edec (A:=A)) s c) new (hdel (edec (A:=A)) e cstr)) (fold_left (fun m s => mset (edec (A:=A)) s e m) new (mdel (edec (A:=A)) e sm)).
  Proof.
    intros start cstr sm e new (T0 & T1 & T2 & T3) F C. split; [apply fold_mset_NoDup, mdel_NoDup, T0|]. split; [|split].
    - intros s; rewrite fold_mset_keys, mdel_keys, fold_hadd_In, hdel_In. intros [Hs|[Hs Hn]]; [auto|]. left. split; [apply T1, Hs|exact Hn].
    - intros s; rewrite fold_mset_keys, mdel_keys, fold_hadd_In, hdel_In. intros [[Hs Hn]|Hs]; [|auto]. destruct (T2 s Hs); auto.
    - intros s e' Hi. apply fold_mset_parents in Hi. destruct Hi as [[-> Hs]|Hi]; [split; [exact F|exists new; auto]|]. apply mdel_In in Hi. apply T3, Hi.
  Qed.
  Lemma tracks_all : forall prm bd hs fuel es p (tr : triangulation) vs cs sm q tr' vs' cs' sm' q' start,
    split_encroached_all H fuel p prm bd hs es (tr, vs, cs, sm, q) = Ok (tr', vs', cs', sm', q') -> (forall e, In e es -> comes_from start e) -> tracks start cs sm -> tracks start cs' sm'.
  Proof.
    intros prm bd hs fuel es. induction es as [|e es IH]; intros p tr vs cs sm q tr' vs' cs' sm' q' start Hr He Ht; cbn [split_encroached_all] in Hr.
    - injection Hr as <- <- <- <- <-. exact Ht.
    - apply bind_ok in Hr. destruct Hr as ([[[[tr1 vs1] cs1] sm1] q1] & H1 & Hr). unfold split_encroached in H1. apply bind_ok in H1.
      destruct H1 as ([[[[tr1' vs1'] new] inc] del] & Hu & H1). apply bind_ok in H1. destruct H1 as (q1' & Hq1 & E). injection E as <- <- <- <- <-.
      pose proof (unencroach_segment_tiles _ _ _ _ _ _ _ _ _ _ _ _ _ _ Hu) as C.
      exact (IH _ _ _ _ _ _ _ _ _ _ _ _ Hr (fun x Hx => He x (or_intror Hx)) (tracks_one _ _ _ _ _ Ht (He e (or_introl eq_refl)) C)).
  Qed.
  Lemma rejected_edges : forall fuel p (tr : triangulation) t cs bd hs tr' enc, try_circumcenter H fuel p tr t cs bd hs = Ok (tr', inr enc) ->
    forall e, In e enc -> In e cs \/ In (snd e, fst e) cs.
  Proof.
    intros fuel p tr t cs bd hs tr' enc Hr e He. unfold try_circumcenter in Hr. apply bind_ok in Hr. destruct Hr as (cc & _ & Hr). apply bind_ok in Hr. destruct Hr as ([cm x] & _ & Hr).
    apply bind_ok in Hr. destruct Hr as (s & _ & Hr). apply bind_ok in Hr. destruct Hr as (opp & _ & Hr).
    match type of Hr with match ?l with _ => _ end = _ => remember l as L eqn:EL; destruct L as [|a L]; [discriminate|] end.
    injection Hr as _ E. rewrite <- E, EL in He. apply hset_In, filter_In in He. destruct He as [_ Hb].
    apply andb_prop in Hb. destruct Hb as [Hb _]. apply orb_prop in Hb. destruct e as [a' b']. destruct Hb as [Hb|Hb]; apply hmem_In in Hb; auto.
  Qed.
  Lemma tracks_loop : forall prm bd hs fuel p (tr : triangulation) cs sm irr lrg tr' cs' sm' start,
    split_loop_irregular H fuel p prm bd hs tr cs sm irr lrg = Ok (tr', cs', sm') -> tracks start cs sm -> tracks start cs' sm'.
  Proof.
    intros prm bd hs fuel. induction fuel as [|fuel IH]; intros p tr cs sm irr lrg tr' cs' sm' start Hr Ht; [discriminate|]. cbn [split_loop_irregular] in Hr.
    destruct (match ho H (1 :: p) _ irr with t :: _ => _ | [] => _ end) as [[[t irr'] lrg']|]; [|injection Hr as <- <- <-; exact Ht].
    apply bind_ok in Hr. destruct Hr as ([tr1 r] & Htry & Hr). destruct r as [[inc del]|enc].
    - apply bind_ok in Hr. destruct Hr as ([irr'' lrg''] & _ & Hr). exact (IH _ _ _ _ _ _ _ _ _ _ Hr Ht).
    - apply bind_ok in Hr. destruct Hr as (cc & _ & Hr). apply bind_ok in Hr. destruct Hr as ([[[[tr2 vs2] cs2] sm2] [irr'' lrg'']] & Hse & Hr).
      apply (IH _ _ _ _ _ _ _ _ _ _ Hr). apply (tracks_all _ _ _ _ _ _ _ _ _ _ _ _ _ _ _ _ _ Hse); [|exact Ht].
      intros e He. apply ho_In in He. destruct (rejected_edges _ _ _ _ _ _ _ _ _ Htry e He) as [Hi|Hi]; [exact (tracked _ _ _ _ Ht Hi)|].
      destruct e as [a b]. apply from_back. exact (tracked _ _ _ _ Ht Hi).
  Qed.
  Lemma split_map_tracks : forall fuel p prm (tr : triangulation) cs bd hs tr' cs' sm, split_irregular H fuel p prm tr cs bd hs = Ok (tr', cs', sm) ->
    (forall s, In s cs' -> In s cs \/ exists e, mget edec s sm = Some e) /\
    (forall s e, mget edec s sm = Some e -> In s cs' /\ comes_from cs e /\ part_of e s).
  Proof.
    intros fuel p prm tr cs bd hs tr' cs' sm Hr. unfold split_irregular in Hr. apply bind_ok in Hr. destruct Hr as (irr & _ & Hr). apply bind_ok in Hr. destruct Hr as (lrg & _ & Hr).
    destruct (tracks_loop _ _ _ _ _ _ _ _ _ _ _ _ _ cs Hr) as (T0 & T1 & T2 & T3); [split; [constructor|]; split; [intros s []|]; split; [auto|intros s e []]|]. split.
    - intros s Hs. destruct (T2 s Hs) as [Hc|Hk]; [auto|right; apply key_mget, Hk].
    - intros s e Hg. split; [apply T1; exact (mget_Some_key _ _ _ _ Hg)|]. apply T3. exact (mget_In _ _ _ _ Hg).
  Qed.

  (** The first pass. *)
  Lemma all_map : forall cs bd hs fuel p em (tr : triangulation) sm inc del tr' sm' inc' del', NoDup (map fst em) ->
    unencroach_all H fuel p cs bd hs em tr sm inc del = Ok (tr', sm', inc', del') ->
    (forall s e, In (s, e) sm' -> In (s, e) sm \/ (In e (map fst em) /\ part_of e s)) /\
    (forall e, In e (map fst em) -> exists new, cut_into e new /\ forall s, In s new -> In s (map fst sm')) /\
    (forall s, In s (map fst sm) -> In s (map fst sm')).
  Proof.
    intros cs bd hs fuel. induction fuel as [|fuel IH]; intros p em tr sm inc del tr' sm' inc' del' Hn Hr; [discriminate|]. cbn [unencroach_all] in Hr.
    destruct (ho H (1 :: p) _ (map fst em)) as [|e l] eqn:Eh.
    - injection Hr as <- <- <- <-. assert (En : forall e, ~ In e (map fst em)) by (intros e He; apply (ho_In H (1 :: p)) in He; rewrite Eh in He; exact He).
      split; [auto|]. split; [|auto]. intros e He. destruct (En e He).
    - assert (Hem : In e (map fst em)) by (apply (ho_In H (1 :: p)); rewrite Eh; left; reflexivity).
      apply bind_ok in Hr. destruct Hr as (vs & _ & Hr). apply bind_ok in Hr. destruct Hr as ([[[[tr1 vs1] new] nts] ots] & Hu & Hr).
      pose proof (unencroach_segment_tiles _ _ _ _ _ _ _ _ _ _ _ _ _ _ Hu) as C.
      destruct (IH _ _ _ _ _ _ _ _ _ _ (mdel_NoDup _ _ _ Hn) Hr) as (I1 & I2 & I3). split; [|split].
      + intros s e' Hi. destruct (I1 s e' Hi) as [Hi'|[Hi' Hp]].
        * apply fold_mset_parents in Hi'. destruct Hi' as [[-> Hs]|Hi']; [right; split; [exact Hem|exists new; auto]|auto].
        * right. split; [|exact Hp]. apply mdel_keys in Hi'. apply Hi'.
      + intros e' He'. destruct (edec e' e) as [->|Hne].
        * exists new. split; [exact C|]. intros s Hs. apply I3, fold_mset_keys. auto.
        * apply I2. apply mdel_keys. auto.
      + intros s Hs. apply I3, fold_mset_keys. auto.
  Qed.
  Lemma unencroach_map : forall fuel p (tr : triangulation) cs bd hs tr' sm inc del, unencroach H fuel p tr cs bd hs = Ok (tr', sm, inc, del) ->
    (forall s e, mget edec s sm = Some e -> In e cs /\ (exists v, In v (trn_vertices tr) /\ edge_encroach e v = Inside) /\ part_of e s) /\
    (forall e v, In e cs -> In v (trn_vertices tr) -> edge_encroach e v = Inside -> exists new, cut_into e new /\ forall s, In s new -> exists e', mget edec s sm = Some e').
  Proof.
    intros fuel p tr cs bd hs tr' sm inc del Hr. unfold unencroach in Hr. set (em := distribute_encroachments cs (trn_vertices tr) []) in *.
    assert (Hnd : NoDup (map fst em)) by (apply dist_NoDup; constructor).
    pose proof (distribute_encroachments_exact cs (trn_vertices tr)) as Q. fold em in Q.
    destruct (all_map _ _ _ _ _ _ _ _ _ _ _ _ _ _ Hnd Hr) as (I1 & I2 & _). split.
    - intros s e Hg. destruct (I1 s e (mget_In _ _ _ _ Hg)) as [[]|[Hk Hp]]. destruct (key_mget edec _ _ Hk) as (l & Hl). specialize (Q e). rewrite Hl in Q.
      destruct Q as (Q1 & Q2 & Q3). split; [exact Q1|]. split; [|exact Hp]. destruct l as [|v l]; [congruence|]. exists v. apply Q3. left; reflexivity.
    - intros e v He Hv Hin. specialize (Q e). destruct (mget edec e em) as [l|] eqn:El; [|destruct (Q He v Hv Hin)].
      destruct (I2 e (mget_Some_key _ _ _ _ El)) as (new & C & Hs). exists new. split; [exact C|]. intros s Hi. apply key_mget, Hs, Hi.
  Qed.
End SplitMap.
