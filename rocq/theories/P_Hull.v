(** P_Hull.v — the outline of a set of triangles, and the removal of collinear
    vertices. *)

From Coq Require Import List Permutation Arith Bool Lia.
From Verif Require Import Base Arith Geometry Elements Polyline Spec SpecM P_Base P_Trn P_Triangulator P_Poly.
Import ListNotations.
Local Open Scope nat_scope.

Section Hull.
  Context {A : Arith}.
  Notation vertex := (vertex A).
  Notation edge := (edge A).
  Notation triangle := (triangle A).

  Lemma opp_opp : forall e : edge, opposite (opposite e) = e.
  Proof. intros [a b]. reflexivity. Qed.

  (** The map holds exactly the visited sides that have not met their reverse. *)
  Definition unmatched (seen : list edge) (m : list (edge * edge)) : Prop :=
    NoDup (map fst m) /\
    forall k s, In (k, s) m <-> k = opposite s /\ In s seen /\ (opposite s = s \/ ~ In (opposite s) seen).

  Lemma hull_loop_unmatched : forall aux seen m, NoDup (aux ++ seen) -> unmatched seen m ->
    unmatched (aux ++ seen) (hull_loop aux m).
  Proof.
    intros aux. induction aux as [|s aux IH]; intros seen m Hn [Hk Hm]; [split; assumption|]. cbn [hull_loop].
    assert (Hns : ~ In s seen) by (cbn in Hn; inversion Hn; subst; intros Hs; apply H1, in_or_app; auto).
    assert (Hn' : NoDup (aux ++ s :: seen)) by (apply (Permutation_NoDup (Permutation_middle _ _ _)), Hn).
    assert (Hend : forall m', unmatched (s :: seen) m' -> unmatched ((s :: aux) ++ seen) (hull_loop aux m')).
    { intros m' Hm'. destruct (IH (s :: seen) m' Hn' Hm') as [U1 U2]. split; [exact U1|]. intros k s'. rewrite U2.
      assert (E : forall x, In x (aux ++ s :: seen) <-> In x ((s :: aux) ++ seen)) by (intros x; rewrite !in_app_iff; cbn; tauto).
      rewrite !E. tauto. }
    destruct (mget edec s m) as [s'|] eqn:Hg; apply Hend.
    - apply mget_In in Hg. apply Hm in Hg. destruct Hg as (E & Hs' & Hc). split; [apply mdel_NoDup, Hk|]. intros k x. rewrite mdel_In, Hm. cbn [fst In]. split.
      + intros ((-> & Hx & Hc') & Hne). split; [reflexivity|]. split; [right; exact Hx|]. destruct Hc' as [Hc'|Hc']; [left; exact Hc'|right].
        intros [Hq|Hq]; [|exact (Hc' Hq)]. apply Hne. symmetry. exact Hq.
      + intros (-> & [<-|Hx] & Hc').
        * exfalso. destruct Hc' as [Hc'|Hc']; [|apply Hc'; right; rewrite E, opp_opp; exact Hs']. apply Hns. rewrite <- Hc', E, opp_opp. exact Hs'.
        * split; [split; [reflexivity|]; split; [exact Hx|]|]; destruct Hc' as [Hc'|Hc']; [left; exact Hc'|right; tauto| |].
          -- intros Hq. apply Hns. rewrite <- Hq, Hc'. exact Hx.
          -- intros Hq. apply Hc'. left. symmetry. exact Hq.
    - apply mget_None in Hg. split; [apply mset_NoDup, Hk|]. intros k x. rewrite mset_In. cbn [fst In]. rewrite Hm. split.
      + intros [Hq|((-> & Hx & Hc) & Hne)].
        * injection Hq as -> ->. split; [reflexivity|]. split; [left; reflexivity|]. destruct (edec (opposite s) s) as [Es|Es]; [left; exact Es|right].
          intros [Hq|Hq]; [apply Es; symmetry; exact Hq|]. apply Hg. apply in_map_iff. exists (s, opposite s). split; [reflexivity|]. apply Hm. rewrite opp_opp. auto.
        * split; [reflexivity|]. split; [right; exact Hx|]. destruct Hc as [Hc|Hc]; [left; exact Hc|right]. intros [Hq|Hq]; [|exact (Hc Hq)].
          apply Hg. apply in_map_iff. exists (s, x). split; [reflexivity|]. apply Hm. split; [exact Hq|]. auto.
      + intros (-> & [<-|Hx] & Hc); [left; reflexivity|]. right. split; [split; [reflexivity|]; split; [exact Hx|]; destruct Hc as [Hc|Hc]; [left; exact Hc|right; tauto]|].
        intros Hq. assert (Hxs : x = s) by (rewrite <- (opp_opp x), Hq, opp_opp; reflexivity). subst x. contradiction.
  Qed.

  (** C70 *)
  Lemma hull_edges_spec : forall (H : HashOrder) p (ts : list triangle) e,
    In e (hull_edges H p ts) <-> some_side ts e /\ (flip e = e \/ ~ some_side ts (flip e)).
  Proof.
    intros H p ts e. unfold hull_edges. set (l := ho H p _ (hset edec (flat_map inner_edges ts))).
    assert (Hl : forall x, In x l <-> exists t, In t ts /\ side_of x t).
    { intros x. unfold l. rewrite ho_In, hset_In, in_flat_map. split; intros (t & Ht & Hs); exists t; (split; [exact Ht|]); apply side_of_inner; exact Hs. }
    assert (Hn : NoDup (l ++ [])) by (rewrite app_nil_r; apply (Permutation_NoDup (ho_perm H p _ _)), hset_NoDup).
    assert (U0 : unmatched [] []) by (split; [constructor|]; cbn; tauto).
    assert (Hf : flip e = opposite e) by (destruct e; reflexivity). rewrite Hf.
    destruct (hull_loop_unmatched l [] [] Hn U0) as [_ U]. rewrite hset_In, in_map_iff. unfold some_side. rewrite <- !Hl. split.
    - intros ([k s] & E & Hi). cbn [snd] in E. subst s. apply U in Hi. rewrite app_nil_r in Hi. exact (conj (proj1 (proj2 Hi)) (proj2 (proj2 Hi))).
    - intros [H1 H2]. exists (opposite e, e). split; [reflexivity|]. apply U. rewrite app_nil_r. auto.
  Qed.

  (** ** Removing collinear vertices *)

  Definition turn (l : list vertex) (d : vertex) (j : nat) : bool :=
    negb (orient_eqb (orientation (nth j l d) (nth (S j) l d) (nth (S (S j)) l d)) Colinear).

  Lemma middles_filter : forall (l : list vertex) d,
    noncolinear_middles l = map (fun j => nth (S j) l d) (filter (turn l d) (seq 0 (length l - 2))).
  Proof.
    intros l d. induction l as [|v1 l IH]; [reflexivity|]. destruct l as [|v2 l]; [reflexivity|].
    destruct l as [|v3 l]; [reflexivity|].
    assert (E : map (fun j => nth (S j) (v1 :: v2 :: v3 :: l) d) (filter (turn (v1 :: v2 :: v3 :: l) d) (seq 1 (length l))) =
                noncolinear_middles (v2 :: v3 :: l)).
    { rewrite IH. cbn [length]. replace (S (S (length l)) - 2) with (length l) by lia. rewrite <- seq_shift.
      generalize (seq 0 (length l)). intros js. induction js as [|j js IHj]; [reflexivity|]. cbn [map filter].
      change (turn (v1 :: v2 :: v3 :: l) d (S j)) with (turn (v2 :: v3 :: l) d j).
      destruct (turn (v2 :: v3 :: l) d j); cbn [map]; rewrite IHj; reflexivity. }
    change (noncolinear_middles (v1 :: v2 :: v3 :: l)) with
      (if negb (orient_eqb (orientation v1 v2 v3) Colinear) then v2 :: noncolinear_middles (v2 :: v3 :: l)
       else noncolinear_middles (v2 :: v3 :: l)).
    cbn [length]. replace (S (S (S (length l))) - 2) with (S (length l)) by lia. cbn [seq filter].
    unfold turn at 1. cbn [nth]. rewrite <- E. destruct (negb (orient_eqb (orientation v1 v2 v3) Colinear)); reflexivity.
  Qed.

  Lemma increasing_seq : forall (f : nat -> bool) n a, increasing (filter f (seq a n)) /\
    forall i, In i (filter f (seq a n)) -> a <= i.
  Proof.
    intros f n. induction n as [|n IH]; intros a; [split; [exact I|intros i []]|]. cbn [seq filter]. destruct (IH (S a)) as [I1 I2].
    split.
    - destruct (f a); [|exact I1]. cbn [increasing]. destruct (filter f (seq (S a) n)) as [|j js] eqn:E; [exact I|]. split; [|exact I1].
      specialize (I2 j (or_introl eq_refl)). lia.
    - intros i. destruct (f a); [intros [<-|Hi]; [lia|]|intros Hi]; specialize (I2 i Hi); lia.
  Qed.

  Lemma increasing_shift : forall ks, increasing ks -> increasing (map S ks).
  Proof.
    intros ks. induction ks as [|i [|j ks] IH]; intros Hk; [exact I|exact I|]. destruct Hk as [H1 H2]. split; [lia|]. exact (IH H2).
  Qed.

  Lemma orient_eqb_not : forall o, negb (orient_eqb o Colinear) = true <-> o <> Colinear.
  Proof. intros []; cbn; split; congruence. Qed.

  Lemma nth_ends : forall (l : list vertex) h d i, i < length l -> hd_error l = Some h ->
    nth i (last l h :: l ++ [h]) d = nth ((i + (length l - 1)) mod length l) l d /\
    nth (S i) (last l h :: l ++ [h]) d = nth i l d /\
    nth (S (S i)) (last l h :: l ++ [h]) d = nth ((i + 1) mod length l) l d.
  Proof.
    intros l h d i Hi Hh. set (n := length l) in *. assert (Hl : last l h = nth (n - 1) l d).
    { unfold n. clear Hi n. destruct l as [|x l]; [discriminate|]. clear Hh. revert x. induction l as [|y l IH]; intros x; [reflexivity|].
      change (last (x :: y :: l) h) with (last (y :: l) h). rewrite IH. cbn [length]. replace (S (S (length l)) - 1) with (S (S (length l) - 1)) by lia. reflexivity. }
    assert (H0 : h = nth 0 l d) by (destruct l; [discriminate|]; injection Hh as ->; reflexivity).
    split; [|split].
    - destruct i as [|i].
      + cbn [nth]. rewrite Nat.mod_small by lia. exact Hl.
      + cbn [nth]. rewrite app_nth1 by (fold n; lia).
        replace (S i + (n - 1)) with (i + 1 * n) by lia. rewrite Nat.mod_add by lia. rewrite Nat.mod_small by lia. reflexivity.
    - cbn [nth]. apply app_nth1. exact Hi.
    - cbn [nth]. destruct (Nat.eq_dec (S i) n) as [E|E].
      + rewrite app_nth2 by (fold n; lia). fold n. rewrite E, Nat.sub_diag. cbn [nth]. replace (i + 1) with n by lia.
        rewrite Nat.mod_same by lia. exact H0.
      + rewrite app_nth1 by (fold n; lia). rewrite Nat.mod_small by lia. f_equal. lia.
  Qed.

  Lemma unwrap_closed : forall (l : list vertex) q, unwrap (new_closed l) = Ok q -> q = Poly l false /\ 3 <= length l.
  Proof.
    intros l q. unfold new_closed. destruct (Nat.ltb (length l) 3) eqn:E; [discriminate|]. apply Nat.ltb_ge in E. intros Hq. injection Hq as <-. auto.
  Qed.

  (** C71 *)
  Lemma minified_closed : forall (l : list vertex) q d, minified_noncolinear (Poly l false) = Ok q ->
    exists ks, increasing ks /\ (forall i, In i ks <-> i < length l /\ turns_at l d i) /\
      pverts q = map (fun i => nth i l d) ks /\ popened q = false /\ 3 <= length ks.
  Proof.
    intros l q d Hm. unfold minified_noncolinear in Hm. cbn [pverts popened] in Hm. apply bind_ok in Hm. destruct Hm as (h & Hh & Hm).
    apply unwrap_ok in Hh. apply unwrap_closed in Hm. destruct Hm as [-> Hlen]. cbn [app] in *. rewrite (middles_filter _ d) in *.
    replace (length (last l h :: l ++ [h]) - 2) with (length l) in * by (cbn [length]; rewrite app_length; cbn; lia).
    set (ks := filter (turn (last l h :: l ++ [h]) d) (seq 0 (length l))) in *. exists ks.
    assert (Hks : forall i, In i ks -> i < length l) by (intros i Hi; apply filter_In in Hi; destruct Hi as [Hi _]; apply in_seq in Hi; lia).
    split; [apply increasing_seq|]. split; [|split; [|split; [reflexivity|rewrite map_length in Hlen; exact Hlen]]].
    - intros i. unfold ks. rewrite filter_In, in_seq. unfold turns_at. cbn zeta. split.
      + intros [Hi Ht]. split; [lia|]. unfold turn in Ht. apply orient_eqb_not in Ht. destruct (nth_ends l h d i) as (E1 & E2 & E3); [lia|exact Hh|].
        rewrite E1, E2, E3 in Ht. exact Ht.
      + intros [Hi Ht]. split; [lia|]. unfold turn. apply orient_eqb_not. destruct (nth_ends l h d i) as (E1 & E2 & E3); [lia|exact Hh|].
        rewrite E1, E2, E3. exact Ht.
    - cbn [pverts]. apply map_ext_in. intros i Hi. apply (nth_ends l h d i (Hks i Hi) Hh).
  Qed.

  Lemma last_default : forall (l : list vertex) d d', l <> [] -> last l d = last l d'.
  Proof.
    intros l d d'. induction l as [|v l IH]; intros Hl; [congruence|]. destruct l as [|w l]; [reflexivity|].
    change (last (w :: l) d = last (w :: l) d'). apply IH. discriminate.
  Qed.

  Lemma minified_opened : forall (l : list vertex) q d, minified_noncolinear (Poly l true) = Ok q ->
    exists ks, increasing ks /\ (forall i, In i ks <-> turns_within l d i) /\
      pverts q = [hd d l] ++ map (fun i => nth i l d) ks ++ [last l d] /\ popened q = false /\ 1 <= length ks.
  Proof.
    intros l q d Hm. unfold minified_noncolinear in Hm. cbn [pverts popened] in Hm. apply bind_ok in Hm. destruct Hm as (h & Hh & Hm).
    apply unwrap_ok in Hh. apply unwrap_closed in Hm. destruct Hm as [-> Hlen]. cbn [app] in *. rewrite (middles_filter _ d) in *.
    set (js := filter (turn l d) (seq 0 (length l - 2))) in *. exists (map S js).
    split; [apply increasing_shift, increasing_seq|]. split; [|split; [|split; [reflexivity|]]].
    - intros i. rewrite in_map_iff. unfold turns_within. split.
      + intros (j & <- & Hj). apply filter_In in Hj. destruct Hj as [Hj Ht]. apply in_seq in Hj. split; [lia|]. split; [lia|].
        apply orient_eqb_not in Ht. replace (S j - 1) with j by lia. replace (S j + 1) with (S (S j)) by lia. exact Ht.
      + intros (Hp & Hi & Ht). exists (i - 1). split; [lia|]. apply filter_In. split; [apply in_seq; lia|]. unfold turn. apply orient_eqb_not.
        replace (S (i - 1)) with i by lia. replace (S i) with (i + 1) by lia. exact Ht.
    - cbn [pverts]. rewrite map_map. destruct l as [|v l]; [discriminate|]. injection Hh as ->. cbn [hd]. f_equal. f_equal. f_equal.
      apply last_default. discriminate.
    - rewrite map_length. cbn [length] in Hlen. rewrite app_length, map_length in Hlen. cbn in Hlen. lia.
  Qed.

  (** The call panics exactly when fewer than three vertices are left. *)
  Lemma minified_closed_panics : forall (l : list vertex) d, l <> [] ->
    (minified_noncolinear (Poly l false) = Panic <->
     exists ks, increasing ks /\ (forall i, In i ks <-> i < length l /\ turns_at l d i) /\ length ks < 3).
  Proof.
    intros l d Hne. destruct l as [|h l0] eqn:El; [congruence|]. rewrite <- El in *. clear Hne.
    assert (Hh : hd_error l = Some h) by (rewrite El; reflexivity).
    set (ks := filter (turn (last l h :: l ++ [h]) d) (seq 0 (length l))).
    assert (Hin : forall i, In i ks <-> i < length l /\ turns_at l d i).
    { intros i. unfold ks. rewrite filter_In, in_seq. unfold turns_at. cbn zeta. split.
      - intros [Hi Ht]. split; [lia|]. unfold turn in Ht. apply orient_eqb_not in Ht. destruct (nth_ends l h d i) as (E1 & E2 & E3); [lia|exact Hh|].
        rewrite E1, E2, E3 in Ht. exact Ht.
      - intros [Hi Ht]. split; [lia|]. unfold turn. apply orient_eqb_not. destruct (nth_ends l h d i) as (E1 & E2 & E3); [lia|exact Hh|].
        rewrite E1, E2, E3. exact Ht. }
    assert (Hn : NoDup ks) by (apply NoDup_filter, seq_NoDup).
    assert (Hrun : minified_noncolinear (Poly l false) = unwrap (new_closed (noncolinear_middles (last l h :: l ++ [h])))).
    { unfold minified_noncolinear. cbn [pverts popened]. rewrite Hh. reflexivity. }
    assert (Hlen : length (noncolinear_middles (last l h :: l ++ [h])) = length ks).
    { rewrite (middles_filter _ d), map_length. unfold ks. do 3 f_equal. cbn [length]. rewrite app_length. cbn. lia. }
    rewrite Hrun. unfold new_closed. rewrite Hlen. split.
    - intros Hp. exists ks. split; [apply increasing_seq|]. split; [exact Hin|]. destruct (Nat.ltb (length ks) 3) eqn:E; [|discriminate]. apply Nat.ltb_lt, E.
    - intros (ks' & _ & Hin' & Hlt). assert (Hle : length ks <= length ks') by (apply NoDup_incl_length; [exact Hn|]; intros i Hi; apply Hin', Hin, Hi).
      assert (E : Nat.ltb (length ks) 3 = true) by (apply Nat.ltb_lt; lia). rewrite E. reflexivity.
  Qed.
End Hull.
