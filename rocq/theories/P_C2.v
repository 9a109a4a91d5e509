(** P_C2.v — inserting a vertex in a constrained Delaunay mesh of the real plane:
    the triangles in conflict that are seen from the vertex form a tree, and
    joining the vertex to their border leaves a constrained Delaunay mesh. *)

From Coq Require Import Reals List ZArith Lra Lia Psatz Bool Permutation.
From Verif Require Import Base Arith Geometry Elements Polyline Procedures Triangulator ArithR Spec SpecR SpecD SpecP SpecC
  P_Base P_Trn P_Fuel P_Vertices P_Cavity P_Zone P_R1 P_R2 P_R5 P_R6 P_D1 P_D2 P_D3 P_D4 P_D5 P_Fill P_C1.
Import ListNotations.
Local Open Scope R_scope.

Lemma split_list : forall X (P : X -> Prop) (l : list X), NoDup l -> (forall x, In x l -> P x \/ ~ P x) ->
  exists yes no, NoDup yes /\ NoDup no /\ (forall x, In x yes <-> In x l /\ P x) /\ (forall x, In x no <-> In x l /\ ~ P x) /\ Permutation l (yes ++ no).
Proof.
  intros X P l Hn. induction Hn as [|x l Hx Hn IH]; intros Hd.
  - exists [], []. cbn. split; [constructor|]. split; [constructor|]. split; [tauto|]. split; [tauto|constructor].
  - destruct IH as (yes & no & N1 & N2 & I1 & I2 & Hp); [intros y Hy; apply Hd; right; exact Hy|].
    destruct (Hd x (or_introl eq_refl)) as [Px|Px].
    + exists (x :: yes), no. split; [constructor; [rewrite I1; tauto|exact N1]|]. split; [exact N2|]. split; [|split].
      * intros y. cbn [In]. rewrite I1. split; [intros [<-|[H1 H2]]; auto|intros [[<-|H1] H2]; auto].
      * intros y. cbn [In]. rewrite I2. split; [intros [H1 H2]; auto|intros [[<-|H1] H2]; [contradiction|auto]].
      * cbn. constructor. exact Hp.
    + exists yes, (x :: no). split; [exact N1|]. split; [constructor; [rewrite I2; tauto|exact N2]|]. split; [|split].
      * intros y. cbn [In]. rewrite I1. split; [intros [H1 H2]; auto|intros [[<-|H1] H2]; [contradiction|auto]].
      * intros y. cbn [In]. rewrite I2. split; [intros [<-|[H1 H2]]; auto|intros [[<-|H1] H2]; auto].
      * apply Permutation_cons_app, Hp.
Qed.

Lemma filter_len : forall X (f : X -> bool) l, (length (filter f l) <= length l)%nat.
Proof. intros X f l. induction l as [|x l IH]; [cbn; lia|]. cbn. destruct (f x); cbn; lia. Qed.

Lemma barred_sym : forall K a b, barred K a b -> barred K b a.
Proof. unfold barred. tauto. Qed.
Lemma barred_dec : forall K a b, {barred K a b} + {~ barred K a b}.
Proof.
  intros K a b. unfold barred. destruct (in_dec edec (a, b) K); [left; auto|]. destruct (in_dec edec (b, a) K); [left; auto|right; tauto].
Qed.
Lemma constrained_barred : forall K a b, is_constrained (A:=ArithR) K (a, b) = true <-> barred K a b.
Proof. intros K a b. unfold is_constrained, barred. rewrite orb_true_iff, !hmem_In, opposite_flip. cbn [flip fst snd]. tauto. Qed.

Section Mesh.
  Variables (S : list pnt) (K : list (edge ArithR)) (tr : mesh) (v : pnt).
  Hypothesis HC : constrained_delaunay S K tr.
  Hypothesis HR : resolved (v :: S).
  Hypothesis Hv : ~ In v S.
  (** The vertex is on no constrained edge. *)
  Hypothesis Hoff : forall a b, barred K a b -> ~ strictly_between a b v.

  Notation plain := (plainS S v HR).
  Notation noghost := (ghost_not_S S v HR).

  Lemma cexcl : forall t t' e, In t (tris tr) -> In t' (tris tr) -> side_of e t -> side_of e t' -> t = t'.
  Proof.
    intros t t' e Ht Ht' H1 H2. pose proof (cd_complete _ _ _ HC _ _ Ht H1). pose proof (cd_complete _ _ _ HC _ _ Ht' H2). congruence.
  Qed.
  Lemma cngv : forall w, In w S -> w <> gv.
  Proof. intros w Hw ->. exact (noghost Hw). Qed.
  Lemma cvgv : v <> gv.
  Proof. intros E. pose proof (rs_plain _ HR v (or_introl eq_refl)) as P. rewrite E in P. discriminate. Qed.

  (** A triangle seen from one of its plain sides. *)
  Lemma cview : forall t a b, In t (tris tr) -> side_of (a, b) t -> a <> gv -> b <> gv ->
    In a S /\ In b S /\ a <> b /\ ((exists c, In c S /\ looks t a b c /\ 0 < D a b c) \/ t = Tri a b gv).
  Proof.
    intros t a b Ht Hs Ga Gb. destruct (cd_shape _ _ _ HC t Ht) as [(x & y & z & -> & Hx & Hy & Hz & Hp)|(x & y & -> & Hx & Hy & Hn)].
    - destruct (D_neq _ _ _ Hp) as (N1 & N2 & N3).
      pose proof (D_rot x y z). pose proof (D_rot2 x y z).
      inversion Hs; subst; repeat (split; [solve [auto]|]); left; [exists z|exists x|exists y];
        (split; [assumption|]; split; [unfold looks; auto|lra]).
    - inversion Hs; subst; [|congruence|congruence]. repeat (split; [solve [auto]|]). right. reflexivity.
  Qed.
  Lemma csides3 : forall t, In t (tris tr) -> te1 t <> te2 t /\ te2 t <> te3 t /\ te3 t <> te1 t.
  Proof.
    intros t Ht. unfold te1, te2, te3. destruct (cd_shape _ _ _ HC t Ht) as [(x & y & z & -> & Hx & Hy & Hz & Hp)|(x & y & -> & Hx & Hy & Hn)]; cbn.
    - destruct (D_neq _ _ _ Hp) as (N1 & N2 & N3). repeat split; congruence.
    - pose proof (cngv x Hx). pose proof (cngv y Hy). repeat split; congruence.
  Qed.

  (** ** Solid triangles whose circle strictly contains [v] *)
  Definition zhit (t : tri) : Prop := In t (tris tr) /\ exists a b c, looks t a b c /\ In a S /\ In b S /\ In c S /\ 0 < D a b c /\ 0 < I a b c v.

  Lemma zread : forall t a b c, zhit t -> looks t a b c -> In a S /\ In b S /\ In c S /\ 0 < D a b c /\ 0 < I a b c v.
  Proof.
    intros t a b c [_ (x & y & z & Hl & Hx & Hy & Hz & Hp & Hi)] Hl'.
    pose proof (D_rot x y z). pose proof (D_rot2 x y z). pose proof (I_rot x y z v). pose proof (I_rot2 x y z v).
    destruct Hl as [-> |[-> | ->]]; destruct Hl' as [E|[E|E]]; injection E as -> -> ->; repeat (split; [assumption|]); try lra; split; lra.
  Qed.
  Lemma zside : forall t a b, zhit t -> side_of (a, b) t -> exists c, looks t a b c /\ In a S /\ In b S /\ In c S /\ 0 < D a b c /\ 0 < I a b c v.
  Proof.
    intros t a b Ht Hs. destruct (side_looks t a b Hs) as (c & Hl). exists c. split; [exact Hl|]. exact (zread t a b c Ht Hl).
  Qed.
  Lemma zhit_make : forall t a b c, In t (tris tr) -> looks t a b c -> In a S -> In b S -> In c S -> 0 < D a b c -> 0 < I a b c v -> zhit t.
  Proof. intros t a b c Ht Hl Ha Hb Hc Hp Hi. split; [exact Ht|]. exists a, b, c. auto 8. Qed.
  Lemma zhit_conf : forall t, zhit t -> is_conflicting t v = true.
  Proof.
    intros t Ht. pose proof Ht as [Hi (a & b & c & Hl & Ha & Hb & Hc & Hp & Hii)].
    exact (proj2 (proj2 (hit_solid S tr v HR t a b c Hi Hl Ha Hb Hc) Hii)).
  Qed.
  Lemma conf_zhit : forall t a b c, In t (tris tr) -> looks t a b c -> In a S -> In b S -> In c S -> 0 < D a b c -> is_conflicting t v = true -> zhit t.
  Proof.
    intros t a b c Ht Hl Ha Hb Hc Hp Hi. apply (zhit_make t a b c); auto. apply (hit_solid S tr v HR t a b c); auto. split; assumption.
  Qed.
  Lemma zhit_dec : forall t, In t (tris tr) -> zhit t \/ ~ zhit t.
  Proof.
    intros t Ht. destruct (cd_shape _ _ _ HC t Ht) as [(x & y & z & -> & Hx & Hy & Hz & Hp)|(x & y & -> & Hx & Hy & Hn)].
    - destruct (Rlt_dec 0 (I x y z v)) as [L|N]; [left; apply (zhit_make _ x y z); auto; left; reflexivity|]. right. intros Hz'.
      apply N. apply (zread _ x y z Hz'). left. reflexivity.
    - right. intros Hz. destruct (zread _ x y gv Hz) as (_ & _ & Hg & _); [left; reflexivity|]. exact (noghost Hg).
  Qed.

  Lemma clocal : forall t u a b c d, In t (tris tr) -> In u (tris tr) -> looks t a b c -> looks u b a d -> In a S -> In b S -> In c S -> In d S -> 0 < D a b c -> ~ barred K a b -> I a b c d <= 0.
  Proof.
    intros t u a b c d Ht Hu Lt Lu Ha Hbs Hc Hd Hp Hb. pose proof (looks_In S v HR t a b c Lt Ha Hbs Hc) as Gt. pose proof (looks_In S v HR u b a d Lu Hbs Ha Hd) as Gu.
    destruct (circumcenter_spec a b c) as [_ Hcc]. destruct Hcc as (o & _ & _ & H1 & H2 & _); [lra|].
    pose proof (cd_local _ _ _ HC a b c d t u (conj Ht Lt) (conj Hu Lu) Gt Gu Hb o H1 H2) as Hle.
    rewrite (incircle_power a b c d o H1 H2). apply mpn; lra.
  Qed.
  (** What is across an unconstrained side. *)
  Lemma across : forall t u a b, zhit t -> In u (tris tr) -> side_of (a, b) t -> side_of (b, a) u -> ~ barred K a b ->
    exists d, looks u b a d /\ In d S /\ 0 < D b a d.
  Proof.
    intros t u a b Ht Hu St Su Nb. destruct (zside t a b Ht St) as (c & _ & Ha & Hb & _).
    destruct (cview u b a Hu Su (cngv b Hb) (cngv a Ha)) as (_ & _ & _ & [(d & Hd & Lu & Pu)| ->]); [exists d; auto|].
    exfalso. apply Nb, barred_sym, (cd_outer _ _ _ HC), Hu.
  Qed.
  Lemma cross_in : forall t u a b, zhit t -> In u (tris tr) -> side_of (a, b) t -> side_of (b, a) u -> ~ barred K a b -> D a b v <= 0 -> zhit u.
  Proof.
    intros t u a b Ht Hu St Su Nb Hd. destruct (across t u a b Ht Hu St Su Nb) as (d & Lu & Hds & Pu).
    destruct (zside t a b Ht St) as (c & Lt & Ha & Hb & Hc & Hp & Hi). apply (zhit_make u b a d); auto.
    destruct (Rle_lt_or_eq_dec _ _ Hd) as [L|E].
    - pose proof (cross_power a b c d v) as Hx. pose proof (clocal t u a b c d (proj1 Ht) Hu Lt Lu Ha Hb Hc Hds Hp Nb) as Hl.
      assert (Q1 := mnn _ _ Hd Hl). assert (Q2 := spp _ _ Hi Pu). apply (div_gt _ (D a b c) Hp). lra.
    - apply chord_inside; [exact Pu|]. apply between_sym, (inside_chord a b c); auto.
  Qed.

  (** ** The zone: from which one climbs to the triangle of [v] *)
  Inductive zone : tri -> Prop :=
  | zone_top : forall t, zhit t -> (forall e, side_of e t -> ~ beyond v e) -> zone t
  | zone_up : forall t u a b, zhit t -> side_of (a, b) t -> beyond v (a, b) -> ~ barred K a b -> In u (tris tr) -> side_of (b, a) u -> zone u -> zone t.
  Definition crank (t : tri) : nat := rank S tr v t.

  Lemma zone_hit : forall t, zone t -> zhit t.
  Proof. intros t []; assumption. Qed.
  Lemma zone_in : forall t, zone t -> In t (tris tr).
  Proof. intros t Ht. apply zone_hit in Ht. apply Ht. Qed.

  Lemma cone : forall t e e', zhit t -> side_of e t -> side_of e' t -> beyond v e -> beyond v e' -> e = e'.
  Proof.
    intros t [a b] e' Ht Se Se' U U'. destruct (zside t a b Ht Se) as (c & Hl & _ & _ & _ & Hp & Hi).
    destruct (far_one v a b c Hp Hi (beyond_le _ _ _ U)) as [F1 F2]. apply (looks_sides t a b c Hl) in Se'.
    destruct Se' as [-> |[-> | ->]]; [reflexivity| |]; apply beyond_le in U'; lra.
  Qed.
  Lemma up_zone : forall t u a b, zone t -> side_of (a, b) t -> beyond v (a, b) -> In u (tris tr) -> side_of (b, a) u -> ~ barred K a b /\ zone u.
  Proof.
    intros t u a b Ht Se Hb Hu Su. destruct Ht as [t Hz Hn|t u' a' b' Hz Se' Hb' Nb' Hu' Su' Hzu]; [destruct (Hn _ Se Hb)|].
    pose proof (cone t _ _ Hz Se Se' Hb Hb') as E. injection E as <- <-. split; [exact Nb'|].
    replace u with u'; [exact Hzu|]. apply (cexcl _ _ (b, a)); auto.
  Qed.
  Lemma neq_side : forall t a b, zhit t -> side_of (a, b) t -> ~ coincide a b.
  Proof. intros t a b Ht Se. destruct (zside t a b Ht Se) as (c & _ & _ & _ & _ & Hp & _). exact (D_apart a b c Hp). Qed.
  (** Neighbours within the zone are not separated by a constrained edge. *)
  Lemma zone_open : forall t u a b, zone t -> zone u -> side_of (a, b) t -> side_of (b, a) u -> ~ barred K a b.
  Proof.
    intros t u a b Ht Hu St Su. destruct (beyond_one v a b (neq_side t a b (zone_hit t Ht) St)) as [B|B].
    - apply (up_zone t u a b); auto. apply zone_in, Hu.
    - intros N. apply barred_sym in N. revert N. apply (up_zone u t b a); auto. apply zone_in, Ht.
  Qed.
  Lemma clink : forall t u e, zone t -> zone u -> side_of e t -> side_of (flip e) u -> beyond v e \/ beyond v (flip e).
  Proof. intros t u [a b] Ht Hu St Su. cbn [flip fst snd]. apply beyond_one, (neq_side t a b (zone_hit t Ht) St). Qed.
  Lemma crank_lt : forall t u a b, zhit t -> zhit u -> side_of (a, b) t -> side_of (b, a) u -> ~ barred K a b -> beyond v (a, b) -> (crank u < crank t)%nat.
  Proof.
    intros t u a b Ht Hu St Su Nb B. destruct (zside t a b Ht St) as (c & Lt & Ha & Hb & Hc & Pt & It).
    destruct (zside u b a Hu Su) as (d & Lu & _ & _ & Hd & Pu & Iu).
    apply krank_lt; [apply Hu|]. rewrite (key_solid S v HR t a b c), (key_solid S v HR u b a d) by assumption. right. split; [reflexivity|]. cbn [fst snd].
    apply (rank_solid S v HR); auto. apply (clocal t u); auto; [apply Ht|apply Hu].
  Qed.
  Lemma crank_up : forall t u e, zone t -> zone u -> side_of e t -> side_of (flip e) u -> beyond v e -> (crank u < crank t)%nat.
  Proof.
    intros t u [a b] Ht Hu St Su B. cbn [flip fst snd] in Su. apply (crank_lt t u a b); auto using zone_hit. apply (zone_open t u); auto.
  Qed.

  Lemma beyond_side : forall t, zhit t -> (exists a b, side_of (a, b) t /\ beyond v (a, b)) \/ (forall e, side_of e t -> ~ beyond v e).
  Proof.
    intros t Ht. pose proof (proj2 Ht) as (a & b & c & Hl & _).
    pose proof (looks_sides t a b c Hl) as Hs.
    destruct (beyond_dec v (a, b)) as [B1|N1]; [left; exists a, b; split; [apply Hs; auto|exact B1]|].
    destruct (beyond_dec v (b, c)) as [B2|N2]; [left; exists b, c; split; [apply Hs; auto|exact B2]|].
    destruct (beyond_dec v (c, a)) as [B3|N3]; [left; exists c, a; split; [apply Hs; auto|exact B3]|].
    right. intros e Se. apply Hs in Se. destruct Se as [-> |[-> | ->]]; assumption.
  Qed.
  Lemma zone_dec : forall t, In t (tris tr) -> zone t \/ ~ zone t.
  Proof.
    assert (Hz : forall n t, (crank t < n)%nat -> zhit t -> zone t \/ ~ zone t).
    { induction n as [|n IH]; intros t Hn Ht; [lia|]. destruct (beyond_side t Ht) as [(a & b & Se & B)|Hno]; [|left; apply zone_top; assumption].
      destruct (cd_closed _ _ _ HC t (a, b) (proj1 Ht) Se) as (u & Hu & Su). cbn [flip fst snd] in Su.
      destruct (barred_dec K a b) as [Bb|Nb]; [right; intros Hz; apply (proj1 (up_zone t u a b Hz Se B Hu Su)), Bb|].
      pose proof (cross_in t u a b Ht Hu Se Su Nb (beyond_le _ _ _ B)) as Hhu.
      pose proof (crank_lt t u a b Ht Hhu Se Su Nb B) as Lr.
      destruct (IH u ltac:(lia) Hhu) as [Zu|Nu]; [left; apply (zone_up t u a b); assumption|].
      right. intros Hz. apply Nu. apply (up_zone t u a b Hz Se B Hu Su). }
    intros t Ht. destruct (zhit_dec t Ht) as [Hh|Hh]; [apply (Hz (Datatypes.S (crank t))); [lia|exact Hh]|].
    right. intros Hzt. apply Hh, zone_hit, Hzt.
  Qed.

  (** ** Solid triangles and winding numbers *)
  Definition solids : list tri := filter (fun t => negb (is_ghost t)) (tris tr).
  Definition twt (q : pnt) (t : tri) : Z := tsum (rc q) t.
  Lemma twt_eq : forall q a b c, twt q (Tri a b c) = tw a b c q.
  Proof. intros. unfold twt. rewrite tsum_eq. unfold tw. lia. Qed.
  Lemma solids_In : forall t, In t solids <-> In t (tris tr) /\ exists a b c, t = Tri a b c /\ In a S /\ In b S /\ In c S /\ 0 < D a b c.
  Proof.
    intros t. unfold solids. rewrite filter_In, negb_true_iff. split.
    - intros [Ht Hg]. split; [exact Ht|]. destruct (cd_shape _ _ _ HC t Ht) as [(x & y & z & -> & H)|(x & y & -> & _)]; [exists x, y, z; auto|].
      unfold is_ghost in Hg. cbn in Hg. rewrite !orb_true_r in Hg. discriminate.
    - intros [Ht (a & b & c & -> & Ha & Hb & Hc & Hp)]. split; [exact Ht|]. apply (looks_In S v HR (Tri a b c) a b c); auto. left. reflexivity.
  Qed.
  Lemma twt_range : forall q t, In t solids -> (0 <= twt q t <= 1)%Z.
  Proof.
    intros q t Ht. apply solids_In in Ht. destruct Ht as [_ (a & b & c & -> & _ & _ & _ & Hp)]. rewrite twt_eq.
    split; [apply tw_ccw, Hp|apply tw_le_one, Hp].
  Qed.
  Lemma overlap_same : forall q t t', In t solids -> In t' solids -> (0 < twt q t)%Z -> (0 < twt q t')%Z -> t = t'.
  Proof.
    intros q t t' Ht Ht' P P'. pose proof (twt_range q t Ht) as R1. pose proof (twt_range q t' Ht') as R2.
    pose proof Ht as Hs. pose proof Ht' as Hs'. unfold solids in Hs, Hs'. apply filter_In in Hs, Hs'. rewrite negb_true_iff in Hs, Hs'.
    apply solids_In in Ht, Ht'. destruct Ht as [_ (a & b & c & -> & _ & _ & _ & Hp)]. destruct Ht' as [_ (a' & b' & c' & -> & _ & _ & _ & Hp')].
    rewrite twt_eq in *. destruct (tw_overlap a b c a' b' c' q Hp Hp') as (z & Z1 & Z2); [lia|lia|].
    exact (cd_once _ _ _ HC a b c a' b' c' z Hs Hs' Z1 Z2).
  Qed.
  Lemma solids_one : forall q, (zsum (twt q) solids <= 1)%Z.
  Proof.
    intros q. apply zsum_le_one; [apply NoDup_filter, (cd_nodup _ _ _ HC)|intros t Ht; apply (twt_range q t Ht)|].
    intros t t' Ht Ht'. apply overlap_same; assumption.
  Qed.
  Lemma zhit_solid : forall t, zhit t -> In t solids.
  Proof.
    intros t Ht. apply solids_In. split; [apply Ht|]. destruct t as [a b c]. exists a, b, c. split; [reflexivity|].
    destruct (zread _ a b c Ht) as (Ha & Hb & Hc & Hp & _); [left; reflexivity|auto].
  Qed.
  Lemma top_one : forall t t', zhit t -> zhit t' -> (forall e, side_of e t -> ~ beyond v e) -> (forall e, side_of e t' -> ~ beyond v e) -> t = t'.
  Proof.
    assert (Kt : forall t, zhit t -> (forall e, side_of e t -> ~ beyond v e) -> twt v t = 1%Z).
    { intros [a b c] Ht Hn. rewrite twt_eq. destruct (zread _ a b c Ht) as (_ & _ & _ & Hp & _); [left; reflexivity|].
      apply (tw_ccw a b c v Hp); apply Hn; constructor. }
    intros t t' Ht Ht' Hn Hn'. apply (overlap_same v); [apply zhit_solid, Ht|apply zhit_solid, Ht'| |]; rewrite Kt by assumption; lia.
  Qed.
  Lemma call : forall R t0, In t0 R -> (forall r, In r R -> zone r) ->
    (forall r u e, In r R -> zone u -> side_of e r -> side_of (flip e) u -> In u R) -> forall t, zone t -> In t R.
  Proof.
    intros R t0 H0 Hz Hcl.
    assert (Htop : exists r, In r R /\ zhit r /\ forall e, side_of e r -> ~ beyond v e).
    { pose proof (Hz t0 H0) as Hz0. induction Hz0 as [t Ht Hn|t u a b Ht Se B Nb Hu Su Zu IH]; [exists t; auto|].
      apply IH. apply (Hcl t u (a, b)); auto. }
    destruct Htop as (r & Hr & Hhr & Hnr). intros t Ht. induction Ht as [t Ht Hn|t u a b Ht Se B Nb Hu Su Zu IH].
    - rewrite (top_one t r); auto.
    - apply (Hcl u t (b, a)); auto. apply (zone_up t u a b); auto.
  Qed.

  Lemma cdecide : forall (H : HashOrder) r e u fuel p, zone r -> side_of e r -> In u (tris tr) -> side_of (flip e) u ->
    exists m, may_insert_triangle H fuel p u v None [] = Ok m /\ (is_conflicting u v && negb (is_constrained K e) && m = true <-> zone u).
  Proof.
    intros H r [a b] u fuel p Hr Se Hu Su. cbn [flip fst snd] in Su. exists true. split; [apply may_insert_free|]. rewrite andb_true_r, andb_true_iff, negb_true_iff.
    assert (Ec : is_constrained K (a, b) = false <-> ~ barred K a b) by (rewrite <- constrained_barred; destruct (is_constrained K (a, b)); intuition congruence).
    rewrite Ec. split.
    - intros [Hi Nb]. destruct (across r u a b (zone_hit r Hr) Hu Se Su Nb) as (d & Lu & Hd & Pu).
      destruct (zside r a b (zone_hit r Hr) Se) as (c & _ & Ha & Hb & _).
      pose proof (conf_zhit u b a d Hu Lu Hb Ha Hd Pu Hi) as Hz.
      destruct (beyond_one v a b (neq_side r a b (zone_hit r Hr) Se)) as [B|B]; [apply (up_zone r u a b); auto|].
      apply (zone_up u r b a); auto; [intros Bb; apply Nb, barred_sym, Bb|apply zone_in, Hr].
    - intros Zu. split; [apply zhit_conf, zone_hit, Zu|]. exact (zone_open r u a b Hr Zu Se Su).
  Qed.

  (** ** The border *)
  Notation bd := (outline tr zone).
  Lemma bd_facts : forall a b, bd (a, b) -> In a S /\ In b S /\ a <> b /\ 0 < D a b v /\
    (~ barred K a b -> exists u d, In u (tris tr) /\ looks u b a d /\ In d S /\ 0 < D b a d /\ I b a d v <= 0).
  Proof.
    intros a b [(t & Ht & St) (u & Hu & Su & Nu)]. cbn [flip fst snd] in Su. pose proof (zone_hit t Ht) as Hh.
    destruct (zside t a b Hh St) as (c & Lt & Ha & Hb & Hc & Hp & Hi). split; [exact Ha|]. split; [exact Hb|]. destruct (D_neq _ _ _ Hp) as (N1 & _). split; [exact N1|].
    assert (Nb' : ~ beyond v (a, b)) by (intros B; apply Nu, (up_zone t u a b); auto).
    assert (Pv : 0 < D a b v).
    { destruct (Rle_lt_or_eq_dec _ _ (not_beyond_ge _ _ _ Nb')) as [L|E]; [exact L|]. exfalso.
      destruct (barred_dec K a b) as [Bb|Bb].
      - apply (Hoff a b Bb). apply (inside_chord a b c); auto.
      - apply Nu. destruct (beyond_one v a b (neq_side t a b Hh St)) as [B|B]; [contradiction|].
        apply (zone_up u t b a); auto; [apply (cross_in t u a b); auto; lra|intros B'; apply Bb, barred_sym, B'|apply zone_in, Ht]. }
    split; [exact Pv|]. intros Bb. destruct (across t u a b Hh Hu St Su Bb) as (d & Lu & Hd & Pu). exists u, d. repeat (split; [assumption|]).
    apply Rnot_lt_le. intros L. apply Nu. apply (zone_up u t b a); auto; [apply (zhit_make u b a d); auto|left; rewrite D_swap; lra|intros B'; apply Bb, barred_sym, B'|apply zone_in, Ht].
  Qed.
  Lemma bd_new : forall a b, bd (a, b) -> new_triangle (a, b) v = Tri a b v.
  Proof.
    intros a b Hb. destruct (bd_facts a b Hb) as (Ha & Hb' & _). unfold new_triangle, ev1, ev2. cbn [fst snd]. rewrite (plain a Ha), (plain b Hb'). reflexivity.
  Qed.
  Lemma cold : forall t, In t (tris tr) -> ~ corner_of v t.
  Proof.
    pose proof cvgv as Gv. intros t Ht Hc. destruct (cd_shape _ _ _ HC t Ht) as [(x & y & z & -> & Hx & Hy & Hz & Hp)|(x & y & -> & Hx & Hy & Hn)];
      inversion Hc; subst; first [contradiction | congruence].
  Qed.
  Lemma cfresh : forall e x, bd e -> side_of x (new_triangle e v) -> x = e \/ forall t, In t (tris tr) -> ~ side_of x t.
  Proof.
    intros [p q] x He Sx. rewrite (bd_new p q He) in Sx. inversion Sx; subst; [auto| |]; right; intros t Ht St;
      apply (cold t Ht); [apply (side_corner2 _ _ St)|apply (side_corner1 _ _ St)].
  Qed.

  Section Lists.
    Variables (R Kp : list tri).
    Hypothesis NR : NoDup R.
    Hypothesis NK : NoDup Kp.
    Hypothesis InR : forall t, In t R <-> In t (tris tr) /\ zone t.
    Hypothesis InK : forall t, In t Kp <-> In t (tris tr) /\ ~ zone t.
    Hypothesis HP : Permutation (tris tr) (R ++ Kp).

    Lemma R_zone : forall t, In t R <-> zone t.
    Proof. intros t. rewrite InR. split; [tauto|]. intros Z. split; [apply zone_in, Z|exact Z]. Qed.
    Definition bord : list (edge ArithR) := rim (sides R).
    Definition cfan : list tri := map (fun e => new_triangle e v) bord.
    Lemma cbord_In : forall e, In e bord <-> bd e.
    Proof.
      intros e. unfold bord. rewrite rim_In, !sides_In. split.
      - intros [(t & Ht & St) Hn]. apply R_zone in Ht. split; [exists t; auto|].
        destruct (cd_closed _ _ _ HC t e (zone_in t Ht) St) as (u & Hu & Su). exists u. repeat (split; [assumption|]).
        intros Hh. apply Hn. exists u. rewrite R_zone. auto.
      - intros [(t & Ht & St) (u & Hu & Su & Nu)]. split; [exists t; rewrite R_zone; auto|]. intros (u' & Hu' & Su'). apply R_zone in Hu'.
        apply Nu. rewrite (cexcl u u' (flip e)); auto. apply zone_in, Hu'.
    Qed.
    Lemma cfan_In : forall t, In t cfan <-> exists a b, bd (a, b) /\ t = Tri a b v.
    Proof.
      intros t. unfold cfan. rewrite in_map_iff. split.
      - intros ([a b] & <- & He). apply cbord_In in He. exists a, b. rewrite (bd_new a b He). auto.
      - intros (a & b & He & ->). exists (a, b). rewrite (bd_new a b He), cbord_In. auto.
    Qed.
    Lemma R_sides_NoDup : NoDup (sides R).
    Proof.
      apply sides_NoDup; [exact NR| |].
      - intros t Ht. apply InR in Ht. destruct (csides3 t (proj1 Ht)) as (N1 & N2 & N3). apply nodup3; assumption.
      - intros t t' e Ht Ht' H1 H2. apply InR in Ht, Ht'. exact (cexcl t t' e (proj1 Ht) (proj1 Ht') H1 H2).
    Qed.
    Lemma cbord_sum : forall f, anti f -> zsum f bord = zsum (tsum f) R.
    Proof. intros f Hf. unfold bord. rewrite <- rim_sum, sides_sum; [reflexivity|exact Hf|exact R_sides_NoDup]. Qed.
    Lemma cfan_sum : forall f, anti f -> zsum (tsum f) cfan = zsum (tsum f) R.
    Proof.
      intros f Hf. unfold cfan. rewrite zsum_map. set (g := fun e : edge ArithR => (f e + f (snd e, v) - f (fst e, v))%Z).
      rewrite (zsum_ext _ _ g).
      - assert (Hg : anti g) by (intros [p q]; unfold g; pose proof (Hf (p, q)); cbn [flip fst snd] in *; lia).
        rewrite (cbord_sum g Hg). apply zsum_ext. intros [a b c] _. rewrite !tsum_eq. unfold g. cbn [fst snd]. lia.
      - intros [p q] Hb. apply cbord_In in Hb. rewrite (bd_new p q Hb), tsum_eq. unfold g. cbn [fst snd].
        pose proof (Hf (p, v)) as E. cbn [flip fst snd] in E. lia.
    Qed.

    (** The solid triangles after the insertion. *)
    Definition ksolid : list tri := filter (fun t => negb (is_ghost t)) Kp.
    Lemma solids_perm : Permutation solids (R ++ ksolid).
    Proof.
      apply NoDup_Permutation.
      - apply NoDup_filter, (cd_nodup _ _ _ HC).
      - apply nodup_app; [exact NR|apply NoDup_filter, NK|]. intros t Ht Hk. unfold ksolid in Hk. apply filter_In in Hk. rewrite InK in Hk. rewrite InR in Ht. tauto.
      - intros t. rewrite in_app_iff. unfold ksolid. rewrite filter_In, InK, InR. unfold solids. rewrite filter_In. split.
        + intros [Ht Hg]. destruct (zone_dec t Ht); [left; auto|right; auto].
        + intros [[Ht Hz]|[[Ht Hz] Hg]]; [|auto]. apply zone_hit, zhit_solid in Hz. unfold solids in Hz. apply filter_In in Hz. exact Hz.
    Qed.
    Lemma new_total : forall q, zsum (twt q) (cfan ++ ksolid) = zsum (twt q) solids.
    Proof.
      intros q. rewrite (zsum_perm _ _ _ _ solids_perm), !zsum_app. f_equal. apply (cfan_sum (rc q)). exact (rc_anti q).
    Qed.
    Lemma new_range : forall q t, In t (cfan ++ ksolid) -> (0 <= twt q t <= 1)%Z.
    Proof.
      intros q t Ht. apply in_app_or in Ht. destruct Ht as [Ht|Ht].
      - apply cfan_In in Ht. destruct Ht as (a & b & Hb & ->). destruct (bd_facts a b Hb) as (_ & _ & _ & Hp & _). rewrite twt_eq.
        split; [apply tw_ccw, Hp|apply tw_le_one, Hp].
      - apply twt_range. apply (Permutation_in _ (Permutation_sym solids_perm)), in_or_app. auto.
    Qed.
    Lemma new_once : forall q t t', In t (cfan ++ ksolid) -> In t' (cfan ++ ksolid) -> twt q t = 1%Z -> twt q t' = 1%Z -> t = t'.
    Proof.
      intros q t t' Ht Ht' P P'. destruct (tdec t t') as [E|N]; [exact E|]. exfalso.
      pose proof (solids_one q) as L. rewrite <- new_total in L.
      assert (2 <= zsum (twt q) (cfan ++ ksolid))%Z; [|lia]. apply (zsum_ge_two _ _ _ t t'); auto; try lia. intros z Hz. apply new_range, Hz.
    Qed.
    Lemma fan_shared : forall p q a b a' b' c c', bd (a, b) -> bd (a', b') -> looks (Tri a b v) p q c -> looks (Tri a' b' v) p q c' ->
      0 < D p q c -> 0 < D p q c' -> Tri a b v = Tri a' b' v.
    Proof.
      intros p q a b a' b' c c' Ht Ht' Hl Hl' Hp Hp'. destruct (common_side p q c c' Hp Hp') as (z & (Z1 & Z2 & Z3) & (Z1' & Z2' & Z3')).
      assert (Kk : forall x y w p q c, looks (Tri x y w) p q c -> 0 < D p q c -> 0 < D p q z -> 0 < D q c z -> 0 < D c p z -> tw x y w z = 1%Z).
      { clear. intros x y w p q c Hl Hp H1 H2 H3. pose proof (inside_tw p q c z Hp H1 H2 H3) as E.
        destruct Hl as [Et|[Et|Et]]; injection Et as -> -> ->; [exact E|rewrite tw_rot; exact E|rewrite (tw_rot q c p), (tw_rot p q c); exact E]. }
      apply (new_once z).
      - apply in_or_app. left. apply cfan_In. eauto.
      - apply in_or_app. left. apply cfan_In. eauto.
      - rewrite twt_eq. apply (Kk a b v p q c); assumption.
      - rewrite twt_eq. apply (Kk a' b' v p q c'); assumption.
    Qed.
    Lemma fan_end : forall a a' b, bd (a, b) -> bd (a', b) -> a = a'.
    Proof.
      intros a a' b H1 H2. destruct (bd_facts a b H1) as (_ & _ & _ & P & _). destruct (bd_facts a' b H2) as (_ & _ & _ & P' & _).
      assert (E : Tri a b v = Tri a' b v); [|injection E as ->; reflexivity].
      apply (fan_shared b v a b a' b a a'); auto; [right; right; reflexivity|right; right; reflexivity|rewrite D_rot; exact P|rewrite D_rot; exact P'].
    Qed.
    Lemma fan_start : forall a b b', bd (a, b) -> bd (a, b') -> b = b'.
    Proof.
      intros a b b' H1 H2. destruct (bd_facts a b H1) as (_ & _ & _ & P & _). destruct (bd_facts a b' H2) as (_ & _ & _ & P' & _).
      assert (E : Tri a b v = Tri a b' v); [|injection E as ->; reflexivity].
      apply (fan_shared v a a b a b' b b'); auto; [right; left; reflexivity|right; left; reflexivity|rewrite D_rot2; exact P|rewrite D_rot2; exact P'].
    Qed.
    Lemma cnew : forall e e' x, bd e -> bd e' -> side_of x (new_triangle e v) -> side_of x (new_triangle e' v) -> new_triangle e v = new_triangle e' v.
    Proof.
      intros [a b] [a' b'] x He He'. rewrite (bd_new a b He), (bd_new a' b' He'). intros S1 S2.
      destruct (bd_facts a b He) as (Ha & Hb & _). destruct (bd_facts a' b' He') as (Ha' & Hb' & _).
      inversion S1; subst; inversion S2; subst; try contradiction; try reflexivity.
      - rewrite (fan_end a a' b' He He'). reflexivity.
      - rewrite (fan_start a' b b' He He'). reflexivity.
    Qed.

    (** *** Next and previous border edges *)
    Lemma cind_zero : forall x, zsum (fun e : edge ArithR => (ind x (snd e) - ind x (fst e))%Z) bord = 0%Z.
    Proof.
      intros x. rewrite (cbord_sum _ (ind_anti x)). rewrite (zsum_ext _ _ (fun _ => 0%Z)).
      - clear. induction R as [|t l IH]; [reflexivity|]. rewrite zsum_cons, IH. reflexivity.
      - intros [a b c] _. rewrite tsum_eq. cbn [fst snd]. lia.
    Qed.
    Lemma bd_next : forall p q, bd (p, q) -> exists r, bd (q, r).
    Proof.
      intros p q Hb. destruct (in_dec vdec q (map fst bord)) as [Hi|Hn].
      - apply in_map_iff in Hi. destruct Hi as ([x r] & E & Hr). cbn in E. subst x. exists r. apply cbord_In, Hr.
      - exfalso. pose proof (cind_zero q) as Z.
        assert (1 <= zsum (fun e : edge ArithR => (ind q (snd e) - ind q (fst e))%Z) bord)%Z; [|lia].
        apply (zsum_one _ _ _ (p, q)).
        + intros [x y] Hx. cbn [fst snd]. unfold ind. destruct (vdec q x) as [E|_]; [|destruct (vdec q y); lia].
          exfalso. apply Hn. apply in_map_iff. exists (x, y). auto.
        + apply cbord_In, Hb.
        + cbn [fst snd]. unfold ind. destruct (vdec q q); [|congruence]. destruct (vdec q p) as [E|_]; [|lia].
          subst q. destruct (bd_facts p p Hb) as (_ & _ & N & _). congruence.
    Qed.
    Lemma bd_prev : forall p q, bd (p, q) -> exists o, bd (o, p).
    Proof.
      intros p q Hb. destruct (in_dec vdec p (map snd bord)) as [Hi|Hn].
      - apply in_map_iff in Hi. destruct Hi as ([o x] & E & Hr). cbn in E. subst x. exists o. apply cbord_In, Hr.
      - exfalso. pose proof (cind_zero p) as Z. pose proof (zsum_opp _ (fun e : edge ArithR => (ind p (snd e) - ind p (fst e))%Z) bord) as Zo. rewrite Z in Zo.
        assert (1 <= zsum (fun e : edge ArithR => (- (ind p (snd e) - ind p (fst e)))%Z) bord)%Z; [|lia].
        apply (zsum_one _ _ _ (p, q)).
        + intros [x y] Hx. cbn [fst snd]. unfold ind. destruct (vdec p y) as [E|_]; [|destruct (vdec p x); lia].
          exfalso. apply Hn. apply in_map_iff. exists (x, y). auto.
        + apply cbord_In, Hb.
        + cbn [fst snd]. unfold ind. destruct (vdec p p); [|congruence]. destruct (vdec p q) as [E|_]; [|lia].
          subst q. destruct (bd_facts p p Hb) as (_ & _ & N & _). congruence.
    Qed.

    (** Every corner of the zone is on the border. *)
    Lemma ccorner_sides : forall (t : tri) w, In t (tris tr) -> corner_of w t -> exists x y, side_of (w, x) t /\ side_of (y, w) t /\ (w, x) <> (y, w).
    Proof.
      intros t w Ht Hc. destruct (csides3 t Ht) as (N1 & N2 & N3). unfold te1, te2, te3 in *. inversion Hc; subst; cbn in *.
      - exists b, c. repeat split; [constructor|constructor|congruence].
      - exists c, a. repeat split; [constructor|constructor|congruence].
      - exists a, b. repeat split; [constructor|constructor|congruence].
    Qed.
    Lemma bd_at : forall t w, zone t -> corner_of w t -> exists e, bd e /\ (w = fst e \/ w = snd e).
    Proof.
      intros t w Ht Hc. set (P := fun u : tri => if in_dec vdec w (tverts u) then true else false).
      assert (HPw : forall u, P u = true <-> corner_of w u).
      { intros u. unfold P. rewrite corner_of_tverts. destruct (in_dec vdec w (tverts u)); intuition congruence. }
      destruct (max_rank S tr v P R) as (m & Hm & Pm & Hmax); [exists t; rewrite R_zone, HPw; auto|]. apply R_zone in Hm. apply HPw in Pm.
      destruct (ccorner_sides m w (zone_in m Hm) Pm) as (x & y & S1 & S2 & Hne).
      destruct (cd_closed _ _ _ HC m (w, x) (zone_in m Hm) S1) as (u1 & Hu1 & Su1). destruct (cd_closed _ _ _ HC m (y, w) (zone_in m Hm) S2) as (u2 & Hu2 & Su2).
      destruct (zone_dec u1 Hu1) as [C1|C1].
      2:{ exists (w, x). split; [|auto]. split; [exists m; auto|]. exists u1. auto. }
      destruct (zone_dec u2 Hu2) as [C2|C2].
      2:{ exists (y, w). split; [|auto]. split; [exists m; auto|]. exists u2. auto. }
      exfalso. apply Hne. apply (cone m); auto using zone_hit.
      - destruct (clink m u1 (w, x) Hm C1 S1 Su1) as [U|U]; [exact U|]. exfalso.
        assert (L : (crank m < crank u1)%nat) by (apply (crank_up u1 m (flip (w, x))); auto).
        assert (L' : (crank u1 <= crank m)%nat) by (apply Hmax; [apply R_zone, C1|apply HPw; exact (side_corner2 _ _ Su1)]). lia.
      - destruct (clink m u2 (y, w) Hm C2 S2 Su2) as [U|U]; [exact U|]. exfalso.
        assert (L : (crank m < crank u2)%nat) by (apply (crank_up u2 m (flip (y, w))); auto).
        assert (L' : (crank u2 <= crank m)%nat) by (apply Hmax; [apply R_zone, C2|apply HPw; exact (side_corner1 _ _ Su2)]). lia.
    Qed.

    (** *** Local Delaunay property around the new vertex *)
    Lemma zone_next : forall r y x y', zone r -> looks r y x y' -> ~ bd (x, y') -> exists r' y'', zone r' /\ looks r' y' x y''.
    Proof.
      intros r y x y' Hr Hl Hn. assert (Se : side_of (x, y') r) by (apply (looks_sides r y x y' Hl); auto).
      destruct (cd_closed _ _ _ HC r (x, y') (zone_in r Hr) Se) as (u & Hu & Su). cbn [flip fst snd] in Su.
      destruct (zone_dec u Hu) as [Zu|Nu]; [|exfalso; apply Hn; split; [exists r; auto|exists u; auto]].
      destruct (side_looks u y' x Su) as (y'' & Lu). exists u, y''. auto.
    Qed.
    Lemma zone_local : forall r r' y x y' y'', zone r -> zone r' -> looks r y x y' -> looks r' y' x y'' -> I y x y' y'' <= 0.
    Proof.
      intros r r' y x y' y'' Hr Hr' L L'. destruct (zread r y x y' (zone_hit r Hr) L) as (Hy & Hx & Hy' & Hp & _).
      destruct (zread r' y' x y'' (zone_hit r' Hr') L') as (_ & _ & Hy'' & Hp' & _).
      assert (L2 : looks r x y' y) by (unfold looks in *; tauto).
      assert (Nb : ~ barred K x y') by (apply (zone_open r r'); auto; [apply (looks_sides r y x y' L); auto|apply (looks_sides r' y' x y'' L'); auto]).
      rewrite <- (I_rot y x y' y''). apply (clocal r r'); auto using zone_in. rewrite (D_rot y x y'). exact Hp.
    Qed.
    Lemma far_side : forall p x, bd (p, x) -> forall n r y y', (crank r < n)%nat -> zone r -> looks r y x y' ->
      0 <= D x v y -> 0 <= D x y p -> chord (hh p x v) x y y' p <= 0 ->
      exists r1 y1 y1', zone r1 /\ looks r1 y1 x y1' /\ ~ beyond v (x, y1') /\ chord (hh p x v) x y1 y1' p <= 0.
    Proof.
      intros p x Hb. destruct (bd_facts p x Hb) as (_ & _ & _ & Pv & _). rewrite <- (D_rot p x v) in Pv.
      induction n as [|n IH]; intros r y y' Hn Hr Hl H1 H2 H3; [lia|].
      destruct (beyond_dec v (x, y')) as [B|B]; [|exists r, y, y'; auto].
      assert (Nbd : ~ bd (x, y')). { intros Hb'. destruct (bd_facts x y' Hb') as (_ & _ & _ & P & _). apply beyond_le in B. lra. }
      destruct (zone_next r y x y' Hr Hl Nbd) as (r' & y'' & Hr' & Hl').
      pose proof (zone_local r r' y x y' y'' Hr Hr' Hl Hl') as Loc.
      destruct (zread r y x y' (zone_hit r Hr) Hl) as (_ & _ & _ & Hp & _). destruct (zread r' y' x y'' (zone_hit r' Hr') Hl') as (_ & _ & _ & Hp' & _).
      pose proof (beyond_le _ _ _ B) as Bv.
      assert (E1 : D x y' y = D y x y') by (apply (D_rot y x y')). assert (E2 : D x y'' y' = D y' x y'') by (apply (D_rot y' x y'')).
      assert (Lr : (crank r' < crank r)%nat).
      { apply (crank_up r r' (x, y')); auto; [apply (looks_sides r y x y' Hl); auto|apply (looks_sides r' y' x y'' Hl'); auto]. }
      assert (S1 : D x v y' = - D x y' v) by (unfold area2; ring).
      assert (S2 : D x p y = - D x y p) by (unfold area2; ring).
      assert (S3 : D x p y' = - D x y' p) by (unfold area2; ring).
      assert (Q : D x y' p * D x v y = D x y' v * D x p y + D x y' y * D x v p) by (unfold area2; ring).
      assert (Qa : 0 <= D x y' v * D x p y) by (apply mnn; lra). assert (Qb : 0 < D x y' y * D x v p) by (apply spp; lra).
      assert (H2' : 0 <= D x y' p).
      { apply Rnot_lt_le. intros L. assert (Qc := mnp (D x y' p) (D x v y) (Rlt_le _ _ L) H1). lra. }
      apply (IH r' y' y''); auto; [lia|lra|].
      pose proof (chord_step (hh p x v) x y y' y'' p) as St. rewrite (chord_lift p x v y y' y'') in St.
      assert (Qd : 0 <= D x p y' * (D x v p * I y x y' y'')) by (apply mnn; [lra|apply mpn; lra]).
      assert (Qe : chord (hh p x v) x y y' p * D x y'' y' <= 0) by (apply mnp; lra).
      replace (hh p x v y'' * D x y' y + D x v p * I y x y' y'' - hh p x v y'' * D x y' y) with (D x v p * I y x y' y'') in St by ring.
      apply Rnot_lt_le. intros L. assert (Qf := spp _ (D x y' y) L). lra.
    Qed.
    Lemma near_side : forall x n r y y', (length (tris tr) < n + crank r)%nat -> (crank r <= length (tris tr))%nat -> zone r -> looks r y x y' -> ~ beyond v (x, y') ->
      exists q, bd (x, q) /\ 0 <= D x q y' /\ I y x y' q <= 0.
    Proof.
      intros x. induction n as [|n IH]; intros r y y' Hn Hle Hr Hl B; [lia|].
      assert (Dec : bd (x, y') \/ ~ bd (x, y')).
      { assert (Se : side_of (x, y') r) by (apply (looks_sides r y x y' Hl); auto).
        destruct (cd_closed _ _ _ HC r (x, y') (zone_in r Hr) Se) as (u & Hu & Su).
        destruct (zone_dec u Hu) as [Zu|Nu]; [right|left; split; [exists r; auto|exists u; auto]].
        intros [_ (u' & Hu' & Su' & Nu')]. apply Nu'. rewrite (cexcl u' u (flip (x, y'))); auto. }
      destruct Dec as [Hb|Nb].
      { exists y'. split; [exact Hb|]. split; [unfold area2; lra|]. rewrite I_c. lra. }
      destruct (zone_next r y x y' Hr Hl Nb) as (r' & y'' & Hr' & Hl').
      pose proof (zone_local r r' y x y' y'' Hr Hr' Hl Hl') as Loc.
      destruct (zread r y x y' (zone_hit r Hr) Hl) as (_ & _ & _ & Hp & _). destruct (zread r' y' x y'' (zone_hit r' Hr') Hl') as (_ & _ & _ & Hp' & _).
      assert (Sr : side_of (x, y') r) by (apply (looks_sides r y x y' Hl); auto).
      assert (Sr' : side_of (y', x) r') by (apply (looks_sides r' y' x y'' Hl'); auto).
      assert (B' : beyond v (y', x)).
      { destruct (clink r r' (x, y') Hr Hr' Sr Sr') as [U|U]; [contradiction|exact U]. }
      assert (B'' : ~ beyond v (x, y'')).
      { intros U. assert (E : (y', x) = (x, y'')) by (apply (cone r'); auto using zone_hit; apply (looks_sides r' y' x y'' Hl'); auto).
        injection E as -> _. revert Hp'. unfold area2. lra. }
      assert (Lr : (crank r < crank r')%nat) by (apply (crank_up r' r (y', x)); auto).
      assert (Hle' : (crank r' <= length (tris tr))%nat) by apply filter_len.
      destruct (IH r' y' y'') as (q & Hq & Q1 & Q2); auto; [lia|].
      exists q. split; [exact Hq|]. destruct (bd_facts x q Hq) as (_ & _ & _ & Pq & _).
      pose proof (beyond_le _ _ _ B') as Bv. pose proof (not_beyond_ge _ _ _ B'') as Bv'.
      assert (E1 : D x y' y = D y x y') by (apply (D_rot y x y')). assert (E2 : D x y'' y' = D y' x y'') by (apply (D_rot y' x y'')).
      assert (S1 : D x y' v = - D y' x v) by (unfold area2; ring).
      assert (Q : D x q y' * D x y'' v = D x q y'' * D x y' v + D x q v * D x y'' y') by (unfold area2; ring).
      assert (Qa : 0 <= D x q y'' * D x y' v) by (apply mpp; lra). assert (Qb : 0 < D x q v * D x y'' y') by (apply spp; lra).
      assert (H2' : 0 <= D x q y').
      { apply Rnot_lt_le. intros L. assert (Qc := mnp (D x q y') (D x y'' v) (Rlt_le _ _ L) Bv'). lra. }
      split; [exact H2'|].
      assert (St : I y x y' q * D x y'' y' = I y' x y'' q * D x y' y + D x q y' * I y x y' y'').
      { unfold incircle, Rdet4, Rdet3, area2. ring. }
      assert (Qd := mpn _ _ H2' Loc). assert (Qe : I y' x y'' q * D x y' y <= 0) by (apply mnp; lra).
      apply Rnot_lt_le. intros L. assert (Qf := spp _ (D x y'' y') L). lra.
    Qed.
    Lemma fan_local : forall p x q, bd (p, x) -> bd (x, q) -> I p x v q <= 0.
    Proof.
      intros p x q Hb Hq. destruct (bd_facts p x Hb) as (_ & _ & _ & Pv & _). destruct (bd_facts x q Hq) as (_ & _ & _ & Pq & _).
      pose proof Hb as [(r & Hr & Sr) _]. destruct (side_looks r p x Sr) as (y' & Hl).
      assert (E0 : D x v p = D p x v) by (apply (D_rot p x v)).
      destruct (far_side p x Hb (Datatypes.S (crank r)) r p y') as (r1 & y1 & y1' & Hr1 & Hl1 & B1 & C1); auto; [lra|unfold area2; lra| |].
      { rewrite chord_lift, hh_p, I_a. lra. }
      destruct (near_side x (Datatypes.S (length (tris tr))) r1 y1 y1') as (q' & Hq' & _ & C2); auto; [lia|apply filter_len|].
      rewrite <- (fan_start x q q' Hq Hq') in C2. clear q' Hq'.
      destruct (zread r1 y1 x y1' (zone_hit r1 Hr1) Hl1) as (_ & _ & _ & Hp1 & Hi1).
      assert (E1 : D x y1' y1 = D y1 x y1') by (apply (D_rot y1 x y1')).
      apply Rnot_lt_le. intros L.
      pose proof (chord_three (hh p x v) x y1 y1' p v q) as T. rewrite (chord_lift p x v y1 y1' v), (chord_lift p x v y1 y1' q), hh_v in T.
      assert (Qa : 0 < D x v p * I y1 x y1' v) by (apply spp; lra).
      assert (Qb : hh p x v q * D x y1' y1 < 0) by (unfold hh; assert (Q := spp (I p x v q) (D x y1' y1) L); lra).
      assert (Qc : D x v p * I y1 x y1' q <= 0) by (apply mpn; lra).
      assert (Qd : (hh p x v q * D x y1' y1 + D x v p * I y1 x y1' q) * D x v p < 0).
      { assert (Q := spp (- (hh p x v q * D x y1' y1 + D x v p * I y1 x y1' q)) (D x v p)). lra. }
      assert (Qe : chord (hh p x v) x y1 y1' p * D x q v <= 0) by (apply mnp; lra).
      assert (Ln : D x q p < 0).
      { apply Rnot_le_lt. intros G. assert (Q := mpp (0 * D x y1' y1 + D x v p * I y1 x y1' v) (D x q p)). lra. }
      pose proof (beyond_two p x v q Pv) as Bt. assert (Es : D p x q = D x q p) by (unfold area2; ring). assert (Ev : D x v q = - D x q v) by (unfold area2; ring).
      lra.
    Qed.

    (** *** The mesh after the insertion *)
    Section After.
      Variable tr' : mesh.
      Hypothesis A1 : adj_sound tr'.
      Hypothesis A2 : adj_complete tr'.
      Hypothesis A3 : NoDup (tris tr').
      Hypothesis Hx : forall x, In x (tris tr') <-> (In x (tris tr) /\ ~ zone x) \/ exists e, bd e /\ x = new_triangle e v.
      Hypothesis Hne : exists t, zone t.

      Lemma after_In : forall x, In x (tris tr') <-> (In x (tris tr) /\ ~ zone x) \/ exists a b, bd (a, b) /\ x = Tri a b v.
      Proof.
        intros x. rewrite Hx. split; (intros [Hk|Hn]; [left; exact Hk|right]).
        - destruct Hn as ([a b] & He & ->). exists a, b. rewrite (bd_new a b He). auto.
        - destruct Hn as (a & b & He & ->). exists (a, b). rewrite (bd_new a b He). auto.
      Qed.
      Lemma fan_solid : forall a b, bd (a, b) -> is_ghost (Tri a b v) = false.
      Proof.
        intros a b He. destruct (bd_facts a b He) as (Ha & Hb & _). unfold is_ghost. cbn [tv1 tv2 tv3].
        rewrite (plain a Ha), (plain b Hb), (rs_plain _ HR v (or_introl eq_refl)). reflexivity.
      Qed.
      Lemma after_solid : forall x, solid_in tr' x <-> In x (cfan ++ ksolid).
      Proof.
        intros x. unfold solid_in, ksolid. rewrite after_In, in_app_iff, cfan_In, filter_In, InK, negb_true_iff. split.
        - intros [[Hk|Hn] Hg]; [right; auto|left; exact Hn].
        - intros [(a & b & He & ->)|[Hk Hg]]; [|auto]. split; [right; exists a, b; auto|apply fan_solid, He].
      Qed.
      Lemma after_area : forall a b c, solid_in tr' (Tri a b c) -> 0 < D a b c.
      Proof.
        intros a b c [Ht Hg]. apply after_In in Ht. destruct Ht as [[Ht _]|(x & y & He & E)].
        - destruct (cd_shape _ _ _ HC _ Ht) as [(x & y & z & E & _ & _ & _ & Hp)|(x & y & E & _)]; injection E as -> -> ->; [exact Hp|].
          unfold is_ghost in Hg. cbn in Hg. rewrite !orb_true_r in Hg. discriminate.
        - injection E as -> -> ->. apply (bd_facts x y He).
      Qed.
      Lemma old_area : forall a b c, solid_in tr (Tri a b c) -> 0 < D a b c.
      Proof.
        intros a b c [Ht Hg]. destruct (cd_shape _ _ _ HC _ Ht) as [(x & y & z & E & _ & _ & _ & Hp)|(x & y & E & _)]; injection E as -> -> ->; [exact Hp|].
        unfold is_ghost in Hg. cbn in Hg. rewrite !orb_true_r in Hg. discriminate.
      Qed.
      Lemma fan_no_v : forall t e, In t (tris tr) -> side_of e t -> fst e <> v /\ snd e <> v.
      Proof.
        intros t e Ht Se. split; intros E; apply (cold t Ht); rewrite <- E; [apply (side_corner1 _ _ Se)|apply (side_corner2 _ _ Se)].
      Qed.
      Lemma looks_third : forall t a b c c', looks t a b c -> looks t a b c' -> a <> b -> c = c'.
      Proof.
        clear. intros t a b c c' [-> |[-> | ->]] [E|[E|E]] N; congruence.
      Qed.
      (** Powers in terms of the distances to the centre. *)
      Lemma power_le : forall a b c d, 0 < D a b c -> I a b c d <= 0 -> forall o, d2 o a = d2 o b -> d2 o a = d2 o c -> d2 o a <= d2 o d.
      Proof.
        clear. intros a b c d Hp Hi o E1 E2. rewrite (incircle_power a b c d o E1 E2) in Hi. apply Rnot_lt_le. intros L. assert (Q := spp (D a b c) (d2 o a - d2 o d)). lra.
      Qed.
      Lemma fan_kept : forall p q u d, bd (p, q) -> In u (tris tr) -> looks u q p d -> ~ barred K p q -> I q p d v <= 0.
      Proof.
        intros p q u d He Hu Lu Nb. destruct (bd_facts p q He) as (_ & _ & Npq & _ & Hc). destruct (Hc Nb) as (u' & d' & Hu' & Lu' & _ & _ & Hi).
        assert (E : u = u') by (apply (cexcl u u' (q, p)); auto; [apply (looks_sides u q p d Lu); auto|apply (looks_sides u' q p d' Lu'); auto]).
        subst u'. rewrite (looks_third u q p d d' Lu Lu'); [exact Hi|congruence].
      Qed.
      Lemma after_local : forall a b c d t u, In t (tris tr') -> looks t a b c -> In u (tris tr') -> looks u b a d -> is_ghost t = false -> is_ghost u = false ->
        0 < D a b c -> ~ barred K a b -> I a b c d <= 0.
      Proof.
        intros a b c d t u Ht Lt Hu Lu Gc Gd Hp Nb. apply after_In in Ht, Hu.
        assert (Nb' : ~ barred K b a) by (intros B; apply Nb, barred_sym, B).
        assert (St : side_of (a, b) t) by (apply (looks_sides t a b c Lt); auto). assert (Su : side_of (b, a) u) by (apply (looks_sides u b a d Lu); auto).
        destruct Ht as [[Ht Zt]|(p & q & Hb & ->)]; destruct Hu as [[Hu Zu]|(p' & q' & Hb' & ->)].
        - destruct (circumcenter_spec a b c) as [_ Hcc]. destruct Hcc as (o & _ & _ & H1 & H2 & _); [lra|].
          pose proof (cd_local _ _ _ HC a b c d t u (conj Ht Lt) (conj Hu Lu) Gc Gd Nb o H1 H2) as Hle.
          rewrite (incircle_power a b c d o H1 H2). apply mpn; lra.
        - destruct (fan_no_v t (a, b) Ht St) as [N1 N2]. cbn [fst snd] in N1, N2.
          destruct Lu as [E|[E|E]]; injection E; intros; subst; try congruence. apply (fan_kept b a t c); auto.
        - destruct (fan_no_v u (b, a) Hu Su) as [N1 N2]. cbn [fst snd] in N1, N2.
          destruct Lt as [E|[E|E]]; injection E; intros; subst; try congruence. rewrite <- I_sym. apply (fan_kept a b u d); auto.
        - destruct (bd_facts p q Hb) as (Hps & Hqs & _ & P1 & _). destruct (bd_facts p' q' Hb') as (Hps' & Hqs' & _ & P2 & _).
          destruct Lt as [E|[E|E]]; injection E; intros; subst; destruct Lu as [E'|[E'|E']]; injection E'; intros; subst; try contradiction.
          + pose proof (D_swap a b v). lra.
          + pose proof (fan_local _ _ _ Hb' Hb) as F. rewrite <- I_rot, I_sym in F. exact F.
          + pose proof (fan_local _ _ _ Hb Hb') as F. rewrite <- I_rot in F. exact F.
      Qed.
      Lemma after_closed : forall t e, In t (tris tr') -> side_of e t -> exists t', In t' (tris tr') /\ side_of (flip e) t'.
      Proof.
        intros t e Ht Se. apply after_In in Ht. destruct Ht as [[Ht Zt]|(p & q & Hb & ->)].
        - destruct (cd_closed _ _ _ HC t e Ht Se) as (u & Hu & Su). destruct (zone_dec u Hu) as [Zu|Nu].
          + destruct e as [a b]. cbn [flip fst snd] in *. exists (Tri b a v). split; [|constructor]. apply after_In. right. exists b, a. split; [|reflexivity].
            split; [exists u; auto|exists t; auto].
          + exists u. split; [apply after_In; auto|exact Su].
        - inversion Se; subst; cbn [flip fst snd].
          + destruct Hb as [_ (u & Hu & Su & Nu)]. exists u. split; [apply after_In; auto|exact Su].
          + destruct (bd_next p q Hb) as (r & Hr). exists (Tri q r v). split; [apply after_In; right; exists q, r; auto|constructor].
          + destruct (bd_prev p q Hb) as (o & Ho). exists (Tri o p v). split; [apply after_In; right; exists o, p; auto|constructor].
      Qed.
      Lemma after_constrained : constrained_delaunay (v :: S) K tr'.
      Proof.
        split; auto.
        - intros t Ht. apply after_In in Ht. destruct Ht as [[Ht _]|(p & q & Hb & ->)].
          + destruct (cd_shape _ _ _ HC t Ht) as [(x & y & z & -> & H1 & H2 & H3 & H4)|(x & y & -> & H1 & H2 & H3)];
              [left; exists x, y, z|right; exists x, y]; cbn [In]; auto 8.
          + left. destruct (bd_facts p q Hb) as (Hp & Hq & _ & P & _). exists p, q, v. cbn [In]. auto 8.
        - exact after_closed.
        - intros a b Ht. apply after_In in Ht. destruct Ht as [[Ht _]|(p & q & Hb & E)]; [apply (cd_outer _ _ _ HC), Ht|].
          injection E as _ _ E. destruct cvgv. congruence.
        - intros a b Hk. destruct (cd_bars _ _ _ HC a b Hk) as (Ha & Hb & t & [Ht Hg] & St). cbn [In]. split; [auto|]. split; [auto|].
          destruct (zone_dec t Ht) as [Zt|Nt]; [|exists t; split; [split; [apply after_In; auto|exact Hg]|exact St]].
          assert (Kk : forall x y, side_of (x, y) t -> barred K x y -> exists t', solid_in tr' t' /\ side_of (x, y) t').
          { intros x y Sxy Bxy. destruct (cd_closed _ _ _ HC t (x, y) Ht Sxy) as (u & Hu & Su). cbn [flip fst snd] in Su.
            assert (He : bd (x, y)).
            { split; [exists t; auto|]. exists u. repeat (split; [assumption|]). intros Zu. exact (zone_open t u x y Zt Zu Sxy Su Bxy). }
            exists (Tri x y v). split; [|constructor]. split; [|apply fan_solid, He]. apply after_In. right. exists x, y. auto. }
          destruct St as [St|St]; [destruct (Kk a b St) as (t' & Ht' & St')|destruct (Kk b a St) as (t' & Ht' & St')]; try (unfold barred; auto); exists t'; auto.
        - intros a b c d t u [Ht Lt] [Hu Lu] Gc Gd Nb o E1 E2.
          assert (Hp : 0 < D a b c).
          { destruct t as [x y z]. pose proof (after_area x y z (conj Ht Gc)). pose proof (D_rot x y z). pose proof (D_rot2 x y z).
            destruct Lt as [E|[E|E]]; injection E as -> -> ->; lra. }
          apply (power_le a b c d Hp); auto. apply (after_local a b c d t u); auto.
        - intros a b c a' b' c' q Ht Ht' (I1 & I2 & I3) (J1 & J2 & J3). pose proof (after_area _ _ _ Ht) as P. pose proof (after_area _ _ _ Ht') as P'.
          apply after_solid in Ht, Ht'. apply (new_once q); auto; rewrite twt_eq; apply inside_tw; assumption.
        - assert (Hf : forall a b, bd (a, b) -> solid_in tr' (Tri a b v)).
          { intros a b Hb. apply after_solid, in_or_app. left. apply cfan_In. eauto. }
          intros w [<-|Hw].
          + destruct Hne as ([x y z] & Hz). destruct (bd_at _ x Hz) as ([a b] & He & _); [constructor|]. exists (Tri a b v). split; [apply Hf, He|constructor].
          + destruct (cd_used _ _ _ HC w Hw) as (t & [Ht Hg] & Hc). destruct (zone_dec t Ht) as [Zt|Nt].
            * destruct (bd_at t w Zt Hc) as ([a b] & He & Hwe). exists (Tri a b v). split; [apply Hf, He|]. cbn [fst snd] in Hwe. destruct Hwe as [-> | ->]; constructor.
            * exists t. split; [split; [apply after_In; auto|exact Hg]|exact Hc].
      Qed.

      (** The inside of a triangle of one mesh is in the region of the other. *)
      Lemma pos_some : forall X (f : X -> Z) l, (0 < zsum f l)%Z -> exists x, In x l /\ (0 < f x)%Z.
      Proof.
        clear. intros X f l. induction l as [|x l IH]; [cbn; lia|]. rewrite zsum_cons. intros L. destruct (Z_lt_dec 0 (f x)) as [G|G]; [exists x; cbn; auto|].
        destruct IH as (y & Hy & Fy); [lia|]. exists y. cbn. auto.
      Qed.
      Lemma old_solid : forall x, solid_in tr x <-> In x solids.
      Proof. intros x. unfold solid_in, solids. rewrite filter_In, negb_true_iff. reflexivity. Qed.
      Lemma open_after : forall q, in_open_region tr q -> in_region tr' q.
      Proof.
        intros q (a & b & c & Ht & I1 & I2 & I3). pose proof (old_area _ _ _ Ht) as P. apply old_solid in Ht.
        destruct (pos_some _ (twt q) (cfan ++ ksolid)) as (x & Hi & Px).
        - rewrite new_total. assert (1 <= zsum (twt q) solids)%Z; [|lia]. apply (zsum_one _ _ _ (Tri a b c)); [intros; apply twt_range; assumption|exact Ht|].
          rewrite twt_eq, inside_tw; auto; lia.
        - apply after_solid in Hi. destruct x as [a' b' c']. rewrite twt_eq in Px. exists a', b', c'. split; [exact Hi|]. apply tw_pos_in; [apply after_area, Hi|exact Px].
      Qed.
      Lemma open_before : forall q, in_open_region tr' q -> in_region tr q.
      Proof.
        intros q (a & b & c & Ht & I1 & I2 & I3). pose proof (after_area _ _ _ Ht) as P. apply after_solid in Ht.
        destruct (pos_some _ (twt q) solids) as (x & Hi & Px).
        - rewrite <- new_total. assert (1 <= zsum (twt q) (cfan ++ ksolid))%Z; [|lia]. apply (zsum_one _ _ _ (Tri a b c)); [intros; apply new_range; assumption|exact Ht|].
          rewrite twt_eq, inside_tw; auto; lia.
        - apply old_solid in Hi. destruct x as [a' b' c']. rewrite twt_eq in Px. exists a', b', c'. split; [exact Hi|]. apply tw_pos_in; [apply old_area, Hi|exact Px].
      Qed.
    End After.
  End Lists.
End Mesh.
