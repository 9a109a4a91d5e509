(** P_Zone.v — the cavity loop of vertex insertion when the triangles it may take
    are those of a given zone that is a tree: it never meets a hole, stops, and
    leaves exactly the triangles out of the zone and the fan over its border.
    P_Cavity.v is the case of all the conflicting triangles; here constraints,
    boundary and holes may stop the loop as well.  Everything is combinatorial:
    any arithmetic, any hash order. *)

From Coq Require Import List Bool Arith Lia Permutation.
From Verif Require Import Base Arith Geometry Elements Polyline Procedures Spec P_Base P_Trn P_Poly P_Vertices.
Import ListNotations.

Section Zone.
  Context {A : Arith} (H : HashOrder).
  Notation vertex := (vertex A).
  Notation edge := (edge A).
  Notation triangle := (triangle A).
  Notation triangulation := (triangulation A).
  Notation solve_state := (solve_state (A:=A)).

  Variables (tr0 : triangulation) (v : vertex).
  Hypothesis Hsound : adj_sound tr0.
  Hypothesis Hcomplete : adj_complete tr0.
  Hypothesis Hnodup : NoDup (tris tr0).
  Hypothesis Hexact : forall t e e', In t (tris tr0) -> side_of e t -> side_of e' t -> eeqb e e' = true -> e = e'.
  Hypothesis Hproper : forall t, In t (tris tr0) -> te1 t <> te2 t /\ te2 t <> te3 t /\ te3 t <> te1 t.

  Variables (constraints : list edge) (boundary : option (polyline A)) (holes : list (polyline A)) (fmin : nat).
  (** The zone and its border. *)
  Variable zone : triangle -> Prop.
  Definition outline (e : edge) : Prop :=
    (exists t, zone t /\ side_of e t) /\ exists u, In u (tris tr0) /\ side_of (flip e) u /\ ~ zone u.
  Hypothesis Hzin : forall t, zone t -> In t (tris tr0).
  Hypothesis Hclosed : forall t e, zone t -> side_of e t -> exists t', In t' (tris tr0) /\ side_of (flip e) t'.
  (** The loop crosses a side of the zone exactly when it stays in the zone. *)
  Hypothesis Hdecide : forall r e u fuel p, zone r -> side_of e r -> In u (tris tr0) -> side_of (flip e) u -> fmin <= fuel ->
    exists m, may_insert_triangle H fuel p u v boundary holes = Ok m /\
      (is_conflicting u v && negb (is_constrained constraints e) && m = true <-> zone u).
  (** The pending vertices are checked against the new triangles without trouble. *)
  Variable pool : vertex -> Prop.
  Hypothesis Hsplit : forall fuel p e vs, fmin <= fuel -> outline e -> (forall w, In w vs -> pool w) ->
    exists conf rest, split_conflicts H fuel p (new_triangle e v) vs boundary holes = Ok (conf, rest).

  Variables (up : triangle -> edge -> Prop) (rank : triangle -> nat).
  Hypothesis Hlink : forall t u e, zone t -> zone u -> side_of e t -> side_of (flip e) u -> up t e \/ up u (flip e).
  Hypothesis Hone : forall t e e', zone t -> side_of e t -> side_of e' t -> up t e -> up t e' -> e = e'.
  Hypothesis Hrank : forall t u e, zone t -> zone u -> side_of e t -> side_of (flip e) u -> up t e -> rank u < rank t.
  Hypothesis Hall : forall R t0, In t0 R -> (forall r, In r R -> zone r) ->
    (forall r u e, In r R -> zone u -> side_of e r -> side_of (flip e) u -> In u R) -> forall t, zone t -> In t R.
  Hypothesis Hnew : forall e e' x, outline e -> outline e' ->
    side_of x (new_triangle e v) -> side_of x (new_triangle e' v) -> new_triangle e v = new_triangle e' v.
  Hypothesis Hfresh : forall e x, outline e -> side_of x (new_triangle e v) ->
    x = e \/ forall t, In t (tris tr0) -> ~ side_of x t.

  Lemma tr0_excl : forall t t' e, In t (tris tr0) -> In t' (tris tr0) -> side_of e t -> side_of e t' -> t = t'.
  Proof.
    intros t t' e Ht Ht' H1 H2. pose proof (Hcomplete _ _ Ht H1) as E1. pose proof (Hcomplete _ _ Ht' H2) as E2. congruence.
  Qed.
  Lemma next_two : forall t e pending, In t (tris tr0) -> side_of e t -> exists x y,
    next_cavities t e pending = x :: y :: pending /\ side_of x t /\ side_of y t /\ x <> y /\ x <> e /\ y <> e /\
    (forall z, side_of z t -> z = e \/ z = x \/ z = y).
  Proof.
    intros t e pending Ht He. destruct (Hproper t Ht) as (N1 & N2 & N3).
    assert (S1 : side_of (te1 t) t) by (apply side_of_cases; auto).
    assert (S2 : side_of (te2 t) t) by (apply side_of_cases; auto).
    assert (S3 : side_of (te3 t) t) by (apply side_of_cases; auto).
    assert (Hz : forall z, side_of z t -> z = te1 t \/ z = te2 t \/ z = te3 t) by (intros z Hz; apply side_of_cases; exact Hz).
    unfold next_cavities. destruct (eeqb e (te1 t)) eqn:E1.
    { apply (Hexact t) in E1; auto. subst e. exists (te3 t), (te2 t). repeat split; auto.
      intros z Sz. destruct (Hz z Sz) as [-> | [-> | ->]]; auto. }
    destruct (eeqb e (te2 t)) eqn:E2.
    { apply (Hexact t) in E2; auto. subst e. exists (te3 t), (te1 t). repeat split; auto.
      intros z Sz. destruct (Hz z Sz) as [-> | [-> | ->]]; auto. }
    destruct (Hz e He) as [-> | [-> | ->]].
    - rewrite eeqb_refl in E1. discriminate.
    - rewrite eeqb_refl in E2. discriminate.
    - exists (te2 t), (te1 t). repeat split; auto.
      intros z Sz. destruct (Hz z Sz) as [-> | [-> | ->]]; auto.
  Qed.

  (** ** The tree *)
  Record tree (R : list triangle) (top : triangle) : Prop := {
    tree_zone : forall r, In r R -> zone r;
    tree_top : In top R;
    tree_up : forall r, In r R -> r = top \/ exists e u, In u R /\ side_of e r /\ side_of (flip e) u /\ up r e;
    tree_low : forall r, In r R -> rank top <= rank r
  }.

  Lemma tree_one : forall t, zone t -> tree [t] t.
  Proof.
    intros t Ht. split; [intros r [<-|[]]; exact Ht|left; reflexivity|intros r [<-|[]]; auto|intros r [<-|[]]; auto].
  Qed.

  (** If [r] in the tree goes up to [u] outside, [r] is the top. *)
  Lemma tree_out : forall R top r u e, tree R top -> In r R -> zone u -> ~ In u R ->
    side_of e r -> side_of (flip e) u -> up r e -> r = top.
  Proof.
    intros R top r u e HT Hr Hu Hn He Hf Hup. destruct (tree_up _ _ HT r Hr) as [E|(e' & u' & Hu' & He' & Hf' & Hup')]; [exact E|].
    exfalso. apply Hn. assert (E : e = e') by (apply (Hone r); auto; apply (tree_zone _ _ HT), Hr). subst e'.
    replace u with u'; [exact Hu'|]. apply (tr0_excl _ _ (flip e)); auto; apply Hzin, (tree_zone _ _ HT), Hu'.
  Qed.

  (** A triangle of the zone touches a tree it is not in along one side only. *)
  Lemma tree_touch : forall R top r r' u e e', tree R top -> In r R -> In r' R -> zone u -> ~ In u R ->
    side_of e u -> side_of (flip e) r -> side_of e' u -> side_of (flip e') r' -> e = e'.
  Proof.
    intros R top r r' u e e' HT Hr Hr' Hu Hn He Hf He' Hf'.
    pose proof (tree_zone _ _ HT r Hr) as Ch. pose proof (tree_zone _ _ HT r' Hr') as Ch'.
    pose proof (flip_flip e) as FF. pose proof (flip_flip e') as FF'.
    destruct (Hlink u r e Hu Ch He Hf) as [U|U]; destruct (Hlink u r' e' Hu Ch' He' Hf') as [U'|U'].
    - apply (Hone u); auto.
    - assert (E : r' = top) by (apply (tree_out R top r' u (flip e')); auto; rewrite FF'; exact He').
      pose proof (Hrank _ _ _ Hu Ch He Hf U) as L1. pose proof (tree_low _ _ HT r Hr) as L2.
      assert (L3 : rank u < rank r') by (apply (Hrank r' u (flip e')); auto; rewrite FF'; exact He'). subst r'. lia.
    - assert (E : r = top) by (apply (tree_out R top r u (flip e)); auto; rewrite FF; exact He).
      pose proof (Hrank _ _ _ Hu Ch' He' Hf' U') as L1. pose proof (tree_low _ _ HT r' Hr') as L2.
      assert (L3 : rank u < rank r) by (apply (Hrank r u (flip e)); auto; rewrite FF; exact He). subst r. lia.
    - assert (E : r = top) by (apply (tree_out R top r u (flip e)); auto; rewrite FF; exact He).
      assert (E' : r' = top) by (apply (tree_out R top r' u (flip e')); auto; rewrite FF'; exact He'). subst r r'.
      assert (Ef : flip e = flip e') by (apply (Hone top); auto). rewrite <- FF, Ef. exact FF'.
  Qed.

  Lemma tree_add : forall R top r u e, tree R top -> In r R -> zone u -> ~ In u R ->
    side_of e r -> side_of (flip e) u -> exists top', tree (u :: R) top'.
  Proof.
    intros R top r u e HT Hr Hu Hn He Hf. pose proof (tree_zone _ _ HT r Hr) as Ch.
    destruct (Hlink r u e Ch Hu He Hf) as [U|U].
    - assert (E : r = top) by (apply (tree_out R top r u e); auto). subst r. pose proof (Hrank _ _ _ Ch Hu He Hf U) as L.
      exists u. split.
      + intros x [<-|Hx]; [exact Hu|apply (tree_zone _ _ HT), Hx].
      + left. reflexivity.
      + intros x [<-|Hx]; [auto|]. right. destruct (tree_up _ _ HT x Hx) as [-> |(e' & u' & Hu' & He' & Hf' & Hup')].
        * exists e, u. repeat split; auto. left. reflexivity.
        * exists e', u'. repeat split; auto. right. exact Hu'.
      + intros x [<-|Hx]; [lia|]. pose proof (tree_low _ _ HT x Hx). lia.
    - exists top. split.
      + intros x [<-|Hx]; [exact Hu|apply (tree_zone _ _ HT), Hx].
      + right. apply (tree_top _ _ HT).
      + intros x [<-|Hx].
        * right. exists (flip e), r. rewrite flip_flip. repeat split; auto. right. exact Hr.
        * destruct (tree_up _ _ HT x Hx) as [-> |(e' & u' & Hu' & He' & Hf' & Hup')]; [auto|].
          right. exists e', u'. repeat split; auto. right. exact Hu'.
      + intros x [<-|Hx]; [|apply (tree_low _ _ HT x Hx)].
        assert (L : rank r < rank u) by (apply (Hrank u r (flip e)); auto; rewrite flip_flip; exact He).
        pose proof (tree_low _ _ HT r Hr). lia.
  Qed.

  (** ** The loop *)
  Record state (R : list triangle) (pending done : list edge) (s : solve_state) : Prop := {
    st_tree : exists top, tree R top;
    st_nodup : NoDup R;
    st_tris : forall t, In t (tris (ss_tr s)) <->
      (In t (tris tr0) /\ ~ In t R) \/ exists e, In e done /\ t = new_triangle e v;
    st_sound : adj_sound (ss_tr s);
    st_complete : adj_complete (ss_tr s);
    st_trnodup : NoDup (tris (ss_tr s));
    st_pnodup : NoDup pending;
    st_pending : forall e, In e pending -> (exists r, In r R /\ side_of e r) /\
      forall u, In u (tris tr0) -> side_of (flip e) u -> ~ In u R;
    st_done : forall e, In e done -> (exists r, In r R /\ side_of e r) /\
      forall u, In u (tris tr0) -> side_of (flip e) u -> ~ zone u;
    st_sides : forall r e, In r R -> side_of e r ->
      In e pending \/ In e done \/ exists u, In u R /\ side_of (flip e) u;
    st_rem : forall w, In w (ss_rem s) -> pool w;
    st_cm : forall t vs w, In (t, vs) (ss_cm s) -> In w vs -> pool w
  }.

  Lemma done_border : forall R pending done s e, state R pending done s -> In e done -> outline e.
  Proof.
    intros R pending done s e HC He. destruct (st_done _ _ _ _ HC e He) as [(r & Hr & Hs) Hn].
    destruct (st_tree _ _ _ _ HC) as [top HT]. pose proof (tree_zone _ _ HT r Hr) as Hh.
    split; [exists r; auto|]. destruct (Hclosed r e Hh Hs) as (u & Hu & Hf). exists u. auto.
  Qed.

  Lemma zone_step : forall fuel p e pending done R s, fmin <= fuel -> state R (e :: pending) done s ->
    exists R' pending' done' s' p',
      cavity_loop H (S fuel) p constraints boundary holes v (e :: pending) s = cavity_loop H fuel p' constraints boundary holes v pending' s' /\
      state R' pending' done' s' /\ incl R R' /\
      2 * length R' + length (e :: pending) = 2 * length R + length pending' + 1 /\
      (length R' = length R \/ length R' = S (length R)).
  Proof.
    intros fuel p e pending done R s Hfm HC.
    destruct (st_pending _ _ _ _ HC e (or_introl eq_refl)) as [(r & Hr & Hs) Hnot].
    destruct (st_tree _ _ _ _ HC) as [top HT]. pose proof (tree_zone _ _ HT r Hr) as Hh.
    destruct (Hclosed r e Hh Hs) as (u & Hu & Hf). pose proof (Hnot u Hu Hf) as HuR.
    assert (Hus : In u (tris (ss_tr s))) by (apply (st_tris _ _ _ _ HC); auto).
    assert (Hget : adj_get (opposite e) (ss_tr s) = Some u).
    { rewrite opposite_flip. apply (st_complete _ _ _ _ HC); assumption. }
    cbn [cavity_loop]. rewrite Hget. cbn [unwrap bind].
    destruct (Hdecide r e u fuel (1 :: p) Hh Hs Hu Hf Hfm) as (m & Em & Hm). rewrite Em. cbn [bind].
    destruct (is_conflicting u v && negb (is_constrained constraints e) && m) eqn:Ec.
    - (* remove the triangle *)
      assert (Hhu : zone u) by (apply Hm; reflexivity).
      rewrite opposite_flip. destruct (next_two u (flip e) pending Hu Hf) as (x & y & En & Sx & Sy & Nxy & Nx & Ny & Hz).
      rewrite En. exists (u :: R), (x :: y :: pending), done. do 2 eexists. split; [reflexivity|].
      destruct (tree_add R top r u e HT Hr Hhu HuR Hs Hf) as [top' HT'].
      (* the other sides of [u] lead out of the tree *)
      assert (Hout : forall z, side_of z u -> z <> flip e -> forall w, In w (tris tr0) -> side_of (flip z) w -> ~ In w (u :: R)).
      { intros z Sz Nz w Hw Sw [<-|HwR].
        - (* a triangle is not its own neighbour: the flipped side would be a side of [u] *)
          assert (Hl : up u z \/ up u (flip z)) by (apply (Hlink u u z); auto). destruct Hl as [Hl|Hl].
          + pose proof (Hrank u u z Hhu Hhu Sz Sw Hl). lia.
          + assert (rank u < rank u) by (apply (Hrank u u (flip z)); auto; rewrite flip_flip; exact Sz). lia.
        - apply Nz. symmetry. apply (tree_touch R top r w u (flip e) z HT Hr HwR Hhu HuR Hf); auto. rewrite flip_flip. exact Hs. }
      assert (Hxp : forall z, side_of z u -> ~ In z pending).
      { intros z Sz Hin. destruct (st_pending _ _ _ _ HC z (or_intror Hin)) as [(r' & Hr' & Hs') _].
        apply HuR. replace u with r'; [exact Hr'|]. apply (tr0_excl _ _ z); auto. apply Hzin, (tree_zone _ _ HT), Hr'. }
      split; [|split; [intros w Hw; right; exact Hw|split; [cbn; lia|right; reflexivity]]].
      pose proof (st_pnodup _ _ _ _ HC) as Hpn. inversion Hpn as [|? ? Hep Hpn']; subst.
      split.
      + exists top'. exact HT'.
      + constructor; [exact HuR|apply (st_nodup _ _ _ _ HC)].
      + intros t. cbn [ss_tr]. rewrite rem_tri_In, (st_tris _ _ _ _ HC). cbn [In]. split.
        * intros [[[H1 H2]|H1] H3]; [left; split; [exact H1|]; intros [E|E]; [congruence|contradiction]|right; exact H1].
        * intros [[H1 H2]|H1]; [split; [left; split; [exact H1|]; tauto|intros ->; apply H2; left; reflexivity]|].
          split; [right; exact H1|]. intros ->. destruct H1 as (d & Hd & Ed).
          (* a new triangle is not an old one *)
          pose proof (done_border _ _ _ _ _ HC Hd) as Hb. destruct (st_done _ _ _ _ HC d Hd) as [(rd & Hrd & Hsd) _].
          assert (Sd : side_of d u) by (rewrite Ed; apply new_triangle_side).
          apply HuR. replace u with rd; [exact Hrd|]. apply (tr0_excl _ _ d); auto. apply Hzin, (tree_zone _ _ HT), Hrd.
      + apply adj_sound_rem, (st_sound _ _ _ _ HC).
      + apply adj_complete_rem, (st_complete _ _ _ _ HC).
      + apply rem_tri_NoDup, (st_trnodup _ _ _ _ HC).
      + constructor; [intros [E|E]; [congruence|exact (Hxp x Sx E)]|]. constructor; [exact (Hxp y Sy)|exact Hpn'].
      + intros z [<-|[<-|Hin]].
        * split; [exists u; split; [left; reflexivity|exact Sx]|apply Hout; assumption].
        * split; [exists u; split; [left; reflexivity|exact Sy]|apply Hout; assumption].
        * destruct (st_pending _ _ _ _ HC z (or_intror Hin)) as [(r' & Hr' & Hs') Hn'].
          split; [exists r'; split; [right; exact Hr'|exact Hs']|]. intros w Hw Sw [<-|HwR]; [|exact (Hn' w Hw Sw HwR)].
          (* [u] would touch the tree along two sides *)
          assert (E : flip e = flip z).
          { apply (tree_touch R top r r' u (flip e) (flip z) HT Hr Hr' Hhu HuR); auto; rewrite flip_flip; assumption. }
          apply Hep. rewrite <- (flip_flip e), E, flip_flip. exact Hin.
      + intros d Hd. destruct (st_done _ _ _ _ HC d Hd) as [(r' & Hr' & Hs') Hn'].
        split; [exists r'; split; [right; exact Hr'|exact Hs']|exact Hn'].
      + intros r' z [<-|Hr'] Sz.
        * destruct (Hz z Sz) as [-> |[-> | ->]]; [|left; left; reflexivity|left; right; left; reflexivity].
          right. right. exists r. split; [right; exact Hr|]. rewrite flip_flip. exact Hs.
        * destruct (st_sides _ _ _ _ HC r' z Hr' Sz) as [[<-|Hin]|[Hin|(w & Hw & Sw)]].
          -- right. right. exists u. split; [left; reflexivity|exact Hf].
          -- left. right. right. exact Hin.
          -- right. left. exact Hin.
          -- right. right. exists w. split; [right; exact Hw|exact Sw].
      + cbn [ss_rem]. intros w Hw. destruct (mget tdec u (ss_cm s)) as [vs|] eqn:Hg; [|exact (st_rem _ _ _ _ HC w Hw)].
        apply in_app_or in Hw. destruct Hw as [Hw|Hw]; [exact (st_rem _ _ _ _ HC w Hw)|]. exact (st_cm _ _ _ _ HC u vs w (mget_In _ _ _ _ Hg) Hw).
      + cbn [ss_cm]. intros t vs w Hi. apply mdel_In in Hi. apply (st_cm _ _ _ _ HC t vs w), Hi.
    - (* add a new triangle *)
      assert (Hhu : ~ zone u) by (intros E; apply Hm in E; congruence).
      assert (Hb : outline e) by (split; [exists r; auto|exists u; auto]).
      destruct (Hsplit fuel (2 :: p) e (ss_rem s) Hfm Hb (st_rem _ _ _ _ HC)) as (conf & rest & Es).
      unfold distribute_conflicts. rewrite Es. cbn [bind].
      exists R, pending, (e :: done). do 2 eexists. split; [reflexivity|].
      pose proof (st_pnodup _ _ _ _ HC) as Hpn. inversion Hpn as [|? ? Hep Hpn']; subst.
      split; [|split; [apply incl_refl|split; [cbn; lia|left; reflexivity]]].
      split.
      + exists top. exact HT.
      + apply (st_nodup _ _ _ _ HC).
      + intros t. cbn [ss_tr]. rewrite incl_tri_In, (st_tris _ _ _ _ HC). cbn [In]. split.
        * intros [-> |[H1|(d & Hd & Ed)]]; [right; exists e; auto|left; exact H1|right; exists d; auto].
        * intros [H1|(d & [<-|Hd] & Ed)]; [right; left; exact H1|left; exact Ed|right; right; exists d; auto].
      + apply adj_sound_incl, (st_sound _ _ _ _ HC).
      + cbn [ss_tr]. apply adj_complete_incl; [apply (st_complete _ _ _ _ HC)|]. intros t x Ht Sx Sx'.
        apply (st_tris _ _ _ _ HC) in Ht. destruct Ht as [[Ht HtR]|(d & Hd & ->)].
        * exfalso. destruct (Hfresh e x Hb Sx) as [-> | Hno]; [|exact (Hno t Ht Sx')].
          apply HtR. replace t with r; [exact Hr|]. apply (tr0_excl _ _ e); auto.
        * apply (Hnew d e x); auto. apply (done_border _ _ _ _ _ HC Hd).
      + apply incl_tri_NoDup, (st_trnodup _ _ _ _ HC).
      + exact Hpn'.
      + intros z Hin. apply (st_pending _ _ _ _ HC z (or_intror Hin)).
      + intros d [<-|Hd]; [|apply (st_done _ _ _ _ HC d Hd)]. split; [exists r; auto|].
        intros w Hw Sw Hhw. apply Hhu. replace u with w; [exact Hhw|]. apply (tr0_excl _ _ (flip e)); auto.
      + intros r' z Hr' Sz. destruct (st_sides _ _ _ _ HC r' z Hr' Sz) as [[<-|Hin]|[Hin|Hin]]; auto.
        * right. left. left. reflexivity.
        * right. left. right. exact Hin.
      + cbn [ss_rem]. intros w Hw. destruct (split_conflicts_spec _ _ _ _ _ _ _ _ _ Es) as [Hp _].
        apply (st_rem _ _ _ _ HC w), (Permutation_in _ (Permutation_sym Hp)), in_or_app. auto.
      + cbn [ss_cm]. destruct (split_conflicts_spec _ _ _ _ _ _ _ _ _ Es) as [Hp _].
        assert (Hcf : forall w, In w conf -> pool w) by (intros w Hw; apply (st_rem _ _ _ _ HC w), (Permutation_in _ (Permutation_sym Hp)), in_or_app; auto).
        intros t vs w Hi Hw. apply add_conflicts_In in Hi. destruct Hi as [Hi|(-> & _ & old & -> & Ho)]; [exact (st_cm _ _ _ _ HC t vs w Hi Hw)|].
        apply in_app_or in Hw. destruct Hw as [Hw|Hw]; [|exact (Hcf w Hw)]. destruct Ho as [-> | Ho]; [destruct Hw|exact (st_cm _ _ _ _ HC _ old w Ho Hw)].
  Qed.

  Lemma tree_bound : forall R top, tree R top -> NoDup R -> length R <= length (tris tr0).
  Proof. intros R top HT Hn. apply NoDup_incl_length; [exact Hn|]. intros r Hr. apply Hzin, (tree_zone _ _ HT r Hr). Qed.

  Lemma zone_run : forall n fuel p pending done R s, state R pending done s ->
    2 * (length (tris tr0) - length R) + length pending <= n -> n + fmin < fuel ->
    exists R' done' s', cavity_loop H fuel p constraints boundary holes v pending s = Ok s' /\ state R' [] done' s' /\ incl R R'.
  Proof.
    induction n as [|n IH]; intros fuel p pending done R s HC Hn Hf; destruct fuel as [|fuel]; try lia.
    - destruct pending as [|e pending]; [|cbn in Hn; lia]. exists R, done, s. split; [reflexivity|]. split; [exact HC|apply incl_refl].
    - destruct pending as [|e pending].
      { exists R, done, s. split; [reflexivity|]. split; [exact HC|apply incl_refl]. }
      destruct (zone_step fuel p e pending done R s ltac:(lia) HC) as (R1 & p1 & d1 & s1 & q & E & HC1 & Hi & Hl & Hc). rewrite E.
      destruct (st_tree _ _ _ _ HC1) as [top1 HT1]. pose proof (tree_bound _ _ HT1 (st_nodup _ _ _ _ HC1)) as Hb1.
      destruct (IH fuel q p1 d1 R1 s1 HC1) as (R' & d' & s' & E' & HC' & Hi').
      + cbn [length] in *. lia.
      + lia.
      + exists R', d', s'. split; [exact E'|]. split; [exact HC'|]. exact (incl_tran Hi Hi').
  Qed.

  Lemma zone_start : forall t s, zone t -> ss_tr s = rem_tri t tr0 -> (forall w, In w (ss_rem s) -> pool w) ->
    (forall t vs w, In (t, vs) (ss_cm s) -> In w vs -> pool w) ->
    state [t] [te3 t; te2 t; te1 t] [] s.
  Proof.
    intros t s Ht Es Hr1 Hr2. destruct (Hproper t (Hzin _ Ht)) as (N1 & N2 & N3). split.
    - exists t. apply tree_one, Ht.
    - constructor; [intros []|constructor].
    - intros x. rewrite Es, rem_tri_In. cbn [In]. split.
      + intros [H1 H2]. left. split; [exact H1|]. intros [E|[]]. congruence.
      + intros [[H1 H2]|(e & [] & _)]. split; [exact H1|]. intros ->. apply H2. left. reflexivity.
    - rewrite Es. apply adj_sound_rem, Hsound.
    - rewrite Es. apply adj_complete_rem, Hcomplete.
    - rewrite Es. apply rem_tri_NoDup, Hnodup.
    - constructor; [intros [E|[E|[]]]; congruence|]. constructor; [intros [E|[]]; congruence|]. constructor; [intros []|constructor].
    - intros e He. assert (Se : side_of e t) by (apply side_of_cases; destruct He as [<-|[<-|[<-|[]]]]; auto).
      split; [exists t; split; [left; reflexivity|exact Se]|]. intros u Hu Sf [<-|[]].
      destruct (Hlink t t e Ht Ht Se Sf) as [U|U].
      + pose proof (Hrank t t e Ht Ht Se Sf U). lia.
      + assert (rank t < rank t) by (apply (Hrank t t (flip e)); auto; rewrite flip_flip; exact Se). lia.
    - intros e [].
    - intros r e [<-|[]] Se. left. apply side_of_cases in Se. cbn [In]. destruct Se as [-> |[-> | ->]]; auto.
    - exact Hr1.
    - exact Hr2.
  Qed.

  (** The whole cavity of [v], from any triangle of the zone. *)
  Lemma zone_total : forall t s fuel p, zone t -> ss_tr s = rem_tri t tr0 -> (forall w, In w (ss_rem s) -> pool w) ->
    (forall t vs w, In (t, vs) (ss_cm s) -> In w vs -> pool w) -> 2 * length (tris tr0) + 2 + fmin < fuel ->
    exists s', cavity_loop H fuel p constraints boundary holes v [te3 t; te2 t; te1 t] s = Ok s' /\
      adj_sound (ss_tr s') /\ adj_complete (ss_tr s') /\ NoDup (tris (ss_tr s')) /\
      (forall x, In x (tris (ss_tr s')) <->
        (In x (tris tr0) /\ ~ zone x) \/ exists e, outline e /\ x = new_triangle e v).
  Proof.
    intros t s fuel p Ht Es Hr1 Hr2 Hf.
    assert (HC0 : state [t] [te3 t; te2 t; te1 t] [] s) by (apply zone_start; assumption).
    assert (Hlen : 1 <= length (tris tr0)) by (pose proof (Hzin _ Ht) as Hi0; destruct (tris tr0); [destruct Hi0|cbn; lia]).
    destruct (zone_run (2 * length (tris tr0) + 1) fuel p _ _ _ _ HC0) as (R & done & s' & E & HC & Hi); [cbn; lia|lia|].
    exists s'. split; [exact E|]. split; [apply (st_sound _ _ _ _ HC)|]. split; [apply (st_complete _ _ _ _ HC)|].
    split; [apply (st_trnodup _ _ _ _ HC)|]. destruct (st_tree _ _ _ _ HC) as [top HT].
    assert (Hal : forall x, zone x -> In x R).
    { apply (Hall R t); [apply Hi; left; reflexivity|apply (tree_zone _ _ HT)|]. intros r u e Hr Hu Se Sf.
      destruct (st_sides _ _ _ _ HC r e Hr Se) as [[]|[Hd|(w & Hw & Sw)]].
      - exfalso. apply (proj2 (st_done _ _ _ _ HC e Hd) u); auto.
      - replace u with w; [exact Hw|]. apply (tr0_excl _ _ (flip e)); auto. apply Hzin, (tree_zone _ _ HT), Hw. }
    intros x. rewrite (st_tris _ _ _ _ HC). split.
    - intros [[Hx Hn]|(e & He & ->)].
      + left. split; [exact Hx|]. intros Hz. apply Hn, Hal, Hz.
      + right. exists e. split; [apply (done_border _ _ _ _ _ HC He)|reflexivity].
    - intros [[Hx Hc]|(e & He & ->)].
      + left. split; [exact Hx|]. intros Hr. apply Hc, (tree_zone _ _ HT), Hr.
      + right. exists e. split; [|reflexivity]. destruct He as [(r & Hr & Sr) (u & Hu & Su & Hnu)].
        destruct (st_sides _ _ _ _ HC r e (Hal r Hr) Sr) as [[]|[Hd|(w & Hw & Sw)]]; [exact Hd|].
        exfalso. apply Hnu. replace u with w; [apply (tree_zone _ _ HT), Hw|]. apply (tr0_excl _ _ (flip e)); auto. apply Hzin, (tree_zone _ _ HT), Hw.
  Qed.
End Zone.
