(** P_Cavity.v — the cavity loop of vertex insertion on a closed mesh whose
    conflicting triangles form a tree: it never meets a hole, stops, and leaves
    exactly the untouched triangles and the fan over the border of the cavity.
    Everything here is combinatorial: any arithmetic, any hash order. *)

From Coq Require Import List Bool Arith Lia Permutation.
From Verif Require Import Base Arith Geometry Elements Polyline Procedures Spec P_Base P_Trn P_Poly P_Vertices.
Import ListNotations.

Section Cavity.
  Context {A : Arith} (H : HashOrder).
  Notation vertex := (vertex A).
  Notation edge := (edge A).
  Notation triangle := (triangle A).
  Notation triangulation := (triangulation A).
  Notation solve_state := (solve_state (A:=A)).

  (** Without a boundary and holes every vertex may be inserted anywhere. *)
  Lemma may_insert_free : forall fuel p (t : triangle) v, may_insert_triangle H fuel p t v None [] = Ok true.
  Proof.
    intros fuel p t v. unfold may_insert_triangle, may_insert_line, inside_boundary, outside_holes.
    rewrite ho_nil. destruct (is_ghost t); reflexivity.
  Qed.
  Lemma split_free : forall fuel (t : triangle) vs p, exists conf rest,
    split_conflicts H fuel p t vs None [] = Ok (conf, rest) /\
    conf = filter (fun v => cont_eqb (encircles t v) Inside) vs /\
    rest = filter (fun v => negb (cont_eqb (encircles t v) Inside)) vs.
  Proof.
    intros fuel t vs. induction vs as [|v vs IH]; intros p; [exists [], []; auto|].
    destruct (IH (0 :: p)) as (conf & rest & E & E1 & E2). cbn [split_conflicts]. rewrite may_insert_free. cbn [bind].
    rewrite E. cbn [bind filter]. destruct (cont_eqb (encircles t v) Inside); cbn [andb negb];
      do 2 eexists; (split; [reflexivity|]); subst; auto.
  Qed.

  Variables (tr0 : triangulation) (v : vertex).
  Hypothesis Hsound : adj_sound tr0.
  Hypothesis Hcomplete : adj_complete tr0.
  Hypothesis Hnodup : NoDup (tris tr0).
  Hypothesis Hclosed : forall t e, In t (tris tr0) -> side_of e t -> exists t', In t' (tris tr0) /\ side_of (flip e) t'.
  Hypothesis Hexact : forall t e e', In t (tris tr0) -> side_of e t -> side_of e' t -> eeqb e e' = true -> e = e'.
  Hypothesis Hproper : forall t, In t (tris tr0) -> te1 t <> te2 t /\ te2 t <> te3 t /\ te3 t <> te1 t.

  (** The conflicting triangles. *)
  Definition hit (t : triangle) : Prop := In t (tris tr0) /\ is_conflicting t v = true.
  (** The border of the conflicting region. *)
  Definition border (e : edge) : Prop :=
    (exists t, hit t /\ side_of e t) /\ exists u, In u (tris tr0) /\ side_of (flip e) u /\ ~ hit u.

  Variables (up : triangle -> edge -> Prop) (rank : triangle -> nat).
  Hypothesis Hlink : forall t u e, hit t -> hit u -> side_of e t -> side_of (flip e) u -> up t e \/ up u (flip e).
  Hypothesis Hone : forall t e e', hit t -> side_of e t -> side_of e' t -> up t e -> up t e' -> e = e'.
  Hypothesis Hrank : forall t u e, hit t -> hit u -> side_of e t -> side_of (flip e) u -> up t e -> rank u < rank t.
  Definition root (r : triangle) : Prop :=
    hit r /\ forall e u, side_of e r -> up r e -> In u (tris tr0) -> side_of (flip e) u -> ~ hit u.
  Hypothesis Hroot : forall r r', root r -> root r' -> r = r'.
  Hypothesis Hnew : forall e e' x, border e -> border e' ->
    side_of x (new_triangle e v) -> side_of x (new_triangle e' v) -> new_triangle e v = new_triangle e' v.
  Hypothesis Hfresh : forall e x, border e -> side_of x (new_triangle e v) ->
    x = e \/ forall t, In t (tris tr0) -> ~ side_of x t.

  Lemma tr0_excl : forall t t' e, In t (tris tr0) -> In t' (tris tr0) -> side_of e t -> side_of e t' -> t = t'.
  Proof.
    intros t t' e Ht Ht' H1 H2. pose proof (Hcomplete _ _ Ht H1) as E1. pose proof (Hcomplete _ _ Ht' H2) as E2. congruence.
  Qed.
  Lemma hit_dec : forall t, {hit t} + {~ hit t}.
  Proof.
    intros t. unfold hit. destruct (in_dec tdec t (tris tr0)) as [Hi|Hi]; [|right; tauto].
    destruct (is_conflicting t v) eqn:E; [left; auto|right; intros [_ E']; discriminate].
  Qed.

  Lemma next_two : forall t e pending, In t (tris tr0) -> side_of e t -> exists x y,
    next_cavities t e pending = x :: y :: pending /\ side_of x t /\ side_of y t /\ x <> y /\ x <> e /\ y <> e /\
    (forall z, side_of z t -> z = e \/ z = x \/ z = y).
  Proof.
    intros t e pending Ht He. destruct (Hproper t Ht) as (N1 & N2 & N3).
    assert (S1 : side_of (te1 t) t) by (apply side_of_cases; auto).
    assert (S2 : side_of (te2 t) t) by (apply side_of_cases; auto).
    assert (S3 : side_of (te3 t) t) by (apply side_of_cases; auto).
    assert (Hz : forall z, side_of z t -> z = te1 t \/ z = te2 t \/ z = te3 t) by (intros z Hz; apply side_of_cases; exact Hz).
    unfold next_cavities. destruct (eeqb e (te1 t)) eqn:E1.
    { apply (Hexact t) in E1; auto. subst e. exists (te3 t), (te2 t). repeat split; auto.
      intros z Sz. destruct (Hz z Sz) as [-> | [-> | ->]]; auto. }
    destruct (eeqb e (te2 t)) eqn:E2.
    { apply (Hexact t) in E2; auto. subst e. exists (te3 t), (te1 t). repeat split; auto.
      intros z Sz. destruct (Hz z Sz) as [-> | [-> | ->]]; auto. }
    destruct (Hz e He) as [-> | [-> | ->]].
    - rewrite eeqb_refl in E1. discriminate.
    - rewrite eeqb_refl in E2. discriminate.
    - exists (te2 t), (te1 t). repeat split; auto.
      intros z Sz. destruct (Hz z Sz) as [-> | [-> | ->]]; auto.
  Qed.

  (** ** The tree *)
  Record tree (R : list triangle) (top : triangle) : Prop := {
    tree_hit : forall r, In r R -> hit r;
    tree_top : In top R;
    tree_up : forall r, In r R -> r = top \/ exists e u, In u R /\ side_of e r /\ side_of (flip e) u /\ up r e;
    tree_low : forall r, In r R -> rank top <= rank r
  }.

  Lemma tree_one : forall t, hit t -> tree [t] t.
  Proof.
    intros t Ht. split; [intros r [<-|[]]; exact Ht|left; reflexivity|intros r [<-|[]]; auto|intros r [<-|[]]; auto].
  Qed.

  (** If [r] in the tree goes up to [u] outside, [r] is the top. *)
  Lemma tree_out : forall R top r u e, tree R top -> In r R -> hit u -> ~ In u R ->
    side_of e r -> side_of (flip e) u -> up r e -> r = top.
  Proof.
    intros R top r u e HT Hr Hu Hn He Hf Hup. destruct (tree_up _ _ HT r Hr) as [E|(e' & u' & Hu' & He' & Hf' & Hup')]; [exact E|].
    exfalso. apply Hn. assert (E : e = e') by (apply (Hone r); auto; apply (tree_hit _ _ HT), Hr). subst e'.
    replace u with u'; [exact Hu'|]. apply (tr0_excl _ _ (flip e)); auto; [apply (tree_hit _ _ HT), Hu'|apply Hu].
  Qed.

  (** A conflicting triangle touches a tree it is not in along one side only. *)
  Lemma tree_touch : forall R top r r' u e e', tree R top -> In r R -> In r' R -> hit u -> ~ In u R ->
    side_of e u -> side_of (flip e) r -> side_of e' u -> side_of (flip e') r' -> e = e'.
  Proof.
    intros R top r r' u e e' HT Hr Hr' Hu Hn He Hf He' Hf'.
    pose proof (tree_hit _ _ HT r Hr) as Ch. pose proof (tree_hit _ _ HT r' Hr') as Ch'.
    pose proof (flip_flip e) as FF. pose proof (flip_flip e') as FF'.
    destruct (Hlink u r e Hu Ch He Hf) as [U|U]; destruct (Hlink u r' e' Hu Ch' He' Hf') as [U'|U'].
    - apply (Hone u); auto.
    - assert (E : r' = top) by (apply (tree_out R top r' u (flip e')); auto; rewrite FF'; exact He').
      pose proof (Hrank _ _ _ Hu Ch He Hf U) as L1. pose proof (tree_low _ _ HT r Hr) as L2.
      assert (L3 : rank u < rank r') by (apply (Hrank r' u (flip e')); auto; rewrite FF'; exact He'). subst r'. lia.
    - assert (E : r = top) by (apply (tree_out R top r u (flip e)); auto; rewrite FF; exact He).
      pose proof (Hrank _ _ _ Hu Ch' He' Hf' U') as L1. pose proof (tree_low _ _ HT r' Hr') as L2.
      assert (L3 : rank u < rank r) by (apply (Hrank r u (flip e)); auto; rewrite FF; exact He). subst r. lia.
    - assert (E : r = top) by (apply (tree_out R top r u (flip e)); auto; rewrite FF; exact He).
      assert (E' : r' = top) by (apply (tree_out R top r' u (flip e')); auto; rewrite FF'; exact He'). subst r r'.
      assert (Ef : flip e = flip e') by (apply (Hone top); auto). rewrite <- FF, Ef. exact FF'.
  Qed.

  Lemma tree_add : forall R top r u e, tree R top -> In r R -> hit u -> ~ In u R ->
    side_of e r -> side_of (flip e) u -> exists top', tree (u :: R) top'.
  Proof.
    intros R top r u e HT Hr Hu Hn He Hf. pose proof (tree_hit _ _ HT r Hr) as Ch.
    destruct (Hlink r u e Ch Hu He Hf) as [U|U].
    - assert (E : r = top) by (apply (tree_out R top r u e); auto). subst r. pose proof (Hrank _ _ _ Ch Hu He Hf U) as L.
      exists u. split.
      + intros x [<-|Hx]; [exact Hu|apply (tree_hit _ _ HT), Hx].
      + left. reflexivity.
      + intros x [<-|Hx]; [auto|]. right. destruct (tree_up _ _ HT x Hx) as [-> |(e' & u' & Hu' & He' & Hf' & Hup')].
        * exists e, u. repeat split; auto. left. reflexivity.
        * exists e', u'. repeat split; auto. right. exact Hu'.
      + intros x [<-|Hx]; [lia|]. pose proof (tree_low _ _ HT x Hx). lia.
    - exists top. split.
      + intros x [<-|Hx]; [exact Hu|apply (tree_hit _ _ HT), Hx].
      + right. apply (tree_top _ _ HT).
      + intros x [<-|Hx].
        * right. exists (flip e), r. rewrite flip_flip. repeat split; auto. right. exact Hr.
        * destruct (tree_up _ _ HT x Hx) as [-> |(e' & u' & Hu' & He' & Hf' & Hup')]; [auto|].
          right. exists e', u'. repeat split; auto. right. exact Hu'.
      + intros x [<-|Hx]; [|apply (tree_low _ _ HT x Hx)].
        assert (L : rank r < rank u) by (apply (Hrank u r (flip e)); auto; rewrite flip_flip; exact He).
        pose proof (tree_low _ _ HT r Hr). lia.
  Qed.

  (** From any conflicting triangle one climbs to the root. *)
  Inductive climbs : triangle -> triangle -> Prop :=
  | climbs_here : forall t, climbs t t
  | climbs_up : forall t u r e, side_of e t -> side_of (flip e) u -> hit u -> climbs u r -> climbs t r.
  Lemma climb : forall n t, rank t <= n -> hit t -> exists r, root r /\ climbs t r.
  Proof.
    induction n as [|n IH]; intros t Hn Ht.
    - exists t. split; [|constructor]. split; [exact Ht|]. intros e u He Hup Hu Hf Hhu.
      pose proof (Hrank _ _ _ Ht Hhu He Hf Hup). lia.
    - (* is there a side going up inside the region? *)
      assert (D : (exists e u, In e (inner_edges t) /\ In u (tris tr0) /\ side_of e t /\ side_of (flip e) u /\ hit u /\ rank u < rank t) \/
                  ~ (exists e u, In e (inner_edges t) /\ In u (tris tr0) /\ side_of e t /\ side_of (flip e) u /\ hit u /\ rank u < rank t)).
      { destruct (existsb (fun e => existsb (fun u => (if in_dec edec (flip e) (inner_edges u) then true else false)
            && (if hit_dec u then true else false) && Nat.ltb (rank u) (rank t)) (tris tr0)) (inner_edges t)) eqn:Eb.
        - left. apply existsb_exists in Eb. destruct Eb as (e & He & Eb). apply existsb_exists in Eb. destruct Eb as (u & Hu & Eb).
          apply andb_true_iff in Eb. destruct Eb as [Eb E3]. apply andb_true_iff in Eb. destruct Eb as [E1 E2].
          destruct (in_dec edec (flip e) (inner_edges u)) as [Hi|]; [|discriminate]. destruct (hit_dec u) as [Hh|]; [|discriminate].
          apply Nat.ltb_lt in E3. exists e, u. rewrite !side_of_inner. repeat (split; [assumption|]). assumption.
        - right. intros (e & u & He & Hu & Se & Sf & Hh & L).
          assert (Et : existsb (fun e => existsb (fun u => (if in_dec edec (flip e) (inner_edges u) then true else false)
            && (if hit_dec u then true else false) && Nat.ltb (rank u) (rank t)) (tris tr0)) (inner_edges t) = true).
          { apply existsb_exists. exists e. split; [exact He|]. apply existsb_exists. exists u. split; [exact Hu|].
            rewrite side_of_inner in Sf. destruct (in_dec edec (flip e) (inner_edges u)); [|contradiction].
            destruct (hit_dec u); [|contradiction]. apply Nat.ltb_lt in L. rewrite L. reflexivity. }
          congruence. }
      destruct D as [(e & u & He & Hu & Se & Sf & Hh & L)|Hno].
      + destruct (IH u) as (r & Hr & Hc); [lia|exact Hh|]. exists r. split; [exact Hr|]. exact (climbs_up _ _ _ _ Se Sf Hh Hc).
      + exists t. split; [|constructor]. split; [exact Ht|]. intros e u He Hup Hu Hf Hhu. apply Hno. exists e, u.
        pose proof (Hrank _ _ _ Ht Hhu He Hf Hup). rewrite <- side_of_inner. repeat (split; [assumption|]). assumption.
  Qed.

  (** A set of conflicting triangles that is closed under conflicting neighbours
      holds all of them. *)
  Lemma all_hit : forall R t0, In t0 R -> (forall r, In r R -> hit r) ->
    (forall r u e, In r R -> hit u -> side_of e r -> side_of (flip e) u -> In u R) ->
    forall t, hit t -> In t R.
  Proof.
    intros R t0 H0 HR Hcl t Ht.
    assert (Hup : forall x r, climbs x r -> In x R -> In r R).
    { intros x r Hc. induction Hc as [x|x u r e He Hf Hu Hc IH]; [auto|]. intros Hx. apply IH. apply (Hcl x u e); auto. }
    assert (Hdown : forall x r, climbs x r -> hit x -> In r R -> In x R).
    { intros x r Hc. induction Hc as [x|x u r e He Hf Hu Hc IH]; [auto|]. intros Hx Hr.
      apply (Hcl u x (flip e)); auto. rewrite flip_flip. exact He. }
    destruct (climb _ t0 (le_n _) (HR _ H0)) as (r0 & Hr0 & Hc0). destruct (climb _ t (le_n _) Ht) as (r & Hr & Hc).
    assert (E : r = r0) by (apply Hroot; assumption). subst r0. apply (Hdown t r Hc Ht). apply (Hup _ _ Hc0 H0).
  Qed.

  (** ** The loop *)
  Record cavity (R : list triangle) (pending done : list edge) (s : solve_state) : Prop := {
    cv_tree : exists top, tree R top;
    cv_nodup : NoDup R;
    cv_tris : forall t, In t (tris (ss_tr s)) <->
      (In t (tris tr0) /\ ~ In t R) \/ exists e, In e done /\ t = new_triangle e v;
    cv_sound : adj_sound (ss_tr s);
    cv_complete : adj_complete (ss_tr s);
    cv_trnodup : NoDup (tris (ss_tr s));
    cv_pnodup : NoDup pending;
    cv_pending : forall e, In e pending -> (exists r, In r R /\ side_of e r) /\
      forall u, In u (tris tr0) -> side_of (flip e) u -> ~ In u R;
    cv_done : forall e, In e done -> (exists r, In r R /\ side_of e r) /\
      forall u, In u (tris tr0) -> side_of (flip e) u -> ~ hit u;
    cv_sides : forall r e, In r R -> side_of e r ->
      In e pending \/ In e done \/ exists u, In u R /\ side_of (flip e) u
  }.

  Lemma done_border : forall R pending done s e, cavity R pending done s -> In e done -> border e.
  Proof.
    intros R pending done s e HC He. destruct (cv_done _ _ _ _ HC e He) as [(r & Hr & Hs) Hn].
    destruct (cv_tree _ _ _ _ HC) as [top HT]. pose proof (tree_hit _ _ HT r Hr) as Hh.
    split; [exists r; auto|]. destruct (Hclosed r e (proj1 Hh) Hs) as (u & Hu & Hf). exists u. auto.
  Qed.

  (** What holds of the pending edges and the state at each step. *)
  Definition keeps (Q : list edge -> solve_state -> Prop) : Prop :=
    (forall e pending s u, Q (e :: pending) s -> In u (tris tr0) -> adj_get (opposite e) (ss_tr s) = Some u -> is_conflicting u v = true ->
      Q (next_cavities u (opposite e) pending)
        (SS (rem_tri u (ss_tr s)) (mdel tdec u (ss_cm s))
            (match mget tdec u (ss_cm s) with Some vs => ss_rem s ++ vs | None => ss_rem s end)
            (ss_inc s) (hadd tdec u (ss_del s)))) /\
    (forall fuel p e pending s u conf rest, Q (e :: pending) s -> In u (tris tr0) -> adj_get (opposite e) (ss_tr s) = Some u -> is_conflicting u v = false ->
      split_conflicts H fuel p (new_triangle e v) (ss_rem s) None [] = Ok (conf, rest) ->
      Q pending
        (SS (incl_tri (new_triangle e v) (ss_tr s)) (add_conflicts (new_triangle e v) conf (ss_cm s)) rest
            (hadd tdec (new_triangle e v) (ss_inc s)) (ss_del s))).

  Lemma cavity_step : forall fuel p e pending done R s, cavity R (e :: pending) done s ->
    exists R' pending' done' s' p',
      cavity_loop H (S fuel) p [] None [] v (e :: pending) s = cavity_loop H fuel p' [] None [] v pending' s' /\
      cavity R' pending' done' s' /\ incl R R' /\ (forall Q, keeps Q -> Q (e :: pending) s -> Q pending' s') /\
      2 * length R' + length (e :: pending) = 2 * length R + length pending' + 1 /\
      (length R' = length R \/ length R' = S (length R)).
  Proof.
    intros fuel p e pending done R s HC.
    destruct (cv_pending _ _ _ _ HC e (or_introl eq_refl)) as [(r & Hr & Hs) Hnot].
    destruct (cv_tree _ _ _ _ HC) as [top HT]. pose proof (tree_hit _ _ HT r Hr) as Hh.
    destruct (Hclosed r e (proj1 Hh) Hs) as (u & Hu & Hf). pose proof (Hnot u Hu Hf) as HuR.
    assert (Hus : In u (tris (ss_tr s))) by (apply (cv_tris _ _ _ _ HC); auto).
    assert (Hget : adj_get (opposite e) (ss_tr s) = Some u).
    { rewrite opposite_flip. apply (cv_complete _ _ _ _ HC); assumption. }
    cbn [cavity_loop]. rewrite Hget. cbn [unwrap bind]. rewrite may_insert_free. cbn [bind].
    assert (Ecs : is_constrained [] e = false) by reflexivity. rewrite Ecs. cbn [negb]. rewrite !andb_true_r.
    destruct (is_conflicting u v) eqn:Ec.
    - (* remove the triangle *)
      assert (Hhu : hit u) by (split; assumption).
      rewrite opposite_flip. destruct (next_two u (flip e) pending Hu Hf) as (x & y & En & Sx & Sy & Nxy & Nx & Ny & Hz).
      rewrite En. exists (u :: R), (x :: y :: pending), done. do 2 eexists. split; [reflexivity|].
      destruct (tree_add R top r u e HT Hr Hhu HuR Hs Hf) as [top' HT'].
      (* the other sides of [u] lead out of the tree *)
      assert (Hout : forall z, side_of z u -> z <> flip e -> forall w, In w (tris tr0) -> side_of (flip z) w -> ~ In w (u :: R)).
      { intros z Sz Nz w Hw Sw [<-|HwR].
        - (* a triangle is not its own neighbour: the flipped side would be a side of [u] *)
          assert (Hl : up u z \/ up u (flip z)) by (apply (Hlink u u z); auto). destruct Hl as [Hl|Hl].
          + pose proof (Hrank u u z Hhu Hhu Sz Sw Hl). lia.
          + assert (rank u < rank u) by (apply (Hrank u u (flip z)); auto; rewrite flip_flip; exact Sz). lia.
        - apply Nz. symmetry. apply (tree_touch R top r w u (flip e) z HT Hr HwR Hhu HuR Hf); auto. rewrite flip_flip. exact Hs. }
      assert (Hxp : forall z, side_of z u -> ~ In z pending).
      { intros z Sz Hin. destruct (cv_pending _ _ _ _ HC z (or_intror Hin)) as [(r' & Hr' & Hs') _].
        apply HuR. replace u with r'; [exact Hr'|]. apply (tr0_excl _ _ z); auto. apply (tree_hit _ _ HT), Hr'. }
      split; [|split; [intros w Hw; right; exact Hw|split; [|split; [cbn; lia|right; reflexivity]]]].
      2:{ intros Q [HQ _] Hq. rewrite <- En, <- opposite_flip. apply HQ; assumption. }
      pose proof (cv_pnodup _ _ _ _ HC) as Hpn. inversion Hpn as [|? ? Hep Hpn']; subst.
      split.
      + exists top'. exact HT'.
      + constructor; [exact HuR|apply (cv_nodup _ _ _ _ HC)].
      + intros t. cbn [ss_tr]. rewrite rem_tri_In, (cv_tris _ _ _ _ HC). cbn [In]. split.
        * intros [[[H1 H2]|H1] H3]; [left; split; [exact H1|]; intros [E|E]; [congruence|contradiction]|right; exact H1].
        * intros [[H1 H2]|H1]; [split; [left; split; [exact H1|]; tauto|intros ->; apply H2; left; reflexivity]|].
          split; [right; exact H1|]. intros ->. destruct H1 as (d & Hd & Ed).
          (* a new triangle is not an old one *)
          pose proof (done_border _ _ _ _ _ HC Hd) as Hb. destruct (cv_done _ _ _ _ HC d Hd) as [(rd & Hrd & Hsd) _].
          assert (Sd : side_of d u) by (rewrite Ed; apply new_triangle_side).
          apply HuR. replace u with rd; [exact Hrd|]. apply (tr0_excl _ _ d); auto. apply (tree_hit _ _ HT), Hrd.
      + apply adj_sound_rem, (cv_sound _ _ _ _ HC).
      + apply adj_complete_rem, (cv_complete _ _ _ _ HC).
      + apply rem_tri_NoDup, (cv_trnodup _ _ _ _ HC).
      + constructor; [intros [E|E]; [congruence|exact (Hxp x Sx E)]|]. constructor; [exact (Hxp y Sy)|exact Hpn'].
      + intros z [<-|[<-|Hin]].
        * split; [exists u; split; [left; reflexivity|exact Sx]|apply Hout; assumption].
        * split; [exists u; split; [left; reflexivity|exact Sy]|apply Hout; assumption].
        * destruct (cv_pending _ _ _ _ HC z (or_intror Hin)) as [(r' & Hr' & Hs') Hn'].
          split; [exists r'; split; [right; exact Hr'|exact Hs']|]. intros w Hw Sw [<-|HwR]; [|exact (Hn' w Hw Sw HwR)].
          (* [u] would touch the tree along two sides *)
          assert (E : flip e = flip z).
          { apply (tree_touch R top r r' u (flip e) (flip z) HT Hr Hr' Hhu HuR); auto; rewrite flip_flip; assumption. }
          apply Hep. rewrite <- (flip_flip e), E, flip_flip. exact Hin.
      + intros d Hd. destruct (cv_done _ _ _ _ HC d Hd) as [(r' & Hr' & Hs') Hn'].
        split; [exists r'; split; [right; exact Hr'|exact Hs']|exact Hn'].
      + intros r' z [<-|Hr'] Sz.
        * destruct (Hz z Sz) as [-> |[-> | ->]]; [|left; left; reflexivity|left; right; left; reflexivity].
          right. right. exists r. split; [right; exact Hr|]. rewrite flip_flip. exact Hs.
        * destruct (cv_sides _ _ _ _ HC r' z Hr' Sz) as [[<-|Hin]|[Hin|(w & Hw & Sw)]].
          -- right. right. exists u. split; [left; reflexivity|exact Hf].
          -- left. right. right. exact Hin.
          -- right. left. exact Hin.
          -- right. right. exists w. split; [right; exact Hw|exact Sw].
    - (* add a new triangle *)
      assert (Hhu : ~ hit u) by (intros [_ E]; congruence).
      assert (Hb : border e) by (split; [exists r; auto|exists u; auto]).
      destruct (split_free fuel (new_triangle e v) (ss_rem s) (2 :: p)) as (conf & rest & Es & _).
      unfold distribute_conflicts. rewrite Es. cbn [bind].
      exists R, pending, (e :: done). do 2 eexists. split; [reflexivity|].
      pose proof (cv_pnodup _ _ _ _ HC) as Hpn. inversion Hpn as [|? ? Hep Hpn']; subst.
      split; [|split; [apply incl_refl|split; [|split; [cbn; lia|left; reflexivity]]]].
      2:{ intros Q [_ HQ] Hq. eapply HQ; eassumption. }
      split.
      + exists top. exact HT.
      + apply (cv_nodup _ _ _ _ HC).
      + intros t. cbn [ss_tr]. rewrite incl_tri_In, (cv_tris _ _ _ _ HC). cbn [In]. split.
        * intros [-> |[H1|(d & Hd & Ed)]]; [right; exists e; auto|left; exact H1|right; exists d; auto].
        * intros [H1|(d & [<-|Hd] & Ed)]; [right; left; exact H1|left; exact Ed|right; right; exists d; auto].
      + apply adj_sound_incl, (cv_sound _ _ _ _ HC).
      + cbn [ss_tr]. apply adj_complete_incl; [apply (cv_complete _ _ _ _ HC)|]. intros t x Ht Sx Sx'.
        apply (cv_tris _ _ _ _ HC) in Ht. destruct Ht as [[Ht HtR]|(d & Hd & ->)].
        * exfalso. destruct (Hfresh e x Hb Sx) as [-> | Hno]; [|exact (Hno t Ht Sx')].
          apply HtR. replace t with r; [exact Hr|]. apply (tr0_excl _ _ e); auto. apply Hh.
        * apply (Hnew d e x); auto. apply (done_border _ _ _ _ _ HC Hd).
      + apply incl_tri_NoDup, (cv_trnodup _ _ _ _ HC).
      + exact Hpn'.
      + intros z Hin. apply (cv_pending _ _ _ _ HC z (or_intror Hin)).
      + intros d [<-|Hd]; [|apply (cv_done _ _ _ _ HC d Hd)]. split; [exists r; auto|].
        intros w Hw Sw Hhw. apply Hhu. replace u with w; [exact Hhw|]. apply (tr0_excl _ _ (flip e)); auto.
      + intros r' z Hr' Sz. destruct (cv_sides _ _ _ _ HC r' z Hr' Sz) as [[<-|Hin]|[Hin|Hin]]; auto.
        * right. left. left. reflexivity.
        * right. left. right. exact Hin.
  Qed.

  Lemma tree_bound : forall R top, tree R top -> NoDup R -> length R <= length (tris tr0).
  Proof. intros R top HT Hn. apply NoDup_incl_length; [exact Hn|]. intros r Hr. apply (tree_hit _ _ HT r Hr). Qed.

  Lemma cavity_run : forall n fuel p pending done R s, cavity R pending done s ->
    2 * (length (tris tr0) - length R) + length pending <= n -> n < fuel ->
    exists R' done' s', cavity_loop H fuel p [] None [] v pending s = Ok s' /\ cavity R' [] done' s' /\ incl R R' /\
      forall Q, keeps Q -> Q pending s -> Q [] s'.
  Proof.
    induction n as [|n IH]; intros fuel p pending done R s HC Hn Hf; destruct fuel as [|fuel]; try lia.
    - destruct pending as [|e pending]; [|cbn in Hn; lia]. exists R, done, s. split; [reflexivity|]. split; [exact HC|]. split; [apply incl_refl|auto].
    - destruct pending as [|e pending].
      { exists R, done, s. split; [reflexivity|]. split; [exact HC|]. split; [apply incl_refl|auto]. }
      destruct (cavity_step fuel p e pending done R s HC) as (R1 & p1 & d1 & s1 & q & E & HC1 & Hi & HQ & Hl & Hc). rewrite E.
      destruct (cv_tree _ _ _ _ HC1) as [top1 HT1]. pose proof (tree_bound _ _ HT1 (cv_nodup _ _ _ _ HC1)) as Hb1.
      destruct (IH fuel q p1 d1 R1 s1 HC1) as (R' & d' & s' & E' & HC' & Hi' & HQ').
      + cbn [length] in *. lia.
      + lia.
      + exists R', d', s'. split; [exact E'|]. split; [exact HC'|]. split; [exact (incl_tran Hi Hi')|]. intros Q HK Hq. exact (HQ' Q HK (HQ Q HK Hq)).
  Qed.

  Lemma cavity_start : forall t s, hit t -> tris (ss_tr s) = tris (rem_tri t tr0) -> ss_tr s = rem_tri t tr0 ->
    cavity [t] [te3 t; te2 t; te1 t] [] s.
  Proof.
    intros t s Ht _ Es. destruct (Hproper t (proj1 Ht)) as (N1 & N2 & N3). split.
    - exists t. apply tree_one, Ht.
    - constructor; [intros []|constructor].
    - intros x. rewrite Es, rem_tri_In. cbn [In]. split.
      + intros [H1 H2]. left. split; [exact H1|]. intros [E|[]]. congruence.
      + intros [[H1 H2]|(e & [] & _)]. split; [exact H1|]. intros ->. apply H2. left. reflexivity.
    - rewrite Es. apply adj_sound_rem, Hsound.
    - rewrite Es. apply adj_complete_rem, Hcomplete.
    - rewrite Es. apply rem_tri_NoDup, Hnodup.
    - constructor; [intros [E|[E|[]]]; congruence|]. constructor; [intros [E|[]]; congruence|]. constructor; [intros []|constructor].
    - intros e He. assert (Se : side_of e t) by (apply side_of_cases; destruct He as [<-|[<-|[<-|[]]]]; auto).
      split; [exists t; split; [left; reflexivity|exact Se]|]. intros u Hu Sf [<-|[]].
      destruct (Hlink t t e Ht Ht Se Sf) as [U|U].
      + pose proof (Hrank t t e Ht Ht Se Sf U). lia.
      + assert (rank t < rank t) by (apply (Hrank t t (flip e)); auto; rewrite flip_flip; exact Se). lia.
    - intros e [].
    - intros r e [<-|[]] Se. left. apply side_of_cases in Se. cbn [In]. destruct Se as [-> |[-> | ->]]; auto.
  Qed.

  (** The whole cavity of [v], from any conflicting triangle. *)
  Lemma cavity_total_keeps : forall t s fuel p, hit t -> ss_tr s = rem_tri t tr0 -> 2 * length (tris tr0) + 2 < fuel ->
    exists s', cavity_loop H fuel p [] None [] v [te3 t; te2 t; te1 t] s = Ok s' /\
      adj_sound (ss_tr s') /\ adj_complete (ss_tr s') /\ NoDup (tris (ss_tr s')) /\
      (forall x, In x (tris (ss_tr s')) <->
        (In x (tris tr0) /\ is_conflicting x v = false) \/ exists e, border e /\ x = new_triangle e v) /\
      forall Q, keeps Q -> Q [te3 t; te2 t; te1 t] s -> Q [] s'.
  Proof.
    intros t s fuel p Ht Es Hf.
    assert (HC0 : cavity [t] [te3 t; te2 t; te1 t] [] s) by (apply cavity_start; [exact Ht|rewrite Es; reflexivity|exact Es]).
    assert (Hlen : 1 <= length (tris tr0)) by (destruct (tris tr0) eqn:E; [destruct Ht as [Hi _]; rewrite E in Hi; destruct Hi|cbn; lia]).
    destruct (cavity_run (2 * length (tris tr0) + 1) fuel p _ _ _ _ HC0) as (R & done & s' & E & HC & Hi & HQ); [cbn; lia|lia|].
    exists s'. split; [exact E|]. split; [apply (cv_sound _ _ _ _ HC)|]. split; [apply (cv_complete _ _ _ _ HC)|].
    split; [apply (cv_trnodup _ _ _ _ HC)|]. destruct (cv_tree _ _ _ _ HC) as [top HT].
    assert (Hall : forall x, hit x -> In x R).
    { apply (all_hit R t); [apply Hi; left; reflexivity|apply (tree_hit _ _ HT)|]. intros r u e Hr Hu Se Sf.
      destruct (cv_sides _ _ _ _ HC r e Hr Se) as [[]|[Hd|(w & Hw & Sw)]].
      - exfalso. apply (proj2 (cv_done _ _ _ _ HC e Hd) u); auto. apply Hu.
      - replace u with w; [exact Hw|]. apply (tr0_excl _ _ (flip e)); auto; [apply (tree_hit _ _ HT), Hw|apply Hu]. }
    split; [|exact HQ]. intros x. rewrite (cv_tris _ _ _ _ HC). split.
    - intros [[Hx Hn]|(e & He & ->)].
      + left. split; [exact Hx|]. destruct (is_conflicting x v) eqn:Ec; [|reflexivity]. exfalso. apply Hn, Hall. split; assumption.
      + right. exists e. split; [apply (done_border _ _ _ _ _ HC He)|reflexivity].
    - intros [[Hx Hc]|(e & He & ->)].
      + left. split; [exact Hx|]. intros Hr. destruct (tree_hit _ _ HT x Hr) as [_ E']. congruence.
      + right. exists e. split; [|reflexivity]. destruct He as [(r & Hr & Sr) (u & Hu & Su & Hnu)].
        destruct (cv_sides _ _ _ _ HC r e (Hall r Hr) Sr) as [[]|[Hd|(w & Hw & Sw)]]; [exact Hd|].
        exfalso. apply Hnu. replace u with w; [apply (tree_hit _ _ HT), Hw|]. apply (tr0_excl _ _ (flip e)); auto. apply (tree_hit _ _ HT), Hw.
  Qed.
  Lemma cavity_total : forall t s fuel p, hit t -> ss_tr s = rem_tri t tr0 -> 2 * length (tris tr0) + 2 < fuel ->
    exists s', cavity_loop H fuel p [] None [] v [te3 t; te2 t; te1 t] s = Ok s' /\
      adj_sound (ss_tr s') /\ adj_complete (ss_tr s') /\ NoDup (tris (ss_tr s')) /\
      (forall x, In x (tris (ss_tr s')) <->
        (In x (tris tr0) /\ is_conflicting x v = false) \/ exists e, border e /\ x = new_triangle e v).
  Proof.
    intros t s fuel p Ht Es Hf. destruct (cavity_total_keeps t s fuel p Ht Es Hf) as (s' & H1 & H2 & H3 & H4 & H5 & _). exists s'. auto.
  Qed.
End Cavity.
