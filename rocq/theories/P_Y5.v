(** P_Y5.v — points in convex position over any arithmetic that agrees with the
    real plane on them: inserting them all at once into a segment loses none. *)

From Coq Require Import Reals List ZArith Lra Lia Bool Permutation.
From Verif Require Import Base Arith Geometry Elements Polyline Procedures ArithR Spec SpecR SpecD SpecQ
  P_Base P_Trn P_Fuel P_Vertices P_Cavity P_R1 P_R2 P_R5 P_R6 P_D1 P_D2 P_D3 P_D4 P_D5 P_L2 P_Y1 P_Y2.
Import ListNotations.
Local Open Scope R_scope.

Section Convex.
  Context {A : Arith} (rd : vertex A -> pnt) (U : list (vertex A)).
  Hypothesis HA : agrees rd U.
  Hypothesis HC : convex_position (map rd U).
  Notation vertex := (vertex A).
  Notation edge := (edge A).
  Notation triangle := (triangle A).
  Notation triangulation := (triangulation A).
  Notation state := (solve_state (A:=A)).
  Notation gA := (ghost_vertex (A:=A)).
  Notation shows := (shows rd U).
  Notation rt := (rt rd).
  Notation E a b w := (area2 (rd a) (rd b) (rd w)).

  Lemma img : forall w, In w U -> In (rd w) (map rd U).
  Proof. intros w. apply in_map. Qed.
  Lemma gvU : forall w, In w U -> w <> gA.
  Proof. intros w Hw ->. destruct (ag_plain _ _ HA _ Hw). discriminate. Qed.
  Lemma ne : forall a b, In a U -> In b U -> a <> b -> rd a <> rd b.
  Proof. intros a b Ha Hb Hn K. apply Hn, (ag_inj _ _ HA); assumption. Qed.
  Lemma on_line : forall a b w, In a U -> In b U -> In w U -> - eps <= E a b w <= eps -> E a b w = 0.
  Proof. intros a b w Ha Hb Hw L. apply (rs_line _ (ag_res _ _ HA)); auto using img. Qed.

  Lemma outer_inside : forall a b w, In a U -> In b U -> In w U -> (encircles (Tri a b gA) w = Inside <-> eps < E a b w).
  Proof.
    intros a b w Ha Hb Hw. unfold encircles, is_ghost. cbn [tv1 tv2 tv3 vghost ghost_vertex]. rewrite orb_true_r. cbn [negb].
    rewrite (ag_ori _ _ HA a b w Ha Hb Hw). destruct (orientation_spec (rd a) (rd b) (rd w)) as (H1 & _ & _). rewrite <- H1.
    destruct (orientation (rd a) (rd b) (rd w)); split; congruence.
  Qed.
  Lemma outer_free : forall a b w, In a U -> In b U -> In w U -> E a b w < 0 -> is_conflicting (Tri a b gA) w = false.
  Proof.
    intros a b w Ha Hb Hw Hn. pose proof eps_pos. unfold is_conflicting.
    assert (Hl : E a b w < - eps).
    { destruct (Rlt_dec (E a b w) (- eps)) as [L|L]; [exact L|]. assert (E a b w = 0) by (apply on_line; auto; lra). lra. }
    destruct (encircles (Tri a b gA) w) eqn:Ee; cbn [cont_eqb orb]; try (apply outer_inside in Ee; auto; lra);
      (destruct (edge_contains (tv1 (Tri a b gA), tv2 (Tri a b gA)) w) eqn:Ec; [|apply andb_false_r]);
      cbn [tv1 tv2] in Ec; rewrite (ag_edge _ _ HA a b w Ha Hb Hw) in Ec; apply edge_contains_spec in Ec; destruct Ec as [_ Ec]; cbn [fst snd] in Ec; lra.
  Qed.

  Section One.
    Variables (S : list vertex) (tr0 : triangulation) (tr' : mesh) (a b v : vertex).
    Hypothesis HS : incl S U.
    Hypothesis Hsh : shows tr0 tr'.
    Hypothesis HD : delaunay (map rd S) tr'.
    Hypothesis HvU : In v U.
    Hypothesis HvS : ~ In v S.
    Hypothesis Ht0 : In (Tri a b gA) (tris tr0).
    Hypothesis Hv0 : 0 < E a b v.

    Lemma shape : forall t, In t (tris tr0) ->
      (exists a b c, t = Tri a b c /\ In a S /\ In b S /\ In c S /\ 0 < E a b c) \/ (exists a b, t = Tri a b gA /\ In a S /\ In b S /\ a <> b).
    Proof. exact (tri_shape rd U (ag_ghost _ _ HA) (ag_plain _ _ HA) (ag_inj _ _ HA) S tr0 tr' HS Hsh HD). Qed.
    Lemma ghost_form : forall u, In u (tris tr0) -> is_ghost u = true -> exists c d, u = Tri c d gA /\ In c S /\ In d S /\ c <> d.
    Proof.
      intros u Hu Hg. destruct (shape u Hu) as [(x & y & z & -> & Hx & Hy & Hz & _)|(x & y & -> & Hx & Hy & Hn)]; [|eauto 6].
      exfalso. unfold is_ghost in Hg. cbn [tv1 tv2 tv3] in Hg. destruct (ag_plain _ _ HA x (HS _ Hx)) as [G1 _]. destruct (ag_plain _ _ HA y (HS _ Hy)) as [G2 _]. destruct (ag_plain _ _ HA z (HS _ Hz)) as [G3 _].
      rewrite G1, G2, G3 in Hg. discriminate.
    Qed.
    Lemma ghost_ends : forall c d, In (Tri c d gA) (tris tr0) -> In c S /\ In d S /\ c <> d.
    Proof.
      intros c d Hu. destruct (ghost_form _ Hu) as (x & y & K & Hx & Hy & Hn); [unfold is_ghost; cbn; rewrite orb_true_r; reflexivity|]. injection K as -> ->. auto.
    Qed.
    Lemma ab_S : In a S /\ In b S /\ a <> b. Proof. exact (ghost_ends a b Ht0). Qed.
    Lemma va : v <> a. Proof. intros ->. apply HvS, ab_S. Qed.
    Lemma vb : v <> b. Proof. intros ->. apply HvS, ab_S. Qed.
    Lemma below : forall c d w, In (Tri c d gA) (tris tr0) -> In w S -> E c d w <= 0.
    Proof.
      intros c d w Hu Hw. apply (dl_hull _ _ HD (rd c) (rd d)); [|apply in_map, Hw]. apply (sh_tris _ _ _ _ Hsh). exists (Tri c d gA). split; [exact Hu|].
      unfold P_Y1.rt. cbn [tv1 tv2 tv3]. rewrite (ag_ghost _ _ HA). reflexivity.
    Qed.

    (** The other outer faces are left alone. *)
    Lemma old_free : forall c d, In (Tri c d gA) (tris tr0) -> Tri c d gA <> Tri a b gA -> is_conflicting (Tri c d gA) v = false.
    Proof.
      intros c d Hu Hn. destruct (ghost_ends c d Hu) as (Hc & Hd & Ncd). destruct ab_S as (Ha & Hb & Nab).
      apply outer_free; auto.
      assert (Nz : E c d v <> 0) by (apply (proj1 HC); auto using img; apply ne; auto; intros ->; contradiction).
      destruct (Rlt_dec 0 (E c d v)) as [P|P]; [|lra]. exfalso. apply Hn.
      destruct (seen_once (map rd U) HC (rd a) (rd b) (rd c) (rd d) (rd v)) as [E1 E2]; auto using img, ne, below.
      apply (ag_inj _ _ HA) in E1; auto. apply (ag_inj _ _ HA) in E2; auto. subst. reflexivity.
    Qed.

    Definition ghosted (u : triangle) : Prop := (In u (tris tr0) /\ u <> Tri a b gA) \/ u = Tri a v gA \/ u = Tri v b gA.
    Definition plain_edge (e : edge) : Prop := vghost (fst e) = false /\ vghost (snd e) = false /\ fst e <> v /\ snd e <> v.
    Definition phases (pending : list edge) (rem : list vertex) : Prop :=
      pending = [(gA, a); (b, gA); (a, b)] \/
      (pending = [(b, gA); (a, b)] /\ forall w, In w rem -> E a v w <= 0) \/
      ((forall e, In e pending -> plain_edge e) /\ rem = []).
    Definition rounded (pending : list edge) (s : state) : Prop :=
      adj_sound (ss_tr s) /\ (forall u, In u (tris (ss_tr s)) -> is_ghost u = true -> ghosted u) /\
      (forall u, In u (map fst (ss_cm s)) -> is_ghost u = true) /\
      (forall w, In w (ss_rem s) -> In w U /\ w <> v /\ 0 < E a b w) /\ phases pending (ss_rem s).

    Lemma corner_ghost : forall u : triangle, corner_of gA u -> is_ghost u = true.
    Proof. intros u Hu. inversion Hu; subst; unfold is_ghost; cbn [tv1 tv2 tv3 vghost ghost_vertex]; rewrite ?orb_true_r; reflexivity. Qed.
    Lemma at_first : forall u, ghosted u -> side_of (a, gA) u -> is_conflicting u v = false.
    Proof.
      intros u Hu Hs. destruct ab_S as (Ha & Hb & Nab). pose proof (gvU a (HS a Ha)). pose proof (gvU b (HS b Hb)). pose proof (gvU v HvU). pose proof va.
      destruct Hu as [[Hu Hn]|[-> | ->]]; [|exfalso|exfalso].
      - destruct (ghost_form u Hu (corner_ghost u (side_corner2 _ _ Hs))) as (c & d & -> & Hc & Hd & Ncd). apply old_free; assumption.
      - inversion Hs; subst; congruence.
      - inversion Hs; subst; congruence.
    Qed.
    Lemma at_second : forall u, ghosted u -> side_of (gA, b) u -> is_conflicting u v = false.
    Proof.
      intros u Hu Hs. destruct ab_S as (Ha & Hb & Nab). pose proof (gvU a (HS a Ha)). pose proof (gvU b (HS b Hb)). pose proof (gvU v HvU). pose proof vb.
      destruct Hu as [[Hu Hn]|[-> | ->]]; [|exfalso|exfalso].
      - destruct (ghost_form u Hu (corner_ghost u (side_corner1 _ _ Hs))) as (c & d & -> & Hc & Hd & Ncd). apply old_free; assumption.
      - inversion Hs; subst; congruence.
      - inversion Hs; subst; congruence.
    Qed.
    Lemma at_later : forall u e, ghosted u -> is_ghost u = true -> side_of (opposite e) u -> plain_edge e -> is_conflicting u v = false.
    Proof.
      intros u [x y] Hu Hg Hs (G1 & G2 & N1 & N2). unfold opposite, ev1, ev2 in Hs. cbn [fst snd] in *.
      destruct Hu as [[Hu Hn]|[-> | ->]]; [|exfalso|exfalso].
      - destruct (ghost_form u Hu Hg) as (c & d & -> & Hc & Hd & Ncd). apply old_free; assumption.
      - inversion Hs; subst; try discriminate; congruence.
      - inversion Hs; subst; try discriminate; congruence.
    Qed.
    Lemma old_corner : forall u w, In u (tris tr0) -> corner_of w u -> In w S \/ w = gA.
    Proof.
      intros u w Hu Hw. destruct (shape u Hu) as [(x & y & z & -> & Hx & Hy & Hz & _)|(x & y & -> & Hx & Hy & _)]; inversion Hw; subst; auto.
    Qed.

    Lemma add_keys : forall (t : triangle) conf (cm : conflict_map (A:=A)) u, In u (map fst (add_conflicts t conf cm)) -> In u (map fst cm) \/ u = t.
    Proof.
      intros t conf cm u Hu. apply in_map_iff in Hu. destruct Hu as ([u' l] & K & Hi). cbn in K. subst u'.
      apply add_conflicts_In in Hi. destruct Hi as [Hi|(-> & _)]; [|auto]. left. apply (in_map fst) in Hi. exact Hi.
    Qed.
    Lemma split_free' : forall (H : HashOrder) fuel (t : triangle) vs p conf rest, split_conflicts H fuel p t vs None [] = Ok (conf, rest) ->
      rest = filter (fun w => negb (cont_eqb (encircles t w) Inside)) vs.
    Proof.
      intros H fuel t vs p conf rest Hs. destruct (split_free H fuel t vs p) as (conf' & rest' & Hs' & _ & Er).
      rewrite Hs in Hs'. injection Hs' as -> ->. exact Er.
    Qed.
    Lemma not_taken : forall x y w, In x U -> In y U -> In w U -> negb (cont_eqb (encircles (Tri x y gA) w) Inside) = true -> E x y w <= 0.
    Proof.
      intros x y w Hx Hy Hw Hn. pose proof eps_pos. assert (Hne : encircles (Tri x y gA) w <> Inside) by (intros K; rewrite K in Hn; discriminate).
      rewrite (outer_inside x y w Hx Hy Hw) in Hne. destruct (Rle_dec (E x y w) 0) as [L|L]; [exact L|].
      assert (E x y w = 0) by (apply on_line; auto; lra). lra.
    Qed.

    Lemma rounded_keeps : forall H : HashOrder, keeps H tr0 v rounded.
    Proof.
      intros H. destruct ab_S as (HaS & HbS & Nab). split.
      - intros e pending s u (Ha & Hg & Hk & Hr & Hp) Hu0 Ho Hc. destruct (Ha _ _ Ho) as [Hin Hs].
        assert (Hout : is_ghost u = false /\ (forall e', In e' (e :: pending) -> plain_edge e') /\ ss_rem s = []).
        { destruct Hp as [K|[[K _]|[Hp Er]]].
          - exfalso. injection K as -> ->. unfold opposite, ev1, ev2 in Hs. cbn [fst snd] in Hs.
            rewrite (at_first u) in Hc; [discriminate| |exact Hs]. apply Hg; [exact Hin|]. apply corner_ghost, (side_corner2 _ _ Hs).
          - exfalso. injection K as -> ->. unfold opposite, ev1, ev2 in Hs. cbn [fst snd] in Hs.
            rewrite (at_second u) in Hc; [discriminate| |exact Hs]. apply Hg; [exact Hin|]. apply corner_ghost, (side_corner1 _ _ Hs).
          - split; [|auto]. destruct (is_ghost u) eqn:Eg; [|reflexivity]. exfalso.
            rewrite (at_later u e) in Hc; [discriminate|auto|exact Eg|exact Hs|apply Hp; left; reflexivity]. }
        destruct Hout as (Hog & Hpl & Hr0). unfold rounded. cbn [ss_tr ss_cm ss_rem].
        assert (Hno : mget tdec u (ss_cm s) = None).
        { apply mget_None. intros Hi. apply Hk in Hi. congruence. }
        rewrite Hno, Hr0. split; [apply adj_sound_rem, Ha|]. split; [|split; [|split; [intros w []|]]].
        + intros x Hx. apply rem_tri_In in Hx. apply Hg, Hx.
        + intros x Hx. apply mdel_keys in Hx. apply Hk, Hx.
        + right. right. split; [|reflexivity]. intros e' He'. apply next_cavities_In in He'. destruct He' as [He'|He']; [|apply Hpl; right; exact He'].
          assert (Hw : forall w, corner_of w u -> vghost w = false /\ w <> v).
          { intros w Hw. destruct (old_corner u w Hu0 Hw) as [Hi| ->].
            - split; [apply (ag_plain _ _ HA), HS, Hi|]. intros ->. contradiction.
            - apply corner_ghost in Hw. congruence. }
          destruct (Hw _ (side_corner1 _ _ He')). destruct (Hw _ (side_corner2 _ _ He')). repeat split; assumption.
      - intros fuel p e pending s u conf rest (Ha & Hg & Hk & Hr & Hp) Hu0 Ho Hc Hs.
        pose proof (split_free' _ _ _ _ _ _ _ Hs) as Er.
        assert (Ga : vghost a = false) by (apply (ag_plain _ _ HA); auto). assert (Gb : vghost b = false) by (apply (ag_plain _ _ HA); auto).
        assert (Gv : vghost v = false) by (apply (ag_plain _ _ HA); auto).
        unfold rounded. cbn [ss_tr ss_cm ss_rem]. split; [apply adj_sound_incl, Ha|].
        assert (Hr' : forall w, In w rest -> In w U /\ w <> v /\ 0 < E a b w) by (intros w Hw; rewrite Er in Hw; apply filter_In in Hw; apply Hr, Hw).
        destruct Hp as [K|[[K Hl]|[Hp Er0]]].
        + injection K as -> ->. assert (En : new_triangle (gA, a) v = Tri a v gA) by reflexivity. rewrite En in *.
          split; [|split; [|split; [exact Hr'|]]].
          * intros x Hx Hxg. apply incl_tri_In in Hx. destruct Hx as [-> |Hx]; [right; left; reflexivity|apply Hg; assumption].
          * intros x Hx. apply add_keys in Hx. destruct Hx as [Hx| ->]; [apply Hk, Hx|apply corner_ghost; constructor].
          * right. left. split; [reflexivity|]. intros w Hw. rewrite Er in Hw. apply filter_In in Hw. destruct Hw as [Hw1 Hw2].
            apply not_taken; auto. apply Hr, Hw1.
        + injection K as -> ->.
          assert (En : new_triangle (b, gA) v = Tri v b gA) by (unfold new_triangle, ev1, ev2; cbn [fst snd]; rewrite Gb; reflexivity). rewrite En in *.
          split; [|split; [|split; [exact Hr'|]]].
          * intros x Hx Hxg. apply incl_tri_In in Hx. destruct Hx as [-> |Hx]; [right; right; reflexivity|apply Hg; assumption].
          * intros x Hx. apply add_keys in Hx. destruct Hx as [Hx| ->]; [apply Hk, Hx|apply corner_ghost; constructor].
          * right. right. split.
            -- intros e' [<-|[]]. pose proof va. pose proof vb. repeat split; cbn [fst snd]; auto.
            -- destruct rest as [|w rest]; [reflexivity|exfalso]. assert (Hw : In w (w :: rest)) by (left; reflexivity).
               rewrite Er in Hw. apply filter_In in Hw. destruct Hw as [Hw1 Hw2]. destruct (Hr w Hw1) as (HwT & Hwv & Hwab).
               pose proof (Hl w Hw1) as L1. assert (L2 : E v b w <= 0) by (apply not_taken; auto).
               destruct (takes (map rd U) HC (rd a) (rd b) (rd v) (rd w)); auto using img, ne; lra.
        + assert (Hpe : plain_edge e) by (apply Hp; left; reflexivity). destruct e as [x y]. destruct Hpe as (Gx & Gy & Nx & Ny). cbn [fst snd] in *.
          assert (En : new_triangle (x, y) v = Tri x y v) by (unfold new_triangle, ev1, ev2; cbn [fst snd]; rewrite Gx, Gy; reflexivity). rewrite En in *.
          split; [|split; [|split; [exact Hr'|]]].
          * intros z Hz Hzg. apply incl_tri_In in Hz. destruct Hz as [-> |Hz]; [|apply Hg; assumption].
            unfold is_ghost in Hzg. cbn [tv1 tv2 tv3] in Hzg. rewrite Gx, Gy, Gv in Hzg. discriminate.
          * destruct (split_conflicts_spec _ _ _ _ _ _ _ _ _ Hs) as [Hperm _]. rewrite Er0 in Hperm. apply Permutation_nil in Hperm. apply app_eq_nil in Hperm.
            destruct Hperm as [-> _]. exact Hk.
          * right. right. split; [intros e' He'; apply Hp; right; exact He'|]. rewrite Er, Er0. reflexivity.
    Qed.
  End One.

  (** ** All of them *)
  Definition outer_held (s : state) : Prop := ss_rem s = [] /\ forall u, In u (map fst (ss_cm s)) -> is_ghost u = true.

  Lemma solve_convex : forall (H : HashOrder) n L S (s : state) tr' p, (length L <= n)%nat -> held L s -> outer_held s -> incl (L ++ S) U -> NoDup L -> (forall w, In w L -> ~ In w S) ->
    shows (ss_tr s) tr' -> delaunay (map rd S) tr' ->
    exists n0 s' tr2', (forall fuel, (n0 <= fuel)%nat -> solve_loop H fuel p [] None [] s = Ok s') /\ shows (ss_tr s') tr2' /\ delaunay (map rd (L ++ S)) tr2'.
  Proof.
    intros H n. induction n as [|n IH]; intros L S s tr' p Hn Hh Ho HU HL HLS Hsh HD.
    - exists 1%nat, s, tr'. assert (L = []) by (destruct L; [reflexivity|cbn in Hn; lia]). subst L. destruct Hh as (Hf & Hp & _ & _).
      apply Permutation_nil in Hp. apply app_eq_nil in Hp. destruct Hp as [Hl Hr].
      assert (Ecm : ss_cm s = []).
      { destruct (ss_cm s) as [|[t l] cm] eqn:Ec; [reflexivity|]. exfalso. destruct (proj2 Hf t l (or_introl eq_refl)) as [Hne _]. cbn in Hl. apply app_eq_nil in Hl. apply Hne, Hl. }
      split; [|split; [exact Hsh|exact HD]]. intros fuel Hfu. destruct fuel; [lia|]. cbn [solve_loop]. rewrite Ecm. rewrite ho_nil. reflexivity.
    - destruct (ho H (1%nat :: p) _ (map fst (ss_cm s))) as [|t ts] eqn:Hk.
      { exists 1%nat, s, tr'. destruct Hh as (Hf & Hp & _ & _). split; [|split; [exact Hsh|]].
        - intros fuel Hfu. destruct fuel; [lia|]. cbn [solve_loop]. rewrite Hk. reflexivity.
        - apply ho_nil_inv in Hk. rewrite (proj1 Ho) in Hp. destruct (ss_cm s); [|discriminate]. apply Permutation_sym, Permutation_nil in Hp. rewrite Hp. exact HD. }
      assert (Ht : In t (map fst (ss_cm s))) by (apply (ho_In H (1%nat :: p)); rewrite Hk; left; reflexivity).
      destruct (mget tdec t (ss_cm s)) as [vs|] eqn:Hg; [|apply mget_None in Hg; contradiction].
      pose proof (mget_In _ _ _ _ Hg) as Hin. pose proof Hh as (Hf & Hp & Ha & Hkeys). destruct (proj2 Hf t vs Hin) as [Hne Hins].
      destruct (hd_error (rev vs)) as [v|] eqn:Hv.
      2:{ exfalso. apply Hne. destruct (rev vs) eqn:Er; [|discriminate]. rewrite <- (rev_involutive vs), Er. reflexivity. }
      assert (Hvl : In v vs) by (rewrite (hd_rev_last _ _ Hv); apply in_or_app; right; left; reflexivity).
      pose proof (Hins v Hvl) as He. assert (Htr : In t (tris (ss_tr s))) by (apply Hkeys, Ht).
      destruct (held_start t vs v s L) as (L' & HpL & Hh'); [exact Hh|exact Hg|exact Hv|].
      assert (HvL : In v L) by (apply (Permutation_in _ (Permutation_sym HpL)); left; reflexivity).
      assert (HL' : NoDup (v :: L')) by (apply (Permutation_NoDup HpL), HL). inversion HL' as [|? ? HvL' HL2]; subst.
      assert (HvS : ~ In v S) by (apply HLS, HvL).
      assert (HvU : In v U) by (apply HU, in_or_app; auto). assert (HSU : incl S U) by (intros w Hw; apply HU, in_or_app; auto).
      assert (HLi : forall w, In w L' -> In w L) by (intros w Hw; apply (Permutation_in _ (Permutation_sym HpL)); right; exact Hw).
      set (s0 := SS (rem_tri t (ss_tr s)) (mdel tdec t (ss_cm s)) (ss_rem s ++ removelast vs) (ss_inc s) (hadd tdec t (ss_del s))) in *.
      destruct (step_one rd U HA H S (ss_tr s) tr' v) with (t := t) (s := s0)
        (fuel := (3 + 2 * length (tris (ss_tr s)))%nat) (p := (2%nat :: p)) as (s1 & tr1' & Hs1 & Hsh1 & HD1 & HQ); auto; [lia|].
      assert (Hh1 : held L' s1) by exact (cavity_loop_inv H [] None [] (fun _ _ => held L') (held_remove L') (held_include H L') _ _ _ _ _ _ Hs1 Hh').
      destruct (ghost_form S (ss_tr s) tr' HSU Hsh HD t Htr (proj2 Ho t Ht)) as (a & b & Et & HaS & HbS & Nab).
      assert (Pab : 0 < E a b v).
      { rewrite Et in He. apply outer_inside in He; auto. pose proof eps_pos. lra. }
      assert (Ho1 : outer_held s1).
      { assert (Htr' : In (Tri a b gA) (tris (ss_tr s))) by (rewrite <- Et; exact Htr).
        assert (Hend : rounded (ss_tr s) a b v [] s1).
        { refine (HQ _ (rounded_keeps S (ss_tr s) tr' a b v HSU Hsh HD HvU HvS Htr' Pab H) _).
          unfold rounded, s0. cbn [ss_tr ss_cm ss_rem]. split; [apply adj_sound_rem, Ha|]. split; [|split; [|split]].
          + intros u Hu _. apply rem_tri_In in Hu. left. rewrite <- Et. split; apply Hu.
          + intros u Hu. apply mdel_keys in Hu. apply (proj2 Ho), Hu.
          + rewrite (proj1 Ho). cbn [app]. intros w Hw. pose proof (in_removelast _ _ Hw) as Hwv.
            assert (HwL : In w L).
            { apply (Permutation_in _ (Permutation_sym Hp)). apply in_or_app. left. apply (listed_In _ t vs); assumption. }
            assert (HwU : In w U) by (apply HU, in_or_app; auto).
            split; [exact HwU|]. split.
            * intros ->. assert (Hnd : NoDup vs).
              { pose proof (Permutation_NoDup Hp HL) as Q. apply nodup_left in Q. pose proof (Permutation_NoDup (listed_mdel _ _ _ (proj1 Hf) Hg) Q) as Q'. apply nodup_left in Q'. exact Q'. }
              rewrite (hd_rev_last _ _ Hv) in Hnd. apply NoDup_remove_2 in Hnd. rewrite app_nil_r in Hnd. contradiction.
            * pose proof (Hins w Hwv) as Hw'. rewrite Et in Hw'. apply outer_inside in Hw'; auto. pose proof eps_pos. lra.
          + left. rewrite Et. reflexivity. }
        destruct Hend as (_ & _ & Hk1 & _ & [K|[[K _]|[_ K]]]); [discriminate|discriminate|]. split; assumption. }
      assert (Hi : forall w, In w (L' ++ v :: S) <-> In w (L ++ S)).
      { intros w. rewrite !in_app_iff. cbn [In]. assert (Q : In w L <-> In w (v :: L')) by (split; apply Permutation_in; [exact HpL|apply Permutation_sym, HpL]).
        rewrite Q. cbn [In]. tauto. }
      destruct (IH L' (v :: S) s1 tr1' (0%nat :: p)) as (n0 & s' & tr2' & Hrun & Hsh' & HD'); auto.
      { apply Permutation_length in HpL. cbn in HpL. lia. }
      { intros w Hw. apply HU, Hi, Hw. }
      { intros w Hw [<-|Hs]; [contradiction|]. apply (HLS w); auto. }
      exists (1 + n0 + (3 + 2 * length (tris (ss_tr s))))%nat, s', tr2'. split; [|split; [exact Hsh'|]].
      + intros fuel Hfu. destruct fuel as [|fuel]; [lia|]. cbn [solve_loop]. rewrite Hk, Hg. cbn [unwrap bind]. rewrite Hv. cbn [unwrap bind].
        assert (Hc : cavity_loop H fuel (2%nat :: p) [] None [] v [te3 t; te2 t; te1 t] s0 = Ok s1).
        { refine (rle_ok _ _ _ _ _ Hs1). apply cavity_loop_mono. lia. }
        unfold s0 in Hc. rewrite Hc. cbn [bind]. apply Hrun. lia.
      + apply (delaunay_incl _ _ _ HD'). intros w. rewrite !in_map_iff. split; intros (x & K & Hx); exists x; (split; [exact K|]); apply Hi, Hx.
  Qed.

  Lemma include_convex : forall (H : HashOrder) p a b vs, In a U -> In b U -> incl vs U -> a <> b -> NoDup vs ->
    exists n0 tr2 tr2' inc del,
      (forall fuel, (n0 <= fuel)%nat -> vertices_include H fuel p (from_initial_segment a b) vs [] None [] = Ok (tr2, inc, del)) /\
      shows tr2 tr2' /\ delaunay (map rd (vs ++ [a; b])) tr2'.
  Proof.
    intros H p a b vs Ha Hb HvU Hab HN. destruct (ag_plain _ _ HA a Ha) as [Ga Ga']. destruct (ag_plain _ _ HA b Hb) as [Gb Gb'].
    assert (HSU : incl [a; b] U) by (intros w [<-|[<-|[]]]; assumption).
    assert (Hsh : shows (from_initial_segment a b) (from_initial_segment (rd a) (rd b))) by (apply (initial_shows rd U HA); assumption).
    assert (HD : delaunay (map rd [a; b]) (from_initial_segment (rd a) (rd b))) by (apply initial_delaunay; auto using ne).
    set (tr := from_initial_segment a b) in *.
    assert (Hpts : forall w, In w (trn_vertices tr) <-> w = a \/ w = b).
    { intros w. rewrite (shown_points rd U HA [a; b] tr _ HSU Hsh HD). cbn. intuition. }
    assert (Htr : forall t, In t (tris tr) <-> t = Tri a b gA \/ t = Tri b a gA).
    { intros t. unfold tr, from_initial_segment. rewrite !incl_tri_In. cbn. tauto. }
    set (new := filter (fun v => negb (hmem vdec v (trn_vertices tr))) vs).
    assert (Hnew : forall w, In w new <-> In w vs /\ w <> a /\ w <> b).
    { intros w. unfold new. rewrite filter_In, negb_true_iff. split.
      - intros [Hw He]. split; [exact Hw|]. assert (Hn : ~ In w (trn_vertices tr)) by (intros Hi; apply (hmem_In vdec) in Hi; congruence).
        rewrite Hpts in Hn. tauto.
      - intros (Hw & N1 & N2). split; [exact Hw|]. destruct (hmem vdec w (trn_vertices tr)) eqn:K; [|reflexivity]. apply (hmem_In vdec) in K. apply Hpts in K. tauto. }
    destruct (distribute_all_ok H 0 (ho H (1%nat :: p) _ (tris tr)) (2%nat :: p) [] new) as (cm & rem & Hd & Hout).
    destruct (distribute_all_spec H _ _ _ _ _ _ _ _ _ Hd fair_nil) as (Hf & Hp & Hk). cbn [listed flat_map app] in Hp.
    assert (Hrem : rem = []).
    { destruct rem as [|w rem]; [reflexivity|exfalso]. assert (Hw : In w (w :: rem)) by (left; reflexivity).
      assert (Hwn : In w new) by (apply (distribute_all_incl _ _ _ _ _ _ _ _ _ _ Hd), Hw). apply Hnew in Hwn. destruct Hwn as (Hwv & N1 & N2).
      assert (HwU : In w U) by auto. pose proof eps_pos.
      assert (Q1 : ~ eps < E a b w) by (rewrite <- (outer_inside a b w Ha Hb HwU); apply Hout; [exact Hw|]; apply ho_In, Htr; auto).
      assert (Q2 : ~ eps < E b a w) by (rewrite <- (outer_inside b a w Hb Ha HwU); apply Hout; [exact Hw|]; apply ho_In, Htr; auto).
      rewrite D_swap in Q2. apply (proj1 HC (rd a) (rd b) (rd w)); auto using img, ne. apply on_line; auto. lra. }
    subst rem.
    assert (Hi : forall w, In w (new ++ [a; b]) <-> In w (vs ++ [a; b])).
    { intros w. rewrite !in_app_iff, Hnew. cbn [In]. destruct (vdec w a) as [->|]; [intuition|]. destruct (vdec w b) as [->|]; intuition. }
    destruct (solve_convex H (length new) new [a; b] (SS tr cm [] [] []) (from_initial_segment (rd a) (rd b)) (3%nat :: p)) as (n0 & s' & tr2' & Hrun & Hsh' & HD'); auto.
    - split; [exact Hf|]. cbn [ss_cm ss_rem ss_tr]. split; [exact Hp|]. split; [exact (sh_sound _ _ _ _ Hsh)|].
      intros t Ht. destruct (Hk t Ht) as [[]|Ht']. apply ho_In in Ht'. exact Ht'.
    - split; [reflexivity|]. cbn [ss_cm]. intros u Hu. destruct (Hk u Hu) as [[]|Ht']. apply ho_In, Htr in Ht'. apply corner_ghost. destruct Ht' as [-> | ->]; constructor.
    - intros w Hw. apply in_app_or in Hw. destruct Hw as [Hw|Hw]; [apply HvU, Hnew, Hw|apply HSU, Hw].
    - apply NoDup_filter, HN.
    - intros w Hw Hs. apply Hnew in Hw. destruct Hs as [<-|[<-|[]]]; tauto.
    - exists n0, (ss_tr s'), tr2', (ss_inc s'), (ss_del s'). split; [|split; [exact Hsh'|]].
      + intros fuel Hfu. unfold vertices_include. fold new.
        assert (Hd' : distribute_all H fuel (2%nat :: p) (ho H (1%nat :: p) _ (tris tr)) [] new None [] = Ok (cm, [])).
        { refine (rle_ok _ _ _ _ _ Hd). apply distribute_all_mono. lia. }
        rewrite Hd'. cbn [bind]. unfold solve_conflicts. rewrite (Hrun fuel Hfu). reflexivity.
      + apply (delaunay_incl _ _ _ HD'). intros w. rewrite !in_map_iff. split; intros (x & K & Hx); exists x; (split; [exact K|]); apply Hi, Hx.
  Qed.
End Convex.
