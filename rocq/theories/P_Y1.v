(** P_Y1.v — vertex insertion over any arithmetic whose predicates agree with the
    real plane on the points at hand: one vertex. *)

From Coq Require Import Reals List ZArith Lra Lia Bool Permutation.
From Verif Require Import Base Arith Geometry Elements Polyline Procedures ArithR Spec SpecR SpecD
  P_Base P_Trn P_Fuel P_Vertices P_Cavity P_R1 P_R2 P_R5 P_R6 P_D1 P_D2 P_D3 P_D4 P_D5.
Import ListNotations.
Local Open Scope R_scope.

Section Transfer.
  Context {A : Arith}.
  Notation vertex := (vertex A).
  Notation edge := (edge A).
  Notation triangle := (triangle A).
  Notation triangulation := (triangulation A).
  Notation gA := (ghost_vertex (A:=A)).
  Variables (rd : vertex -> pnt) (U : list vertex).
  Hypothesis Hghost : rd gA = gv.
  Hypothesis Hplain : forall w, In w U -> vghost w = false /\ vghost (rd w) = false.
  Hypothesis Hinj : forall a b, In a U -> In b U -> rd a = rd b -> a = b.
  Hypothesis Hveqb : forall a b, In a U -> In b U -> veqb a b = true -> a = b.
  Hypothesis Hcont : forall a b c v, In a U -> In b U -> In c U -> In v U -> v <> a -> v <> b -> v <> c -> 0 < area2 (rd a) (rd b) (rd c) ->
    (continence a b c v = Inside <-> continence (rd a) (rd b) (rd c) (rd v) = Inside).
  Hypothesis Hori : forall a b v, In a U -> In b U -> In v U -> orientation a b v = orientation (rd a) (rd b) (rd v).
  Hypothesis Hedge : forall a b v, In a U -> In b U -> In v U -> edge_contains (a, b) v = edge_contains (rd a, rd b) (rd v).
  Hypothesis HR : resolved (map rd U).

  Definition re (e : edge) : Elements.edge ArithR := (rd (fst e), rd (snd e)).
  Definition rt (t : triangle) : tri := Tri (rd (tv1 t)) (rd (tv2 t)) (rd (tv3 t)).
  Definition okv (w : vertex) : Prop := In w U \/ w = gA.
  Definition okt (t : triangle) : Prop := okv (tv1 t) /\ okv (tv2 t) /\ okv (tv3 t).

  Lemma okv_ghost : forall w, okv w -> vghost (rd w) = vghost w.
  Proof. intros w [Hw| ->]; [destruct (Hplain w Hw); congruence|]. rewrite Hghost. reflexivity. Qed.
  Lemma okv_inj : forall a b, okv a -> okv b -> rd a = rd b -> a = b.
  Proof.
    intros a b Ha Hb E. pose proof (f_equal vghost E) as Eg. rewrite (okv_ghost a Ha), (okv_ghost b Hb) in Eg.
    destruct Ha as [Ha| ->]; destruct Hb as [Hb| ->]; auto; exfalso.
    - destruct (Hplain a Ha) as [G _]. rewrite G in Eg. discriminate.
    - destruct (Hplain b Hb) as [G _]. rewrite G in Eg. discriminate.
  Qed.
  Lemma okv_veqb : forall a b, okv a -> okv b -> veqb a b = true -> a = b.
  Proof.
    intros a b [Ha| ->] [Hb| ->] E; auto; exfalso; unfold veqb in E; cbn [vghost ghost_vertex] in E.
    - destruct (Hplain a Ha) as [G _]. rewrite G in E. discriminate.
    - destruct (Hplain b Hb) as [G _]. rewrite G in E. discriminate.
  Qed.
  Lemma okt_corner : forall t w, okt t -> corner_of w t -> okv w.
  Proof. intros [a b c] w (H1 & H2 & H3) Hc. inversion Hc; subst; assumption. Qed.
  Lemma re_flip : forall e, re (flip e) = flip (re e).
  Proof. intros [a b]. reflexivity. Qed.
  Lemma rt_side : forall t e, side_of e t -> side_of (re e) (rt t).
  Proof. intros t e Hs. inversion Hs; subst; constructor. Qed.
  Lemma rt_side_inv : forall t x, side_of x (rt t) -> exists e, side_of e t /\ re e = x.
  Proof.
    intros [a b c] x Hs. unfold rt in Hs. cbn [tv1 tv2 tv3] in Hs. inversion Hs; subst;
      [exists (a, b)|exists (b, c)|exists (c, a)]; (split; [constructor|reflexivity]).
  Qed.
  Lemma side_ok : forall t e, okt t -> side_of e t -> okv (fst e) /\ okv (snd e).
  Proof. intros t e Ht Hs. split; apply (okt_corner t); auto; [apply side_corner1|apply side_corner2]; exact Hs. Qed.
  Lemma re_inj : forall e e', okv (fst e) -> okv (snd e) -> okv (fst e') -> okv (snd e') -> re e = re e' -> e = e'.
  Proof. intros [a b] [c d] Ha Hb Hc Hd E. cbn [fst snd] in *. injection E as E1 E2. f_equal; apply okv_inj; assumption. Qed.
  Lemma rt_inj : forall t t', okt t -> okt t' -> rt t = rt t' -> t = t'.
  Proof.
    intros [a b c] [a' b' c'] (H1 & H2 & H3) (H1' & H2' & H3') E. unfold rt in E. cbn [tv1 tv2 tv3] in *. injection E as E1 E2 E3.
    f_equal; apply okv_inj; assumption.
  Qed.
  Lemma rt_side_iff : forall t e, okt t -> okv (fst e) -> okv (snd e) -> side_of (re e) (rt t) -> side_of e t.
  Proof.
    intros t e Ht H1 H2 Hs. destruct (rt_side_inv t _ Hs) as (e' & Hs' & E). destruct (side_ok t e' Ht Hs') as [K1 K2].
    apply re_inj in E; auto. subst e'. exact Hs'.
  Qed.

  (** The mesh [tr] shows the mesh [tr'] of the real plane. *)
  Record shows (tr : triangulation) (tr' : mesh) : Prop := {
    sh_sound : adj_sound tr;
    sh_complete : adj_complete tr;
    sh_nodup : NoDup (tris tr);
    sh_ok : forall t, In t (tris tr) -> okt t;
    sh_tris : forall t', In t' (tris tr') <-> exists t, In t (tris tr) /\ rt t = t'
  }.

  Lemma new_rt : forall e v, okv (fst e) -> okv (snd e) -> rt (new_triangle e v) = new_triangle (re e) (rd v).
  Proof.
    intros [a b] v H1 H2. cbn [fst snd] in *. unfold new_triangle, re, ev1, ev2. cbn [fst snd]. rewrite (okv_ghost a H1), (okv_ghost b H2).
    destruct (vghost a); [reflexivity|]. destruct (vghost b); reflexivity.
  Qed.
  Lemma new_ok : forall e v, okv (fst e) -> okv (snd e) -> In v U -> okt (new_triangle e v).
  Proof.
    intros [a b] v H1 H2 Hv. assert (Ov : okv v) by (left; exact Hv). cbn [fst snd] in *. unfold new_triangle, ev1, ev2. cbn [fst snd].
    destruct (vghost a); [repeat split; assumption|]. destruct (vghost b); repeat split; assumption.
  Qed.

  Section One.
    Variables (S : list vertex) (tr : triangulation) (tr' : mesh) (v : vertex).
    Hypothesis HS : incl S U.
    Hypothesis HvU : In v U.
    Hypothesis HvS : ~ In v S.
    Hypothesis Hsh : shows tr tr'.
    Hypothesis HD : delaunay (map rd S) tr'.

    Let S' := map rd S.
    Lemma HR' : resolved (rd v :: S').
    Proof.
      apply (resolved_incl (map rd U)); [exact HR|]. intros w [<-|Hw]; [apply in_map, HvU|]. apply in_map_iff in Hw. destruct Hw as (x & <- & Hx).
      apply in_map, HS, Hx.
    Qed.
    Lemma HvS' : ~ In (rd v) S'.
    Proof. intros Hi. apply in_map_iff in Hi. destruct Hi as (x & E & Hx). apply Hinj in E; auto. subst x. contradiction. Qed.
    Lemma back : forall a, okv a -> In (rd a) S' -> In a S.
    Proof.
      intros a Ha Hi. apply in_map_iff in Hi. destruct Hi as (x & E & Hx). apply okv_inj in E; [subst x; exact Hx|left; apply HS, Hx|exact Ha].
    Qed.
    Lemma tri_shape : forall t, In t (tris tr) ->
      (exists a b c, t = Tri a b c /\ In a S /\ In b S /\ In c S /\ 0 < area2 (rd a) (rd b) (rd c)) \/
      (exists a b, t = Tri a b gA /\ In a S /\ In b S /\ a <> b).
    Proof.
      intros t Ht. pose proof (sh_ok _ _ Hsh t Ht) as (O1 & O2 & O3).
      assert (Ht' : In (rt t) (tris tr')) by (apply (sh_tris _ _ Hsh); eauto).
      destruct t as [a b c]. cbn [tv1 tv2 tv3] in *.
      destruct (dl_shape _ _ HD _ Ht') as [(x & y & z & E & Hx & Hy & Hz & Hp)|(x & y & E & Hx & Hy & Hn)]; unfold rt in E; cbn [tv1 tv2 tv3] in E; injection E as E1 E2 E3.
      - left. exists a, b, c. rewrite <- E1 in *. rewrite <- E2 in *. rewrite <- E3 in *.
        split; [reflexivity|]. split; [apply back; assumption|]. split; [apply back; assumption|]. split; [apply back; assumption|exact Hp].
      - right. exists a, b. rewrite <- E1 in *. rewrite <- E2 in *.
        assert (Ec : c = gA) by (apply okv_inj; [exact O3|right; reflexivity|rewrite Hghost; exact E3]).
        split; [congruence|]. split; [apply back; assumption|]. split; [apply back; assumption|]. intros ->. apply Hn. reflexivity.
    Qed.
    Lemma neq_v : forall a, In a S -> v <> a.
    Proof. intros a Ha ->. contradiction. Qed.
    Lemma encircles_same : forall t, In t (tris tr) -> (encircles t v = Inside <-> encircles (rt t) (rd v) = Inside).
    Proof.
      intros t Ht. destruct (tri_shape t Ht) as [(a & b & c & -> & Ha & Hb & Hc & Hp)|(a & b & -> & Ha & Hb & Hn)];
        unfold encircles, is_ghost, rt; cbn [tv1 tv2 tv3].
      - destruct (Hplain a (HS _ Ha)) as [-> ->]. destruct (Hplain b (HS _ Hb)) as [-> ->]. destruct (Hplain c (HS _ Hc)) as [-> ->]. cbn [orb negb].
        apply Hcont; auto; apply neq_v; assumption.
      - rewrite Hghost. cbn [vghost ghost_vertex]. rewrite !orb_true_r. cbn [negb]. rewrite (Hori a b v (HS _ Ha) (HS _ Hb) HvU). tauto.
    Qed.
    Lemma conflict_same : forall t, In t (tris tr) -> is_conflicting t v = is_conflicting (rt t) (rd v).
    Proof.
      intros t Ht. pose proof (encircles_same t Ht) as He. unfold is_conflicting.
      assert (E1 : cont_eqb (encircles t v) Inside = cont_eqb (encircles (rt t) (rd v)) Inside).
      { destruct (encircles t v) eqn:X1; destruct (encircles (rt t) (rd v)) eqn:X2; try reflexivity; destruct He as [He1 He2];
          try (specialize (He1 eq_refl); discriminate); try (specialize (He2 eq_refl); discriminate). }
      rewrite E1. f_equal. destruct (tri_shape t Ht) as [(a & b & c & -> & Ha & Hb & Hc & Hp)|(a & b & -> & Ha & Hb & Hn)]; unfold is_ghost, rt; cbn [tv1 tv2 tv3].
      - destruct (Hplain a (HS _ Ha)) as [-> ->]. destruct (Hplain b (HS _ Hb)) as [-> ->]. destruct (Hplain c (HS _ Hc)) as [-> ->]. reflexivity.
      - rewrite Hghost. cbn [vghost ghost_vertex]. rewrite !orb_true_r. cbn [andb]. apply Hedge; auto.
    Qed.
    Lemma hit_same : forall t, In t (tris tr) -> (hit tr v t <-> hit tr' (rd v) (rt t)).
    Proof.
      intros t Ht. unfold hit. rewrite (conflict_same t Ht). split; intros [_ E]; (split; [|exact E]); [apply (sh_tris _ _ Hsh); eauto|exact Ht].
    Qed.
    Lemma border_same : forall e, okv (fst e) -> okv (snd e) -> (border tr v e <-> border tr' (rd v) (re e)).
    Proof.
      intros e H1 H2. unfold border. split.
      - intros [(t & Ht & Se) (u & Hu & Sf & Hn)]. split.
        + exists (rt t). split; [apply hit_same; [apply Ht|exact Ht]|apply rt_side, Se].
        + exists (rt u). split; [apply (sh_tris _ _ Hsh); eauto|]. split; [rewrite <- re_flip; apply rt_side, Sf|]. intros Hh. apply Hn, hit_same; assumption.
      - intros [(t' & Ht' & Se) (u' & Hu' & Sf & Hn)]. pose proof (proj1 Ht') as Hi. apply (sh_tris _ _ Hsh) in Hi. destruct Hi as (t & Hi & <-).
        apply (sh_tris _ _ Hsh) in Hu'. destruct Hu' as (u & Hu & <-). split.
        + exists t. split; [apply hit_same; assumption|]. apply rt_side_iff; auto. apply (sh_ok _ _ Hsh t Hi).
        + exists u. split; [exact Hu|]. split; [|intros Hh; apply Hn, hit_same; assumption].
          rewrite <- re_flip in Sf. apply rt_side_iff in Sf; auto; [apply (sh_ok _ _ Hsh u Hu)| |]; destruct e; assumption.
    Qed.
    Lemma border_ok : forall e, border tr v e -> okv (fst e) /\ okv (snd e).
    Proof. intros e [(t & Ht & Se) _]. apply (side_ok t); [apply (sh_ok _ _ Hsh), Ht|exact Se]. Qed.

    Lemma transfer_one : forall (H : HashOrder) t s fuel p, In t (tris tr) -> encircles t v = Inside -> ss_tr s = rem_tri t tr -> (2 * length (tris tr) + 2 < fuel)%nat ->
      exists s' tr2', cavity_loop H fuel p [] None [] v [te3 t; te2 t; te1 t] s = Ok s' /\ shows (ss_tr s') tr2' /\ delaunay (map rd (v :: S)) tr2' /\
        forall Q, keeps H tr v Q -> Q [te3 t; te2 t; te1 t] s -> Q [] s'.
    Proof.
      intros H t s fuel p Ht He Es Hf.
      assert (Hst : exists t, In t (tris tr') /\ encircles t (rd v) = Inside).
      { exists (rt t). split; [apply (sh_tris _ _ Hsh); eauto|]. apply encircles_same; assumption. }
      pose proof HR' as HRv. pose proof HvS' as HvS0.
      assert (Hok : forall x e, In x (tris tr) -> side_of e x -> okv (fst e) /\ okv (snd e)) by (intros x e Hx Se; apply (side_ok x); [apply (sh_ok _ _ Hsh x Hx)|exact Se]).
      assert (Hokf : forall e, okv (fst e) /\ okv (snd e) -> okv (fst (flip e)) /\ okv (snd (flip e))) by (intros [a b] [K1 K2]; split; assumption).
      assert (Him : forall x, In x (tris tr) -> In (rt x) (tris tr')) by (intros x Hx; apply (sh_tris _ _ Hsh); eauto).
      destruct (cavity_total_keeps H tr v) with (up := fun x e => up (rd v) (rt x) (re e)) (rank := fun x => rank S' tr' (rd v) (rt x)) (t := t) (s := s) (fuel := fuel) (p := p)
        as (s' & Hs & A1 & A2 & A3 & Hx & HQ); auto.
      - exact (sh_sound _ _ Hsh).
      - exact (sh_complete _ _ Hsh).
      - exact (sh_nodup _ _ Hsh).
      - intros x e Hx Se. destruct (dl_closed _ _ HD (rt x) (re e) (Him x Hx) (rt_side _ _ Se)) as (u' & Hu' & Sf).
        apply (sh_tris _ _ Hsh) in Hu'. destruct Hu' as (u & Hu & <-). exists u. split; [exact Hu|]. rewrite <- re_flip in Sf.
        destruct (Hokf e (Hok x e Hx Se)) as [K1 K2]. apply rt_side_iff; auto. apply (sh_ok _ _ Hsh u Hu).
      - intros x e e' Hx Se Se' Eq. destruct (Hok x e Hx Se) as [K1 K2]. destruct (Hok x e' Hx Se') as [K3 K4].
        unfold eeqb, ev1, ev2 in Eq. apply andb_true_iff in Eq. destruct Eq as [E1 E2].
        rewrite (surjective_pairing e), (surjective_pairing e'). f_equal; apply okv_veqb; assumption.
      - intros x Hx. destruct (sides3 S' tr' (rd v) HD HRv (rt x) (Him x Hx)) as (N1 & N2 & N3). destruct x as [a b c]. cbn [te1 te2 te3 tv1 tv2 tv3] in *.
        repeat split; intros E; injection E as E1 E2; [apply N1|apply N2|apply N3]; unfold te1, te2, te3, rt; cbn [tv1 tv2 tv3]; congruence.
      - intros x u e Hx Hu Se Sf. destruct (link S' tr' (rd v) HD HRv HvS0 Hst (rt x) (rt u) (re e)) as [L|L].
        + apply hit_same; [apply Hx|exact Hx].
        + apply hit_same; [apply Hu|exact Hu].
        + apply rt_side, Se.
        + rewrite <- re_flip. apply rt_side, Sf.
        + left. exact L.
        + right. rewrite re_flip. exact L.
      - intros x e e' Hx Se Se' U1 U2. assert (E : re e = re e').
        { apply (one S' tr' (rd v) HD HRv (rt x)); auto; [apply hit_same; [apply Hx|exact Hx]| |]; apply rt_side; assumption. }
        destruct (Hok x e (proj1 Hx) Se). destruct (Hok x e' (proj1 Hx) Se'). apply re_inj in E; assumption.
      - intros x u e Hx Hu Se Sf U1. apply (rank_up S' tr' (rd v) HD HRv HvS0 Hst (rt x) (rt u) (re e)); auto.
        + apply hit_same; [apply Hx|exact Hx].
        + apply hit_same; [apply Hu|exact Hu].
        + apply rt_side, Se.
        + rewrite <- re_flip. apply rt_side, Sf.
      - intros r r' [Hr Hr1] [Hr' Hr1'].
        assert (Hroot : forall r, hit tr v r -> (forall e u, side_of e r -> up (rd v) (rt r) (re e) -> In u (tris tr) -> side_of (flip e) u -> ~ hit tr v u) -> rootv tr' (rd v) (rt r)).
        { intros x Hx Hx1. split; [apply hit_same; [apply Hx|exact Hx]|]. intros e u Se Ue Hu Sf Hh.
          apply (sh_tris _ _ Hsh) in Hu. destruct Hu as (u0 & Hu & <-). destruct (rt_side_inv x e Se) as (e0 & Se0 & <-).
          destruct (Hokf e0 (Hok x e0 (proj1 Hx) Se0)) as [K1 K2]. rewrite <- re_flip in Sf. apply rt_side_iff in Sf; auto; [|apply (sh_ok _ _ Hsh u0 Hu)].
          apply (Hx1 e0 u0 Se0 Ue Hu Sf). apply hit_same; assumption. }
        apply rt_inj; [apply (sh_ok _ _ Hsh), Hr|apply (sh_ok _ _ Hsh), Hr'|].
        apply (root_one S' tr' (rd v) HD HRv HvS0 Hst); apply Hroot; assumption.
      - intros e e' x He1 He2 Sx Sx'. destruct (border_ok e He1) as [K1 K2]. destruct (border_ok e' He2) as [K3 K4].
        apply rt_inj; [apply new_ok; assumption|apply new_ok; assumption|]. rewrite !new_rt by assumption.
        apply (new_excl S' tr' (rd v) HD HRv HvS0 Hst (re e) (re e') (re x)); [apply border_same; assumption|apply border_same; assumption| |]; rewrite <- new_rt by assumption; apply rt_side; assumption.
      - intros e x He1 Sx. destruct (border_ok e He1) as [K1 K2].
        assert (Kx : okv (fst x) /\ okv (snd x)) by (apply (side_ok (new_triangle e v)); [apply new_ok; assumption|exact Sx]).
        destruct (new_fresh S' tr' (rd v) HD HRv HvS0 Hst (re e) (re x)) as [E|Hno]; [apply border_same; assumption|rewrite <- new_rt by assumption; apply rt_side, Sx| |].
        + left. apply re_inj; tauto.
        + right. intros u Hu Su. apply (Hno (rt u) (Him u Hu)). apply rt_side, Su.
      - split; [exact Ht|]. unfold is_conflicting. rewrite He. reflexivity.
      - (* the same step in the real plane *)
        destruct (cavity_total H tr' (rd v)) with (up := up (rd v)) (rank := rank S' tr' (rd v)) (t := rt t) (fuel := (2 * length (tris tr') + 3)%nat) (p := p)
          (s := SS (rem_tri (rt t) tr') [] [] [] []) as (s2 & _ & B1 & B2 & B3 & Hx'); auto.
        + exact (dl_sound _ _ HD).
        + exact (dl_complete _ _ HD).
        + exact (dl_nodup _ _ HD).
        + exact (dl_closed _ _ HD).
        + intros t1 e e' Ht1 Se Se' Eq.
          assert (Hc : forall x, corner_of x t1 -> In x (rd v :: S') \/ x = gv).
          { intros x Hxc. destruct (dl_shape _ _ HD t1 Ht1) as [(a & b & c & -> & Ha & Hb & Hcs & _)|(a & b & -> & Ha & Hb & _)]; inversion Hxc; subst; cbn [In]; auto. }
          unfold eeqb, ev1, ev2 in Eq. apply andb_true_iff in Eq. destruct Eq as [E1 E2].
          rewrite (surjective_pairing e), (surjective_pairing e'). f_equal; apply (veqb_exact (rd v :: S')); auto; apply Hc;
            first [apply (side_corner1 _ _ Se) | apply (side_corner1 _ _ Se') | apply (side_corner2 _ _ Se) | apply (side_corner2 _ _ Se')].
        + exact (sides3 S' tr' (rd v) HD HRv).
        + exact (link S' tr' (rd v) HD HRv HvS0 Hst).
        + exact (one S' tr' (rd v) HD HRv).
        + exact (rank_up S' tr' (rd v) HD HRv HvS0 Hst).
        + exact (root_one S' tr' (rd v) HD HRv HvS0 Hst).
        + exact (new_excl S' tr' (rd v) HD HRv HvS0 Hst).
        + exact (new_fresh S' tr' (rd v) HD HRv HvS0 Hst).
        + split; [apply Him, Ht|]. unfold is_conflicting. rewrite (proj1 (encircles_same t Ht) He). reflexivity.
        + lia.
        + exists s', (ss_tr s2). split; [exact Hs|]. split; [|split; [exact (mesh_delaunay S' tr' (rd v) HD HRv HvS0 Hst (ss_tr s2) B1 B2 B3 Hx')|exact HQ]].
          split; auto.
          * intros x Hi. apply Hx in Hi. destruct Hi as [[Hi _]|(e & Hb & ->)]; [apply (sh_ok _ _ Hsh x Hi)|]. destruct (border_ok e Hb). apply new_ok; assumption.
          * intros x'. rewrite Hx'. split.
            -- intros [[Hi Hc]|(e & Hb & ->)].
               ++ apply (sh_tris _ _ Hsh) in Hi. destruct Hi as (x & Hi & <-). exists x. split; [|reflexivity]. apply Hx. left. split; [exact Hi|]. rewrite conflict_same; assumption.
               ++ pose proof Hb as Hb0. destruct Hb as [(y & Hy & Se) _]. pose proof (proj1 Hy) as Hi. apply (sh_tris _ _ Hsh) in Hi. destruct Hi as (y0 & Hi & <-).
                  destruct (rt_side_inv y0 e Se) as (e0 & Se0 & <-). destruct (Hok y0 e0 Hi Se0) as [K1 K2].
                  exists (new_triangle e0 v). split; [|apply new_rt; assumption]. apply Hx. right. exists e0. split; [apply border_same; assumption|reflexivity].
            -- intros (x & Hi & <-). apply Hx in Hi. destruct Hi as [[Hi Hc]|(e & Hb & ->)].
               ++ left. split; [apply Him, Hi|]. rewrite <- conflict_same; assumption.
               ++ right. destruct (border_ok e Hb) as [K1 K2]. exists (re e). split; [apply border_same; assumption|apply new_rt; assumption].
    Qed.
  End One.
End Transfer.
