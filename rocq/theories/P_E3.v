(** P_E3.v — trying the circumcentre of a triangle of a Delaunay mesh. *)

From Coq Require Import Reals List ZArith Lra Lia Psatz Bool Permutation.
From Verif Require Import Base Arith Geometry Elements Polyline Procedures Refine ArithR Spec SpecR SpecD
  P_Base P_Trn P_Fuel P_Poly P_Vertices P_Cavity P_Refine P_R1 P_R2 P_R5 P_R6 P_D1 P_D2 P_D3 P_D4 P_D5 P_E1 P_E2.
Import ListNotations.
Local Open Scope R_scope.

(** The mesh is known from its triangles. *)
Lemma delaunay_same : forall S (tr tr' : mesh), delaunay S tr -> (forall x, In x (tris tr') <-> In x (tris tr)) ->
  adj_sound tr' -> adj_complete tr' -> NoDup (tris tr') -> delaunay S tr'.
Proof.
  intros S tr tr' HD Hi A1 A2 A3. split; auto.
  - intros t Ht. apply (dl_shape _ _ HD), Hi, Ht.
  - intros t e Ht Se. destruct (dl_closed _ _ HD t e (proj1 (Hi t) Ht) Se) as (t' & Ht' & Se'). exists t'. rewrite Hi. auto.
  - intros a b c Ht. apply (dl_circle _ _ HD), Hi, Ht.
  - intros a b Ht. apply (dl_hull _ _ HD), Hi, Ht.
  - intros w Hw. destruct (dl_used _ _ HD w Hw) as (t & Ht & Hc). exists t. rewrite Hi. auto.
  - intros a b Ht Ht'. apply (dl_flat _ _ HD); apply Hi; assumption.
  - pose proof (dl_some _ _ HD) as Hn. intros E. apply Hn. destruct (tris tr) as [|t ts] eqn:Et; [reflexivity|]. exfalso.
    assert (In t (tris tr')) by (apply Hi; left; reflexivity). rewrite E in *. contradiction.
Qed.

Lemma fold_rem_complete : forall (l : list tri) (tr : mesh), adj_complete tr -> adj_complete (fold_left (fun tr t => rem_tri t tr) l tr).
Proof. intros l. induction l as [|t l IH]; intros tr Hc; cbn; [exact Hc|]. apply IH, adj_complete_rem, Hc. Qed.
Lemma fold_incl_complete : forall (l : list tri) (tr : mesh), adj_complete tr ->
  (forall x y e, In x l \/ In x (tris tr) -> In y l \/ In y (tris tr) -> side_of e x -> side_of e y -> x = y) ->
  adj_complete (fold_left (fun tr t => incl_tri t tr) l tr).
Proof.
  intros l. induction l as [|t l IH]; intros tr Hc Hx; cbn; [exact Hc|]. apply IH.
  - apply adj_complete_incl; [exact Hc|]. intros t' e Ht' S1 S2. apply (Hx t' t e); cbn; auto.
  - intros x y e Hi Hj. rewrite incl_tri_In in Hi, Hj. apply Hx; cbn; intuition.
Qed.

(** The centre of a circle is a new point strictly inside it. *)
Lemma centre_inside : forall S (tr : mesh) a b c o, delaunay S tr -> resolved (o :: S) -> In (Tri a b c) (tris tr) -> is_ghost (Tri a b c) = false ->
  tri_circumcenter (Tri a b c) = Some o -> ~ In o S /\ encircles (Tri a b c) o = Inside /\ d2 o a = d2 o b /\ d2 o a = d2 o c.
Proof.
  intros S tr a b c o HD HR Ht G Ho. unfold tri_circumcenter in Ho. rewrite G in Ho. cbn [tv1 tv2 tv3] in Ho.
  destruct (dl_shape _ _ HD _ Ht) as [(x & y & z & E & Ha & Hb & Hc & Hp)|(x & y & E & _)].
  2:{ injection E as -> -> ->. unfold is_ghost in G. cbn in G. rewrite !orb_true_r in G. discriminate. }
  injection E as <- <- <-. destruct (circumcenter_spec a b c) as [_ Hcc]. destruct Hcc as (o' & Ho' & _ & H1 & H2 & _); [lra|].
  rewrite Ho in Ho'. injection Ho' as <-.
  assert (Pos : 0 < d2 o a).
  { apply Rnot_le_lt. intros L. assert (Z : forall u w, d2 u w <= 0 -> X u = X w /\ Y u = Y w).
    { intros u w L'. unfold d2 in L'. assert (Q1 := Rle_0_sqr (X w - X u)). assert (Q2 := Rle_0_sqr (Y w - Y u)). unfold Rsqr in *.
      assert (Ex : (X w - X u) * (X w - X u) = 0) by nra. assert (Ey : (Y w - Y u) * (Y w - Y u) = 0) by nra.
      apply Rmult_integral in Ex. apply Rmult_integral in Ey. split; [destruct Ex; lra|destruct Ey; lra]. }
    destruct (Z o a L) as [Xa Ya]. destruct (Z o b ltac:(lra)) as [Xb Yb]. unfold area2 in Hp. rewrite <- Xa, <- Ya, <- Xb, <- Yb in Hp. lra. }
  assert (Zo : d2 o o = 0) by (unfold d2; ring).
  split; [|split; [|auto]].
  - intros Hs. assert (Gc : vghost c = false) by (apply (rs_plain _ HR); right; exact Hc).
    pose proof (dl_circle _ _ HD a b c Ht Gc o o Hs H1 H2). lra.
  - unfold encircles. rewrite G. cbn [tv1 tv2 tv3]. apply (inside_I S o HR a b c Ha Hb Hc). rewrite (incircle_power a b c o o H1 H2), Zo.
    assert (Q := spp (D a b c) (d2 o a - 0)). lra.
Qed.

Lemma foldM_all : forall {X Y} (f : X -> option Y) l acc r, (forall x, In x l -> exists y, f x = Some y) ->
  foldM (fun acc x => let! e := unwrap (f x) in Ok (acc ++ [e])) acc l = Ok r ->
  forall y, In y r <-> In y acc \/ exists x, In x l /\ f x = Some y.
Proof.
  intros X Y f l. induction l as [|x l IH]; intros acc r Hf Hr y; cbn [foldM] in Hr.
  - injection Hr as <-. split; [auto|]. intros [E|(x & [] & _)]. exact E.
  - destruct (Hf x (or_introl eq_refl)) as (z & Ez). rewrite Ez in Hr. cbn [unwrap bind] in Hr.
    rewrite (IH _ _ (fun x' Hx' => Hf x' (or_intror Hx')) Hr y), in_app_iff. cbn [In]. split.
    + intros [[E|[<-|[]]]|(x' & Hx' & E)]; [auto|right; exists x; auto|right; exists x'; auto].
    + intros [E|(x' & [<-|Hx'] & E)]; [auto| |right; exists x'; auto]. rewrite Ez in E. injection E as <-. auto.
Qed.

Section Try.
  Variables (H : HashOrder) (S : list pnt) (tr : mesh) (t : tri) (o : pnt) (K : list (edge ArithR)) (bd : option (polyline ArithR)).
  Hypothesis HD : delaunay S tr.
  Hypothesis HR : resolved (o :: S).
  Hypothesis Ht : In t (tris tr).
  Hypothesis Hg : is_ghost t = false.
  Hypothesis Ho : tri_circumcenter t = Some o.
  Hypothesis HK : forall e, In e K -> vghost (fst e) = false /\ vghost (snd e) = false.
  Hypothesis Hyes : forall t fuel p m, In t (tris tr) -> is_conflicting t o = true -> may_insert_triangle H fuel p t o bd [] = Ok m -> m = true.
  Hypothesis Hbar : forall t u e, In t (tris tr) -> In u (tris tr) -> is_conflicting t o = true -> is_conflicting u o = true ->
    side_of e t -> side_of (flip e) u -> is_constrained K e = false.

  Lemma centre_facts : ~ In o S /\ encircles t o = Inside.
  Proof. destruct t as [a b c]. destruct (centre_inside S tr a b c o HD HR Ht Hg Ho) as (H1 & H2 & _). auto. Qed.

  Lemma border_opposite : forall e, border tr o e -> opposite_edge (new_triangle e o) o = Some e.
  Proof.
    intros e He. destruct centre_facts as [Hn Hc].
    assert (V : forall w, In w S \/ w = gv -> veqb o w = false).
    { intros w Hw. destruct (veqb o w) eqn:E; [|reflexivity]. exfalso. apply (veqb_exact (o :: S)) in E; [|exact HR|left; left; reflexivity|destruct Hw as [Hw| ->]; [left; right; exact Hw|auto]].
      subst w. destruct Hw as [Hw|Hw]; [contradiction|]. pose proof (rs_plain _ HR o (or_introl eq_refl)) as G. rewrite Hw in G. discriminate. }
    destruct (new_shape S tr o HD HR Hn e He) as [(a & b & -> & -> & Ha & Hb & _)|[(b & -> & -> & Hb)|(a & -> & -> & Ha)]];
      unfold opposite_edge; cbn [tv1 tv2 tv3]; rewrite ?veqb_refl; rewrite ?V by auto; rewrite ?veqb_refl; try reflexivity.
  Qed.

  Lemma flood_first : forall fuel p cm rest, distribute_over_triangulation H fuel p tr t [o] bd [] = Ok (cm, rest) ->
    cm = [(t, [o])] /\ accepted H o bd [] t.
  Proof.
    intros fuel p cm rest Hd. destruct centre_facts as [_ Hc]. unfold distribute_over_triangulation in Hd. destruct fuel as [|fuel]; [discriminate|].
    cbn [flood_distribute] in Hd. destruct (visit_neighbours tr (outer_edges t) [t] []) as [vis' pen'] eqn:Ev.
    apply bind_ok in Hd. destruct Hd as ([cm' vs'] & Hd & Hf). unfold distribute_conflicts in Hd. cbn [split_conflicts] in Hd.
    apply bind_ok in Hd. destruct Hd as ([conf r] & Hsp & Hd). apply bind_ok in Hsp. destruct Hsp as (may & Hm & Hsp). cbn [bind] in Hsp.
    assert (Ec : is_conflicting t o = true) by (unfold is_conflicting; rewrite Hc; reflexivity).
    pose proof (Hyes t _ _ _ Ht Ec Hm) as ->. rewrite Hc in Hsp. cbn [cont_eqb andb] in Hsp. injection Hsp as <- <-.
    cbn [add_conflicts mget mset] in Hd. injection Hd as <- <-. split; [|split; [exact Ec|eexists _, _; exact Hm]].
    destruct fuel as [|fuel]; [discriminate|]. cbn [flood_distribute] in Hf. unfold mset in Hf. cbn in Hf. destruct pen'; injection Hf as <- _; reflexivity.
  Qed.

  Definition encroached (e : edge ArithR) : Prop := border tr o e /\ constrained K e /\ edge_encroach e o = Inside.

  Lemma try_effect : forall fuel p tr' r, try_circumcenter H fuel p tr t K bd [] = Ok (tr', r) ->
    match r with
    | inl (inc, del) => effect S tr o tr' inc del /\ forall e, ~ encroached e
    | inr enc => delaunay S tr' /\ (forall x, In x (tris tr') <-> In x (tris tr)) /\ enc <> [] /\ NoDup enc /\ forall e, In e enc <-> encroached e
    end.
  Proof.
    intros fuel p tr' r Htry. destruct centre_facts as [Hn Hc]. unfold try_circumcenter in Htry. rewrite Ho in Htry. cbn [unwrap bind] in Htry.
    apply bind_ok in Htry. destruct Htry as ([cm rest] & Hd & Htry). apply bind_ok in Htry. destruct Htry as (s & Hsv & Htry).
    apply bind_ok in Htry. destruct Htry as (opp & Hopp & Htry).
    destruct (flood_first _ _ _ _ Hd) as [-> Hacc].
    pose proof (insert_effect H S tr o K bd HD HR Hn HK Hyes Hbar _ _ t s Ht Hc Hacc Hsv) as HE. pose proof HE as (HD' & Hx & Hinc & Hdel).
    assert (Hin : forall x, In x (ss_inc s) <-> exists e, border tr o e /\ x = new_triangle e o).
    { intros x. rewrite Hinc, Hx. split.
      - intros [[[Hi _]|G] Hni]; [contradiction|exact G].
      - intros (e & He & ->). split; [right; eauto|]. intros Hi. apply (fresh_corner S tr o HD HR Hn _ Hi), new_triangle_corner. }
    assert (Hop : forall e, In e opp <-> border tr o e).
    { intros e. rewrite (foldM_all (fun x => opposite_edge x o) (ss_inc s) [] opp) with (2 := Hopp).
      - split.
        + intros [[]|(x & Hi & E)]. apply Hin in Hi. destruct Hi as (e' & He' & ->). rewrite (border_opposite e' He') in E. injection E as <-. exact He'.
        + intros He. right. exists (new_triangle e o). split; [apply Hin; eauto|apply border_opposite, He].
      - intros x Hi. apply Hin in Hi. destruct Hi as (e' & He' & ->). exists e'. apply border_opposite, He'. }
    set (f := fun e : edge ArithR => (hmem edec e K || hmem edec (opposite e) K) && cont_eqb (edge_encroach e o) Inside) in *.
    assert (Henc : forall e, In e (hset edec (filter f opp)) <-> encroached e).
    { intros e. rewrite hset_In, filter_In, Hop. unfold f, encroached, constrained. rewrite andb_true_iff, orb_true_iff, !hmem_In, opposite_flip.
      destruct (edge_encroach e o); cbn; intuition discriminate. }
    assert (Hnd : NoDup (hset edec (filter f opp))) by (apply hset_NoDup).
    destruct (hset edec (filter f opp)) as [|e0 enc0] eqn:Hset.
    - injection Htry as <- <-. split; [exact HE|]. intros e He. apply Henc in He. destruct He.
    - injection Htry as <- <-.
      assert (Hi : forall x, In x (tris (fold_left (fun tr t => incl_tri t tr) (ho H (4%nat :: p) _ (ss_del s)) (fold_left (fun tr t => rem_tri t tr) (ho H (3%nat :: p) _ (ss_inc s)) (ss_tr s)))) <-> In x (tris tr)).
      { intros x. rewrite fold_incl_In, fold_rem_In, !ho_In, Hdel. split.
        - intros [[Hi Hni]|[Hi _]]; [|exact Hi]. apply Hx in Hi. destruct Hi as [[Hi _]|G]; [exact Hi|]. exfalso. apply Hni, Hin, G.
        - intros Hi. destruct (is_conflicting x o) eqn:Ec; [auto|]. left. split; [apply Hx; auto|]. intros Hj. apply Hinc in Hj. tauto. }
      split; [|split; [exact Hi|split; [discriminate|split; [exact Hnd|exact Henc]]]].
      apply (delaunay_same S tr); [exact HD|exact Hi| | |].
      + apply fold_incl_sound, fold_rem_sound, (dl_sound _ _ HD').
      + apply fold_incl_complete; [apply fold_rem_complete, (dl_complete _ _ HD')|].
        assert (Hsub : forall x, In x (ho H (4%nat :: p) _ (ss_del s)) \/ In x (tris (fold_left (fun tr t => rem_tri t tr) (ho H (3%nat :: p) _ (ss_inc s)) (ss_tr s))) -> In x (tris tr)).
        { intros x Hj. apply Hi. rewrite fold_incl_In. tauto. }
        intros x y e Hx' Hy' Sx Sy. apply Hsub in Hx'. apply Hsub in Hy'.
        pose proof (dl_complete _ _ HD e x Hx' Sx). pose proof (dl_complete _ _ HD e y Hy' Sy). congruence.
      + apply fold_incl_NoDup, fold_rem_NoDup, (dl_nodup _ _ HD').
  Qed.
End Try.
