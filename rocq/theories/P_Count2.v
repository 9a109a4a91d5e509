(** P_Count2.v — outer faces and points on the sides of a convex polygon; the
    number of triangles. *)

From Coq Require Import Reals List ZArith Lra Lia Bool Permutation.
From Verif Require Import Base Arith Geometry Elements Polyline Procedures Triangulator Interface ArithR Spec SpecI SpecR SpecD SpecP SpecC SpecE
  P_Base P_Trn P_Trn2 P_Interface P_R1 P_R2 P_D1 P_D2 P_D3 P_D4 P_D5 P_D6 P_D7 P_D8 P_Fill2 P_C5 P_E4 P_Count1.
Import ListNotations.
Local Open Scope R_scope.

Lemma split_count : forall {X} (g : X -> bool) l, (length (filter g l) + length (filter (fun x => negb (g x)) l) = length l)%nat.
Proof. intros X g l. induction l as [|x l IH]; [reflexivity|]. cbn. destruct (g x); cbn; lia. Qed.

Lemma ho_length : forall (H : HashOrder) p {X} (l : list X), length (ho H p X l) = length l.
Proof. intros H p X l. apply Permutation_length, Permutation_sym, ho_perm. Qed.

Lemma filter_ho : forall (H : HashOrder) p {X} (g : X -> bool) (l : list X), length (filter g (ho H p X l)) = length (filter g l).
Proof.
  intros H p X g l. assert (Hp : Permutation (ho H p X l) l) by (apply Permutation_sym, ho_perm). induction Hp as [|x a b Hab IH|x y a|a b c H1 IH1 H2 IH2]; cbn; try (destruct (g x)); try (destruct (g y)); cbn; lia.
Qed.

Section Framed.
  Variables (l S : list pnt) (tr : mesh).
  Hypothesis HC : convex_polygon l.
  Hypothesis HF : framed l S tr.
  Hypothesis HR : resolved S.
  Let HD := fr_delaunay _ _ _ HF.

  Lemma side_D : forall x y b, In (x, y) (polygon_sides l) -> In b S -> 0 <= D x y b.
  Proof. intros x y b Hs Hb. destruct (placed_pos l x y b Hs (fr_placed _ _ _ HF b Hb)) as [[E _]|P0]; lra. Qed.

  Lemma outer_from : forall k h x y w v, told_apart k h S -> In (x, y) (polygon_sides l) -> on_side x y w -> In w S -> pr k h y < pr k h x -> In v S -> pr k h w < pr k h v ->
    exists b, In (Tri w b gv) (tris tr).
  Proof.
    intros k h x y w v HA Hs Ho Hw Fxy Hv Fv. destruct (reaches S tr k h HD HR HA w v Hw Hv Fv) as (b & Hb & Fb).
    destruct (over_exists S tr k h HD HR HA w b Hw Hb Fb) as (t & Ht & [(p & c & Hl & Gc & Gp & [Fc Fp])|(p & -> & _)]); [exfalso|exists p; exact Ht].
    destruct (pieces S tr HD HR t w p c Ht Hl Hw) as [(Sp & Sc & P0)|[(_ & -> & _)|(_ & -> & _)]]; [|discriminate Gc|discriminate Gp].
    pose proof (side_D x y p Hs Sp) as D1. pose proof (side_D x y c Hs Sc) as D2. pose proof (on_side_D x y w Ho) as D0.
    assert (E : (pr k h y - pr k h x) * D w p c = (pr k h p - pr k h w) * (D x y c - D x y w) - (pr k h c - pr k h w) * (D x y p - D x y w)) by (unfold pr, area2; ring).
    rewrite D0, !Rminus_0_r in E. assert ((pr k h y - pr k h x) * D w p c < 0) by nra. assert (0 <= (pr k h p - pr k h w) * D x y c) by (apply Rmult_le_pos; lra). assert ((pr k h c - pr k h w) * D x y p <= 0) by nra. lra.
  Qed.

  Lemma on_polygon_side : forall w, on_polygon l w -> vghost w = false -> (forall a, In a l -> vghost a = false) -> exists x y, In (x, y) (polygon_sides l) /\ on_side x y w.
  Proof.
    intros w ([x y] & Hs & t & Ht & Hr) Gw HP. cbn [fst snd] in *. exists x, y. split; [exact Hs|]. destruct (cx_apart l HC x y Hs) as (N & _ & _). pose proof (polygon_ends _ _ Hs) as [Hx Hy]. cbn [fst snd] in *.
    destruct Hr as [EX EY]. destruct (Req_dec t 0) as [->|T0]; [left; apply plain_coincide; auto; split; lra|]. destruct (Req_dec t 1) as [->|T1]; [right; left; apply plain_coincide; auto; split; lra|].
    right. right. apply (param_between x y w t N); [lra|split; assumption].
  Qed.

  Lemma outer_start : forall w, In w S -> (on_polygon l w <-> exists b, In (Tri w b gv) (tris tr)).
  Proof.
    intros w Hw. pose proof (rs_plain _ HR) as HP. assert (HPl : forall a, In a l -> vghost a = false) by (intros a Ha; apply HP, (fr_corners _ _ _ HF), Ha). split.
    - intros Ho. destruct (on_polygon_side w Ho (HP w Hw) HPl) as (x & y & Hs & Hon). pose proof (polygon_ends _ _ Hs) as [Hx Hy]. cbn [fst snd] in *.
      apply (fr_corners _ _ _ HF) in Hx as Sx. apply (fr_corners _ _ _ HF) in Hy as Sy. destruct (cx_apart l HC x y Hs) as (_ & Nxy & _).
      destruct (apart_exists S HP) as (h & HA & HB).
      assert (K : forall k g, told_apart k g S -> told_apart (- k) (- g) S -> pr k g y < pr k g x -> exists b, In (Tri w b gv) (tris tr)).
      { intros k g A1 A2 F. assert (Hlt : w = x \/ pr k g w < pr k g x).
        { destruct (on_side_ratio x y w Hon) as (t & Ht & EX & EY). destruct (Req_dec t 0) as [->|T0]; [left; apply plain_coincide; [apply HP; exact Hw|apply HP; exact Sx|]; split; lra|].
          right. assert (pr k g w = pr k g x + t * (pr k g y - pr k g x)) by (unfold pr; rewrite EX, EY; ring). nra. }
        destruct Hlt as [-> |Hlt]; [|apply (outer_from k g x y w x); assumption].
        destruct (polygon_ends_in l x Hx) as ([z x'] & Hs' & E). cbn [snd] in E. subst x'. pose proof (polygon_ends _ _ Hs') as [Hz _]. cbn [fst] in Hz. apply (fr_corners _ _ _ HF) in Hz as Sz.
        destruct (cx_apart l HC z x Hs') as (_ & Nzx & _). destruct (Rtotal_order (pr k g x) (pr k g z)) as [L|[L|L]].
        - apply (outer_from k g z x x z); try assumption. right. left. reflexivity.
        - exfalso. apply (A1 x z Sx Sz); congruence.
        - apply (outer_from (- k) (- g) z x x z); try assumption; [right; left; reflexivity| |]; unfold pr in *; lra. }
      destruct (Rtotal_order (pr 1 h y) (pr 1 h x)) as [L|[L|L]].
      + apply (K 1 h); try assumption.
      + exfalso. apply (HA y x Sy Sx); congruence.
      + apply (K (-1) (- h)); [exact HB| |unfold pr in *; lra]. intros a b Ia Ib N E. apply (HA a b Ia Ib N). unfold pr in *. lra.
    - intros (b & Hb).
      assert (Sb : In b S).
      { destruct (dl_shape _ _ HD _ Hb) as [(a & b' & c & E & _ & I & Ic & _)|(a & b' & E & _ & I & _)]; [injection E as _ _ <-; pose proof (HP _ Ic) as G; discriminate G|injection E as <- <-; exact I]. }
      destruct (Classical_Prop.classic (on_polygon l w)) as [Y'|N]; [exact Y'|exfalso].
      assert (Hin : forall x y, In (x, y) (polygon_sides l) -> 0 < D x y w).
      { intros x y Hs. destruct (placed_pos l x y w Hs (fr_placed _ _ _ HF w Hw)) as [[_ Ho]|P0]; [|exact P0]. exfalso. apply N. exists (x, y). split; [exact Hs|].
        destruct (on_side_ratio x y w Ho) as (t & Ht & Hr). exists t. auto. }
      pose proof (hull_inner l HC S tr w HF (resolved_dup S w HR Hw) w b w Hb Hin) as L. unfold area2 in L. lra.
  Qed.

  (** Solid triangles, points on the sides and all points. *)
  Lemma solid_count : forall n B, NoDup n -> (forall w, In w n <-> In w S) -> NoDup B -> (forall w, In w B <-> In w S /\ on_polygon l w) ->
    (length (filter (fun t => negb (is_ghost t)) (tris tr)) + 2 + length B = 2 * length n)%nat.
  Proof.
    intros n B Hn Hnn HB HBn. pose proof (rs_plain _ HR) as HP. assert (HDn : delaunay n tr) by (apply (delaunay_incl S); [exact HD|intros w; symmetry; apply Hnn]).
    assert (HRn : resolved n) by (apply (resolved_incl S); [exact HR|intros w; apply Hnn]).
    pose proof (mesh_count n tr HDn HRn Hn) as Hc. pose proof (split_count is_ghost (tris tr)) as Hs.
    assert (Hg : length (filter is_ghost (tris tr)) = length B); [|lia].
    assert (Hgh : forall t, In t (tris tr) -> is_ghost t = true -> exists a b, t = Tri a b gv /\ In a S).
    { intros t Ht G. destruct (dl_shape _ _ HD t Ht) as [(a & b & c & -> & Ha & Hb & Hc' & _)|(a & b & -> & Ha & _)]; [|eauto]. unfold is_ghost in G. cbn [tv1 tv2 tv3] in G. rewrite (HP a Ha), (HP b Hb), (HP c Hc') in G. discriminate G. }
    assert (Gg : forall a b, is_ghost (Tri a b gv) = true) by (intros a b; unfold is_ghost; cbn [tv1 tv2 tv3]; rewrite orb_true_r; reflexivity).
    apply Nat.le_antisymm.
    - apply (relation_le (fun t w => exists b, t = Tri w b gv)); [apply NoDup_filter, (dl_nodup _ _ HD)| |].
      + intros t Ht. apply filter_In in Ht as [Ht G]. destruct (Hgh t Ht G) as (a & b & -> & Ha). exists a. split; [|eauto]. apply HBn. split; [exact Ha|]. apply outer_start; eauto.
      + intros t u w Ht Hu (b & ->) (b' & ->). apply filter_In in Ht as [Ht _]. apply filter_In in Hu as [Hu _]. rewrite (outer_alone S tr HD HR w b b' Ht Hu). reflexivity.
    - apply (relation_le (fun w t => exists b, t = Tri w b gv)); [exact HB| |].
      + intros w Hw. apply HBn in Hw as [Hw Ho]. apply outer_start in Ho as (b & Hb); [|exact Hw]. exists (Tri w b gv). split; [|eauto]. apply filter_In. split; [exact Hb|apply Gg].
      + intros w w' t _ _ (b & ->) (b' & E). injection E as -> _. reflexivity.
  Qed.

  (** What is written. *)
  Lemma written_count : forall (H : HashOrder) p coords triples, output H p tr = Ok (coords, triples) ->
    forall B, NoDup B -> (forall w, In w B <-> In w S /\ on_polygon l w) -> (length triples + 2 + length B = 2 * length coords)%nat.
  Proof.
    intros H p coords triples Eo B HB HBn. destruct (output_spec H p tr) as (coords' & triples' & vec & order & Eo' & Pv & Po & Ec & F2 & _).
    rewrite Eo in Eo'. injection Eo' as <- <-. assert (Hpts : forall w, In w (trn_vertices tr) <-> In w S) by (apply delaunay_points; [exact HD|apply (rs_plain _ HR)]).
    assert (E1 : length triples = length (filter (fun t => negb (is_ghost t)) (tris tr))).
    { rewrite <- (filter_ho H (3%nat :: p) (fun t => negb (is_ghost t)) (tris tr)). symmetry. clear -F2. induction F2; cbn; congruence. }
    assert (E2 : length coords = length (trn_vertices tr)) by (rewrite Ec, map_length; apply Permutation_length; exact Po).
    rewrite E1, E2. apply solid_count; try assumption. apply trn_lists_NoDup.
  Qed.
End Framed.
