(** P_K5.v — intersection and subtraction of two polygons: the polygons returned
    surround the right points. *)

From Coq Require Import Reals List ZArith Lra Lia Psatz Bool Permutation.
From Verif Require Import Base Arith Geometry Elements Polyline Procedures ArithR Spec SpecR SpecD SpecM SpecP SpecK
  P_Base P_Poly P_Trn P_Triangulator P_Contains P_R1 P_R2 P_R3 P_R4 P_R5 P_R6 P_D1 P_D2 P_D3 P_D4 P_D5 P_RX P_Fill P_Fill2 P_Slide P_Region2 P_E4 P_G1 P_Bool P_Nest P_J3
  P_K1 P_K2 P_K3 P_K4.
Import ListNotations.
Local Open Scope R_scope.

Definition b2z (b : bool) : Z := if b then 1%Z else 0%Z.
Lemma zsum_filter : forall T (f : T -> Z) (g : T -> bool) l, zsum f (filter g l) = zsum (fun x => (b2z (g x) * f x)%Z) l.
Proof. intros T f g l. induction l as [|x l IH]; [reflexivity|]. cbn [filter]. rewrite zsum_cons. destruct (g x); [rewrite zsum_cons|]; rewrite IH; unfold b2z; lia. Qed.
Lemma zsum_concat : forall T (f : T -> Z) ls, zsum f (concat ls) = zsum (fun l => zsum f l) ls.
Proof. intros T f ls. induction ls as [|l ls IH]; [reflexivity|]. cbn [concat]. rewrite zsum_app, zsum_cons, IH. reflexivity. Qed.
Lemma count_zsum : forall (l : list pnt) v, Z.of_nat (count_occ vdec l v) = zsum (fun u => if vdec u v then 1%Z else 0%Z) l.
Proof. intros l v. induction l as [|u l IH]; [reflexivity|]. rewrite zsum_cons. cbn [count_occ]. destruct (vdec u v); lia. Qed.
Lemma filter_shorter : forall T (g : T -> bool) l, (length (filter g l) <= length l)%nat.
Proof. intros T g l. induction l as [|x l IH]; [reflexivity|]. cbn [filter length]. destruct (g x); cbn [length]; lia. Qed.
Lemma filter_permutes : forall T (g : T -> bool) l l', Permutation l l' -> Permutation (filter g l) (filter g l').
Proof.
  intros T g l l' P. induction P as [|x l l' P IH|x y l|l l' l'' P1 IH1 P2 IH2]; cbn [filter].
  - constructor.
  - destruct (g x); [constructor|]; exact IH.
  - destruct (g x), (g y); try apply Permutation_refl. apply perm_swap.
  - exact (Permutation_trans IH1 IH2).
Qed.
Lemma by_midpoint_exact : forall keep (g : edge ArithR -> bool) poss read unused, (forall s, In s poss -> keep (midpoint (fst s) (snd s)) = Ok (g s)) ->
  exists unused', by_midpoint keep poss read unused = Ok (read ++ filter g poss, unused').
Proof.
  intros keep g poss. induction poss as [|s poss IH]; intros read unused Hk; cbn [by_midpoint]; [rewrite app_nil_r; eauto|].
  unfold ev1, ev2. rewrite (Hk s (or_introl eq_refl)). cbn [bind filter]. destruct (g s).
  - destruct (IH (read ++ [s]) unused) as [u Hu]; [intros x Hx; apply Hk; right; exact Hx|]. exists u. etransitivity; [exact Hu|]. rewrite <- app_assoc. reflexivity.
  - destruct (IH read (hadd edec s unused)) as [u Hu]; [intros x Hx; apply Hk; right; exact Hx|]. exists u. exact Hu.
Qed.

(** ** Points outside of the box *)
Lemma winding_box : forall l b q, bbox_from_vertices l = Some b -> winding q (polygon_sides l) <> 0%Z -> in_box b q.
Proof.
  intros l b q Hb Hw. pose proof (from_vertices_spec l) as Hs. rewrite Hb in Hs. destruct Hs as [Hin _].
  assert (G : forall dx dy, (forall x, In x l -> 0 < dx * (Y x - Y q) - dy * (X x - X q)) -> False).
  { intros dx dy Hx. apply Hw. apply (beyond_line l q (at_ (X q + dx) (Y q + dy))).
    - intros x Hi. specialize (Hx x Hi). unfold area2. rewrite X_at, Y_at. lra.
    - unfold area2. rewrite X_at, Y_at. lra. }
  unfold in_box in *. repeat split; apply Rnot_lt_le; intros L.
  - apply (G 0 (-1)). intros x Hx. destruct (Hin x Hx) as [[A1 A2] [A3 A4]]. lra.
  - apply (G 0 1). intros x Hx. destruct (Hin x Hx) as [[A1 A2] [A3 A4]]. lra.
  - apply (G 1 0). intros x Hx. destruct (Hin x Hx) as [[A1 A2] [A3 A4]]. lra.
  - apply (G (-1) 0). intros x Hx. destruct (Hin x Hx) as [[A1 A2] [A3 A4]]. lra.
Qed.

Section Kept.
  Variables (Z : list pnt) (l1 m2 : list pnt).
  Notation K1 := (polygon_sides l1).
  Notation K2 := (polygon_sides m2).
  Hypothesis HL : laid_out Z K1 K2.
  Hypothesis HM1 : middles_clear Z K1 K2.
  Hypothesis HM2 : middles_clear Z K2 K1.
  Hypothesis N1 : l1 <> [].
  Hypothesis N2 : m2 <> [].
  Variables (E1 E2 r : list (edge ArithR)).
  Hypothesis HP : Permutation r (E1 ++ E2).
  Hypothesis HT : two_cuts K1 K2 E1 E2.
  Hypothesis HE1 : forall e, In e E1 -> In (fst e) Z /\ In (snd e) Z /\ exists s, In s K1 /\ part_of s (fst e) (snd e).
  Hypothesis HE2 : forall e, In e E2 -> In (fst e) Z /\ In (snd e) Z /\ exists s, In s K2 /\ part_of s (fst e) (snd e).
  Notation w1 := (fun q => winding q K1).
  Notation w2 := (fun q => winding q K2).

  Lemma piece_Z : forall e, In e (E1 ++ E2) -> In (fst e) Z /\ In (snd e) Z /\ fst e <> snd e.
  Proof.
    intros e He. assert (Q : In (fst e) Z /\ In (snd e) Z /\ exists s, In s (K1 ++ K2) /\ part_of s (fst e) (snd e)).
    { apply in_app_or in He. destruct He as [He|He]; [destruct (HE1 e He) as (A & B & s & Hs & Hp)|destruct (HE2 e He) as (A & B & s & Hs & Hp)]; (split; [exact A|]; split; [exact B|]; exists s; split; [apply in_or_app; auto|exact Hp]). }
    destruct Q as (A & B & s & Hs & (t & t' & T0 & T1 & T2 & F & G)). split; [exact A|]. split; [exact B|]. intros E.
    destruct (lo_ends _ _ _ HL s Hs) as (S1 & S2 & S3). assert (t = t'); [|lra].
    apply (ratio_same (fst s) (snd s) t t' (fst e) (snd e) S3); try assumption; try (apply (lo_plain _ _ _ HL); assumption). rewrite E. split; reflexivity.
  Qed.
  Lemma mid_midpoint : forall e, In e (E1 ++ E2) -> midpoint (fst e) (snd e) = mid e.
  Proof.
    intros e He. destruct (piece_Z e He) as (A & B & _). unfold midpoint. rewrite (lo_plain _ _ _ HL _ A), (lo_plain _ _ _ HL _ B). reflexivity.
  Qed.
  Lemma mid_half : forall e, at_ratio (/ 2) (fst e) (snd e) (mid e).
  Proof. intros e. unfold mid. split; [rewrite X_at|rewrite Y_at]; field. Qed.

  Lemma first_piece : forall e, In e E1 -> poly_contains (Poly l1 false) (mid e) = Ok (Some Boundary) /\ (forall s, In s K2 -> ~ on_segment (fst s) (snd s) (mid e)) /\
    exists k, poly_contains (Poly m2 false) (mid e) = Ok (Some k) /\ k <> Boundary /\ (k = Inside -> w2 (mid e) <> 0%Z) /\ (k = Outside -> w2 (mid e) = 0%Z).
  Proof.
    intros e He. destruct (HE1 e He) as (A & B & s & Hs & Hp).
    assert (Hoff : forall s, In s K2 -> ~ on_segment (fst s) (snd s) (mid e)).
    { intros s' Hs' Ho. destruct (tc_cov2 _ _ _ _ HT s' _ Hs' Ho) as (f & Hf & Hfo). exact (tc_sep1 _ _ _ _ HT e f _ He Hf (mid_inner e) Hfo). }
    split; [|split; [exact Hoff|]].
    - destruct s as [a b]. apply (contains_on_side l1 (mid e) a b Hs). apply (part_on (a, b) (fst e) (snd e) (mid e) Hp). apply inner_on, mid_inner.
    - destruct (contains_winding m2 (mid e) N2) as (k & Hk & Hb & Hi & Ho). exists k. split; [exact Hk|]. split; [|split; [exact Hi|exact Ho]].
      intros E. apply Hb in E. destruct E as (s' & Hs' & Ht). exact (HM1 s _ _ (mid e) Hs A B Hp (mid_half e) Hoff s' Hs' Ht).
  Qed.
  Lemma second_piece : forall e, In e E2 -> poly_contains (Poly m2 false) (mid e) = Ok (Some Boundary) /\ (forall s, In s K1 -> ~ on_segment (fst s) (snd s) (mid e)) /\
    exists k, poly_contains (Poly l1 false) (mid e) = Ok (Some k) /\ k <> Boundary /\ (k = Inside -> w1 (mid e) <> 0%Z) /\ (k = Outside -> w1 (mid e) = 0%Z).
  Proof.
    intros e He. destruct (HE2 e He) as (A & B & s & Hs & Hp).
    assert (Hoff : forall s, In s K1 -> ~ on_segment (fst s) (snd s) (mid e)).
    { intros s' Hs' Ho. destruct (tc_cov1 _ _ _ _ HT s' _ Hs' Ho) as (f & Hf & Hfo). exact (tc_sep2 _ _ _ _ HT f e _ Hf He (mid_inner e) Hfo). }
    split; [|split; [exact Hoff|]].
    - destruct s as [a b]. apply (contains_on_side m2 (mid e) a b Hs). apply (part_on (a, b) (fst e) (snd e) (mid e) Hp). apply inner_on, mid_inner.
    - destruct (contains_winding l1 (mid e) N1) as (k & Hk & Hb & Hi & Ho). exists k. split; [exact Hk|]. split; [|split; [exact Hi|exact Ho]].
      intros E. apply Hb in E. destruct E as (s' & Hs' & Ht). exact (HM2 s _ _ (mid e) Hs A B Hp (mid_half e) Hoff s' Hs' Ht).
  Qed.

  (** ** Balance of chosen pieces *)
  Lemma chosen_balanced : forall (g : edge ArithR -> bool),
    (forall v, zsum (fun e => (b2z (g e) * (same_place v (snd e) - same_place v (fst e)))%Z) (E1 ++ E2) = 0%Z) ->
    Permutation (map fst (filter g r)) (map snd (filter g r)).
  Proof.
    intros g Hz. rewrite (Permutation_count_occ vdec). intros v.
    assert (Pf : Permutation (filter g r) (filter g (E1 ++ E2))) by (apply filter_permutes, HP).
    apply Nat2Z.inj. rewrite !count_zsum, !zsum_map.
    assert (Hin : forall e, In e (filter g r) -> In (fst e) Z /\ In (snd e) Z).
    { intros e He. apply filter_In in He. destruct (piece_Z e) as (A & B & _); [apply (Permutation_in _ HP), He|auto]. }
    destruct (in_dec vdec v Z) as [Hv|Hv].
    - assert (Es : forall u, In u Z -> (if vdec u v then 1%Z else 0%Z) = same_place v u).
      { intros u Hu. unfold same_place. destruct (vdec u v) as [->|N].
        - destruct (Req_EM_T (X v) (X v)); [|congruence]. destruct (Req_EM_T (Y v) (Y v)); [reflexivity|congruence].
        - destruct (Req_EM_T (X u) (X v)) as [Ex|]; [|reflexivity]. destruct (Req_EM_T (Y u) (Y v)) as [Ey|]; [|reflexivity]. exfalso. apply N.
          apply pnt_eq; [exact Ex|exact Ey|]. rewrite (lo_plain _ _ _ HL u Hu), (lo_plain _ _ _ HL v Hv). reflexivity. }
      assert (D0 : (zsum (fun e => same_place v (snd e)) (filter g r) - zsum (fun e => same_place v (fst e)) (filter g r))%Z = 0%Z).
      { rewrite <- zsum_sub. rewrite (zsum_perm _ _ _ _ Pf), zsum_filter. apply Hz. }
      transitivity (zsum (fun e => same_place v (fst e)) (filter g r)); [apply zsum_ext; intros e He; apply Es, (Hin e He)|].
      transitivity (zsum (fun e => same_place v (snd e)) (filter g r)); [lia|apply zsum_ext; intros e He; symmetry; apply Es, (Hin e He)].
    - transitivity 0%Z; [|symmetry]; apply zsum_zero; intros e He; destruct (Hin e He) as [A B].
      + destruct (vdec (fst e) v) as [E|_]; [rewrite E in A; contradiction|reflexivity].
      + destruct (vdec (snd e) v) as [E|_]; [rewrite E in B; contradiction|reflexivity].
  Qed.

  Lemma chosen_joined : forall H fuel p (g : edge ArithR -> bool) unused, (length r < fuel)%nat ->
    (forall v, zsum (fun e => (b2z (g e) * (same_place v (snd e) - same_place v (fst e)))%Z) (E1 ++ E2) = 0%Z) ->
    exists pls, build_loop H fuel p (hset edec (filter g r)) unused [] = Ok (pls, unused) /\ (forall pl, In pl pls -> proper_closed pl) /\
      forall q, winding_all q pls = zsum (fun e => (b2z (g e) * rc q e)%Z) (E1 ++ E2).
  Proof.
    intros H fuel p g unused Hf Hz.
    assert (Hnd : NoDup (filter g r)). { apply NoDup_filter. apply (Permutation_NoDup (Permutation_sym HP)). apply FOP_NoDup. apply (tc_once _ _ _ _ HT). }
    rewrite (hset_NoDup_id edec (filter g r) Hnd).
    assert (Hr : forall e, In e r -> In e (E1 ++ E2)) by (intros e He; apply (Permutation_in _ HP He)).
    destruct (build_closing H r) with (fuel := fuel) (p := p) (poss := filter g r) (unused := unused) (acc := @nil (polyline ArithR)) as (chains & Hrun & Pc & Hc).
    - intros e f u w He Hf' Hu Hw Hv. destruct (piece_Z e (Hr e He)) as (A & B & _). destruct (piece_Z f (Hr f Hf')) as (A' & B' & _).
      apply (Z_veqb Z K1 K2 HL u w); [destruct Hu; subst; assumption|destruct Hw; subst; assumption|exact Hv].
    - intros e He. apply (piece_Z e (Hr e He)).
    - intros e He He'. destruct (piece_Z e (Hr e He)) as (_ & _ & N).
      apply (FOP_in (E1 ++ E2) e (snd e, fst e) (tc_once _ _ _ _ HT) (Hr _ He) (Hr _ He')) with (p := mid e).
      + intros E. apply N. exact (f_equal fst E).
      + apply mid_inner.
      + cbn [fst snd]. apply inner_flip, mid_inner.
    - intros e He. apply filter_In in He. apply He.
    - exact Hnd.
    - apply chosen_balanced, Hz.
    - pose proof (filter_shorter _ g r). lia.
    - cbn [app] in Hrun. exists (map (fun c => Poly (map fst c) false) chains). split; [exact Hrun|]. split.
      + intros pl Hpl. apply in_map_iff in Hpl. destruct Hpl as (c & <- & Hcc). destruct (Hc c Hcc) as [_ L]. unfold proper_closed, new_closed. cbn [pverts].
        destruct (_ <? 3)%nat eqn:E; [|reflexivity]. apply Nat.ltb_lt in E. exfalso. assert (E' : (length c < 3)%nat) by (rewrite <- (map_length fst c); exact E). exact (Nat.lt_irrefl 3 (Nat.le_lt_trans _ _ _ L E')).
      + intros q. assert (Q : winding_all q (map (fun c => Poly (map fst c) false) chains) = zsum (rc q) (concat chains)).
        { rewrite zsum_concat. clear Hrun Pc. unfold winding_all. induction chains as [|c chains IH]; [reflexivity|].
          cbn [map fold_right]. rewrite zsum_cons, IH by (intros c' Hc'; apply Hc; right; exact Hc'). cbn [pverts]. destruct (Hc c (or_introl eq_refl)) as [E _]. rewrite E, winding_zsum. reflexivity. }
        rewrite Q, (zsum_perm _ _ _ _ Pc). rewrite zsum_filter. apply zsum_perm, HP.
  Qed.

  Lemma split_off : forall q, (forall s, In s (K1 ++ K2) -> ~ on_segment (fst s) (snd s) q) -> forall e, In e (E1 ++ E2) -> ~ on_segment (fst e) (snd e) q.
  Proof.
    intros q Ho e He Hq. apply in_app_or in He. destruct He as [He|He].
    - destruct (HE1 e He) as (_ & _ & s & Hs & Hp). apply (Ho s (in_or_app _ _ _ (or_introl Hs))). apply (part_on s _ _ q Hp Hq).
    - destruct (HE2 e He) as (_ & _ & s & Hs & Hp). apply (Ho s (in_or_app _ _ _ (or_intror Hs))). apply (part_on s _ _ q Hp Hq).
  Qed.
  Lemma two_product : forall q, (forall s, In s (K1 ++ K2) -> ~ on_segment (fst s) (snd s) q) ->
    (w1 q * w2 q = zsum (fun e => rc q e * w2 (mid e)) E1 + zsum (fun f => rc q f * w1 (mid f)) E2)%Z.
  Proof.
    intros q Ho. apply (product_rule l1 m2 E1 E2 (tc_W1 _ _ _ _ HT) (tc_W2 _ _ _ _ HT)).
    - intros x y z Hxy. apply (tc_cov1 _ _ _ _ HT (x, y) z Hxy).
    - intros x y z Hxy. apply (tc_cov2 _ _ _ _ HT (x, y) z Hxy).
    - apply (tc_sep1 _ _ _ _ HT).
    - apply (tc_sep2 _ _ _ _ HT).
    - apply split_off, Ho.
  Qed.
  Lemma two_balance : forall v, (zsum (fun e => w2 (mid e) * (same_place v (snd e) - same_place v (fst e))) E1 + zsum (fun f => w1 (mid f) * (same_place v (snd f) - same_place v (fst f))) E2 = 0)%Z.
  Proof.
    intros v. apply (balanced_inside l1 m2 E1 E2 (tc_W1 _ _ _ _ HT) (tc_W2 _ _ _ _ HT)).
    - intros g. rewrite (tc_T1 _ _ _ _ HT). apply telescope_polygon.
    - intros g. rewrite (tc_T2 _ _ _ _ HT). apply telescope_polygon.
    - intros x y z Hxy. apply (tc_cov1 _ _ _ _ HT (x, y) z Hxy).
    - intros x y z Hxy. apply (tc_cov2 _ _ _ _ HT (x, y) z Hxy).
    - apply (tc_sep1 _ _ _ _ HT).
    - apply (tc_sep2 _ _ _ _ HT).
  Qed.
  Lemma piece_sum : forall v : pnt, zsum (fun e => (same_place v (snd e) - same_place v (fst e))%Z) E1 = 0%Z /\ zsum (fun e => (same_place v (snd e) - same_place v (fst e))%Z) E2 = 0%Z.
  Proof.
    intros v. split; [rewrite (tc_T1 _ _ _ _ HT (same_place v))|rewrite (tc_T2 _ _ _ _ HT (same_place v))]; apply telescope_polygon.
  Qed.

  (** No two pieces run against each other. *)
  Lemma calm_pieces : no_counter Z (K1 ++ K2) -> forall s s', In s r -> In s' r -> ~ against s s'.
  Proof.
    intros HN e f He Hf ((v & Hv) & Hp & Hd).
    assert (G : forall e, In e r -> In (fst e) Z /\ In (snd e) Z /\ exists s, In s (K1 ++ K2) /\ part_of s (fst e) (snd e)).
    { intros x Hx. apply (Permutation_in _ HP) in Hx. apply in_app_or in Hx.
      destruct Hx as [Hx|Hx]; [destruct (HE1 x Hx) as (A & B & s & Hs & Q)|destruct (HE2 x Hx) as (A & B & s & Hs & Q)]; (split; [exact A|]; split; [exact B|]; exists s; split; [apply in_or_app; auto|exact Q]). }
    destruct (G e He) as (A1 & A2 & s & Hs & Ps). destruct (G f Hf) as (B1 & B2 & s' & Hs' & Ps').
    destruct (intersection_sound _ _ _ _ _ Hv) as (Q1 & Q2 & _ & _ & Q3 & Q4). apply parallel_spec in Hp.
    apply (HN s s' (fst e) (snd e) (fst f) (snd f) v Hs Hs' A1 A2 B1 B2 Ps Ps' Hp); try assumption.
    revert Hd. cbn. unfold Rltb. destruct (Rlt_dec _ _) as [L|L]; [intros _|discriminate]. exact L.
  Qed.
End Kept.
