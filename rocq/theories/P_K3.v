(** P_K3.v — splitting the sides of two polygons where they meet. *)

From Coq Require Import Reals List ZArith Lra Lia Psatz Bool Permutation.
From Verif Require Import Base Arith Geometry Elements Polyline Procedures ArithR Spec SpecR SpecD SpecP SpecK
  P_Base P_Poly P_R1 P_R2 P_R5 P_R6 P_D1 P_D2 P_D3 P_D4 P_D5 P_RX P_Fill P_Fill2 P_Slide P_Region2 P_R3 P_E4 P_G1 P_K1 P_K2.
Import ListNotations.
Local Open Scope R_scope.

(** ** Parts *)
Lemma part_on : forall s u v p, part_of s u v -> on_segment u v p -> on_segment (fst s) (snd s) p.
Proof.
  intros s u v p (t & t' & T0 & T1 & T2 & [A1 A2] & [B1 B2]) (r & Hr & [C1 C2]). exists (t + r * (t' - t)). split.
  - assert (Q := mpp r (t' - t)). assert (Q' := mpp (1 - r) (t' - t)). lra.
  - split; [rewrite C1, B1, A1|rewrite C2, B2, A2]; ring.
Qed.
Lemma part_self : forall s, part_of s (fst s) (snd s).
Proof. intros s. exists 0, 1. repeat split; try lra. Qed.
Lemma part_cut : forall s u v z, part_of s u v -> inner u v z -> part_of s u z /\ part_of s z v.
Proof.
  intros s u v z (t & t' & T0 & T1 & T2 & [A1 A2] & [B1 B2]) (r & Hr & [C1 C2]). set (m := t + r * (t' - t)).
  assert (Hm : at_ratio m (fst s) (snd s) z) by (unfold m; split; [rewrite C1, B1, A1|rewrite C2, B2, A2]; ring).
  assert (Q := spp r (t' - t)). assert (Q' := spp (1 - r) (t' - t)). assert (L : t < m < t') by (unfold m; lra).
  split; [exists t, m|exists m, t']; (repeat split; try lra; try assumption; try apply Hm).
Qed.
Lemma ratio_same : forall a b t t' p p', a <> b -> vghost a = false -> vghost b = false -> at_ratio t a b p -> at_ratio t' a b p' -> coincide p p' -> t = t'.
Proof.
  intros a b t t' p p' N Ga Gb [A1 A2] [B1 B2] [E1 E2].
  destruct (Req_dec (X a) (X b)) as [Ex|Nx].
  - destruct (Req_dec (Y a) (Y b)) as [Ey|Ny]; [exfalso; apply N, pnt_eq; congruence|].
    apply (Rmult_eq_reg_r (Y b - Y a)); lra.
  - apply (Rmult_eq_reg_r (X b - X a)); lra.
Qed.
(** An end of a side on a part of it is an end of the part. *)
Lemma part_end : forall s u v p, fst s <> snd s -> vghost (fst s) = false -> vghost (snd s) = false -> part_of s u v -> on_segment u v p -> end_of s p -> end_of (u, v) p.
Proof.
  intros s u v p N G1 G2 (t & t' & T0 & T1 & T2 & A & B) (r & Hr & C).
  assert (Hp : at_ratio (t + r * (t' - t)) (fst s) (snd s) p).
  { destruct A as [A1 A2], B as [B1 B2], C as [C1 C2]. split; [rewrite C1, B1, A1|rewrite C2, B2, A2]; ring. }
  assert (Q := mpp r (t' - t)). assert (Q' := mpp (1 - r) (t' - t)).
  intros [E|E]; [left|right]; cbn [fst snd].
  - assert (Et : t + r * (t' - t) = 0) by (apply (ratio_same (fst s) (snd s) _ 0 p (fst s)); try assumption; split; ring).
    assert (r = 0). { destruct (Req_dec r 0) as [->|Nr]; [reflexivity|]. assert (Q2 := spp r (t' - t)). lra. } subst r. destruct C as [C1 C2]. split; lra.
  - assert (Et : t + r * (t' - t) = 1) by (apply (ratio_same (fst s) (snd s) _ 1 p (snd s)); try assumption; split; ring).
    assert (r = 1). { destruct (Req_dec r 1) as [->|Nr]; [reflexivity|]. assert (Q2 := spp (1 - r) (t' - t)). lra. } subst r. destruct C as [C1 C2]. split; lra.
Qed.

Lemma between_box : forall a b t, 0 <= t <= 1 -> Rmin a b <= a + t * (b - a) <= Rmax a b.
Proof.
  intros a b t Ht. unfold Rmin, Rmax. destruct (Rle_dec a b).
  - assert (Q := mpp t (b - a)). assert (Q' := mpp (1 - t) (b - a)). lra.
  - assert (Q := mpp t (a - b)). assert (Q' := mpp (1 - t) (a - b)). lra.
Qed.
Lemma part_box : forall e s u v p, part_of s u v -> near_box e u v p -> near_box e (fst s) (snd s) p.
Proof.
  intros e s u v p (t & t' & T0 & T1 & T2 & [A1 A2] & [B1 B2]) [[P1 P2] [P3 P4]].
  pose proof (between_box (X (fst s)) (X (snd s)) t ltac:(lra)). pose proof (between_box (X (fst s)) (X (snd s)) t' ltac:(lra)).
  pose proof (between_box (Y (fst s)) (Y (snd s)) t ltac:(lra)). pose proof (between_box (Y (fst s)) (Y (snd s)) t' ltac:(lra)).
  rewrite <- A1, <- B1, <- A2, <- B2 in *.
  unfold near_box. revert P1 P2 P3 P4. unfold Rmin at 1 2, Rmax at 1 2. intros.
  repeat split.
  - destruct (Rle_dec (X u) (X v)); lra.
  - destruct (Rle_dec (X u) (X v)); lra.
  - destruct (Rle_dec (Y u) (Y v)); lra.
  - destruct (Rle_dec (Y u) (Y v)); lra.
Qed.
Lemma part_line : forall s u v p, part_of s u v -> on_line u v p -> (fst s = fst s -> on_line (fst s) (snd s) p).
Proof.
  intros s u v p (t & t' & T0 & T1 & T2 & [A1 A2] & [B1 B2]) L _. unfold on_line, area2 in *.
  rewrite A1, A2, B1, B2 in L. apply (Rmult_eq_reg_l (t' - t)); [|lra]. rewrite Rmult_0_r, <- L. ring.
Qed.
Lemma part_crossp : forall s s' u v u' v', part_of s u v -> part_of s' u' v' ->
  exists k, 0 < k /\ crossp u v u' v' = k * crossp (fst s) (snd s) (fst s') (snd s').
Proof.
  intros s s' u v u' v' (t & t' & T0 & T1 & T2 & [A1 A2] & [B1 B2]) (r & r' & R0 & R1 & R2 & [C1 C2] & [D1 D2]).
  exists ((t' - t) * (r' - r)). split; [apply spp; lra|]. unfold crossp. rewrite A1, A2, B1, B2, C1, C2, D1, D2. ring.
Qed.

(** ** Cutting a segment *)
Lemma scaled_sign : forall k x, 0 < k -> (0 < k * x <-> 0 < x) /\ (k * x < 0 <-> x < 0).
Proof.
  intros k x Hk. destruct (Rtotal_order x 0) as [L|[E|L]].
  - assert (Q := spn k x). lra.
  - subst x. rewrite Rmult_0_r. lra.
  - assert (Q := spp k x). lra.
Qed.
Lemma rc_cut : forall q a b z, inner a b z -> rc q (a, b) = (rc q (a, z) + rc q (z, b))%Z.
Proof.
  intros q a b z (t & Ht & [A1 A2]).
  assert (E1 : D a z q = t * D a b q) by (unfold area2; rewrite A1, A2; ring).
  assert (E2 : D z b q = (1 - t) * D a b q) by (unfold area2; rewrite A1, A2; ring).
  destruct (scaled_sign t (D a b q) ltac:(lra)) as [S1 S2]. destruct (scaled_sign (1 - t) (D a b q) ltac:(lra)) as [S3 S4].
  assert (B : (X a <= X z <= X b) \/ (X b <= X z <= X a)).
  { rewrite A1. destruct (Rle_dec (X a) (X b)); [left|right].
    - assert (Q := mpp t (X b - X a)). assert (Q' := mpp (1 - t) (X b - X a)). lra.
    - assert (Q := mpp t (X a - X b)). assert (Q' := mpp (1 - t) (X a - X b)). lra. }
  unfold rc, ray_crossing. rewrite E1, E2.
  repeat match goal with |- context [Rle_dec ?x ?y] => destruct (Rle_dec x y) | |- context [Rlt_dec ?x ?y] => destruct (Rlt_dec x y) end; try lia; exfalso; lra.
Qed.

(** A point of a segment is on one of the two halves; the halves keep apart. *)
Lemma halves_cover : forall a b z p, inner a b z -> on_segment a b p -> on_segment a z p \/ on_segment z b p.
Proof.
  intros a b z p (t & Ht & [A1 A2]) (r & Hr & [B1 B2]). destruct (Rle_lt_dec r t) as [L|L].
  - left. exists (r / t). split; [split; [apply Rmult_le_pos; [lra|left; apply Rinv_0_lt_compat; lra]|apply (Rmult_le_reg_r t); [lra|]; unfold Rdiv; rewrite Rmult_assoc, Rinv_l; lra]|].
    split; [rewrite B1, A1|rewrite B2, A2]; field; lra.
  - right. exists ((r - t) / (1 - t)). split; [split; [apply Rmult_le_pos; [lra|left; apply Rinv_0_lt_compat; lra]|apply (Rmult_le_reg_r (1 - t)); [lra|]; unfold Rdiv; rewrite Rmult_assoc, Rinv_l; lra]|].
    split; [rewrite B1, A1|rewrite B2, A2]; field; lra.
Qed.
Lemma half_first : forall a b z p, inner a b z -> inner a z p -> inner a b p.
Proof.
  intros a b z p (t & Ht & [A1 A2]) (r & Hr & [B1 B2]). exists (r * t). assert (Q := spp r t). assert (Q' := spp (1 - r) t). split; [lra|]. split; [rewrite B1, A1|rewrite B2, A2]; ring.
Qed.
Lemma half_second : forall a b z p, inner a b z -> inner z b p -> inner a b p.
Proof. intros a b z p Hz Hp. apply inner_flip. apply (half_first b a z p); apply inner_flip; assumption. Qed.
Lemma halves_apart : forall a b z p, coincide a b \/ ~ (inner a b z /\ inner a z p /\ inner z b p).
Proof.
  intros a b z p. destruct (Req_dec (X a) (X b)) as [Ex|Nx]; [destruct (Req_dec (Y a) (Y b)) as [Ey|Ny]; [left; split; assumption|]|]; right; intros ((t & Ht & [A1 A2]) & (r & Hr & [B1 B2]) & (r' & Hr' & [C1 C2])).
  - assert (E : r * t = t + r' * (1 - t)) by (apply (Rmult_eq_reg_r (Y b - Y a)); [|lra]; rewrite A2 in B2, C2; lra). assert (Q := spp (1 - r) t). assert (Q' := spp r' (1 - t)). lra.
  - assert (E : r * t = t + r' * (1 - t)) by (apply (Rmult_eq_reg_r (X b - X a)); [|lra]; rewrite A1 in B1, C1; lra). assert (Q := spp (1 - r) t). assert (Q' := spp r' (1 - t)). lra.
Qed.

(** ** Cutting *)
Section Cut.
  Variables (Z : list pnt) (K : list (edge ArithR)).
  Hypothesis HZ : forall z, In z Z -> vghost z = false.
  Hypothesis HK : forall s, In s K -> In (fst s) Z /\ In (snd s) Z /\ fst s <> snd s.

  Inductive cut : list (edge ArithR) -> Prop :=
  | cut_self : cut K
  | cut_perm : forall E E', cut E -> Permutation E E' -> cut E'
  | cut_at : forall a b z R, cut ((a, b) :: R) -> In z Z -> inner a b z -> cut ((a, z) :: (z, b) :: R).

  Lemma cut_parts : forall E, cut E -> forall e, In e E -> In (fst e) Z /\ In (snd e) Z /\ exists s, In s K /\ part_of s (fst e) (snd e).
  Proof.
    intros E HE. induction HE as [|E E' HE IH P|a b z R HE IH Hz Hi].
    - intros e He. destruct (HK e He) as (A & B & _). split; [exact A|]. split; [exact B|]. exists e. split; [exact He|apply part_self].
    - intros e He. apply IH. apply (Permutation_in e (Permutation_sym P) He).
    - intros e He. destruct (IH (a, b) (or_introl eq_refl)) as (A & B & s & Hs & Hp). cbn [fst snd] in *.
      destruct (part_cut s a b z Hp Hi) as [P1 P2]. destruct He as [<-|[<-|He]]; cbn [fst snd]; eauto.
      apply IH. right. exact He.
  Qed.

  Lemma cut_winding : forall E, cut E -> forall q, winding q E = winding q K.
  Proof.
    intros E HE q. induction HE as [|E E' HE IH P|a b z R HE IH Hz Hi]; [reflexivity| |].
    - rewrite <- IH, !winding_zsum. apply zsum_perm, Permutation_sym, P.
    - rewrite <- IH, !winding_zsum, !zsum_cons. rewrite (rc_cut q a b z Hi). lia.
  Qed.
  Lemma cut_sum : forall E, cut E -> forall g : pnt -> Z.t, zsum (fun e => (g (snd e) - g (fst e))%Z) E = zsum (fun e => (g (snd e) - g (fst e))%Z) K.
  Proof.
    intros E HE g. induction HE as [|E E' HE IH P|a b z R HE IH Hz Hi]; [reflexivity| |].
    - rewrite <- IH. apply zsum_perm, Permutation_sym, P.
    - rewrite <- IH, !zsum_cons. cbn [fst snd]. lia.
  Qed.
  Lemma cut_cover : forall E, cut E -> forall s z, In s K -> on_segment (fst s) (snd s) z -> exists e, In e E /\ on_segment (fst e) (snd e) z.
  Proof.
    intros E HE s z Hs Ho. induction HE as [|E E' HE IH P|a b y R HE IH Hz Hi]; [eauto| |].
    - destruct IH as (e & He & Hoe). exists e. split; [apply (Permutation_in e P He)|exact Hoe].
    - destruct IH as (e & [<-|He] & Hoe).
      + cbn [fst snd] in Hoe. destruct (halves_cover a b y z Hi Hoe) as [Q|Q]; [exists (a, y)|exists (y, b)]; (split; [cbn; auto|exact Q]).
      + exists e. split; [right; right; exact He|exact Hoe].
  Qed.
  Lemma cut_edge : forall E e, cut E -> In e E -> fst e <> snd e /\ ~ coincide (fst e) (snd e).
  Proof.
    intros E e HE He. destruct (cut_parts E HE e He) as (Ia & Ib & s & Hs & Hp). destruct (HK s Hs) as (Is & Is' & N).
    destruct Hp as (t & t' & T0 & T1 & T2 & A & B). assert (Nc : ~ coincide (fst e) (snd e)).
    { intros C. pose proof (ratio_same (fst s) (snd s) t t' (fst e) (snd e) N (HZ _ Is) (HZ _ Is') A B C). lra. }
    split; [|exact Nc]. intros Eq. apply Nc. rewrite Eq. split; reflexivity.
  Qed.

  (** No point is inside of two pieces. *)
  Definition no_common (e f : edge ArithR) : Prop := forall p, inner (fst e) (snd e) p -> ~ inner (fst f) (snd f) p.
  Lemma no_common_sym : forall e f, no_common e f -> no_common f e.
  Proof. intros e f Hn p Hf He. exact (Hn p He Hf). Qed.
  Lemma ForallOrdPairs_perm : forall T (Q : T -> T -> Prop) l l', (forall x y, Q x y -> Q y x) -> Permutation l l' -> ForallOrdPairs Q l -> ForallOrdPairs Q l'.
  Proof.
    intros T Q l l' Hsym P. induction P as [|x l l' P IH|x y l|l l' l'' P IH P' IH']; intros HF.
    - exact HF.
    - inversion HF as [|? ? F1 F2]; subst. constructor; [|apply IH, F2]. rewrite Forall_forall in *. intros u Hu. apply F1. apply (Permutation_in u (Permutation_sym P) Hu).
    - inversion HF as [|? ? F1 F2]; subst. inversion F2 as [|? ? F3 F4]; subst. inversion F1 as [|? ? F5 F6]; subst. constructor; [constructor; [apply Hsym, F5|exact F3]|]. constructor; [exact F6|exact F4].
    - apply IH', IH, HF.
  Qed.
  Lemma cut_no_common : ForallOrdPairs no_common K -> forall E, cut E -> ForallOrdPairs no_common E.
  Proof.
    intros H0 E HE. induction HE as [|E E' HE IH P|a b z R HE IH Hz Hi]; [exact H0| |].
    - apply (ForallOrdPairs_perm _ _ E E'); [apply no_common_sym|exact P|exact IH].
    - inversion IH as [|? ? F1 F2]; subst. rewrite Forall_forall in F1. constructor; [|constructor; [|exact F2]]; rewrite Forall_forall.
      + intros f [<-|Hf] p Hp Hf'; cbn [fst snd] in *.
        * destruct (halves_apart a b z p) as [C|C]; [|apply C; auto]. apply (proj2 (cut_edge _ (a, b) HE (or_introl eq_refl)) C).
        * apply (F1 f Hf p); [|exact Hf']. cbn [fst snd]. apply (half_first a b z); assumption.
      + intros f Hf p Hp Hf'. apply (F1 f Hf p); [|exact Hf']. cbn [fst snd] in *. apply (half_second a b z); assumption.
  Qed.
  Lemma FOP_NoDup : forall E, ForallOrdPairs no_common E -> NoDup E.
  Proof.
    intros E HF. induction HF as [|e E F1 F2 IH]; constructor; [|exact IH]. intros Hi. rewrite Forall_forall in F1. apply (F1 e Hi (mid e)); apply mid_inner.
  Qed.
  Lemma FOP_in : forall E e f, ForallOrdPairs no_common E -> In e E -> In f E -> e <> f -> no_common e f.
  Proof.
    intros E e f HF He Hf N. destruct (ForallOrdPairs_In HF e f He Hf) as [E0|[Q|Q]]; [contradiction|exact Q|apply no_common_sym, Q].
  Qed.

  (** The two parts of a piece, as they are put back. *)
  Definition halves (e : edge ArithR) (z : pnt) : list (edge ArithR) :=
    (if veqb (fst e) z then [] else [(fst e, z)]) ++ (if veqb (snd e) z then [] else [(z, snd e)]).
End Cut.

Section Split.
  Variables (Z : list pnt) (K1 K2 : list (edge ArithR)).
  Hypothesis HL : laid_out Z K1 K2.

  Lemma Z_veqb : forall a b, In a Z -> In b Z -> veqb a b = true <-> a = b.
  Proof.
    intros a b Ha Hb. split; intros E.
    - apply (lo_apart _ _ _ HL a b Ha Hb). apply (veqb_close a b (lo_plain _ _ _ HL a Ha) E).
    - subst b. apply veqb_refl.
  Qed.
  Lemma Z_veqb_false : forall a b, In a Z -> In b Z -> veqb a b = false <-> a <> b.
  Proof. intros a b Ha Hb. rewrite <- (Z_veqb a b Ha Hb). destruct (veqb a b); split; congruence. Qed.
  Lemma Z_coincide : forall a b, In a Z -> vghost b = false -> coincide a b -> a = b.
  Proof. intros a b Ha Hb [E1 E2]. apply pnt_eq; [exact E1|exact E2|]. rewrite Hb. apply (lo_plain _ _ _ HL a Ha). Qed.

  Lemma HK1 : forall s, In s K1 -> In (fst s) Z /\ In (snd s) Z /\ fst s <> snd s.
  Proof. intros s Hs. apply (lo_ends _ _ _ HL). apply in_or_app. auto. Qed.
  Lemma HK2 : forall s, In s K2 -> In (fst s) Z /\ In (snd s) Z /\ fst s <> snd s.
  Proof. intros s Hs. apply (lo_ends _ _ _ HL). apply in_or_app. auto. Qed.
  Let HZ := lo_plain _ _ _ HL.

  Lemma cut_halves : forall K e z R, (forall s, In s K -> In (fst s) Z /\ In (snd s) Z /\ fst s <> snd s) -> cut Z K (e :: R) -> In z Z -> on_segment (fst e) (snd e) z ->
    cut Z K (halves e z ++ R) /\ (length (halves e z) = 1%nat <-> (z = fst e \/ z = snd e)) /\ (1 <= length (halves e z) <= 2)%nat.
  Proof.
    intros K [a b] z R HK HE Hz (t & Ht & Ho). cbn [fst snd] in *. destruct (cut_parts Z K HK _ HE (a, b) (or_introl eq_refl)) as (Ia & Ib & _). cbn [fst snd] in *.
    destruct (cut_edge Z K HZ HK _ (a, b) HE (or_introl eq_refl)) as [N Nc]. cbn [fst snd] in *. unfold halves. cbn [fst snd].
    destruct (veqb a z) eqn:Ea.
    - apply (Z_veqb a z Ia Hz) in Ea. subst z. assert (Eb : veqb b a = false) by (apply Z_veqb_false; auto). rewrite Eb. cbn. split; [exact HE|]. split; [|lia]. split; auto.
    - apply (Z_veqb_false a z Ia Hz) in Ea. destruct (veqb b z) eqn:Eb.
      + apply (Z_veqb b z Ib Hz) in Eb. subst z. cbn. split; [exact HE|]. split; [|lia]. split; auto.
      + apply (Z_veqb_false b z Ib Hz) in Eb. cbn. split; [|split; [split; [discriminate|intros [E|E]; congruence]|lia]].
        apply cut_at; [exact HE|exact Hz|]. exists t. split; [|exact Ho]. destruct Ho as [F1 F2].
        assert (t <> 0). { intros ->. apply Ea, Z_coincide; [exact Ia|apply HZ, Hz|split; lra]. }
        assert (t <> 1). { intros ->. apply Eb, Z_coincide; [exact Ib|apply HZ, Hz|split; lra]. }
        lra.
  Qed.

  Lemma near_one : forall a b t t1 t2 e, t < t1 -> t1 < t2 -> 0 <= e -> Rmin (a + t1 * (b - a)) (a + t2 * (b - a)) - e <= a + t * (b - a) <= Rmax (a + t1 * (b - a)) (a + t2 * (b - a)) + e ->
    - e <= (a + t * (b - a)) - (a + t1 * (b - a)) <= e.
  Proof.
    intros a b t t1 t2 e L1 L2 He [H1 H2]. destruct (Rle_lt_dec a b) as [L|L].
    - assert (Q1 := mpp (t1 - t) (b - a)). assert (Q2 := mpp (t2 - t1) (b - a)). rewrite Rmin_left in H1 by lra. lra.
    - assert (Q1 := mpp (t1 - t) (a - b)). assert (Q2 := mpp (t2 - t1) (a - b)). rewrite Rmax_left in H2 by lra. lra.
  Qed.
  Lemma near_other : forall a b t t1 t2 e, t2 < t -> t1 < t2 -> 0 <= e -> Rmin (a + t1 * (b - a)) (a + t2 * (b - a)) - e <= a + t * (b - a) <= Rmax (a + t1 * (b - a)) (a + t2 * (b - a)) + e ->
    - e <= (a + t * (b - a)) - (a + t2 * (b - a)) <= e.
  Proof.
    intros a b t t1 t2 e L1 L2 He [H1 H2]. destruct (Rle_lt_dec a b) as [L|L].
    - assert (Q1 := mpp (t - t2) (b - a)). assert (Q2 := mpp (t2 - t1) (b - a)). rewrite Rmax_right in H2 by lra. lra.
    - assert (Q1 := mpp (t - t2) (a - b)). assert (Q2 := mpp (t2 - t1) (a - b)). rewrite Rmin_right in H1 by lra. lra.
  Qed.
  Lemma near_on : forall s u v p, In u Z -> In v Z -> In p Z -> part_of s u v -> on_segment (fst s) (snd s) p -> near_box eps u v p -> on_segment u v p.
  Proof.
    intros s u v p Hu Hv Hp (t1 & t2 & T0 & T1 & T2 & [A1 A2] & [B1 B2]) (t & Ht & [C1 C2]) [N1 N2].
    assert (E0 : 0 <= eps) by (pose proof eps_pos; lra). assert (Eq : forall w, on_segment u v w -> p = w -> on_segment u v p) by (intros w Hw ->; exact Hw).
    destruct (Rlt_le_dec t t1) as [L|L]; [|destruct (Rlt_le_dec t2 t) as [L'|L']].
    - apply (Eq u); [exists 0; split; [lra|split; ring]|]. apply (lo_apart _ _ _ HL); [exact Hp|exact Hu|].
      rewrite A1, B1, C1 in N1. rewrite A2, B2, C2 in N2. split; [rewrite C1, A1|rewrite C2, A2].
      + exact (near_one _ _ t t1 t2 eps L T1 E0 N1).
      + exact (near_one _ _ t t1 t2 eps L T1 E0 N2).
    - apply (Eq v); [exists 1; split; [lra|split; ring]|]. apply (lo_apart _ _ _ HL); [exact Hp|exact Hv|].
      rewrite A1, B1, C1 in N1. rewrite A2, B2, C2 in N2. split; [rewrite C1, B1|rewrite C2, B2].
      + exact (near_other _ _ t t1 t2 eps L' T1 E0 N1).
      + exact (near_other _ _ t t1 t2 eps L' T1 E0 N2).
    - exists ((t - t1) / (t2 - t1)). split.
      + split; [apply Rmult_le_pos; [lra|left; apply Rinv_0_lt_compat; lra]|]. apply (Rmult_le_reg_r (t2 - t1)); [lra|]. unfold Rdiv. rewrite Rmult_assoc, Rinv_l by lra. lra.
      + split; [rewrite C1, A1, B1|rewrite C2, A2, B2]; field; lra.
  Qed.

  Lemma crosses_true : forall e f : edge ArithR, crosses e f = true -> exists p, intersection (fst e) (snd e) (fst f) (snd f) = Some p /\
    veqb (fst e) (fst f) = false /\ veqb (fst e) (snd f) = false /\ veqb (snd e) (fst f) = false /\ veqb (snd e) (snd f) = false /\ crossp (fst e) (snd e) (fst f) (snd f) <> 0.
  Proof.
    intros [a b] [c d]. unfold crosses. cbn [fst snd]. destruct (intersection a b c d) as [p|]; [|discriminate]. rewrite !andb_true_iff, !negb_true_iff.
    intros ((((A1 & A2) & A3) & A4) & A5). exists p. repeat split; try assumption. intros E. apply parallel_spec in E. congruence.
  Qed.
  Lemma crosses_nearly : forall s s' e f p, part_of s (fst e) (snd e) -> part_of s' (fst f) (snd f) -> intersection (fst e) (snd e) (fst f) (snd f) = Some p ->
    crossp (fst e) (snd e) (fst f) (snd f) <> 0 -> nearly_meet s s' p /\ near_box eps (fst e) (snd e) p /\ near_box eps (fst f) (snd f) p /\ vghost p = false.
  Proof.
    intros s s' e f p Hs Hs' Hi Hc. destruct (intersection_sound _ _ _ _ _ Hi) as (N1 & N2 & G & Hl & _). destruct (Hl Hc) as [L1 L2].
    split; [|auto]. destruct (part_crossp s s' _ _ _ _ Hs Hs') as (k & Hk & Ek). split; [|split; [|split; [|split]]].
    - intros E. apply Hc. rewrite Ek, E. ring.
    - apply (part_line s (fst e) (snd e)); auto.
    - apply (part_line s' (fst f) (snd f)); auto.
    - apply (part_box eps s (fst e) (snd e)); assumption.
    - apply (part_box eps s' (fst f) (snd f)); assumption.
  Qed.

  Lemma same_quiet : forall K s s' e f, plain_sides K -> (forall s, In s K -> In (fst s) Z /\ In (snd s) Z /\ fst s <> snd s) -> In s K -> In s' K ->
    In (fst e) Z -> In (snd e) Z -> In (fst f) Z -> In (snd f) Z -> part_of s (fst e) (snd e) -> part_of s' (fst f) (snd f) -> crosses e f = false.
  Proof.
    intros K s s' e f HP HK Hs Hs' Z1 Z2 Z3 Z4 P1 P2. destruct (crosses e f) eqn:Hc; [exfalso|reflexivity].
    destruct (crosses_true e f Hc) as (p & Hi & V1 & V2 & V3 & V4 & Hcp). destruct (edec s s') as [E|N].
    - subst s'. destruct (part_crossp s s _ _ _ _ P1 P2) as (k & Hk & Ek). apply Hcp. rewrite Ek. unfold crossp. ring.
    - destruct (crosses_nearly s s' e f p P1 P2 Hi Hcp) as (Hn & N1 & N2 & G).
      destruct (ps_shared K HP s s' p Hs Hs' N (or_intror Hn)) as [E1 E2].
      destruct (HK s Hs) as (A1 & A2 & A3). destruct (HK s' Hs') as (B1 & B2 & B3).
      assert (Hp : In p Z). { destruct E1 as [C|C]; [rewrite <- (Z_coincide (fst s) p A1 G)|rewrite <- (Z_coincide (snd s) p A2 G)]; try assumption; destruct C; split; congruence. }
      assert (O1 : on_segment (fst s) (snd s) p) by (destruct E1 as [[C1 C2]|[C1 C2]]; [exists 0|exists 1]; (split; [lra|split; lra])).
      assert (O2 : on_segment (fst s') (snd s') p) by (destruct E2 as [[C1 C2]|[C1 C2]]; [exists 0|exists 1]; (split; [lra|split; lra])).
      pose proof (near_on s _ _ p Z1 Z2 Hp P1 O1 N1) as Oe. pose proof (near_on s' _ _ p Z3 Z4 Hp P2 O2 N2) as Of.
      pose proof (part_end s _ _ p A3 (HZ _ A1) (HZ _ A2) P1 Oe E1) as Ee. pose proof (part_end s' _ _ p B3 (HZ _ B1) (HZ _ B2) P2 Of E2) as Ef.
      assert (Eqp : forall w, In w Z -> coincide p w -> w = p) by (intros w Hw [C1 C2]; apply Z_coincide; [exact Hw|exact G|split; congruence]).
      destruct Ee as [C|C], Ef as [C'|C']; cbn [fst snd] in C, C'.
      + rewrite (Eqp _ Z1 C), (Eqp _ Z3 C'), veqb_refl in V1. discriminate.
      + rewrite (Eqp _ Z1 C), (Eqp _ Z4 C'), veqb_refl in V2. discriminate.
      + rewrite (Eqp _ Z2 C), (Eqp _ Z3 C'), veqb_refl in V3. discriminate.
      + rewrite (Eqp _ Z2 C), (Eqp _ Z4 C'), veqb_refl in V4. discriminate.
  Qed.

  Lemma other_meet : forall s s' e f, In s K1 -> In s' K2 -> In (fst e) Z -> In (snd e) Z -> In (fst f) Z -> In (snd f) Z -> part_of s (fst e) (snd e) -> part_of s' (fst f) (snd f) ->
    forall p, intersection (fst e) (snd e) (fst f) (snd f) = Some p -> crossp (fst e) (snd e) (fst f) (snd f) <> 0 ->
      In p Z /\ on_segment (fst e) (snd e) p /\ on_segment (fst f) (snd f) p.
  Proof.
    intros s s' e f Hs Hs' Z1 Z2 Z3 Z4 P1 P2 p Hi Hcp. destruct (crosses_nearly s s' e f p P1 P2 Hi Hcp) as (Hn & N1 & N2 & G).
    destruct (lo_meet _ _ _ HL s s' p Hs Hs' Hn) as (O1 & O2 & z & Hz & Hzp). rewrite (Z_coincide z p Hz G Hzp) in Hz.
    split; [exact Hz|]. split; [apply (near_on s)|apply (near_on s')]; assumption.
  Qed.
  Lemma crosses_sym : forall e f : edge ArithR, crosses e f = crosses f e.
  Proof.
    intros [a b] [c d]. unfold crosses. destruct (intersection_orders a b c d) as (E & _). rewrite E. destruct (intersection c d a b); [|reflexivity].
    assert (Ep : parallel a b c d = parallel c d a b). { apply eq_true_iff_eq. rewrite !parallel_spec. unfold crossp. split; intros; lra. }
    rewrite Ep, (veqb_sym a c), (veqb_sym a d), (veqb_sym b c), (veqb_sym b d). destruct (veqb c a), (veqb d a), (veqb c b), (veqb d b); reflexivity.
  Qed.

  (** ** The loop *)
  Definition pieces (L : list (edge ArithR)) : Prop := exists E1 E2, Permutation L (E1 ++ E2) /\ cut Z K1 E1 /\ cut Z K2 E2.

  Lemma extract_perm : forall T (f : T -> bool) l x r, extract f l = Some (x, r) -> f x = true /\ Permutation l (x :: r).
  Proof.
    intros T f l x r He. destruct (P_Poly.extract_some _ _ _ _ _ He) as (l1 & l2 & -> & -> & Hc & _). split; [exact Hc|]. apply Permutation_sym, Permutation_middle.
  Qed.
  Lemma side_pick : forall (e f : edge ArithR) L E1 E2, Permutation (e :: f :: L) (E1 ++ E2) ->
    (In e E1 /\ In f E1) \/ (In e E2 /\ In f E2) \/
    (exists R1 R2, Permutation E1 (e :: R1) /\ Permutation E2 (f :: R2) /\ Permutation L (R1 ++ R2)) \/
    (exists R1 R2, Permutation E1 (f :: R1) /\ Permutation E2 (e :: R2) /\ Permutation L (R1 ++ R2)).
  Proof.
    intros e f L E1 E2 P. assert (He : In e (E1 ++ E2)) by (apply (Permutation_in _ P); cbn; auto). assert (Hf : In f (E1 ++ E2)) by (apply (Permutation_in _ P); cbn; auto).
    apply in_app_or in He. apply in_app_or in Hf. destruct He as [He|He], Hf as [Hf|Hf]; [auto| | |auto].
    - right. right. left. destruct (in_split e E1 He) as (a & b & ->). destruct (in_split f E2 Hf) as (c & d & ->). exists (a ++ b), (c ++ d).
      split; [apply Permutation_sym, Permutation_middle|]. split; [apply Permutation_sym, Permutation_middle|].
      apply (Permutation_cons_inv (a := f)). apply (Permutation_cons_inv (a := e)). rewrite P.
      rewrite <- (Permutation_middle a b e). cbn [app]. apply perm_skip. rewrite <- (Permutation_middle c d f). apply Permutation_sym, Permutation_middle.
    - right. right. right. destruct (in_split f E1 Hf) as (a & b & ->). destruct (in_split e E2 He) as (c & d & ->). exists (a ++ b), (c ++ d).
      split; [apply Permutation_sym, Permutation_middle|]. split; [apply Permutation_sym, Permutation_middle|].
      apply (Permutation_cons_inv (a := f)). apply (Permutation_cons_inv (a := e)). rewrite P.
      rewrite <- (Permutation_middle a b f), <- (Permutation_middle c d e). cbn [app]. rewrite <- (Permutation_middle (a ++ b) (c ++ d) e). apply perm_swap.
  Qed.

  Lemma pieces_step : forall e f L, pieces (e :: f :: L) -> crosses e f = true ->
    exists z, intersection (fst e) (snd e) (fst f) (snd f) = Some z /\ pieces (halves e z ++ halves f z ++ L) /\ (2 < length (halves e z ++ halves f z) <= 4)%nat.
  Proof.
    intros e f L (E1 & E2 & P & C1 & C2) Hc. destruct (crosses_true e f Hc) as (z & Hi & V1 & V2 & V3 & V4 & Hcp).
    pose proof (cut_parts Z K1 HK1 E1 C1) as G1. pose proof (cut_parts Z K2 HK2 E2 C2) as G2. exists z. split; [exact Hi|].
    assert (Hlen : forall n m, (1 <= n <= 2)%nat -> (1 <= m <= 2)%nat -> (n = 1%nat <-> z = fst e \/ z = snd e) -> (m = 1%nat <-> z = fst f \/ z = snd f) -> (2 < n + m <= 4)%nat).
    { intros n m Hn Hm N1 N2. destruct (Nat.eq_dec n 1) as [En|]; [|lia]. destruct (Nat.eq_dec m 1) as [Em|]; [|lia]. exfalso.
      apply N1 in En. apply N2 in Em. destruct En as [En|En], Em as [Em|Em]; rewrite <- En, <- Em, veqb_refl in *; discriminate. }
    destruct (side_pick e f L E1 E2 P) as [[He Hf]|[[He Hf]|[(R1 & R2 & P1 & P2 & P3)|(R1 & R2 & P1 & P2 & P3)]]].
    - exfalso. destruct (G1 e He) as (A1 & A2 & s & Hs & Ps). destruct (G1 f Hf) as (B1 & B2 & s' & Hs' & Ps').
      rewrite (same_quiet K1 s s' e f (lo_first _ _ _ HL) HK1) in Hc; auto. discriminate.
    - exfalso. destruct (G2 e He) as (A1 & A2 & s & Hs & Ps). destruct (G2 f Hf) as (B1 & B2 & s' & Hs' & Ps').
      rewrite (same_quiet K2 s s' e f (lo_second _ _ _ HL) HK2) in Hc; auto. discriminate.
    - destruct (G1 e) as (A1 & A2 & s & Hs & Ps); [apply (Permutation_in _ (Permutation_sym P1)); cbn; auto|].
      destruct (G2 f) as (B1 & B2 & s' & Hs' & Ps'); [apply (Permutation_in _ (Permutation_sym P2)); cbn; auto|].
      destruct (other_meet s s' e f Hs Hs' A1 A2 B1 B2 Ps Ps' z Hi Hcp) as (Hz & O1 & O2).
      destruct (cut_halves K1 e z R1 HK1 (cut_perm _ _ _ _ C1 P1) Hz O1) as (D1 & L1 & M1). destruct (cut_halves K2 f z R2 HK2 (cut_perm _ _ _ _ C2 P2) Hz O2) as (D2 & L2 & M2).
      split; [|rewrite app_length; apply Hlen; assumption]. exists (halves e z ++ R1), (halves f z ++ R2). split; [|split; assumption].
      rewrite P3, <- !app_assoc. apply Permutation_app_head. rewrite !app_assoc. apply Permutation_app_tail, Permutation_app_comm.
    - destruct (G1 f) as (B1 & B2 & s' & Hs' & Ps'); [apply (Permutation_in _ (Permutation_sym P1)); cbn; auto|].
      destruct (G2 e) as (A1 & A2 & s & Hs & Ps); [apply (Permutation_in _ (Permutation_sym P2)); cbn; auto|].
      assert (Hi' : intersection (fst f) (snd f) (fst e) (snd e) = Some z) by (rewrite <- Hi; apply intersection_orders).
      assert (Hcp' : crossp (fst f) (snd f) (fst e) (snd e) <> 0) by (unfold crossp in *; lra).
      destruct (other_meet s' s f e Hs' Hs B1 B2 A1 A2 Ps' Ps z Hi' Hcp') as (Hz & O2 & O1).
      destruct (cut_halves K1 f z R1 HK1 (cut_perm _ _ _ _ C1 P1) Hz O2) as (D2 & L2 & M2). destruct (cut_halves K2 e z R2 HK2 (cut_perm _ _ _ _ C2 P2) Hz O1) as (D1 & L1 & M1).
      split; [|rewrite app_length; apply Hlen; assumption]. exists (halves f z ++ R1), (halves e z ++ R2). split; [|split; assumption].
      rewrite P3, <- !app_assoc. rewrite (Permutation_app_comm (halves e z) (halves f z ++ R1 ++ R2)). rewrite <- !app_assoc. do 2 apply Permutation_app_head. apply Permutation_app_comm.
  Qed.

  (** How many pieces there can be. *)
  Definition most : nat := (2 * (length Z * length Z))%nat.
  Lemma shared_once : forall K, plain_sides K -> (forall s, In s K -> In (fst s) Z /\ In (snd s) Z /\ fst s <> snd s) -> ForallOrdPairs no_common K.
  Proof.
    intros K HP HK. assert (G : forall L, NoDup L -> incl L K -> ForallOrdPairs no_common L).
    { induction L as [|s L IH]; intros Hnd Hi; [constructor|]. inversion Hnd as [|? ? Hs HL']; subst. constructor; [|apply IH; [exact HL'|intros x Hx; apply Hi; right; exact Hx]].
      rewrite Forall_forall. intros s' Hs' p Hp Hp'. assert (Hsk : In s K) by (apply Hi; left; reflexivity).
      destruct (ps_shared K HP s s' p Hsk (Hi s' (or_intror Hs'))) as [E _]; [intros ->; contradiction|left; split; apply inner_on; assumption|].
      destruct (HK s Hsk) as (A1 & A2 & A3). destruct Hp as (t & Ht & Ho). destruct E as [C|C].
      - assert (t = 0) by (apply (ratio_same (fst s) (snd s) t 0 p (fst s)); try assumption; try (apply HZ; assumption); split; ring). lra.
      - assert (t = 1) by (apply (ratio_same (fst s) (snd s) t 1 p (snd s)); try assumption; try (apply HZ; assumption); split; ring). lra. }
    apply G; [apply (ps_once K HP)|apply incl_refl].
  Qed.
  Lemma cut_few : forall K E, plain_sides K -> (forall s, In s K -> In (fst s) Z /\ In (snd s) Z /\ fst s <> snd s) -> cut Z K E -> (length E <= length Z * length Z)%nat.
  Proof.
    intros K E HP HK HE. rewrite <- (prod_length Z Z). apply NoDup_incl_length.
    - apply FOP_NoDup. apply (cut_no_common Z K HZ HK (shared_once K HP HK)). exact HE.
    - intros [a b] He. destruct (cut_parts Z K HK E HE _ He) as (A & B & _). apply in_prod; assumption.
  Qed.
  Lemma pieces_few : forall L, pieces L -> (length L <= most)%nat.
  Proof.
    intros L (E1 & E2 & P & C1 & C2). rewrite (Permutation_length P), app_length. unfold most.
    pose proof (cut_few K1 E1 (lo_first _ _ _ HL) HK1 C1). pose proof (cut_few K2 E2 (lo_second _ _ _ HL) HK2 C2). lia.
  Qed.
  Lemma pieces_perm : forall L L', pieces L -> Permutation L L' -> pieces L'.
  Proof. intros L L' (E1 & E2 & P & C) Q. exists E1, E2. split; [|exact C]. rewrite <- Q. exact P. Qed.

  Lemma fuel_step : forall M n d d' h la fuel, d = Datatypes.S d' -> la = (h + n)%nat -> (2 < h)%nat -> (la + d' <= M)%nat ->
    ((M - (Datatypes.S n + d)) * (M + 1) + Datatypes.S n < Datatypes.S fuel)%nat -> ((M - (la + d')) * (M + 1) + la < fuel)%nat.
  Proof.
    intros M n d d' h la fuel -> -> Hh Hb Hf. set (k := (M - (h + n + d'))%nat) in *. assert (E : (M - (Datatypes.S n + Datatypes.S d') = k + Datatypes.S (h - 3))%nat) by (unfold k; lia).
    rewrite E in Hf. replace ((k + Datatypes.S (h - 3)) * (M + 1))%nat with (k * (M + 1) + (M + 1) + (h - 3) * (M + 1))%nat in Hf by ring. lia.
  Qed.
  Lemma split_run : forall fuel aux done, pieces (aux ++ done) -> ((most - length (aux ++ done)) * (most + 1) + length aux < fuel)%nat ->
    exists r, split_loop fuel aux done = Ok r /\ pieces r.
  Proof.
    induction fuel as [|fuel IH]; intros aux done HP Hf; [exfalso; exact (Nat.nlt_0_r _ Hf)|]. cbn [split_loop]. destruct aux as [|[v1 v2] aux]; [exists done; split; [reflexivity|exact HP]|].
    destruct (extract (crosses (v1, v2)) done) as [[[v3 v4] done']|] eqn:Hex.
    - destruct (extract_perm _ _ _ _ _ Hex) as [Hc Pd].
      assert (P : pieces ((v1, v2) :: (v3, v4) :: aux ++ done')).
      { apply (pieces_perm _ _ HP). cbn. apply perm_skip. rewrite Pd. apply Permutation_sym, Permutation_middle. }
      destruct (pieces_step _ _ _ P Hc) as (z & Hi & Hnew & Hlen). cbn [fst snd] in Hi. rewrite Hi. cbn [unwrap bind].
      match goal with |- exists r, split_loop fuel ?A ?B = _ /\ _ => set (aux4 := A) end.
      assert (Pa : Permutation (aux4 ++ done') (halves (v1, v2) z ++ halves (v3, v4) z ++ aux ++ done')).
      { unfold aux4, halves. cbn [fst snd]. destruct (veqb v1 z), (veqb v2 z), (veqb v3 z), (veqb v4 z); cbn [negb app]; repeat first [reflexivity | apply perm_skip | apply perm_swap | (eapply perm_trans; [apply perm_swap|apply perm_skip])]. }
      assert (La : length aux4 = (length (halves (v1, v2) z ++ halves (v3, v4) z) + length aux)%nat).
      { pose proof (Permutation_length Pa) as E. rewrite !app_length in *. lia. }
      assert (Hb : (length (aux4 ++ done') <= most)%nat) by (apply pieces_few, (pieces_perm _ _ Hnew), Permutation_sym, Pa).
      apply IH; [apply (pieces_perm _ _ Hnew), Permutation_sym, Pa|].
      pose proof (Permutation_length Pd) as Ld. rewrite app_length in Hb, Hf |- *. apply (fuel_step most (length aux) (length done) (length done') _ _ fuel Ld La (proj1 Hlen) Hb Hf).
    - apply IH; [apply (pieces_perm _ _ HP); cbn; rewrite app_assoc; rewrite <- Permutation_cons_append; reflexivity|].
      rewrite !app_length in *. cbn [length] in *. replace (length aux + (length done + 1))%nat with (Datatypes.S (length aux) + length done)%nat by lia. lia.
  Qed.

  Definition enough : nat := Datatypes.S (most * (most + 1) + most).
  Lemma split_two : forall fuel, (enough <= fuel)%nat ->
    exists E1 E2 r, split_intersections fuel (K1 ++ K2) = Ok r /\ Permutation r (E1 ++ E2) /\ cut Z K1 E1 /\ cut Z K2 E2.
  Proof.
    intros fuel Hf. assert (HP : pieces (rev (K1 ++ K2) ++ [])).
    { rewrite app_nil_r. exists K1, K2. split; [apply Permutation_sym, Permutation_rev|]. split; apply cut_self. }
    destruct (split_run fuel (rev (K1 ++ K2)) [] HP) as (r & Hr & E1 & E2 & P & C).
    - pose proof (pieces_few _ HP) as Hl. rewrite app_nil_r in *. unfold enough in Hf. assert ((most - length (rev (K1 ++ K2))) * (most + 1) <= most * (most + 1))%nat by (apply Nat.mul_le_mono_r; lia). lia.
    - exists E1, E2, r. auto.
  Qed.
End Split.

Lemma nearly_sym : forall s s' p, nearly_meet s s' p -> nearly_meet s' s p.
Proof. intros s s' p (A & B & C & E & F). split; [unfold crossp in *; lra|]. auto. Qed.
Lemma laid_sym : forall Z K1 K2, laid_out Z K1 K2 -> laid_out Z K2 K1.
Proof.
  intros Z K1 K2 HL. constructor.
  - apply (lo_plain _ _ _ HL).
  - apply (lo_apart _ _ _ HL).
  - intros s Hs. apply (lo_ends _ _ _ HL). apply in_app_or in Hs. apply in_or_app. tauto.
  - apply (lo_second _ _ _ HL).
  - apply (lo_first _ _ _ HL).
  - intros s s' p Hs Hs' Hn. destruct (lo_meet _ _ _ HL s' s p Hs' Hs (nearly_sym _ _ _ Hn)) as (A & B & C). auto.
  - intros s s' p Hs Hs' Hc O1 O2. destruct (lo_across _ _ _ HL s' s p Hs' Hs) as [A B]; auto. unfold crossp in *. lra.
Qed.

Lemma inner_end : forall a b p, ~ coincide a b -> inner a b p -> ~ coincide p a /\ ~ coincide p b.
Proof.
  intros a b p N (t & Ht & [A1 A2]). split; intros [E1 E2]; apply N.
  - rewrite E1 in A1. rewrite E2 in A2. split; [destruct (Req_dec (X b - X a) 0)|destruct (Req_dec (Y b - Y a) 0)]; try lra; exfalso.
    + assert (t * (X b - X a) <> 0) by (apply Rmult_integral_contrapositive; lra). lra.
    + assert (t * (Y b - Y a) <> 0) by (apply Rmult_integral_contrapositive; lra). lra.
  - rewrite E1 in A1. rewrite E2 in A2. assert (F1 : (1 - t) * (X b - X a) = 0) by lra. assert (F2 : (1 - t) * (Y b - Y a) = 0) by lra.
    apply Rmult_integral in F1. apply Rmult_integral in F2. split; lra.
Qed.

Lemma cut_sep : forall Z K1 K2 E1 E2, laid_out Z K1 K2 -> cut Z K1 E1 -> cut Z K2 E2 -> (forall e f, In e E1 -> In f E2 -> crosses e f = false) ->
  forall e f p, In e E1 -> In f E2 -> inner (fst e) (snd e) p -> ~ on_segment (fst f) (snd f) p.
Proof.
  intros Z K1 K2 E1 E2 HL C1 C2 Hq e f p He Hf Hp Ho.
  destruct (cut_parts Z K1 (HK1 _ _ _ HL) E1 C1 e He) as (A1 & A2 & s & Hs & Ps). destruct (cut_parts Z K2 (HK2 _ _ _ HL) E2 C2 f Hf) as (B1 & B2 & s' & Hs' & Ps').
  pose proof (lo_plain _ _ _ HL) as HZ. destruct (cut_edge Z K1 HZ (HK1 _ _ _ HL) E1 e C1 He) as [Ne Nc]. destruct (inner_end _ _ p Nc Hp) as [Np Np'].
  destruct (part_crossp s s' _ _ _ _ Ps Ps') as (k & Hk & Ek). pose proof (inner_on _ _ _ Hp) as Oe.
  destruct (Req_dec (crossp (fst s) (snd s) (fst s') (snd s')) 0) as [E0|N0].
  - destruct (lo_across _ _ _ HL s s' p Hs Hs' E0 (part_on _ _ _ _ Ps Oe) (part_on _ _ _ _ Ps' Ho)) as [Es _].
    destruct (HK1 _ _ _ HL s Hs) as (S1 & S2 & S3). destruct (part_end s _ _ p S3 (HZ _ S1) (HZ _ S2) Ps Oe Es) as [Q|Q]; cbn [fst snd] in Q; contradiction.
  - assert (Hcp : crossp (fst e) (snd e) (fst f) (snd f) <> 0) by (rewrite Ek; apply Rmult_integral_contrapositive; split; lra).
    destruct (intersection_complete _ _ _ _ p Oe Ho) as (q & Hi & Hpq). specialize (Hpq Hcp).
    assert (Hend : forall w, on_segment (fst e) (snd e) w -> on_segment (fst f) (snd f) w -> coincide p w).
    { intros w W1 W2. destruct (intersection_complete _ _ _ _ w W1 W2) as (q' & Hi' & Hwq). specialize (Hwq Hcp). rewrite Hi in Hi'. injection Hi' as <-. destruct Hpq, Hwq. split; congruence. }
    assert (Efst : forall a b : pnt, on_segment a b a) by (intros; exists 0; split; [lra|split; ring]). assert (Esnd : forall a b : pnt, on_segment a b b) by (intros; exists 1; split; [lra|split; ring]).
    specialize (Hq e f He Hf). destruct e as [a b], f as [c d]. cbn [fst snd] in *. unfold crosses in Hq. rewrite Hi in Hq.
    assert (Epar : parallel a b c d = false) by (destruct (parallel a b c d) eqn:Q; [exfalso; apply Hcp, parallel_spec, Q|reflexivity]). rewrite Epar in Hq. cbn [negb] in Hq. rewrite andb_true_r in Hq.
    destruct (veqb a c) eqn:V1; [apply (Z_veqb Z K1 K2 HL a c A1 B1) in V1; subst c; apply Np, Hend; auto|].
    destruct (veqb a d) eqn:V2; [apply (Z_veqb Z K1 K2 HL a d A1 B2) in V2; subst d; apply Np, Hend; auto|].
    destruct (veqb b c) eqn:V3; [apply (Z_veqb Z K1 K2 HL b c A2 B1) in V3; subst c; apply Np', Hend; auto|].
    destruct (veqb b d) eqn:V4; [apply (Z_veqb Z K1 K2 HL b d A2 B2) in V4; subst d; apply Np', Hend; auto|]. discriminate.
Qed.

Lemma pairwise_either : forall T (Q : T -> T -> Prop) l x y, pairwise Q l -> In x l -> In y l -> x <> y -> Q x y \/ Q y x.
Proof.
  intros T Q l x y HP Hx Hy N. destruct (in_split x l Hx) as (a & b & ->). apply in_app_or in Hy. destruct Hy as [Hy|[Hy|Hy]]; [|contradiction|].
  - right. destruct (in_split y a Hy) as (c & d & ->). apply (HP c y d x b). rewrite <- app_assoc. reflexivity.
  - left. destruct (in_split y b Hy) as (c & d & ->). apply (HP a x c y d). reflexivity.
Qed.

(** ** All about the pieces *)
Record two_cuts (K1 K2 E1 E2 : list (edge ArithR)) : Prop := {
  tc_W1 : forall q, winding q E1 = winding q K1;
  tc_W2 : forall q, winding q E2 = winding q K2;
  tc_T1 : forall g : pnt -> Z, zsum (fun e => (g (snd e) - g (fst e))%Z) E1 = zsum (fun e => (g (snd e) - g (fst e))%Z) K1;
  tc_T2 : forall g : pnt -> Z, zsum (fun e => (g (snd e) - g (fst e))%Z) E2 = zsum (fun e => (g (snd e) - g (fst e))%Z) K2;
  tc_cov1 : forall s z, In s K1 -> on_segment (fst s) (snd s) z -> exists e, In e E1 /\ on_segment (fst e) (snd e) z;
  tc_cov2 : forall s z, In s K2 -> on_segment (fst s) (snd s) z -> exists e, In e E2 /\ on_segment (fst e) (snd e) z;
  tc_sep1 : forall e f p, In e E1 -> In f E2 -> inner (fst e) (snd e) p -> ~ on_segment (fst f) (snd f) p;
  tc_sep2 : forall e f p, In e E1 -> In f E2 -> inner (fst f) (snd f) p -> ~ on_segment (fst e) (snd e) p;
  tc_once : ForallOrdPairs no_common (E1 ++ E2)
}.

Lemma FOP_app : forall T (Q : T -> T -> Prop) l l', ForallOrdPairs Q l -> ForallOrdPairs Q l' -> (forall x y, In x l -> In y l' -> Q x y) -> ForallOrdPairs Q (l ++ l').
Proof.
  intros T Q l l' F1 F2 F3. induction F1 as [|x l G1 G2 IH]; [exact F2|]. cbn. constructor.
  - rewrite Forall_forall in *. intros y Hy. apply in_app_or in Hy. destruct Hy as [Hy|Hy]; [apply G1, Hy|apply F3; [left; reflexivity|exact Hy]].
  - apply IH. intros y z Hy Hz. apply F3; [right; exact Hy|exact Hz].
Qed.

Theorem split_pieces : forall Z K1 K2, laid_out Z K1 K2 -> forall fuel, (enough Z <= fuel)%nat ->
  exists E1 E2 r, split_intersections fuel (K1 ++ K2) = Ok r /\ Permutation r (E1 ++ E2) /\ two_cuts K1 K2 E1 E2 /\ (length r <= most Z)%nat /\
    (forall e, In e E1 -> In (fst e) Z /\ In (snd e) Z /\ exists s, In s K1 /\ part_of s (fst e) (snd e)) /\
    (forall e, In e E2 -> In (fst e) Z /\ In (snd e) Z /\ exists s, In s K2 /\ part_of s (fst e) (snd e)).
Proof.
  intros Z K1 K2 HL fuel Hf. destruct (split_two Z K1 K2 HL fuel Hf) as (E1 & E2 & r & Hr & P & C1 & C2). exists E1, E2, r.
  split; [exact Hr|]. split; [exact P|].
  assert (Hq : forall e f, In e E1 -> In f E2 -> crosses e f = false).
  { intros e f He Hf'. destruct (edec e f) as [->|N].
    - destruct f as [a b]. apply parallel_quiet. unfold crossp. ring.
    - destruct (split_intersections_no_crossing _ _ _ Hr) as [Hp _].
      assert (Ie : In e r) by (apply (Permutation_in _ (Permutation_sym P)), in_or_app; auto). assert (If : In f r) by (apply (Permutation_in _ (Permutation_sym P)), in_or_app; auto).
      destruct (pairwise_either _ _ r e f Hp Ie If N) as [Q|Q]; apply crosses_crossing in Q; [rewrite crosses_sym|]; exact Q. }
  pose proof (lo_plain _ _ _ HL) as HZ. pose proof (HK1 _ _ _ HL) as G1. pose proof (HK2 _ _ _ HL) as G2.
  assert (S1 : forall e f p, In e E1 -> In f E2 -> inner (fst e) (snd e) p -> ~ on_segment (fst f) (snd f) p) by (apply (cut_sep Z K1 K2); assumption).
  assert (S2 : forall e f p, In e E1 -> In f E2 -> inner (fst f) (snd f) p -> ~ on_segment (fst e) (snd e) p).
  { intros e f p He Hf'. apply (cut_sep Z K2 K1 E2 E1 (laid_sym _ _ _ HL) C2 C1); try assumption. intros e' f' He' Hf''. rewrite crosses_sym. apply Hq; assumption. }
  split; [|split; [|split]].
  - constructor; try assumption.
    + apply (cut_winding Z K1 E1 C1).
    + apply (cut_winding Z K2 E2 C2).
    + apply (cut_sum Z K1 E1 C1).
    + apply (cut_sum Z K2 E2 C2).
    + apply (cut_cover Z K1 E1 C1).
    + apply (cut_cover Z K2 E2 C2).
    + apply FOP_app.
      * apply (cut_no_common Z K1 HZ G1 (shared_once Z K1 K2 HL K1 (lo_first _ _ _ HL) G1) E1 C1).
      * apply (cut_no_common Z K2 HZ G2 (shared_once Z K1 K2 HL K2 (lo_second _ _ _ HL) G2) E2 C2).
      * intros e f He Hf' p Hp Hp'. apply (S1 e f p He Hf' Hp). apply inner_on, Hp'.
  - rewrite (Permutation_length P), app_length. unfold most.
    pose proof (cut_few Z K1 K2 HL K1 E1 (lo_first _ _ _ HL) G1 C1). pose proof (cut_few Z K1 K2 HL K2 E2 (lo_second _ _ _ HL) G2 C2). lia.
  - apply (cut_parts Z K1 G1 E1 C1).
  - apply (cut_parts Z K2 G2 E2 C2).
Qed.
