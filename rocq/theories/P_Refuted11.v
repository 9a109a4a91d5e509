(** P_Refuted11.v — a polygon of which, in some hash orders, nothing is meshed. *)

From Coq Require Import String Reals List ZArith Lra Lia Bool.
From Verif Require Import Base Arith ArithR ArithF Geometry Elements Polyline Procedures Refine Triangulator Interface Spec SpecI SpecM SpecR SpecD SpecP SpecF Samples
  P_Base P_RX P_Z10 P_Refuted P_Z12.
Import ListNotations.
Local Open Scope R_scope.

(** ** Points with whole coordinates *)
Definition whole (q : Z * Z) : pnt := at_ (IZR (fst q)) (IZR (snd q)).
Definition zround (a b c d : Z * Z) : Z :=
  let bx := (fst b - fst a)%Z in let byy := (snd b - snd a)%Z in let cx := (fst c - fst a)%Z in let cy := (snd c - snd a)%Z in
  let dx := (fst d - fst a)%Z in let dy := (snd d - snd a)%Z in
  ((bx * bx + byy * byy) * (cx * dy - cy * dx) - (cx * cx + cy * cy) * (bx * dy - byy * dx) + (dx * dx + dy * dy) * (bx * cy - byy * cx))%Z.

Lemma round_zero : forall a b c d o, d2 o (whole a) = d2 o (whole b) -> d2 o (whole a) = d2 o (whole c) -> d2 o (whole a) = d2 o (whole d) -> zround a b c d = 0%Z.
Proof.
  intros [ax ay] [bx byy] [cx cy] [dx dy] o. unfold whole, d2. cbn [fst snd]. rewrite ?P_RX.X_at, ?P_RX.Y_at. intros E1 E2 E3. apply eq_IZR. unfold zround. cbn [fst snd].
  rewrite ?plus_IZR, ?minus_IZR, ?mult_IZR, ?plus_IZR, ?minus_IZR, ?mult_IZR, ?minus_IZR.
  set (u := X o - IZR ax). set (v := Y o - IZR ay).
  assert (B : (IZR bx - IZR ax) * (IZR bx - IZR ax) + (IZR byy - IZR ay) * (IZR byy - IZR ay) = 2 * (u * (IZR bx - IZR ax) + v * (IZR byy - IZR ay))) by (unfold u, v; lra).
  assert (C : (IZR cx - IZR ax) * (IZR cx - IZR ax) + (IZR cy - IZR ay) * (IZR cy - IZR ay) = 2 * (u * (IZR cx - IZR ax) + v * (IZR cy - IZR ay))) by (unfold u, v; lra).
  assert (D : (IZR dx - IZR ax) * (IZR dx - IZR ax) + (IZR dy - IZR ay) * (IZR dy - IZR ay) = 2 * (u * (IZR dx - IZR ax) + v * (IZR dy - IZR ay))) by (unfold u, v; lra).
  rewrite B, C, D. ring.
Qed.

Definition zsame (a b : Z * Z) : bool := Z.eqb (fst a) (fst b) && Z.eqb (snd a) (snd b).
Lemma zsame_eq : forall a b, zsame a b = true -> a = b.
Proof. intros [x y] [x' y'] E. apply andb_true_iff in E. destruct E as [E1 E2]. apply Z.eqb_eq in E1, E2. cbn in E1, E2. congruence. Qed.
Definition check_rounds (zs : list (Z * Z)) : bool :=
  forallb (fun a => forallb (fun b => forallb (fun c => forallb (fun d =>
    negb (Z.eqb (zround a b c d) 0) || zsame a b || zsame a c || zsame a d || zsame b c || zsame b d || zsame c d) zs) zs) zs) zs.
Lemma check_rounds_ok : forall zs, check_rounds zs = true -> no_four_on_a_circle (map whole zs).
Proof.
  intros zs C o a' b' c' d' Ha Hb Hc Hd Hn E1 E2 E3. apply in_map_iff in Ha, Hb, Hc, Hd.
  destruct Ha as (a & <- & Ha). destruct Hb as (b & <- & Hb). destruct Hc as (c & <- & Hc). destruct Hd as (d & <- & Hd).
  unfold check_rounds in C. rewrite forallb_forall in C. specialize (C a Ha). rewrite forallb_forall in C. specialize (C b Hb). rewrite forallb_forall in C. specialize (C c Hc).
  rewrite forallb_forall in C. specialize (C d Hd). rewrite (round_zero a b c d o E1 E2 E3) in C.
  inversion Hn as [|? ? Q1 Hn1]. inversion Hn1 as [|? ? Q2 Hn2]. inversion Hn2 as [|? ? Q3 _]. cbn [In] in Q1, Q2, Q3.
  cbn [Z.eqb negb orb] in C. rewrite !orb_true_iff in C.
  destruct C as [[[[[C|C]|C]|C]|C]|C]; apply zsame_eq in C; subst;
    [apply Q1; left; reflexivity|apply Q1; right; left; reflexivity|apply Q1; right; right; left; reflexivity|apply Q2; left; reflexivity|apply Q2; right; left; reflexivity|apply Q3; left; reflexivity].
Qed.

Section Check.
  Context {A : Arith}.
  Definition check_sizes (n m : nat) (r : res (option (list (point (A:=A)) * list (nat * nat * nat)))) : bool :=
    match r with Ok (Some (c, t)) => Nat.eqb (length c) n && Nat.eqb (length t) m | _ => false end.
  Lemma check_sizes_ok : forall n m r, check_sizes n m r = true -> exists c t, r = Ok (Some (c, t)) /\ length c = n /\ length t = m.
  Proof.
    intros n m [[[c t]|]| |] C; try discriminate C. cbn in C. apply andb_true_iff in C. destruct C as [C1 C2]. apply Nat.eqb_eq in C1, C2. exists c, t. auto.
  Qed.
End Check.

(** ** The polygon *)
Definition crownZ : list (Z * Z) := [(4, 12); (1, 12); (2, 10); (2, 9); (1, 5); (5, 3); (8, 4); (13, 13); (12, 15)]%Z.
Definition crown : list pnt := map whole crownZ.
Definition crownF : list (vertex ArithF) := [pt 4 12; pt 1 12; pt 2 10; pt 2 9; pt 1 5; pt 5 3; pt 8 4; pt 13 13; pt 12 15].
Definition crown_job : input ArithF := Inp (A:=ArithF) [act_of "include" crownZ] None (fpz 100).
Lemma crown_rounds : check_rounds crownZ = true. Proof. vm_compute. reflexivity. Qed.
Lemma crown_fine : check_fine (A:=ArithF) (RP (A:=ArithF) None (fpz 100)) crownF = true. Proof. vm_compute. reflexivity. Qed.
Lemma crown_meshed : check_sizes (A:=ArithF) 9 7 (run_main (A:=ArithF) ho_id 30 [] crown_job) = true. Proof. vm_compute. reflexivity. Qed.
Lemma crown_empty : check_sizes (A:=ArithF) 9 0 (run_main (A:=ArithF) (ho_seed 7) 40 [] crown_job) = true. Proof. vm_compute. reflexivity. Qed.

Lemma crown_shape : fine_spacing 0 /\ Forall2 (fine_reads 0) crownF crown /\ NoDup crown /\ no_four_on_a_circle crown /\ (3 <= length crown)%nat /\ 0 < shoelace (polygon_sides crown) /\
  (forall a b w m, In (a, b) (polygon_sides crown) -> In w crown -> w <> a -> w <> b -> half_point a b m -> d2 a b / 4 < d2 m w).
Proof.
  assert (NE : forall x y z w : R, at_ x y = at_ z w -> x = z /\ y = w) by (intros x y z w E; unfold at_, mkv in E; injection E; auto).
  split; [unfold fine_spacing; lia|]. split; [repeat (apply Forall2_cons; [apply pt_fine; lia|]); apply Forall2_nil|]. split.
  { unfold crown, crownZ, whole. cbn [map fst snd]. repeat constructor; cbn [In]; intros Hin; repeat (destruct Hin as [Hin|Hin]; [apply NE in Hin; lra|]); exact Hin. }
  split; [apply check_rounds_ok; exact crown_rounds|]. split; [cbn; lia|]. split; [unfold shoelace, crown, polygon_sides; cbn; lra|].
  intros a b w m Hs Hw n1 n2 [Ex Ey]. cbn in Hs, Hw. repeat (destruct Hs as [E|Hs]; [injection E as <- <-; repeat (destruct Hw as [<-|Hw]; [try congruence; unfold d2; rewrite Ex, Ey; unfold whole; cbn [fst snd]; rewrite ?P_RX.X_at, ?P_RX.Y_at; lra|]); destruct Hw|]); destruct Hs.
Qed.

Lemma crown_lost : exists k l l' (inp : input ArithF) a, fine_spacing k /\ Forall2 (fine_reads k) l l' /\ NoDup l' /\ no_four_on_a_circle l' /\ (3 <= length l')%nat /\ 0 < shoelace (polygon_sides l') /\
  (forall a b w m, In (a, b) (polygon_sides l') -> In w l' -> w <> a -> w <> b -> half_point a b m -> d2 a b / 4 < d2 m w) /\
  i_actions inp = [a] /\ a_intent a = "include"%string /\ a_geometry a = "polyline"%string /\ map (fun q => mkv (fst q) (snd q)) (a_points a) = l /\
  (forall a b c, In a l -> In b l -> In c l -> orientation a b c = CCW -> ~ misses (RP (i_max_area inp) (i_quality inp)) (Tri a b c)) /\
  (exists H fuel p coords triples, run_main H fuel p inp = Ok (Some (coords, triples)) /\ length coords = length l /\ length triples = (length l - 2)%nat) /\
  exists H fuel p coords, run_main H fuel p inp = Ok (Some (coords, [])) /\ length coords = length l.
Proof.
  exists 0%Z, crownF, crown, crown_job. eexists. destruct crown_shape as (Q1 & Q2 & Q3 & Q4 & Q5 & Q6 & Q7). do 7 (split; [assumption|]).
  split; [reflexivity|]. split; [reflexivity|]. split; [reflexivity|]. split; [reflexivity|]. split; [exact (check_fine_ok _ _ crown_fine)|]. split.
  - destruct (check_sizes_ok _ _ _ crown_meshed) as (c & t & E & L1 & L2). exists ho_id, 30%nat, [], c, t. auto.
  - destruct (check_sizes_ok _ _ _ crown_empty) as (c & t & E & L1 & L2). apply length_zero_iff_nil in L2. subst t. exists (ho_seed 7), 40%nat, [], c. auto.
Qed.
