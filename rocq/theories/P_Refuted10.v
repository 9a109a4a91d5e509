(** P_Refuted10.v — two sides that cross, and doubles that do not show it. *)

From Coq Require Import String Reals List ZArith Lra Lia Bool.
From Verif Require Import Base Arith ArithR ArithF Geometry Elements Polyline Procedures Refine Triangulator Interface Spec SpecR SpecD SpecP SpecF Samples
  P_Base P_RX P_Z10 P_Refuted P_Z15.
Import ListNotations.
Local Open Scope R_scope.

Section Check.
  Context {A : Arith}.
  Definition check_missed (a b c d : vertex A) : bool := match intersection a b c d, intersection c d a b with None, None => true | _, _ => false end.
  Lemma check_missed_ok : forall a b c d, check_missed a b c d = true -> intersection a b c d = None /\ intersection c d a b = None.
  Proof. intros a b c d. unfold check_missed. destruct (intersection a b c d), (intersection c d a b); intros; try discriminate; auto. Qed.
  Definition check_quiet (l : list (vertex A)) : bool := match vertex_pairs l false with Ok es => forallb (fun e => forallb (fun e' => negb (crosses e e')) es) es | _ => false end.
  Lemma check_quiet_ok : forall l, check_quiet l = true -> forall es, vertex_pairs l false = Ok es -> forall e e', In e es -> In e' es -> crosses e e' = false.
  Proof.
    intros l C es Hes e e' He He'. unfold check_quiet in C. rewrite Hes in C. rewrite forallb_forall in C. specialize (C e He). rewrite forallb_forall in C. specialize (C e' He'). apply negb_true_iff in C. exact C.
  Qed.
  Definition panics {X} (r : res X) : bool := match r with Panic => true | _ => false end.
  Lemma panics_ok : forall X (r : res X), panics r = true -> r = Panic.
  Proof. intros X [| |]; cbn; intros; try discriminate; reflexivity. Qed.
End Check.

Definition bow_job : input ArithF := Inp (A:=ArithF) [act_of "include" [(100, 0); (100, 49); (99, 20); (101, 30)]%Z] None (fpz 1000).
Definition bow : list pnt := [at_ 100 0; at_ 100 49; at_ 99 20; at_ 101 30].
Lemma bow_missed : check_missed (A:=ArithF) (pt 100 0) (pt 100 49) (pt 99 20) (pt 101 30) = true. Proof. vm_compute. reflexivity. Qed.
Lemma bow_quiet : check_quiet (A:=ArithF) [pt 100 0; pt 100 49; pt 99 20; pt 101 30] = true. Proof. vm_compute. reflexivity. Qed.
Lemma bow_panics : panics (run_main (A:=ArithF) ho_rev 60 [] bow_job) = true. Proof. vm_compute. reflexivity. Qed.

Lemma bow_fine : fine_spacing 0 /\ Forall2 (fine_reads 0) [pt 100 0; pt 100 49; pt 99 20; pt 101 30] bow.
Proof. split; [unfold fine_spacing; lia|]. repeat (apply Forall2_cons; [apply pt_fine; lia|]); apply Forall2_nil. Qed.
Lemma bow_meets : at_ratio (25 / 49) (at_ 100 0) (at_ 100 49) (at_ 100 25) /\ at_ratio (1 / 2) (at_ 99 20) (at_ 101 30) (at_ 100 25).
Proof. unfold at_ratio, X, Y, at_, mkv. cbn [vx vy]. lra. Qed.

Lemma crossing_missed : exists k a b c d a' b' c' d' p t s, fine_spacing k /\ fine_reads k a a' /\ fine_reads k b b' /\ fine_reads k c c' /\ fine_reads k d d' /\
  0 < t < 1 /\ at_ratio t a' b' p /\ 0 < s < 1 /\ at_ratio s c' d' p /\ crossp a' b' c' d' <> 0 /\ intersection (A:=ArithF) a b c d = None /\ intersection (A:=ArithF) c d a b = None.
Proof.
  exists 0%Z, (pt 100 0), (pt 100 49), (pt 99 20), (pt 101 30), (at_ 100 0), (at_ 100 49), (at_ 99 20), (at_ 101 30), (at_ 100 25), (25 / 49), (1 / 2). destruct bow_fine as [Hk HF]. destruct bow_meets as [M1 M2].
  inversion HF as [|? ? ? ? Q1 HF1]; subst. inversion HF1 as [|? ? ? ? Q2 HF2]; subst. inversion HF2 as [|? ? ? ? Q3 HF3]; subst. inversion HF3 as [|? ? ? ? Q4 HF4]; subst. split; [exact Hk|]. repeat (split; [assumption|]). split; [lra|]. split; [exact M1|]. split; [lra|]. split; [exact M2|].
  split; [unfold crossp, X, Y, at_, mkv; cbn [vx vy]; lra|]. exact (check_missed_ok _ _ _ _ bow_missed).
Qed.

Lemma crossing_read : exists k l l' (inp : input ArithF) a s1 s2 p t s, fine_spacing k /\ Forall2 (fine_reads k) l l' /\ NoDup l' /\
  i_actions inp = [a] /\ a_intent a = "include"%string /\ a_geometry a = "polyline"%string /\ map (fun q => mkv (fst q) (snd q)) (a_points a) = l /\
  In s1 (polygon_sides l') /\ In s2 (polygon_sides l') /\ s1 <> s2 /\ 0 < t < 1 /\ at_ratio t (fst s1) (snd s1) p /\ 0 < s < 1 /\ at_ratio s (fst s2) (snd s2) p /\ crossp (fst s1) (snd s1) (fst s2) (snd s2) <> 0 /\
  (forall H fuel q, (length l < fuel)%nat -> exists tr prm, parse H fuel q inp = Ok (Some (tr, prm))) /\
  exists H fuel q, run_main H fuel q inp = Panic.
Proof.
  exists 0%Z, [pt 100 0; pt 100 49; pt 99 20; pt 101 30], bow, bow_job. eexists. exists (at_ 100 0, at_ 100 49), (at_ 99 20, at_ 101 30), (at_ 100 25), (25 / 49), (1 / 2). destruct bow_fine as [Hk HF]. destruct bow_meets as [M1 M2].
  assert (NE : forall x y z w : R, at_ x y = at_ z w -> x = z /\ y = w) by (intros x y z w E; unfold at_, mkv in E; injection E; auto).
  split; [exact Hk|]. split; [exact HF|]. split.
  { unfold bow. repeat constructor; cbn [In]; intros Hin; repeat (destruct Hin as [Hin|Hin]; [apply NE in Hin; lra|]); exact Hin. }
  split; [reflexivity|]. split; [reflexivity|]. split; [reflexivity|]. split; [reflexivity|]. split; [cbn; auto|]. split; [cbn; auto|].
  split; [intros E; injection E as E1 E2; try (apply NE in E1); lra|]. split; [lra|]. split; [exact M1|]. split; [lra|]. split; [exact M2|].
  split; [unfold crossp, X, Y, at_, mkv; cbn [fst snd vx vy]; lra|]. split.
  - intros H fuel q Hf. eexists _, _. eapply (one_parse H bow_job); [reflexivity|reflexivity|reflexivity|reflexivity|cbn; lia|exact (check_quiet_ok _ bow_quiet)|exact Hf].
  - exists ho_rev, 60%nat, []. exact (panics_ok _ _ bow_panics).
Qed.
