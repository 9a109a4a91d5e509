(** P_Y4.v — sample points for the meshes of doubles. *)

From Coq Require Import Reals List ZArith Lra Lia.
From Verif Require Import Base Arith Geometry Elements Procedures ArithR ArithF Spec SpecR SpecD SpecF Samples P_D8 P_RX P_Z10 P_Y3.
Import ListNotations.
Local Open Scope R_scope.

Lemma fine_samples : Forall2 (fine_reads 0) [pt 0 0; pt 4 0] [pA; pB] /\ Forall2 (fine_reads 0) [pt 1 3; pt 2 1; pt 7 5] [pC; pE; pF].
Proof.
  split; (constructor; [apply pt_fine; lia|]); (constructor; [apply pt_fine; lia|]); [constructor|]. constructor; [apply pt_fine; lia|constructor].
Qed.
Lemma samples_apart : NoDup ([pC; pE; pF] ++ [pA; pB]) /\ no_four_on_a_circle ([pC; pE; pF] ++ [pA; pB]).
Proof.
  assert (N : forall x y x' y', x <> x' \/ y <> y' -> at_ x y <> at_ x' y') by (intros x y x' y' Hn E; injection E; intros; lra).
  split.
  - unfold pA, pB, pC, pE, pF. cbn [app]. repeat (constructor; [cbn [In]; intros Hi; repeat (destruct Hi as [Hi|Hi]; [revert Hi; apply N; lra|]); exact Hi|]). constructor.
  - intros o a b c d Ha Hb Hc Hd Hn E1 E2 E3. cbn [In app] in Ha, Hb, Hc, Hd.
    inversion Hn as [|? ? Q1 Hn1]. inversion Hn1 as [|? ? Q2 Hn2]. inversion Hn2 as [|? ? Q3 _]. cbn [In] in Q1, Q2, Q3. subst. clear Hn Hn1 Hn2.
    destruct Ha as [<-|[<-|[<-|[<-|[<-|[]]]]]]; destruct Hb as [<-|[<-|[<-|[<-|[<-|[]]]]]]; try tauto; destruct Hc as [<-|[<-|[<-|[<-|[<-|[]]]]]]; try tauto; destruct Hd as [<-|[<-|[<-|[<-|[<-|[]]]]]]; try tauto;
      unfold d2, pA, pB, pC, pE, pF in E1, E2, E3; rewrite ?X_at, ?Y_at in E1, E2, E3; lra.
Qed.
Lemma case_float_mesh : fine_spacing 0 /\ Forall2 (fine_reads 0) [pt 0 0; pt 4 0] [pA; pB] /\ Forall2 (fine_reads 0) [pt 1 3; pt 2 1; pt 7 5] [pC; pE; pF] /\
  NoDup ([pC; pE; pF] ++ [pA; pB]) /\ no_four_on_a_circle ([pC; pE; pF] ++ [pA; pB]) /\ ~ all_on_a_line (hd ghost_vertex [pC; pE; pF] :: [pA; pB]) /\
  stands_for [pt 0 0; pt 4 0] (from_initial_segment (pt 0 0) (pt 4 0)) (from_initial_segment pA pB) /\ delaunay [pA; pB] (from_initial_segment pA pB).
Proof.
  split; [unfold fine_spacing; lia|]. destruct fine_samples as [F1 F2]. split; [exact F1|]. split; [exact F2|]. split; [apply samples_apart|]. split; [apply samples_apart|].
  split; [exact case_off_line|]. split; [|exact case_start]. apply (float_initial 0); [unfold fine_spacing; lia|apply pt_fine; lia|apply pt_fine; lia|]. apply case_points.
Qed.
