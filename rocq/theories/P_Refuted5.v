(** P_Refuted5.v — a removal that shares part of a side with the boundary is
    ignored. *)

From Coq Require Import String List ZArith Bool.
From Verif Require Import Base Arith Geometry Elements Polyline Procedures Refine Triangulator Interface
  Spec P_Base P_Trn P_Triangulator ArithF Samples P_Refuted P_Refuted4.
Import ListNotations.
Local Open Scope nat_scope.
Local Open Scope list_scope.

Definition inp116 : input ArithF := Inp [act_of "include" [(0, 0); (4, 0); (4, 4); (0, 4)]%Z; act_of "remove" [(0, 0); (2, 0); (2, 2); (0, 2)]%Z] None (fpz 1).
Definition whole116 : polyline ArithF := Poly [pt 0 0; pt 4 0; pt 4 4; pt 0 4] false.
Definition corner116 : polyline ArithF := Poly [pt 0 0; pt 2 0; pt 2 2; pt 0 2] false.

Lemma removal_ignored : exists H fuel p (inp : input ArithF) t prm q,
  i_actions inp = [act_of "include" [(0, 0); (4, 0); (4, 4); (0, 4)]%Z; act_of "remove" [(0, 0); (2, 0); (2, 2); (0, 2)]%Z] /\
  parse H fuel p inp = Ok (Some (t, prm)) /\ t_holes t = [] /\ poly_contains (t_boundary t) q = Ok (Some Inside) /\
  poly_contains (Poly [pt 0 0; pt 2 0; pt 2 2; pt 0 2] false) q = Ok (Some Inside).
Proof.
  assert (E : okb (parse ho_id 60 [] inp116) (fun o => match o with Some (t, _) => match t_holes t with [] => inside_b (t_boundary t) (pt 1 1) | _ => false end | None => false end) = true)
    by (vm_compute; reflexivity).
  assert (E' : inside_b corner116 (pt 1 1) = true) by (vm_compute; reflexivity).
  apply okb_ok in E. destruct E as (o & Hp & E). destruct o as [[t prm]|]; [|discriminate E]. destruct (t_holes t) eqn:Eh; [|discriminate E].
  exists ho_id, 60, [], inp116, t, prm, (pt 1 1). split; [reflexivity|]. split; [exact Hp|]. split; [exact Eh|]. split; [exact (inside_b_true _ _ E)|exact (inside_b_true _ _ E')].
Qed.
Lemma corner_not_cut : exists H fuel p u (q : vertex ArithF),
  poly_subtraction H fuel p (Poly [pt 0 0; pt 4 0; pt 4 4; pt 0 4] false) (Poly [pt 0 0; pt 2 0; pt 2 2; pt 0 2] false) = Ok ([], u) /\
  poly_contains (Poly [pt 0 0; pt 4 0; pt 4 4; pt 0 4] false) q = Ok (Some Inside) /\ poly_contains (Poly [pt 0 0; pt 2 0; pt 2 2; pt 0 2] false) q = Ok (Some Outside).
Proof.
  assert (E : okb (poly_subtraction ho_id 60 [] whole116 corner116) (fun o => match fst o with [] => true | _ => false end) = true) by (vm_compute; reflexivity).
  assert (E1 : inside_b whole116 (pt 3 3) = true) by (vm_compute; reflexivity).
  assert (E2 : outside_b corner116 (pt 3 3) = true) by (vm_compute; reflexivity).
  apply okb_ok in E. destruct E as ([pls u] & Hp & E). destruct pls as [|pl pls]; [|discriminate E].
  exists ho_id, 60, [], u, (pt 3 3). split; [exact Hp|]. split; [exact (inside_b_true _ _ E1)|exact (outside_b_true _ _ E2)].
Qed.
