(** T_Arrange.v — C130: putting edges in a row. *)

From Coq Require Import List Permutation ZArith Bool.
From Verif Require Import Base Arith Geometry Elements Polyline SpecO ArithF Samples P_Ar1.
Import ListNotations.
Local Open Scope nat_scope.
Local Open Scope list_scope.

(** C130 *)
Theorem C130_returns : forall (A : Arith) p (E : list (edge A)), one_way E -> told_apart E ->
  ((forall H, exists n, poly_arrange H n p E <> NoFuel) <-> forall a, starts_at E a -> exists b, leads E a b /\ (b = a \/ ~ starts_at E b)).
Proof. exact @arrange_returns. Qed.
Print Assumptions C130_returns.

Theorem C130_steps : forall (A : Arith) (H : HashOrder) p (E : list (edge A)), (exists n, poly_arrange H n p E <> NoFuel) -> poly_arrange H (S (length E)) p E <> NoFuel.
Proof. exact @arrange_steps. Qed.
Print Assumptions C130_steps.

Theorem C130_result : forall (A : Arith) (H : HashOrder) n p (E : list (edge A)) pl, one_way E -> told_apart E -> no_dead_end E -> poly_arrange H n p E = Ok (Some pl) ->
  popened pl = false /\ NoDup (pverts pl) /\ 3 <= length (pverts pl) /\ Permutation (ring (pverts pl)) E.
Proof. exact @arrange_is_ring. Qed.
Print Assumptions C130_result.

Theorem C130_ring_recovered : forall (A : Arith) (H : HashOrder) n p (l : list (vertex A)) E, NoDup l -> 3 <= length l -> Permutation (ring l) E -> told_apart E -> length l <= n ->
  exists k, poly_arrange H n p E = Ok (Some (Poly (rot k l) false)).
Proof. exact @ring_recovered. Qed.
Print Assumptions C130_ring_recovered.

Theorem C130_only_rings : forall (A : Arith) (H : HashOrder) p (E : list (edge A)), one_way E -> told_apart E -> no_dead_end E ->
  ((exists n pl, poly_arrange H n p E = Ok (Some pl)) <-> exists l, NoDup l /\ 3 <= length l /\ Permutation (ring l) E).
Proof. exact @arrange_iff_ring. Qed.
Print Assumptions C130_only_rings.

Theorem C130_sides : forall (A : Arith) (l : list (vertex A)), l <> [] -> into_edges (Poly l false) = Ok (ring l).
Proof. exact @closed_sides. Qed.
Print Assumptions C130_sides.

Theorem C130_open_chain_closed : forall (A : Arith) p (l : list (vertex A)) v E, NoDup (v :: l) -> 3 <= length l -> Permutation (chain (v :: l)) E -> told_apart E ->
  exists H, forall n, length l <= n -> poly_arrange H n p E = Ok (Some (Poly l false)).
Proof. exact @chain_closed. Qed.
Print Assumptions C130_open_chain_closed.

(** A square's sides, and the same square with a tail that runs into it. *)
Example C130_hypotheses :
  one_way (ring square_round) /\ told_apart (ring square_round) /\ no_dead_end (ring square_round) /\ NoDup square_round /\ told_apart (chain square_round) /\
  one_way square_tail /\ told_apart square_tail /\ poly_arrange ho_id 100 [] square_tail = NoFuel.
Proof. exact (check_round_ok _ _ _ _ _ round_checked). Qed.
