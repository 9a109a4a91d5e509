(** T_Refine.v — splitting encroached segments (C47), distributing
    encroachments (C48) and rejected circumcenters (C49), for every arithmetic
    and every hash order. *)

From Coq Require Import List Bool ZArith.
From Verif Require Import Base Arith Geometry Elements Polyline Procedures Refine Spec P_Base P_Refine ArithF Samples P_Checks.
Import ListNotations.
Local Open Scope nat_scope.

(** C47 *)
Theorem C47_unencroach_tiles : forall (A : Arith) (H : HashOrder) fuel p (tr : triangulation A) e vs cs bd hs tr' vs' new inc del,
  unencroach_segment H fuel p tr e vs cs bd hs = Ok (tr', vs', new, inc, del) ->
  exists l1 l2, tiling (fst e, edge_midpoint e) l1 /\ tiling (edge_midpoint e, snd e) l2 /\
    forall x, In x new <-> In x (l1 ++ l2).
Proof. exact @unencroach_segment_tiles. Qed.
Print Assumptions C47_unencroach_tiles.

Definition base_mesh : triangulation ArithF := from_initial_segment (pt 0 0) (pt 16 0).
Definition low_points : list (vertex ArithF) := [pt 8 20; pt 7 1; pt 9 2].
Example C47_hypotheses : exists r,
  (let! (tr, _, _) := vertices_include ho_id 60 [] base_mesh low_points [] None [] in
   unencroach_segment ho_id 60 [] tr (pt 0 0, pt 16 0) low_points [(pt 0 0, pt 16 0)] None []) = Ok r /\
  (let '(_, _, new, _, _) := r in Nat.ltb 2 (length new)) = true.
Proof. apply okb_ok. vm_compute. reflexivity. Qed.

(** C48 *)
Theorem C48_distribution : forall (A : Arith) (segments : list (edge A)) vs e,
  match mget edec e (distribute_encroachments segments vs []) with
  | Some l => In e segments /\ l <> [] /\ forall v, In v l <-> In v vs /\ edge_encroach e v = Inside
  | None => In e segments -> forall v, In v vs -> edge_encroach e v <> Inside
  end.
Proof. exact @distribute_encroachments_exact. Qed.
Print Assumptions C48_distribution.

Example C48_hypotheses :
  let m := distribute_encroachments [(pt 0 0, pt 16 0); (pt 0 30, pt 4 30)] low_points [] in
  Nat.eqb (length m) 1 &&
  match mget edec (pt 0 0, pt 16 0) m with Some l => Nat.eqb (length l) 2 | None => false end = true.
Proof. vm_compute. reflexivity. Qed.

(** C49: the centre is a new point, constraints have no ghost end, a new
    triangle does not strictly encircle its own corner (true in exact arithmetic,
    see C49_no_self_encircling), and an unmodified set of holes is always
    iterated in the same order. *)
Theorem C49_rejected_centre : forall (A : Arith) (H : HashOrder) fuel p (tr : triangulation A) t cs bd hs tr' enc cc,
  adj_sound tr -> adj_complete tr -> In t (tris tr) -> tri_circumcenter t = Some cc ->
  (forall t', In t' (tris tr) -> ~ corner_of cc t') ->
  (forall e, In e cs -> vghost (fst e) = false /\ vghost (snd e) = false) ->
  (forall t' a b, In t' (tris tr) -> side_of (a, b) t' -> vghost a = false -> vghost b = false ->
     continence b a cc cc <> Inside) ->
  (forall p q, ho H p (polyline A) hs = ho H q (polyline A) hs) ->
  try_circumcenter H fuel p tr t cs bd hs = Ok (tr', inr enc) ->
  (forall t', In t' (tris tr') <-> In t' (tris tr)) /\
  adj_sound tr' /\ enc <> [] /\
  (forall e, In e enc -> constrained cs e /\ edge_encroach e cc = Inside).
Proof. exact @rejected_no_trace. Qed.
Print Assumptions C49_rejected_centre.

(** The apex is so low that the centre falls below the constrained base. *)
Definition flat_mesh := vertices_include ho_id 60 [] base_mesh [pt 8 5; pt 7 30; pt 8 (-20)] [(pt 0 0, pt 16 0)] None [].
Definition flat_triangle : triangle ArithF := Tri (pt 0 0) (pt 16 0) (pt 8 5).
Example C49_hypotheses : exists tr inc del t tr' enc cc,
  flat_mesh = Ok (tr, inc, del) /\ adj_sound tr /\ adj_complete tr /\ In t (tris tr) /\ tri_circumcenter t = Some cc /\
  (forall t', In t' (tris tr) -> ~ corner_of cc t') /\
  (forall t' a b, In t' (tris tr) -> side_of (a, b) t' -> vghost a = false -> vghost b = false ->
     continence b a cc cc <> Inside) /\
  (forall p q, ho ho_id p (polyline ArithF) [] = ho ho_id q (polyline ArithF) []) /\
  try_circumcenter ho_id 60 [] tr t [(pt 0 0, pt 16 0)] None [] = Ok (tr', inr enc).
Proof. apply (centre_steps_ok ho_id 60 [] flat_mesh [(pt 0 0, pt 16 0)] flat_triangle); [reflexivity|]. vm_compute. reflexivity. Qed.
