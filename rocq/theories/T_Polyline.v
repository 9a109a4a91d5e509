(** T_Polyline.v — properties of edges and polylines (C18, C19, C20, C23, C24). *)

From Coq Require Import List Permutation ZArith.
Local Open Scope nat_scope.
From Verif Require Import Base Arith Geometry Elements Polyline Spec P_Poly P_Arrange ArithF Samples.
Import ListNotations.

(** C18 *)
Theorem C18_split_intersections : forall (A : Arith) fuel (segs r : list (edge A)),
  split_intersections fuel segs = Ok r ->
  pairwise (fun x y => ~ crossing y x) r /\
  forall s, In s segs -> linked_near r (fst s) (snd s).
Proof. exact @split_intersections_no_crossing. Qed.
Print Assumptions C18_split_intersections.

Theorem C18_split_identity : forall (A : Arith) fuel (segs : list (edge A)),
  length segs < fuel -> pairwise (fun x y => ~ crossing y x) (rev segs) ->
  split_intersections fuel segs = Ok (rev segs).
Proof. exact @split_intersections_identity. Qed.
Print Assumptions C18_split_identity.

Example C18_hypotheses : exists r : list (edge ArithF),
  split_intersections 20 [(pt 0 0, pt 2 2); (pt 0 2, pt 2 0); (pt 3 0, pt 3 3)] = Ok r /\ Nat.eqb (length r) 5 = true.
Proof. apply okb_ok. vm_compute. reflexivity. Qed.

(** C19 *)
Theorem C19_continence_no_panic : forall (A : Arith) fuel (p1 p2 : polyline A),
  proper p1 -> proper p2 -> poly_continence fuel p1 p2 <> Panic.
Proof. exact @poly_continence_no_panic. Qed.
Print Assumptions C19_continence_no_panic.

Theorem C19_continence_opened : forall (A : Arith) fuel (p1 p2 : polyline A),
  popened p1 = true -> poly_continence fuel p1 p2 = Ok None.
Proof. exact @poly_continence_opened. Qed.
Print Assumptions C19_continence_opened.

Example C19_hypotheses : proper square1 /\ proper open_line /\ popened open_line = true.
Proof. split; [left; reflexivity|]. split; [right; reflexivity|reflexivity]. Qed.

(** C20 *)
Theorem C20_union_result : forall (A : Arith) (H : HashOrder) fuel p (p1 p2 : polyline A) pl u,
  poly_union H fuel p p1 p2 = Ok (Some (pl, u)) ->
  exists s1 s2 split chain,
    into_edges p1 = Ok s1 /\ into_edges p2 = Ok s2 /\ split_intersections fuel (s1 ++ s2) = Ok split /\
    NoDup chain /\ trail chain /\ 3 <= length chain /\
    pl = Poly (map fst chain) false /\
    (forall d, follows (last chain d) (hd d chain)) /\
    flt (area_segments chain) c0 = true /\
    (forall s, In s chain -> In s split /\
       (poly_contains p1 (midpoint (fst s) (snd s)) = Ok (Some Outside) \/
        poly_contains p2 (midpoint (fst s) (snd s)) = Ok (Some Outside))) /\
    (forall s, In s u -> In s split) /\
    (forall s, In s split -> In s chain \/ In s u) /\
    (forall s, In s chain -> ~ In s u).
Proof. exact @poly_union_spec. Qed.
Print Assumptions C20_union_result.

Theorem C20_union_opened : forall (A : Arith) (H : HashOrder) fuel p (p1 p2 : polyline A),
  popened p1 = true \/ popened p2 = true -> poly_union H fuel p p1 p2 = Ok None.
Proof. exact @poly_union_opened. Qed.
Print Assumptions C20_union_opened.

Theorem C20_union_far : forall (A : Arith) (H : HashOrder) fuel p (p1 p2 : polyline A) b1 b2,
  poly_bbox p1 = Some b1 -> poly_bbox p2 = Some b2 -> bbox_intersection b1 b2 = None ->
  poly_union H fuel p p1 p2 = Ok None.
Proof. exact @poly_union_far. Qed.
Print Assumptions C20_union_far.

Example C20_hypotheses :
  (exists o, poly_union ho_rev 100 [] square1 square2 = Ok o /\
     match o with Some (pl, _) => Nat.eqb (length (pverts pl)) 8 | None => false end = true) /\
  match poly_bbox square1, poly_bbox far_square with
  | Some b1, Some b2 => match bbox_intersection b1 b2 with None => true | _ => false end
  | _, _ => false
  end = true.
Proof. split; [apply okb_ok|]; vm_compute; reflexivity. Qed.

(** C23 *)
Theorem C23_arrange : forall (A : Arith) (H : HashOrder) fuel p (edges : list (edge A)),
  NoDup edges -> length edges < fuel ->
  exists r (groups : list (edge A * list (edge A))), edge_arrange H fuel p edges = Ok r /\
    Permutation edges (concat (map snd groups)) /\
    (forall e l, In (e, l) groups -> merged (fst e) (snd e) l) /\
    (forall e, In e r <-> In e (map fst groups)) /\ NoDup r.
Proof. exact @edge_arrange_spec. Qed.
Print Assumptions C23_arrange.

Theorem C23_merged_is_a_chain : forall (A : Arith) (a b : vertex A) l, merged a b l -> chain_from a b l.
Proof. exact @merged_chain. Qed.
Print Assumptions C23_merged_is_a_chain.

Example C23_hypotheses :
  let es := [(pt 0 0, pt 1 0); (pt 1 0, pt 2 0); (pt 2 0, pt 2 5)] in
  NoDup es /\ exists r, edge_arrange ho_rev 4 [] es = Ok r /\
    edges_eqb r [(pt 2 0, pt 2 5); (pt 0 0, pt 2 0)] = true.
Proof. split; [apply nodupb_NoDup|apply okb_ok]; vm_compute; reflexivity. Qed.

(** C24 *)
Theorem C24_decompose : forall (A : Arith) (H : HashOrder) fuel p (base : list (edge A)) e l,
  decompose H fuel p base e = Ok (Some l) ->
  (forall s, In s l -> In s base /\
     (exists v, intersection (fst s) (snd s) (fst e) (snd e) = Some v) /\
     parallel (fst s) (snd s) (fst e) (snd e) = true /\
     flt c0 (dot (fst s) (snd s) (fst e) (snd e)) = true) /\
  ((l = [] /\ veqb (fst e) (snd e) = true) \/
   exists b, chain_from (fst e) b l /\ veqb b (snd e) = true).
Proof. exact @decompose_spec. Qed.
Print Assumptions C24_decompose.

Example C24_hypotheses : exists o,
  decompose ho_rev 10 [] [(pt 0 0, pt 1 0); (pt 1 0, pt 2 0); (pt 2 0, pt 2 5)] (pt 0 0, pt 2 0) = Ok o /\
  match o with Some l => edges_eqb l [(pt 0 0, pt 1 0); (pt 1 0, pt 2 0)] | None => false end = true.
Proof. apply okb_ok. vm_compute. reflexivity. Qed.
