(** Display.v — the texts the crate's types print as ([fmt::Display]).

    How a number is spelled ([f64] and [usize] in Rust's library) is a parameter.
    Writing to the formatter is taken to succeed, as it does for [to_string]. *)

From Coq Require Import String Ascii List Arith.
From Verif Require Import Base Arith Geometry Elements.
Import ListNotations.
Local Open Scope string_scope.

Definition newline : ascii := ascii_of_nat 10.
Definition nl : string := String newline "".

Section Display.
  Context {A : Arith}.
  Notation vertex := (vertex A).
  Notation edge := (edge A).
  Notation triangle := (triangle A).
  Notation triangulation := (triangulation A).
  Variable H : HashOrder.
  Variable show : T A -> string.
  Variable show_index : nat -> string.

  (** src/elements/vertex.rs:76-83 *)
  Definition vertex_text (v : vertex) : string :=
    if vghost v then "(ghost)"
    else "(" ++ show (vx v) ++ ", " ++ show (vy v) ++ ")".

  (** src/elements/edge.rs:31-35 *)
  Definition edge_text (e : edge) : string :=
    "(" ++ vertex_text (fst e) ++ " - " ++ vertex_text (snd e) ++ ")".

  (** src/elements/triangle.rs:27-31 *)
  Definition triangle_text (t : triangle) : string :=
    "(" ++ vertex_text (tv1 t) ++ " - " ++ vertex_text (tv2 t) ++ " - " ++ vertex_text (tv3 t) ++ ")".

  (** One [write!] per element. *)
  Fixpoint each {X : Type} (f : X -> string) (l : list X) : string :=
    match l with
    | [] => ""
    | x :: l => f x ++ each f l
    end.

  (** src/planar/triangulation.rs:13-28, in the orders of the two hash containers. *)
  Definition triangulation_text (p : path) (tr : triangulation) : string :=
    "Triangles" ++ nl ++
    each (fun t => triangle_text t ++ nl) (ho H (0%nat :: p) _ (tris tr)) ++
    nl ++
    "Adjacency" ++ nl ++
    each (fun et => edge_text (fst et) ++ " " ++ triangle_text (snd et) ++ nl) (ho H (1%nat :: p) _ (adj tr)).

  (** The loops with [get(..).unwrap()] of src/planar/triangulation_data.rs:27-47 *)
  Fixpoint each_res (f : nat -> res string) (l : list nat) : res string :=
    match l with
    | [] => Ok ""
    | i :: l => let! s := f i in let! r := each_res f l in Ok (s ++ r)
    end.

  (** src/planar/triangulation_data.rs:27-47 *)
  Definition data_text (coordinates : list (T A)) (triangles : list nat) : res string :=
    let! cs := each_res (fun i =>
        let! x := unwrap (nth_error coordinates (i * 2)) in
        let! y := unwrap (nth_error coordinates (i * 2 + 1)) in
        Ok (show x ++ " " ++ show y ++ nl)) (seq 0 (length coordinates / 2)) in
    let! ts := each_res (fun i =>
        let! a := unwrap (nth_error triangles (i * 3)) in
        let! b := unwrap (nth_error triangles (i * 3 + 1)) in
        let! c := unwrap (nth_error triangles (i * 3 + 2)) in
        Ok (show_index a ++ " " ++ show_index b ++ " " ++ show_index c ++ nl)) (seq 0 (length triangles / 3)) in
    Ok ("Coordinates" ++ nl ++ cs ++ nl ++ "Triangles" ++ nl ++ ts).
End Display.
