(** SpecW.v — what JSON values say, independently of how they are visited. *)

From Coq Require Import String List Bool ZArith Permutation.
From Verif Require Import Base Arith Geometry Elements Polyline Procedures Refine Triangulator Interface Json.
Import ListNotations.
Local Open Scope string_scope.
Local Open Scope list_scope.

Section Fields.
  Context {F : Type}.
  Notation json := (json F).

  (** The key [k] occurs exactly once in the object [o], with the value [v]; it
      does not occur. *)
  Definition given (o : list (string * json)) (k : string) (v : json) : Prop :=
    In (k, v) o /\ count_occ string_dec (map fst o) k = 1.
  Definition absent (o : list (string * json)) (k : string) : Prop := ~ In k (map fst o).

  (** [get] is what [j] has for the fields [names]: an object with each of them
      at most once ([byname]), or an array of some of them in order, from the first. *)
  Definition fields (names : list string) (j : json) (byname : bool) (get : string -> option json) : Prop :=
    match j with
    | JObj o => byname = true /\ forall k, In k names -> match get k with Some v => given o k v | None => absent o k end
    | JArr l => byname = false /\ length l <= length names /\ forall i k, nth_error names i = Some k -> get k = nth_error l i
    | _ => False
    end.

  (** All the names that mean something somewhere in an input or an output. *)
  Definition all_names : list string :=
    ["x"; "y"; "z"; "intent"; "geometry"; "scalars"; "points"; "assemble"; "max_area"; "quality";
     "id"; "name"; "date"; "actions"; "params"; "v1"; "v2"; "v3"; "v4"; "coordinates"; "triangles"; "tetrahedrons"].

  (** The same up to the order of the fields of objects, and up to fields with
      other names, anywhere in the value. *)
  Inductive same_content : json -> json -> Prop :=
  | same_refl : forall j, same_content j j
  | same_sym : forall j j', same_content j j' -> same_content j' j
  | same_trans : forall j j' j'', same_content j j' -> same_content j' j'' -> same_content j j''
  | same_order : forall o o', Permutation o o' -> same_content (JObj o) (JObj o')
  | same_extra : forall k v o, ~ In k all_names -> same_content (JObj ((k, v) :: o)) (JObj o)
  | same_field : forall k v v' o, same_content v v' -> same_content (JObj ((k, v) :: o)) (JObj ((k, v') :: o))
  | same_item : forall l1 v v' l2, same_content v v' -> same_content (JArr (l1 ++ v :: l2)) (JArr (l1 ++ v' :: l2)).
End Fields.

Section Content.
  Context {A : Arith}.
  Notation F := (T A).
  Notation json := (json F).
  Notation point := (point (A:=A)).
  Variables (of_int : Z -> F) (uuid : Type) (uuid_read : string -> option uuid).

  (** A number, an index. *)
  Definition number (j : json) (x : F) : Prop := (exists z, j = JInt z /\ x = of_int z) \/ j = JReal x.
  Definition index (j : json) (n : nat) : Prop := j = JInt (Z.of_nat n).
  Definition listing {X} (P : json -> X -> Prop) (j : json) (xs : list X) : Prop := exists l, j = JArr l /\ Forall2 P l xs.
  (** A field that may be missing. *)
  Definition or_else {X} (P : json -> X -> Prop) (d : X) (got : option json) (x : X) : Prop :=
    match got with Some j => P j x | None => x = d end.

  Definition tells_point (j : json) (q : point) : Prop :=
    exists byname get jx jy z, fields ["x"; "y"; "z"] j byname get /\
      get "x" = Some jx /\ number jx (fst q) /\ get "y" = Some jy /\ number jy (snd q) /\ or_else number (of_int 0) (get "z") z.

  Definition tells_action (j : json) (a : action A) : Prop :=
    exists byname get, fields ["intent"; "geometry"; "scalars"; "points"; "assemble"] j byname get /\
      get "intent" = Some (JStr (a_intent a)) /\ get "geometry" = Some (JStr (a_geometry a)) /\
      or_else (listing number) [] (get "scalars") (a_scalars a) /\
      or_else (listing tells_point) [] (get "points") (a_points a) /\
      or_else (listing (listing index)) [] (get "assemble") (a_assemble a).

  (** The area target: [null], or left out of an object, for none. *)
  Definition tells_params (j : json) (m : option F) (q : F) : Prop :=
    exists byname get jq, fields ["max_area"; "quality"] j byname get /\ get "quality" = Some jq /\ number jq q /\
      match get "max_area", m with
      | Some jm, Some x => number jm x
      | Some jm, None => jm = JNull
      | None, Some _ => False
      | None, None => byname = true
      end.

  Definition tells_input (id : uuid) (now : string) (j : json) (d : document (A:=A) uuid) : Prop :=
    exists byname get ja jp, fields ["id"; "name"; "date"; "actions"; "params"] j byname get /\
      or_else (fun j u => exists s, j = JStr s /\ uuid_read s = Some u) id (get "id") (d_id _ d) /\
      get "name" = Some (JStr (d_name _ d)) /\
      or_else (fun j s => j = JStr s) now (get "date") (d_date _ d) /\
      get "actions" = Some ja /\ listing tells_action ja (i_actions (d_input _ d)) /\
      get "params" = Some jp /\ tells_params jp (i_max_area (d_input _ d)) (i_quality (d_input _ d)).

  (** All the numbers of it are finite. *)
  Variable finite : F -> bool.
  Definition finite_point (q : point) : Prop := finite (fst q) = true /\ finite (snd q) = true.
  Definition finite_action (a : action A) : Prop := Forall (fun x => finite x = true) (a_scalars a) /\ Forall finite_point (a_points a).
  Definition finite_input (i : input A) : Prop :=
    Forall finite_action (i_actions i) /\ (forall m, i_max_area i = Some m -> finite m = true) /\ finite (i_quality i) = true.
End Content.
