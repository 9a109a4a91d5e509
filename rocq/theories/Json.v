(** Json.v — model of src/json_serializar (models/{point,action,input,output,
    tesselations}.rs, io.rs) and of the flow of src/main.rs, on JSON values.

    What serde_json does with the characters of a file is not modelled: a file is
    represented by the value it spells, its fields in the order of the text.
    Number literals are integers (those that fit in u64 or i64) or doubles.  The
    rules below are those of serde's derive for structs: fields in any order,
    unknown ones skipped, a known one given twice refused, [default] attributes,
    [Option] fields; and arrays in the place of objects, with the fields in the
    order of their declaration.  All errors are the same [None] (io.rs:12). *)

From Coq Require Import String List Bool Arith ZArith.
From Verif Require Import Base Arith Geometry Elements Polyline Procedures Refine Triangulator Interface.
Import ListNotations.
Local Open Scope string_scope.
Local Open Scope list_scope.

Inductive json (F : Type) : Type :=
| JNull
| JBool (b : bool)
| JInt (z : Z)
| JReal (x : F)
| JStr (s : string)
| JArr (l : list (json F))
| JObj (o : list (string * json F)).
Arguments JNull {F}. Arguments JBool {F} b. Arguments JInt {F} z. Arguments JReal {F} x.
Arguments JStr {F} s. Arguments JArr {F} l. Arguments JObj {F} o.

Section Json.
  Context {A : Arith} (H : HashOrder).
  Notation F := (T A).
  Notation json := (json F).
  Notation point := (point (A:=A)).

  (** [as f64] of an integer; finite doubles; [Uuid] with its reader and writer. *)
  Variables (of_int : Z -> F) (finite : F -> bool).
  Variables (uuid : Type) (uuid_read : string -> option uuid) (uuid_show : uuid -> string).

  (** ** Values *)

  Definition read_f64 (j : json) : option F :=
    match j with JInt z => Some (of_int z) | JReal x => Some x | _ => None end.
  (** [usize]: an integer that is not negative; 64 bits hold all of them. *)
  Definition read_usize (j : json) : option nat :=
    match j with JInt z => if (0 <=? z)%Z then Some (Z.to_nat z) else None | _ => None end.
  Definition read_string (j : json) : option string :=
    match j with JStr s => Some s | _ => None end.
  Definition read_option {X} (f : json -> option X) (j : json) : option (option X) :=
    match j with
    | JNull => Some None
    | _ => match f j with Some x => Some (Some x) | None => None end
    end.
  Fixpoint read_all {X} (f : json -> option X) (l : list json) : option (list X) :=
    match l with
    | [] => Some []
    | j :: l' =>
        match f j with
        | None => None
        | Some x => match read_all f l' with Some xs => Some (x :: xs) | None => None end
        end
    end.
  Definition read_vec {X} (f : json -> option X) (j : json) : option (list X) :=
    match j with JArr l => read_all f l | _ => None end.

  (** ** Structs *)

  (** The values found for the known fields, in the order of [names].  [found]
      is what the visitor has stored so far. *)
  Fixpoint find_field (k : string) (found : list (string * json)) : option json :=
    match found with
    | [] => None
    | (k', v) :: found' => if String.eqb k k' then Some v else find_field k found'
    end.
  Fixpoint visit_map (names : list string) (o : list (string * json)) (found : list (string * json))
    : option (list (string * json)) :=
    match o with
    | [] => Some found
    | (k, v) :: o' =>
        if existsb (String.eqb k) names
        then match find_field k found with
             | Some _ => None
             | None => visit_map names o' ((k, v) :: found)
             end
        else visit_map names o' found
    end.

  (** How a field is asked for: [got] is its value if there is one, [byname]
      tells a missing field from a missing element of an array. *)
  Definition required {X} (f : json -> option X) (byname : bool) (got : option json) : option X :=
    match got with Some j => f j | None => None end.
  Definition defaulted {X} (d : X) (f : json -> option X) (byname : bool) (got : option json) : option X :=
    match got with Some j => f j | None => Some d end.
  Definition optional {X} (f : json -> option X) (byname : bool) (got : option json) : option (option X) :=
    match got with
    | Some j => read_option f j
    | None => if byname then Some None else None
    end.

  Definition obind {X Y} (o : option X) (k : X -> option Y) : option Y :=
    match o with Some x => k x | None => None end.

  (** A struct with the fields [names]: [build] gets [byname] and a function from
      names to values. *)
  Definition read_struct {X} (names : list string) (build : bool -> (string -> option json) -> option X)
    (j : json) : option X :=
    match j with
    | JObj o => obind (visit_map names o []) (fun found => build true (fun k => find_field k found))
    | JArr l =>
        if Nat.leb (length l) (length names)
        then build false (fun k => find_field k (combine names l))
        else None
    | _ => None
    end.

  (** src/json_serializar/models/point.rs:6-13; [z] has to be a number. *)
  Definition read_point : json -> option point :=
    read_struct ["x"; "y"; "z"] (fun byname get =>
      obind (required read_f64 byname (get "x")) (fun x =>
      obind (required read_f64 byname (get "y")) (fun y =>
      obind (defaulted (of_int 0) read_f64 byname (get "z")) (fun _ =>
      Some (x, y))))).

  (** src/json_serializar/models/action.rs:7-38 *)
  Definition read_action : json -> option (action A) :=
    read_struct ["intent"; "geometry"; "scalars"; "points"; "assemble"] (fun byname get =>
      obind (required read_string byname (get "intent")) (fun i =>
      obind (required read_string byname (get "geometry")) (fun g =>
      obind (defaulted [] (read_vec read_f64) byname (get "scalars")) (fun s =>
      obind (defaulted [] (read_vec read_point) byname (get "points")) (fun q =>
      obind (defaulted [] (read_vec (read_vec read_usize)) byname (get "assemble")) (fun a =>
      Some (Act i g s q a))))))).

  (** src/json_serializar/models/input.rs:35-39 *)
  Definition read_params : json -> option (option F * F) :=
    read_struct ["max_area"; "quality"] (fun byname get =>
      obind (optional read_f64 byname (get "max_area")) (fun m =>
      obind (required read_f64 byname (get "quality")) (fun q =>
      Some (m, q)))).

  (** An input with the fields that are only copied. *)
  Record document : Type := Doc { d_id : uuid; d_name : string; d_date : string; d_input : input A }.

  Definition read_uuid (j : json) : option uuid := obind (read_string j) uuid_read.

  (** src/json_serializar/models/input.rs:11-33.  [id] and [now] stand for the
      random identifier and the date that are drawn when the fields are missing. *)
  Definition read_input (id : uuid) (now : string) : json -> option document :=
    read_struct ["id"; "name"; "date"; "actions"; "params"] (fun byname get =>
      obind (defaulted id read_uuid byname (get "id")) (fun i =>
      obind (required read_string byname (get "name")) (fun n =>
      obind (defaulted now read_string byname (get "date")) (fun d =>
      obind (required (read_vec read_action) byname (get "actions")) (fun a =>
      obind (required read_params byname (get "params")) (fun m =>
      Some (Doc i n d (Inp a (fst m) (snd m))))))))).

  (** ** Output *)

  (** src/json_serializar/models/output.rs:15-32 *)
  Record report : Type := Rep {
    r_id : uuid;
    r_name : string;
    r_date : string;
    r_coordinates : list point;
    r_triangles : list (nat * nat * nat);
    r_tetrahedrons : list (nat * nat * nat * nat)
  }.

  (** serde_json writes [null] for infinities and NaN. *)
  Definition write_f64 (x : F) : json := if finite x then JReal x else JNull.
  Definition write_usize (n : nat) : json := JInt (Z.of_nat n).

  (** src/json_serializar/models/point.rs:6-13, 31-37 ([z] is 0.0) *)
  Definition write_point (q : point) : json :=
    JObj [("x", write_f64 (fst q)); ("y", write_f64 (snd q)); ("z", write_f64 (of_int 0))].
  (** src/json_serializar/models/tesselations.rs *)
  Definition write_triangle (t : nat * nat * nat) : json :=
    let '(i, j, k) := t in JObj [("v1", write_usize i); ("v2", write_usize j); ("v3", write_usize k)].
  Definition write_tetrahedron (t : nat * nat * nat * nat) : json :=
    let '(i, j, k, l) := t in
    JObj [("v1", write_usize i); ("v2", write_usize j); ("v3", write_usize k); ("v4", write_usize l)].
  Definition write_report (r : report) : json :=
    JObj [("id", JStr (uuid_show (r_id r))); ("name", JStr (r_name r)); ("date", JStr (r_date r));
          ("coordinates", JArr (map write_point (r_coordinates r)));
          ("triangles", JArr (map write_triangle (r_triangles r)));
          ("tetrahedrons", JArr (map write_tetrahedron (r_tetrahedrons r)))].

  Definition read_triangle : json -> option (nat * nat * nat) :=
    read_struct ["v1"; "v2"; "v3"] (fun byname get =>
      obind (required read_usize byname (get "v1")) (fun i =>
      obind (required read_usize byname (get "v2")) (fun j =>
      obind (required read_usize byname (get "v3")) (fun k =>
      Some (i, j, k))))).
  Definition read_tetrahedron : json -> option (nat * nat * nat * nat) :=
    read_struct ["v1"; "v2"; "v3"; "v4"] (fun byname get =>
      obind (required read_usize byname (get "v1")) (fun i =>
      obind (required read_usize byname (get "v2")) (fun j =>
      obind (required read_usize byname (get "v3")) (fun k =>
      obind (required read_usize byname (get "v4")) (fun l =>
      Some (i, j, k, l)))))).
  (** src/json_serializar/models/output.rs:14-32, [Deserialize] *)
  Definition read_report (id : uuid) (now : string) : json -> option report :=
    read_struct ["id"; "name"; "date"; "coordinates"; "triangles"; "tetrahedrons"] (fun byname get =>
      obind (defaulted id read_uuid byname (get "id")) (fun i =>
      obind (required read_string byname (get "name")) (fun n =>
      obind (defaulted now read_string byname (get "date")) (fun d =>
      obind (required (read_vec read_point) byname (get "coordinates")) (fun c =>
      obind (defaulted [] (read_vec read_triangle) byname (get "triangles")) (fun t =>
      obind (defaulted [] (read_vec read_tetrahedron) byname (get "tetrahedrons")) (fun h =>
      Some (Rep i n d c t h)))))))).

  (** [Serialize] of the input (derived; not called by the program). *)
  Definition write_action (a : action A) : json :=
    JObj [("intent", JStr (a_intent a)); ("geometry", JStr (a_geometry a));
          ("scalars", JArr (map write_f64 (a_scalars a)));
          ("points", JArr (map write_point (a_points a)));
          ("assemble", JArr (map (fun l => JArr (map write_usize l)) (a_assemble a)))].
  Definition write_params (m : option F) (q : F) : json :=
    JObj [("max_area", match m with Some x => write_f64 x | None => JNull end); ("quality", write_f64 q)].
  Definition write_input (d : document) : json :=
    JObj [("id", JStr (uuid_show (d_id d))); ("name", JStr (d_name d)); ("date", JStr (d_date d));
          ("actions", JArr (map write_action (i_actions (d_input d))));
          ("params", write_params (i_max_area (d_input d)) (i_quality (d_input d)))].

  (** src/main.rs:27-58: the value printed or written.  Both failures are panics
      (lines 36 and 44). *)
  Definition run_program (fuel : nat) (p : path) (id : uuid) (now : string) (j : json) : res json :=
    match read_input id now j with
    | None => Panic
    | Some d =>
        let! o := run_main H fuel p (d_input d) in
        match o with
        | None => Panic
        | Some (coordinates, triangles) =>
            Ok (write_report (Rep (d_id d) (d_name d) (d_date d) coordinates triangles []))
        end
    end.
End Json.
