(** Main.v — model of src/main.rs with its options and of src/json_serializar/io.rs,
    on a file system.

    A file that cannot be read as UTF-8 text is a file that is not there.
    [fs::write] either replaces the whole text of a file or fails and leaves it;
    partial writes of a failing device are not modelled.  [from_str] and
    [to_string_pretty] of serde_json are arbitrary functions between texts and the
    values of Json.v.  A window is the list of points it is given; closing it ends
    the program. *)

From Coq Require Import String List Bool Arith ZArith.
From Verif Require Import Base Arith Geometry Elements Polyline Procedures Refine Triangulator Interface Json.
Import ListNotations.
Local Open Scope string_scope.
Local Open Scope list_scope.

(** src/main.rs:5-21 *)
Record cli : Type := Cli { c_input : string; c_output : option string; c_show : bool }.

(** What the program finds and leaves behind. *)
Record world (F32 : Type) : Type := World {
  files : string -> option string;
  printed : list string;
  windows : list (list (F32 * F32))
}.
Arguments World {F32}. Arguments files {F32}. Arguments printed {F32}. Arguments windows {F32}.

(** How a run ends; a panic keeps what was done before it. *)
Inductive ending (W : Type) : Type := Finished (w : W) | Panicked (w : W) | Unfinished.
Arguments Finished {W}. Arguments Panicked {W}. Arguments Unfinished {W}.

Section Main.
  Context {A : Arith} (H : HashOrder).
  Notation F := (T A).
  Notation json := (json F).
  Variables (of_int : Z -> F) (finite : F -> bool).
  Variables (uuid : Type) (uuid_read : string -> option uuid) (uuid_show : uuid -> string).
  Context {F32 : Type} (cast : F -> F32).
  Variables (text_read : string -> option json) (text_show : json -> string).
  (** Files that can be written, and whether a window can be opened. *)
  Variables (writable : string -> bool) (display : bool).
  Notation world := (world F32).

  (** src/json_serializar/io.rs:6-18 *)
  Definition io_read (id : uuid) (now : string) (w : world) (f : string) : option (document uuid) :=
    match files w f with
    | None => None
    | Some s => match text_read s with None => None | Some j => read_input of_int uuid uuid_read id now j end
    end.
  (** src/json_serializar/io.rs:20-22 *)
  Definition io_write (w : world) (f s : string) : option world :=
    if writable f
    then Some (World (fun g => if String.eqb g f then Some s else files w g) (printed w) (windows w))
    else None.

  (** src/main.rs:66-74; the display is opened before the edges are listed. *)
  Definition show_window (p : path) (tr : triangulation A) (w : world) : ending world :=
    if display
    then Finished (World (files w) (printed w) (windows w ++ [glium_edges H cast p tr]))
    else Panicked w.

  (** src/main.rs:27-75 *)
  Definition main (fuel : nat) (p : path) (id : uuid) (now : string) (c : cli) (w : world) : ending world :=
    match io_read id now w (c_input c) with
    | None => Panicked w
    | Some d =>
        match
          (let! o := parse H fuel (1 :: p) (d_input uuid d) in
           match o with
           | None => Panic
           | Some (t, prm) =>
               let! t1 := triangulate H fuel (2 :: p) t in
               let! (t2, _) := refine H fuel (3 :: p) t1 prm in
               let! (coordinates, triangles) := output H (4 :: p) (t_trn t2) in
               Ok (text_show (write_report of_int finite uuid uuid_show
                     (Rep uuid (d_id uuid d) (d_name uuid d) (d_date uuid d) coordinates triangles [])), t_trn t2)
           end)
        with
        | NoFuel => Unfinished
        | Panic => Panicked w
        | Ok (s, tr) =>
            match c_output c with
            | Some f =>
                match io_write w f s with
                | None => Panicked w
                | Some w' => if c_show c then show_window (5 :: p) tr w' else Finished w'
                end
            | None =>
                let w' := World (files w) (printed w ++ [s]) (windows w) in
                if c_show c then show_window (5 :: p) tr w' else Finished w'
            end
        end
    end.
End Main.
