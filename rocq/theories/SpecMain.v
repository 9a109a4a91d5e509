(** SpecMain.v — values in files, the mesh behind a result and where a result is. *)

From Coq Require Import String List Bool ZArith.
From Verif Require Import Base Arith Geometry Elements Procedures Refine Triangulator Interface Json Main.
Import ListNotations.
Local Open Scope list_scope.

Section Main.
  Context {A : Arith} {F32 : Type}.
  Notation F := (T A).
  Notation world := (world F32).

  (** The value in a file. *)
  Definition holds_value (text_read : string -> option (json F)) (w : world) (f : string) (j : json F) : Prop :=
    exists s, files w f = Some s /\ text_read s = Some j.

  (** The mesh behind a result: that of the refined triangulator. *)
  Definition mesh_of (H : HashOrder) (of_int : Z -> F) uuid (uuid_read : string -> option uuid) (fuel : nat) (p : path) (id : uuid) (now : string) (j : json F) (tr : triangulation A) : Prop :=
    exists d t prm t1 t2 cs, read_input of_int uuid uuid_read id now j = Some d /\ parse H fuel (1 :: p) (d_input _ d) = Ok (Some (t, prm)) /\
      triangulate H fuel (2 :: p) t = Ok t1 /\ refine H fuel (3 :: p) t1 prm = Ok (t2, cs) /\ tr = t_trn t2.

  (** Where the result [s] is after a run. *)
  Definition result_at (c : cli) (s : string) (w w' : world) : Prop :=
    match c_output c with
    | Some f => files w' f = Some s
    | None => printed w' = printed w ++ [s]
    end.
End Main.
