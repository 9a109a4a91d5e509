(** Base.v — outcomes, hash containers and iteration order.

    Nothing in this file is geometric.  It fixes how Rust control effects and
    the std hash containers used by the crate are represented. *)

From Coq Require Import List Permutation Arith Bool.
Import ListNotations.

(** Outcome of a computation.
    - [Ok x]   : the call returned [x]
    - [Panic]  : the call panicked ([unwrap] on [None], slice underflow, [panic!])
    - [NoFuel] : the call was still looping when the step budget ran out.
    Every unbounded [loop]/[while] of the crate is modelled with a budget; a
    theorem that assumes [Ok] therefore says nothing about a run that panics
    or diverges, and a theorem that claims [Ok] claims termination. *)
Inductive res (X : Type) : Type :=
| Ok (x : X)
| Panic
| NoFuel.
Arguments Ok {X} x.
Arguments Panic {X}.
Arguments NoFuel {X}.

Definition bind {X Y} (e : res X) (k : X -> res Y) : res Y :=
  match e with
  | Ok x => k x
  | Panic => Panic
  | NoFuel => NoFuel
  end.

Notation "'let!' x ':=' e 'in' k" := (bind e (fun x => k))
  (at level 200, x pattern, e at level 100, k at level 200).

(** [Option::unwrap]. *)
Definition unwrap {X} (o : option X) : res X :=
  match o with Some x => Ok x | None => Panic end.

(** Result of the fallible public API (std [Result<&Self, E>]). *)
Inductive result (E : Type) : Type :=
| RFine
| RErr (e : E).
Arguments RFine {E}.
Arguments RErr {E} e.

(** Monadic filter/any used where a closure of the crate calls code that can
    panic or diverge. *)
Fixpoint filterM {X} (f : X -> res bool) (l : list X) : res (list X) :=
  match l with
  | [] => Ok []
  | x :: l' =>
      let! b := f x in
      let! r := filterM f l' in
      Ok (if b then x :: r else r)
  end.

Fixpoint foldM {X S} (f : S -> X -> res S) (s : S) (l : list X) : res S :=
  match l with
  | [] => Ok s
  | x :: l' => let! s' := f s x in foldM f s' l'
  end.

(** ** Hash containers

    std [HashSet]/[HashMap] are represented by lists.  A lookup compares keys
    with a decidable Leibniz equality [dec], i.e. two keys match iff everything
    that is fed to the hasher is identical.  This is what the crate's [Hash]
    impls do: vertex.rs:18-32 hashes the exact bits of x, y and the ghost flag,
    edge.rs:16 / triangle.rs:10 / polyline.rs:16 derive [Hash] componentwise.
    The approximate or cyclic [PartialEq] impls never make two keys with
    different hash input match, except for an accidental 7-bit tag collision in
    the table, which this model leaves out (see DESIGN.md). *)
Section Containers.
  Context {K : Type} (dec : forall x y : K, {x = y} + {x <> y}).

  (** HashSet::contains *)
  Definition hmem (x : K) (s : list K) : bool :=
    existsb (fun y => if dec x y then true else false) s.

  (** HashSet::insert *)
  Definition hadd (x : K) (s : list K) : list K :=
    if hmem x s then s else s ++ [x].

  (** HashSet::remove *)
  Definition hdel (x : K) (s : list K) : list K :=
    filter (fun y => if dec x y then false else true) s.

  (** [.collect::<HashSet<_>>()] *)
  Definition hset (l : list K) : list K :=
    fold_left (fun s x => hadd x s) l [].

  Context {V : Type}.

  (** HashMap::get *)
  Fixpoint mget (k : K) (m : list (K * V)) : option V :=
    match m with
    | [] => None
    | (k', v) :: m' => if dec k k' then Some v else mget k m'
    end.

  (** HashMap::remove *)
  Definition mdel (k : K) (m : list (K * V)) : list (K * V) :=
    filter (fun kv => if dec k (fst kv) then false else true) m.

  (** HashMap::insert (an existing entry is overwritten) *)
  Definition mset (k : K) (v : V) (m : list (K * V)) : list (K * V) :=
    (k, v) :: mdel k m.

  (** [.collect::<HashMap<_,_>>()]: later entries overwrite earlier ones. *)
  Definition mcollect (l : list (K * V)) : list (K * V) :=
    fold_left (fun m kv => mset (fst kv) (snd kv) m) l [].
End Containers.

(** ** Iteration order

    [RandomState] gives each table its own seed, so the order of [iter()],
    [keys()] and [iter().next()] is arbitrary and can differ between two tables
    with equal contents and between two moments of one run.  Each dynamic
    iteration of the model asks the oracle [ho] for the order, with a [path]
    that identifies the iteration inside the run: a function running at path [p]
    gives its own iterations and sub-calls the paths [1 :: p], [2 :: p], ... and
    the next round of a loop runs at [0 :: p].
    Theorems quantify over every oracle. *)
Definition path := list nat.

Record HashOrder : Type := {
  ho : path -> forall X : Type, list X -> list X;
  ho_perm : forall p X (l : list X), Permutation l (ho p X l)
}.

(** Three concrete orders, used by the executable examples. *)
Definition ho_id : HashOrder :=
  {| ho := fun _ _ l => l; ho_perm := fun _ _ l => Permutation_refl l |}.
Definition ho_rev : HashOrder :=
  {| ho := fun _ _ l => rev l; ho_perm := fun _ _ l => Permutation_rev l |}.

(** Rotate by a number derived from the path: a third, less regular order. *)
Definition rot {X} (n : nat) (l : list X) : list X := skipn n l ++ firstn n l.
Lemma rot_perm : forall X n (l : list X), Permutation l (rot n l).
Proof.
  intros X n l. unfold rot.
  rewrite <- (firstn_skipn n l) at 1. apply Permutation_app_comm.
Qed.
Definition path_num (p : path) (m : nat) : nat :=
  Nat.modulo (fold_left (fun a n => a + n) p 1) (S m).
Definition ho_rot : HashOrder :=
  {| ho := fun p X l => rot (path_num p (length l)) l;
     ho_perm := fun p X l => rot_perm X (path_num p (length l)) l |}.
