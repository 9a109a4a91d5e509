(** T_Show.v — C132: what the printed texts tell. *)

From Coq Require Import String List ZArith Bool.
From Verif Require Import Base Arith Geometry Elements Display SpecShow ArithF Samples P_Show.
Import ListNotations.
Local Open Scope string_scope.
Local Open Scope list_scope.

(** C132 *)
Theorem C132_vertex : forall (A : Arith) (show : T A -> string) ok, spells show ok -> forall v w : vertex A, ok_vertex ok v -> ok_vertex ok w ->
  (vertex_text show v = vertex_text show w <-> alike v w).
Proof. exact @vertex_text_iff. Qed.
Print Assumptions C132_vertex.

Theorem C132_edge : forall (A : Arith) (show : T A -> string) ok, spells show ok -> forall e f : edge A, ok_edge ok e -> ok_edge ok f ->
  (edge_text show e = edge_text show f <-> alike_edge e f).
Proof. exact @edge_text_iff. Qed.
Print Assumptions C132_edge.

Theorem C132_triangle : forall (A : Arith) (show : T A -> string) ok, spells show ok -> forall t u : triangle A, ok_triangle ok t -> ok_triangle ok u ->
  (triangle_text show t = triangle_text show u <-> alike_triangle t u).
Proof. exact @triangle_text_iff. Qed.
Print Assumptions C132_triangle.

(** Whatever the orders of the hash containers: the same text, the same members. *)
Theorem C132_triangulation : forall (A : Arith) (show : T A -> string) ok, spells show ok -> forall H K p q (tr ur : triangulation A), ok_triangulation ok tr -> ok_triangulation ok ur ->
  triangulation_text H show p tr = triangulation_text K show q ur -> alike_triangulation tr ur.
Proof. exact @triangulation_told. Qed.
Print Assumptions C132_triangulation.

(** And members that are the same can give the same text. *)
Theorem C132_triangulation_same : forall (A : Arith) (show : T A -> string) p q (tr ur : triangulation A), alike_triangulation tr ur ->
  exists H K, triangulation_text H show p tr = triangulation_text K show q ur.
Proof. exact @triangulation_retold. Qed.
Print Assumptions C132_triangulation_same.

Theorem C132_data_returns : forall (A : Arith) (show : T A -> string) show_index cs ts, exists s, data_text show show_index cs ts = Ok s.
Proof. exact @data_returns. Qed.
Print Assumptions C132_data_returns.

(** A coordinate without a partner and indices short of a triangle are not shown. *)
Theorem C132_data : forall (A : Arith) (show : T A -> string) show_index ok okn cs ts ds us, spells show ok -> spells show_index okn ->
  Forall ok cs -> Forall ok ds -> Forall okn ts -> Forall okn us ->
  (data_text show show_index cs ts = data_text show show_index ds us <-> groups 2 cs = groups 2 ds /\ groups 3 ts = groups 3 us).
Proof. exact @data_told. Qed.
Print Assumptions C132_data.

Theorem C132_data_exactly : forall (A : Arith) (show : T A -> string) show_index ok okn cs ts ds us, spells show ok -> spells show_index okn ->
  Forall ok cs -> Forall ok ds -> Forall okn ts -> Forall okn us ->
  (exists k, length cs = 2 * k) -> (exists k, length ds = 2 * k) -> (exists k, length ts = 3 * k) -> (exists k, length us = 3 * k) ->
  data_text show show_index cs ts = data_text show show_index ds us -> cs = ds /\ ts = us.
Proof. exact @data_told_exactly. Qed.
Print Assumptions C132_data_exactly.

(** The parts are shown in order. *)
Theorem C132_order : forall (A : Arith) (show : T A -> string) (show_index : nat -> string),
  (exists l r, length l = 2 /\ forall v : vertex A, vghost v = false -> vertex_text show v = weave l [show (vx v); show (vy v)] r) /\
  (exists l r, length l = 2 /\ forall e : edge A, edge_text show e = weave l [vertex_text show (fst e); vertex_text show (snd e)] r) /\
  (exists l r, length l = 3 /\ forall t : triangle A, triangle_text show t = weave l [vertex_text show (tv1 t); vertex_text show (tv2 t); vertex_text show (tv3 t)] r) /\
  (exists l r, length l = 2 /\ forall x y, data_text show show_index [x; y] [] = Ok (weave l [show x; show y] r)) /\
  (exists l r, length l = 3 /\ forall i j k, data_text show show_index [] [i; j; k] = Ok (weave l [show_index i; show_index j; show_index k] r)).
Proof. exact (fun A s n => conj (vertex_order s) (conj (edge_order s) (conj (triangle_order s) (conj (pair_order s n) (triple_order s n))))). Qed.
Print Assumptions C132_order.

Example C132_hypotheses : spells show_few few /\ ok_triangulation few few_mesh /\ spells decimal (fun _ => True).
Proof. exact (conj few_spells (conj few_mesh_ok decimal_spells)). Qed.
Example C132_mesh_text : triangulation_text ho_id show_few [] few_mesh = few_text.
Proof. exact few_mesh_text. Qed.
Example C132_data_text : data_text (A:=ArithF) show_few decimal [fpz 0; fpz 4; fpz 4; fpq (-3) 2] [0; 12; 1; 7] = Ok few_data_text.
Proof. exact few_data. Qed.
