(** SpecE.v — refinement inside a convex polygon: where vertices may be. *)

From Coq Require Import Reals List ZArith.
From Verif Require Import Base Arith Geometry Elements Polyline Procedures Refine Triangulator ArithR Spec SpecR SpecD SpecP SpecC.
Import ListNotations.
Local Open Scope R_scope.

(** [w] is on the side [ab], ends included. *)
Definition on_side (a b w : pnt) : Prop := w = a \/ w = b \/ strictly_between a b w.

(** A convex polygon, counterclockwise, whose corners are away from the other
    sides by more than the tolerances. *)
Record convex_polygon (l : list pnt) : Prop := {
  cp_nodup : NoDup l;
  cp_three : (3 <= length l)%nat;
  cp_away : forall a b w, In (a, b) (polygon_sides l) -> In w l -> w <> a -> w <> b -> spread 3 a b w
}.

(** Well inside the polygon; or on a side of it, or well inside it. *)
Definition deep (l : list pnt) (w : pnt) : Prop := forall a b, In (a, b) (polygon_sides l) -> spread 3 a b w.
Definition placed (l : list pnt) (w : pnt) : Prop :=
  forall a b, In (a, b) (polygon_sides l) -> on_side a b w \/ spread 3 a b w.

(** The mesh is a Delaunay triangulation of the points [S], which are the corners
    of the polygon and other points placed in it. *)
Record framed (l S : list pnt) (tr : mesh) : Prop := {
  fr_delaunay : delaunay S tr;
  fr_corners : forall w, In w l -> In w S;
  fr_placed : forall w, In w S -> placed l w
}.

(** Both ends are points of [S] on one side of the polygon. *)
Definition along (l S : list pnt) (e : edge ArithR) : Prop :=
  In (fst e) S /\ In (snd e) S /\ exists a b, In (a, b) (polygon_sides l) /\ on_side a b (fst e) /\ on_side a b (snd e).
(** A part of a side of the polygon, from a vertex to the next one. *)
Record piece (l S : list pnt) (e : edge ArithR) : Prop := {
  pc_along : along l S e;
  pc_proper : fst e <> snd e;
  pc_empty : forall w, In w S -> ~ strictly_between (fst e) (snd e) w
}.
(** Going counterclockwise round the polygon. *)
Definition forward (l : list pnt) (e : edge ArithR) : Prop :=
  exists x y i j, In (x, y) (polygon_sides l) /\ at_ratio i x y (fst e) /\ at_ratio j x y (snd e) /\ i < j.
Definition part (l S : list pnt) (e : edge ArithR) : Prop := piece l S e /\ forward l e.
(** [L] is all the parts of the sides, once each. *)
Definition exact_parts (l S : list pnt) (L : list (edge ArithR)) : Prop := NoDup L /\ forall e, In e L <-> part l S e.
Definition stage (l S : list pnt) (tr : mesh) (L : list (edge ArithR)) : Prop := framed l S tr /\ resolved S /\ exact_parts l S L.

(** [inc] is what [tr'] has more than [tr], [del] what it has less. *)
Definition reports (tr tr' : mesh) (inc del : list tri) : Prop :=
  (forall x, In x inc <-> In x (tris tr') /\ ~ In x (tris tr)) /\ (forall x, In x del <-> In x (tris tr) /\ ~ In x (tris tr')).

(** Strictly inside the circle of diameter [ab]. *)
Definition inside_diameter (a b w : pnt) : Prop := (X w - X a) * (X w - X b) + (Y w - Y a) * (Y w - Y b) < 0.

(** The centre of [t] was too close to a part of a side of the polygon. *)
Definition turned_down (l : list pnt) (tr : mesh) (t : tri) : Prop :=
  exists S o e, framed l S tr /\ In t (tris tr) /\ tri_circumcenter t = Some o /\ part l S e /\ inside_diameter (fst e) (snd e) o.

(** ** What a refinement tries *)

(** The middle [w] of a segment, put in the mesh; the circumcentre of a triangle
    of the mesh. *)
Inductive attempt : Type :=
| Middle (tr : mesh) (w : pnt)
| Centre (tr : mesh) (t : tri).

(** The attempts of a run, in order: the runs of Refine.v with only this output. *)
Section Attempts.
  Variable H : HashOrder.
  Variables (bd : option (polyline ArithR)) (hs : list (polyline ArithR)).

  Fixpoint loop_attempts (fuel : nat) (p : path) (cs : list (edge ArithR)) (pending : list (edge ArithR)) (tr : mesh) (vs : list pnt) : list attempt :=
    match fuel with
    | O => []
    | Datatypes.S fuel' =>
        match pending with
        | [] => []
        | e :: pending' =>
            Middle tr (edge_midpoint e) ::
            match split_segment H fuel' (1%nat :: p) tr e cs bd hs with
            | Ok (h1, h2, (tr', _, _)) =>
                let enc1 v := cont_eqb (edge_encroach h1 v) Inside in
                let enc2 v := cont_eqb (edge_encroach h2 v) Inside in
                let pending1 := if existsb enc1 vs then h1 :: pending' else pending' in
                let pending2 := if existsb enc2 vs then h2 :: pending1 else pending1 in
                loop_attempts fuel' (0%nat :: p) cs pending2 tr' (filter (fun v => enc1 v || enc2 v)%bool vs)
            | _ => []
            end
        end
    end.
  Definition segment_attempts (fuel : nat) (p : path) (tr : mesh) (e : edge ArithR) (vs : list pnt) (cs : list (edge ArithR)) : list attempt :=
    loop_attempts fuel p cs [e] tr vs.

  Fixpoint all_attempts (fuel : nat) (p : path) (cs : list (edge ArithR)) (em : list (edge ArithR * list pnt)) (tr : mesh) : list attempt :=
    match fuel with
    | O => []
    | Datatypes.S fuel' =>
        match ho H (1%nat :: p) _ (map fst em) with
        | [] => []
        | e :: _ =>
            match mget edec e em with
            | None => []
            | Some vs =>
                segment_attempts fuel' (2%nat :: p) tr e vs cs ++
                match unencroach_segment H fuel' (2%nat :: p) tr e vs cs bd hs with
                | Ok (tr', _, _, _, _) => all_attempts fuel' (0%nat :: p) cs (mdel edec e em) tr'
                | _ => []
                end
            end
        end
    end.
  Definition unencroach_attempts (fuel : nat) (p : path) (tr : mesh) (cs : list (edge ArithR)) : list attempt :=
    all_attempts fuel p cs (distribute_encroachments cs (trn_vertices tr) []) tr.

  Fixpoint enc_attempts (fuel : nat) (p : path) (prm : refine_params ArithR) (es : list (edge ArithR))
    (st : mesh * list pnt * list (edge ArithR) * list (edge ArithR * edge ArithR) * (list tri * list tri)) : list attempt :=
    match es with
    | [] => []
    | e :: es' =>
        (let '(tr, vs, cstr, _, _) := st in segment_attempts fuel (1%nat :: p) tr e vs cstr) ++
        match split_encroached H fuel prm bd hs (1%nat :: p) e st with
        | Ok st' => enc_attempts fuel (0%nat :: p) prm es' st'
        | _ => []
        end
    end.

  Fixpoint split_attempts (fuel : nat) (p : path) (prm : refine_params ArithR) (tr : mesh) (cstr : list (edge ArithR)) (sm : list (edge ArithR * edge ArithR))
    (irr lrg : list tri) : list attempt :=
    match fuel with
    | O => []
    | Datatypes.S fuel' =>
        let next :=
          match ho H (1%nat :: p) _ irr with
          | t :: _ => Some (t, hdel tdec t irr, lrg)
          | [] => match ho H (2%nat :: p) _ lrg with
                  | t :: _ => Some (t, irr, hdel tdec t lrg)
                  | [] => None
                  end
          end in
        match next with
        | None => []
        | Some (t, irr', lrg') =>
            Centre tr t ::
            match try_circumcenter H fuel' (3%nat :: p) tr t cstr bd hs with
            | Ok (tr', inl (inc, del)) =>
                match update_queues prm (irr', lrg') inc del with
                | Ok (irr'', lrg'') => split_attempts fuel' (0%nat :: p) prm tr' cstr sm irr'' lrg''
                | _ => []
                end
            | Ok (tr', inr enc) =>
                match tri_circumcenter t with
                | Some cc =>
                    let st := (tr', [cc], cstr, sm, (irr', lrg')) in
                    enc_attempts fuel' (4%nat :: p) prm (ho H (5%nat :: p) _ enc) st ++
                    match split_encroached_all H fuel' (4%nat :: p) prm bd hs (ho H (5%nat :: p) _ enc) st with
                    | Ok (tr'', _, cstr', sm', (irr'', lrg'')) => split_attempts fuel' (0%nat :: p) prm tr'' cstr' sm' irr'' lrg''
                    | _ => []
                    end
                | None => []
                end
            | _ => []
            end
        end
    end.
  Definition irregular_attempts (fuel : nat) (p : path) (prm : refine_params ArithR) (tr : mesh) (cs : list (edge ArithR)) : list attempt :=
    let solid := filter (fun t => negb (is_ghost t)) (tris tr) in
    match filterM (is_irregular prm) solid, filterM (is_large prm) solid with
    | Ok irr, Ok lrg => split_attempts fuel p prm tr cs [] irr lrg
    | _, _ => []
    end.
End Attempts.

Definition refine_attempts (H : HashOrder) (fuel : nat) (p : path) (t : triangulator ArithR) (prm : refine_params ArithR) : list attempt :=
  match refine_constraints t with
  | Ok cs =>
      unencroach_attempts H (Some (t_boundary t)) (t_holes t) fuel (1%nat :: p) (t_trn t) cs ++
      match unencroach H fuel (1%nat :: p) (t_trn t) cs (Some (t_boundary t)) (t_holes t) with
      | Ok (tr1, sm, _, _) => irregular_attempts H (Some (t_boundary t)) (t_holes t) fuel (2%nat :: p) prm tr1 (replace_split sm cs)
      | _ => []
      end
  | _ => []
  end.

(** The tolerances do not bite on the attempt: its point is told apart from the
    vertices of the mesh, a middle is on a side or well inside, a centre is well
    inside. *)
Definition sound_attempt (l : list pnt) (a : attempt) : Prop :=
  match a with
  | Middle tr w => resolved (w :: trn_vertices tr) /\ placed l w
  | Centre tr t => forall o, tri_circumcenter t = Some o -> resolved (o :: trn_vertices tr) /\ deep l o
  end.
