(** P_Refuted.v — witnesses against claims that are false of the code.  All runs
    use binary64 arithmetic. *)

From Coq Require Import String List ZArith Bool.
From Verif Require Import Base Arith Geometry Elements Polyline Procedures Refine Triangulator Interface
  Spec P_Base P_Trn P_Triangulator ArithF Samples.
Import ListNotations.
Local Open Scope nat_scope.
Local Open Scope list_scope.

Definition fineb {E} (r : result E) : bool := match r with RFine => true | RErr _ => false end.
Lemma fineb_fine : forall E (r : result E), fineb r = true -> r = RFine.
Proof. intros E [|e] Hr; [reflexivity|discriminate]. Qed.

Lemma v_neq : forall v w : vertex ArithF, (if vdec v w then true else false) = false -> v <> w.
Proof. intros v w. destruct (vdec v w); congruence. Qed.

(** ** C15 *)
Definition near0 : vertex ArithF := pt 0 0.
Definition near1 : vertex ArithF := ptq 1 140737488355328 0 1.
Definition near2 : vertex ArithF := ptq 1 70368744177664 0 1.

Lemma eq_without_same_hash : exists v w : vertex ArithF,
  veqb v w = true /\ v <> w /\ hset vdec [v; w] = [v; w].
Proof.
  exists near0, near1. assert (Hn : near0 <> near1) by (apply v_neq; vm_compute; reflexivity).
  split; [vm_compute; reflexivity|]. split; [exact Hn|].
  apply hset_NoDup_id. constructor; [|constructor; [intros []|constructor]].
  intros [He|[]]. apply Hn. symmetry. exact He.
Qed.

Lemma eq_not_transitive : exists u v w : vertex ArithF,
  veqb u v = true /\ veqb v w = true /\ veqb u w = false.
Proof. exists near0, near1, near2. repeat split; vm_compute; reflexivity. Qed.

(** ** C16 *)
Lemma sort_unsorted : exists l r : list (vertex ArithF),
  vertex_sort l = Ok r /\
  exists v w rest, r = v :: w :: rest /\ flt (vx w) (vx v) = true.
Proof.
  exists [pt 1 5; pt 2 0].
  assert (Hb : okb (vertex_sort [pt 1 5; pt 2 0])
    (fun r => match r with v :: w :: _ => flt (vx w) (vx v) | _ => false end) = true) by (vm_compute; reflexivity).
  apply okb_ok in Hb. destruct Hb as (r & Hr & Hx). exists r. split; [exact Hr|].
  destruct r as [|v [|w rest]]; [discriminate Hx|discriminate Hx|]. exists v, w, rest. auto.
Qed.

(** ** C21, C45 *)
Definition seg_in : edge ArithF := (pt 5 5, pt 10 5).
Lemma continence_directed : exists fuel (p q : polyline ArithF),
  proper_closed p /\ proper q /\
  poly_continence fuel p q = Ok (Some (Inside, Open)) /\
  poly_continence fuel p (Poly (rev (pverts q)) (popened q)) = Ok (Some (Inside, Closed)).
Proof.
  exists 30, big_square, (as_poly seg_in). split; [reflexivity|]. split; [right; reflexivity|].
  assert (H1 : okb (poly_continence 30 big_square (as_poly seg_in)) (fun o => continence_is o Inside Open) = true)
    by (vm_compute; reflexivity).
  assert (H2 : okb (poly_continence 30 big_square (Poly (rev (pverts (as_poly seg_in))) (popened (as_poly seg_in))))
    (fun o => continence_is o Inside Closed) = true) by (vm_compute; reflexivity).
  apply okb_ok in H1. destruct H1 as (o1 & H1 & E1). apply okb_ok in H2. destruct H2 as (o2 & H2 & E2).
  apply continence_is_eq in E1. apply continence_is_eq in E2. subst o1 o2. split; [exact H1|exact H2].
Qed.

Lemma insert_directed : exists H fuel p (t : triangulator ArithF) s t1 t2 bad,
  insert_segments H fuel p t [s] = Ok (t1, RFine) /\
  insert_segments H fuel p t [flip s] = Ok (t2, RErr bad).
Proof.
  exists ho_id, 30, [], domain0, seg_in.
  assert (H1 : okb (insert_segments ho_id 30 [] domain0 [seg_in]) (fun x => fineb (snd x)) = true) by (vm_compute; reflexivity).
  assert (H2 : okb (insert_segments ho_id 30 [] domain0 [flip seg_in]) (fun x => negb (fineb (snd x))) = true)
    by (vm_compute; reflexivity).
  apply okb_ok in H1. destruct H1 as ([t1 r1] & H1 & E1). apply okb_ok in H2. destruct H2 as ([t2 r2] & H2 & E2).
  destruct r1 as [|b1]; [|discriminate E1]. destruct r2 as [|b2]; [discriminate E2|].
  exists t1, t2, b2. split; [exact H1|exact H2].
Qed.

(** ** C42 *)
Lemma zero_length_segment : exists H fuel p (t : triangulator ArithF) ss t' v,
  t_segments t = [] /\ (forall s, In s ss -> veqb (fst s) (snd s) = false) /\
  insert_segments H fuel p t ss = Ok (t', RFine) /\ In (v, v) (t_segments t').
Proof.
  exists ho_id, 50, [], (with_vertices domain0 [pt 2 2]), [(pt 2 2, pt 5 5)].
  assert (H1 : okb (insert_segments ho_id 50 [] (with_vertices domain0 [pt 2 2]) [(pt 2 2, pt 5 5)])
    (fun x => fineb (snd x) && hmem edec (pt 2 2, pt 2 2) (t_segments (fst x))) = true) by (vm_compute; reflexivity).
  apply okb_ok in H1. destruct H1 as ([t1 r1] & H1 & E1). apply andb_true_iff in E1. destruct E1 as [E1 E2].
  apply fineb_fine in E1. cbn in E1. subst r1. exists t1, (pt 2 2).
  split; [reflexivity|]. split; [|split; [exact H1|apply hmem_In in E2; exact E2]].
  intros s [<-|[]]. vm_compute. reflexivity.
Qed.

(** ** C44 *)
Lemma hole_over_vertex : exists H p fuel (t : triangulator ArithF) v h t1 t2,
  insert_vertices H p t [v] = Ok (t1, RFine) /\ insert_hole fuel t1 h = Ok (t2, RFine) /\
  In v (t_vertices t2) /\ poly_contains h v = Ok (Some Inside).
Proof.
  exists ho_id, [], 50, domain0, (pt 5 5), small_hole.
  assert (Hb : okb (insert_vertices ho_id [] domain0 [pt 5 5]) (fun x => fineb (snd x) &&
      okb (insert_hole 50 (fst x) small_hole) (fun y => fineb (snd y) && hmem vdec (pt 5 5) (t_vertices (fst y)))) = true)
    by (vm_compute; reflexivity).
  apply okb_ok in Hb. destruct Hb as ([t1 r1] & H1 & E1). apply andb_true_iff in E1. destruct E1 as [E1 E2].
  apply fineb_fine in E1. cbn in E1. subst r1. apply okb_ok in E2. destruct E2 as ([t2 r2] & H2 & E2).
  apply andb_true_iff in E2. destruct E2 as [E2 E3]. apply fineb_fine in E2. cbn in E2. subst r2.
  exists t1, t2. split; [exact H1|]. split; [exact H2|]. split; [apply hmem_In in E3; exact E3|].
  assert (Hc : okb (contains_is small_hole (pt 5 5) Inside) (fun b => b) = true) by (vm_compute; reflexivity).
  apply okb_ok in Hc. destruct Hc as (b & Hc & ->). apply contains_is_ok in Hc. apply Hc. reflexivity.
Qed.

(** ** C46 *)
Definition t46 : triangle ArithF := Tri (pt 1 1) (pt 9 1) (pt 5 7).
Definition h46 : polyline ArithF := Poly [pt 4 2; pt 6 2; pt 6 5; pt 4 5] false.
Lemma only_last_hole_counts : exists H1 H2 fuel p (t : triangle ArithF) v h h',
  is_ghost t = false /\
  poly_continence fuel h (Poly [tri_center t; v] true) = Ok (Some (Inside, Open)) /\
  may_insert_triangle H1 fuel p t v None [h; h'] = Ok true /\
  may_insert_triangle H2 fuel p t v None [h; h'] = Ok false.
Proof.
  exists ho_id, ho_rev, 30, [], t46, (pt 5 4), h46, far_square.
  split; [reflexivity|].
  assert (H0 : okb (poly_continence 30 h46 (Poly [tri_center t46; pt 5 4] true))
    (fun o => continence_is o Inside Open) = true) by (vm_compute; reflexivity).
  assert (H1 : okb (may_insert_triangle ho_id 30 [] t46 (pt 5 4) None [h46; far_square]) (fun b => b) = true)
    by (vm_compute; reflexivity).
  assert (H2 : okb (may_insert_triangle ho_rev 30 [] t46 (pt 5 4) None [h46; far_square]) negb = true)
    by (vm_compute; reflexivity).
  apply okb_ok in H0. destruct H0 as (o & H0 & E0). apply continence_is_eq in E0. subst o.
  apply okb_ok in H1. destruct H1 as (b1 & H1 & ->).
  apply okb_ok in H2. destruct H2 as (b2 & H2 & E2). destruct b2; [discriminate E2|]. auto.
Qed.

(** ** C50 *)
Definition bad_quality (prm : refine_params ArithF) (t : triangle ArithF) : bool :=
  negb (is_ghost t) && match quality t with Some q => fle (quality_ratio prm) q | None => false end.
Lemma target_missed : exists H fuel p b vs prm (t0 t1 t2 : triangulator ArithF) cs x q,
  proper_closed b /\
  insert_vertices H p (triangulator_new b) vs = Ok (t0, RFine) /\
  triangulate H fuel p t0 = Ok t1 /\ refine H fuel p t1 prm = Ok (t2, cs) /\
  In x (tris (t_trn t2)) /\ is_ghost x = false /\ quality x = Some q /\ fle (quality_ratio prm) q = true.
Proof.
  pose (prm := RP (A:=ArithF) None (fpz 1)).
  assert (Hb : okb (insert_vertices ho_id [] domain0 [pt 3 4]) (fun x => fineb (snd x) &&
      okb (triangulate ho_id 40 [] (fst x)) (fun t1 => okb (refine ho_id 40 [] t1 prm)
        (fun y => existsb (bad_quality prm) (tris (t_trn (fst y)))))) = true) by (vm_compute; reflexivity).
  apply okb_ok in Hb. destruct Hb as ([t0 r0] & H0 & E0). apply andb_true_iff in E0. destruct E0 as [E0 E1].
  apply fineb_fine in E0. cbn [snd fst] in *. subst r0.
  apply okb_ok in E1. destruct E1 as (t1 & H1 & E1). apply okb_ok in E1. destruct E1 as ([t2 cs] & H2 & E2).
  apply existsb_exists in E2. destruct E2 as (x & Hx & Eq). cbn [fst] in Hx. unfold bad_quality in Eq.
  apply andb_true_iff in Eq. destruct Eq as [Eg Eq]. apply negb_true_iff in Eg.
  destruct (quality x) as [q|] eqn:Hq; [|discriminate Eq].
  exists ho_id, 40, [], big_square, [pt 3 4], prm, t0, t1, t2, cs, x, q.
  split; [reflexivity|]. repeat (split; [assumption|]). exact Eq.
Qed.

(** ** C51 *)
Lemma unencroach_misreports : exists H fuel p (t0 t1 : triangulator ArithF) cs tr sm del x,
  triangulate H fuel p t0 = Ok t1 /\ refine_constraints t1 = Ok cs /\
  unencroach H fuel p (t_trn t1) cs (Some (t_boundary t1)) (t_holes t1) = Ok (tr, sm, [], del) /\
  In x (tris tr) /\ ~ In x (tris (t_trn t1)).
Proof.
  pose (t0 := with_vertices domain0 [pt 1 5]).
  assert (Hb : okb (triangulate ho_id 40 [] t0) (fun t1 => okb (refine_constraints t1) (fun cs =>
      okb (unencroach ho_id 40 [] (t_trn t1) cs (Some (t_boundary t1)) (t_holes t1))
        (fun '(tr, sm, inc, del) => match inc with [] => true | _ => false end &&
           existsb (fun x => negb (hmem tdec x (tris (t_trn t1)))) (tris tr)))) = true) by (vm_compute; reflexivity).
  apply okb_ok in Hb. destruct Hb as (t1 & H1 & E1). apply okb_ok in E1. destruct E1 as (cs & H2 & E2).
  apply okb_ok in E2. destruct E2 as ([[[tr sm] inc] del] & H3 & E3). apply andb_true_iff in E3. destruct E3 as [E3 E4].
  destruct inc; [|discriminate E3]. apply existsb_exists in E4. destruct E4 as (x & Hx & Ex).
  apply negb_true_iff in Ex. apply hmem_false in Ex.
  exists ho_id, 40, [], t0, t1, cs, tr, sm, del, x. repeat (split; [assumption|]). exact Ex.
Qed.

(** ** C52 *)
Lemma output_index_wrong : exists H p (t : triangle ArithF) cs i j k x y,
  output H p (incl_tri t trn_new) = Ok (cs, [(i, j, k)]) /\
  nth_error cs i = Some (x, y) /\ veqb (mkv x y) (tv1 t) = false.
Proof.
  assert (Hb : okb (output ho_id [] (incl_tri t46 trn_new)) (fun '(cs, l) =>
     match l with [(i, _, _)] => match nth_error cs i with
        | Some (x, y) => negb (veqb (mkv x y) (tv1 t46)) | None => false end | _ => false end) = true)
    by (vm_compute; reflexivity).
  apply okb_ok in Hb. destruct Hb as ([cs l] & H1 & E1).
  destruct l as [|[[i j] k] [|? ?]]; [discriminate E1| |discriminate E1].
  destruct (nth_error cs i) as [[x y]|] eqn:Hn; [|discriminate E1]. apply negb_true_iff in E1.
  exists ho_id, [], t46, cs, i, j, k, x, y. auto.
Qed.

(** ** C55 *)
Definition panics {X} (r : res X) : bool := match r with Panic => true | _ => false end.
Lemma panics_eq : forall X (r : res X), panics r = true -> r = Panic.
Proof. intros X [x| |] Hr; [discriminate Hr|reflexivity|discriminate Hr]. Qed.
Definition two_points : list (sf * sf) := [point_of 0 0; point_of 1 0].
Definition act_polyline : action ArithF := Act (A:=ArithF) "include" "polyline" [] two_points [].
Definition act_segments : action ArithF := Act (A:=ArithF) "constraint" "segments" [] two_points [[0; 2]].
Definition act_circle : action ArithF := Act (A:=ArithF) "include" "circle" [fpz 1; fpz 2] [point_of 0 0] [].
Lemma parsers_panic : exists fuel q (a1 a2 a3 : action ArithF),
  a_geometry a1 = "polyline"%string /\ a_points a1 <> [] /\ interpret fuel (Inp [a1] None q) = Panic /\
  a_geometry a2 = "segments"%string /\ interpret fuel (Inp [a2] None q) = Panic /\
  a_geometry a3 = "circle"%string /\ interpret fuel (Inp [a3] None q) = Panic.
Proof.
  exists 50, (fpz 1), act_polyline, act_segments, act_circle.
  split; [reflexivity|]. split; [intros Hn; discriminate Hn|].
  split; [apply panics_eq; vm_compute; reflexivity|].
  split; [reflexivity|]. split; [apply panics_eq; vm_compute; reflexivity|].
  split; [reflexivity|]. apply panics_eq; vm_compute; reflexivity.
Qed.

(** ** C56 *)
Definition rem1 : polyline ArithF := Poly [pt 4 4; pt 6 4; pt 6 6; pt 4 6] false.
Definition rem2 : polyline ArithF := Poly [pt 5 5; pt 7 5; pt 7 7; pt 5 7] false.
Definition act_of (intent : string) (l : list (Z * Z)) : action ArithF :=
  Act (A:=ArithF) intent "polyline" [] (map (fun q => point_of (fst q) (snd q)) l) [].
Definition inp56 : input ArithF := Inp
  [ act_of "include" [(0, 0); (10, 0); (10, 10); (0, 10)]%Z;
    act_of "remove" [(4, 4); (6, 4); (6, 6); (4, 6)]%Z;
    act_of "remove" [(5, 5); (7, 5); (7, 7); (5, 7)]%Z ] None (fpz 1).
Definition noneb {X} (o : option X) : bool := match o with None => true | Some _ => false end.
Definition someb {X} (o : option X) : bool := negb (noneb o).
Lemma removals_not_merged : exists H fuel p inp (b r1 r2 : polyline ArithF) hs u q h1 h2,
  poly_continence fuel b r1 = Ok (Some (Inside, Open)) /\
  poly_continence fuel b r2 = Ok (Some (Inside, Open)) /\
  poly_union H fuel p r1 r2 = Ok (Some (u, q)) /\
  domain_holes H fuel p b [r1; r2] = Ok hs /\
  In h1 hs /\ In h2 hs /\ h1 <> h2 /\ poly_continence fuel h1 h2 <> Ok (Some (Outside, Open)) /\
  i_actions inp = [act_of "include" [(0, 0); (10, 0); (10, 10); (0, 10)]%Z;
    act_of "remove" [(4, 4); (6, 4); (6, 6); (4, 6)]%Z; act_of "remove" [(5, 5); (7, 5); (7, 7); (5, 7)]%Z] /\
  parse H fuel p inp = Ok None.
Proof.
  assert (H1 : okb (poly_continence 60 big_square rem1) (fun o => continence_is o Inside Open) = true)
    by (vm_compute; reflexivity).
  assert (H2 : okb (poly_continence 60 big_square rem2) (fun o => continence_is o Inside Open) = true)
    by (vm_compute; reflexivity).
  assert (H3 : okb (poly_union ho_id 60 [] rem1 rem2) (fun o => match o with Some (u, _) =>
      okb (domain_holes ho_id 60 [] big_square [rem1; rem2])
        (fun hs => existsb (fun h1 => existsb (fun h2 => (if pdec h1 h2 then false else true) &&
           okb (poly_continence 60 h1 h2) (fun o => negb (continence_is o Outside Open))) hs) hs) | None => false end) = true)
    by (vm_compute; reflexivity).
  assert (H4 : okb (parse ho_id 60 [] inp56) noneb = true) by (vm_compute; reflexivity).
  apply okb_ok in H1. destruct H1 as (o1 & H1 & E1). apply continence_is_eq in E1. subst o1.
  apply okb_ok in H2. destruct H2 as (o2 & H2 & E2). apply continence_is_eq in E2. subst o2.
  apply okb_ok in H3. destruct H3 as (o3 & H3 & E3). destruct o3 as [[u q]|]; [|discriminate E3].
  apply okb_ok in E3. destruct E3 as (hs & H5 & E5).
  apply existsb_exists in E5. destruct E5 as (h1 & Hh1 & E5). apply existsb_exists in E5. destruct E5 as (h2 & Hh2 & E5).
  apply andb_true_iff in E5. destruct E5 as [E5 E6].
  apply okb_ok in E6. destruct E6 as (o6 & H6 & E6).
  apply okb_ok in H4. destruct H4 as (o4 & H4 & E4). destruct o4; [discriminate E4|].
  exists ho_id, 60, [], inp56, big_square, rem1, rem2, hs, u, q, h1, h2.
  repeat (split; [assumption|]). split; [destruct (pdec h1 h2); [discriminate E5|assumption]|].
  split; [rewrite H6; intros E; injection E as ->; discriminate E6|]. split; [reflexivity|]. exact H4.
Qed.

(** ** C61, C63 *)
Definition pts63 : list (vertex ArithF) := [pt 7 1; pt 6 0; pt 0 3; pt 5 6].
Definition all63 : list (vertex ArithF) := pt 0 5 :: pt 9 0 :: pts63.
Definition vneqb (v w : vertex ArithF) : bool := if vdec v w then false else true.
Lemma vneqb_neq : forall v w, vneqb v w = true <-> v <> w.
Proof.
  intros v w. unfold vneqb. destruct (vdec v w); split; intros Hn; try congruence.
Qed.
Definition no_three (l : list (vertex ArithF)) : bool :=
  forallb (fun x => forallb (fun y => forallb (fun z =>
    negb (vneqb x y && vneqb y z && vneqb x z) || negb (orient_eqb (orientation x y z) Colinear)) l) l) l.
Definition no_four (l : list (vertex ArithF)) : bool :=
  forallb (fun x => forallb (fun y => forallb (fun z => forallb (fun w =>
    negb (vneqb x y && vneqb y z && vneqb x z && vneqb w x && vneqb w y && vneqb w z)
    || negb (cont_eqb (encircles (Tri x y z) w) Boundary)) l) l) l) l.

Definition scattered (l : list (vertex ArithF)) : Prop :=
  (forall x y z, In x l -> In y l -> In z l -> x <> y -> y <> z -> x <> z -> orientation x y z <> Colinear) /\
  (forall x y z w, In x l -> In y l -> In z l -> In w l -> x <> y -> y <> z -> x <> z ->
     w <> x -> w <> y -> w <> z -> encircles (Tri x y z) w <> Boundary).

Lemma scattered_check : forall l, no_three l = true -> no_four l = true -> scattered l.
Proof.
  intros l H3 H4. split.
  - intros x y z Hx Hy Hz N1 N2 N3 E.
    unfold no_three in H3. rewrite forallb_forall in H3. specialize (H3 x Hx).
    rewrite forallb_forall in H3. specialize (H3 y Hy).
    rewrite forallb_forall in H3. specialize (H3 z Hz).
    apply vneqb_neq in N1, N2, N3. rewrite N1, N2, N3, E in H3. discriminate H3.
  - intros x y z w Hx Hy Hz Hw N1 N2 N3 N4 N5 N6 E.
    unfold no_four in H4. rewrite forallb_forall in H4. specialize (H4 x Hx).
    rewrite forallb_forall in H4. specialize (H4 y Hy).
    rewrite forallb_forall in H4. specialize (H4 z Hz).
    rewrite forallb_forall in H4. specialize (H4 w Hw).
    apply vneqb_neq in N1, N2, N3, N4, N5, N6. rewrite N1, N2, N3, N4, N5, N6, E in H4. discriminate H4.
Qed.

Lemma vertex_lost : exists H H' fuel p (a b : vertex ArithF) vs tr inc del tr' inc' del' v,
  scattered (a :: b :: vs) /\
  vertices_include H fuel p (from_initial_segment a b) vs [] None [] = Ok (tr, inc, del) /\
  vertices_include H' fuel p (from_initial_segment a b) vs [] None [] = Ok (tr', inc', del') /\
  In v vs /\ ~ In v (trn_vertices tr) /\
  forall w, In w vs -> In w (trn_vertices tr').
Proof.
  assert (Hs : scattered all63) by (apply scattered_check; vm_compute; reflexivity).
  assert (H1 : okb (vertices_include (ho_seed 5) 60 [] (from_initial_segment (pt 0 5) (pt 9 0)) pts63 [] None [])
    (fun '(tr, _, _) => existsb (fun v => negb (hmem vdec v (trn_vertices tr))) pts63) = true) by (vm_compute; reflexivity).
  assert (H2 : okb (vertices_include ho_id 60 [] (from_initial_segment (pt 0 5) (pt 9 0)) pts63 [] None [])
    (fun '(tr, _, _) => forallb (fun v => hmem vdec v (trn_vertices tr)) pts63) = true) by (vm_compute; reflexivity).
  apply okb_ok in H1. destruct H1 as ([[tr inc] del] & H1 & E1).
  apply okb_ok in H2. destruct H2 as ([[tr' inc'] del'] & H2 & E2).
  apply existsb_exists in E1. destruct E1 as (v & Hv & Ev). apply negb_true_iff in Ev. apply hmem_false in Ev.
  exists (ho_seed 5), ho_id, 60, [], (pt 0 5), (pt 9 0), pts63, tr, inc, del, tr', inc', del', v.
  split; [exact Hs|]. repeat (split; [assumption|]).
  intros w Hw. rewrite forallb_forall in E2. specialize (E2 w Hw). apply hmem_In in E2. exact E2.
Qed.

(** ** C64 *)
Definition sq64 : polyline ArithF := Poly [pt 0 0; pt 16 0; pt 16 16; pt 0 16] false.
Definition enc64 : list (vertex ArithF) := [ptq 1 1 1 2; ptq 15 1 1 2].
Lemma still_encroached : exists H fuel p (t0 t1 : triangulator ArithF) cs s vs tr vs' new inc del e v,
  triangulate H fuel p t0 = Ok t1 /\ refine_constraints t1 = Ok cs /\ In s cs /\
  (forall w, In w vs <-> In w (trn_vertices (t_trn t1)) /\ edge_encroach s w = Inside) /\
  unencroach_segment H fuel p (t_trn t1) s vs cs (Some (t_boundary t1)) (t_holes t1) = Ok (tr, vs', new, inc, del) /\
  In e new /\ In v vs /\ edge_encroach e v = Inside.
Proof.
  pose (t0 := with_vertices (triangulator_new sq64) enc64).
  pose (s := (pt 0 0, pt 16 0) : edge ArithF).
  assert (Hb : okb (triangulate ho_id 200 [] t0) (fun t1 => okb (refine_constraints t1) (fun cs => hmem edec s cs &&
     let vs := filter (fun w => cont_eqb (edge_encroach s w) Inside) (trn_vertices (t_trn t1)) in
      okb (unencroach_segment ho_id 200 [] (t_trn t1) s vs cs (Some (t_boundary t1)) (t_holes t1))
        (fun '(_, _, new, _, _) => existsb (fun e => existsb (fun v => cont_eqb (edge_encroach e v) Inside) vs) new))) = true)
    by (vm_compute; reflexivity).
  apply okb_ok in Hb. destruct Hb as (t1 & H1 & E1). apply okb_ok in E1. destruct E1 as (cs & H2 & E2).
  apply andb_true_iff in E2. destruct E2 as [E2 E3]. apply hmem_In in E2. cbv zeta in E3.
  apply okb_ok in E3. destruct E3 as ([[[[tr vs'] new] inc] del] & H3 & E3).
  apply existsb_exists in E3. destruct E3 as (e & He & E3). apply existsb_exists in E3. destruct E3 as (v & Hv & Ev).
  exists ho_id, 200, [], t0, t1, cs, s, (filter (fun w => cont_eqb (edge_encroach s w) Inside) (trn_vertices (t_trn t1))),
    tr, vs', new, inc, del, e, v.
  repeat (split; [assumption|]). split.
  - intros w. rewrite filter_In. split; intros [Hw Ew]; (split; [exact Hw|]).
    + destruct (edge_encroach s w); [reflexivity|discriminate Ew|discriminate Ew].
    + rewrite Ew. reflexivity.
  - repeat (split; [assumption|]). destruct (edge_encroach e v); [reflexivity|discriminate Ev|discriminate Ev].
Qed.

Lemma vertex_lost_alone : exists H fuel p (a b : vertex ArithF) vs tr inc del v,
  scattered (a :: b :: vs) /\
  vertices_include H fuel p (from_initial_segment a b) vs [] None [] = Ok (tr, inc, del) /\
  In v vs /\ ~ In v (trn_vertices tr).
Proof.
  destruct vertex_lost as (H & _ & fuel & p & a & b & vs & tr & inc & del & _ & _ & _ & v & Hs & H1 & _ & Hv & Hn & _).
  exists H, fuel, p, a, b, vs, tr, inc, del, v. auto.
Qed.
