(** P_Refuted3.v — witnesses against claims about inner segments (binary64
    arithmetic): triangulating with two segments, refining with two segments. *)

From Coq Require Import List ZArith Bool.
From Verif Require Import Base Arith Geometry Elements Polyline Procedures Refine Triangulator
  Spec P_Base P_Trn P_Triangulator ArithF Samples P_Refuted P_Refuted2.
Import ListNotations.
Local Open Scope nat_scope.
Local Open Scope list_scope.

Definition orientb (a b c : vertex ArithF) (o : orient) : bool := orient_eqb (orientation a b c) o.
Definition edge_inb (e : edge ArithF) (tr : triangulation ArithF) : bool :=
  existsb (fun t => existsb (fun f => if edec e f then true else false) (inner_edges t)) (tris tr).
Lemma edge_inb_true : forall e tr, edge_inb e tr = true -> exists t, In t (tris tr) /\ side_of e t.
Proof.
  intros e tr E. apply existsb_exists in E. destruct E as (t & Ht & E). apply existsb_exists in E. destruct E as (f & Hf & E).
  destruct (edec e f) as [->|]; [|discriminate]. exists t. split; [exact Ht|apply side_of_inner, Hf].
Qed.
Lemma edge_inb_false : forall e tr, edge_inb e tr = false -> forall t, In t (tris tr) -> ~ side_of e t.
Proof.
  intros e tr E t Ht Hs. apply side_of_inner in Hs. unfold edge_inb in E. rewrite <- not_true_iff_false in E. apply E.
  apply existsb_exists. exists t. split; [exact Ht|]. apply existsb_exists. exists e. split; [exact Hs|]. destruct (edec e e); congruence.
Qed.
Definition bareb (q : vertex ArithF) (tr : triangulation ArithF) : bool :=
  forallb (fun t => is_ghost t || orientb (tv1 t) (tv2 t) q CW || orientb (tv2 t) (tv3 t) q CW || orientb (tv3 t) (tv1 t) q CW) (tris tr).
Lemma bareb_true : forall q tr, bareb q tr = true -> forall t, In t (tris tr) -> is_ghost t = false ->
  orientation (tv1 t) (tv2 t) q = CW \/ orientation (tv2 t) (tv3 t) q = CW \/ orientation (tv3 t) (tv1 t) q = CW.
Proof.
  intros q tr E t Ht G. unfold bareb in E. rewrite forallb_forall in E. specialize (E t Ht). rewrite G in E. cbn [orb] in E.
  apply orb_true_iff in E. destruct E as [E|E]; [apply orb_true_iff in E; destruct E as [E|E]|]; apply orient_eqb_eq in E; auto.
Qed.

(** ** C86 *)
Definition sq86 : polyline ArithF := Poly [pt 0 0; pt 20 0; pt 20 20; pt 0 20] false.
Definition flat86 : edge ArithF := (pt 8 10, pt 14 10).
Definition steep86 : edge ArithF := (pt 5 12, pt 10 5).
Definition hex86 : polyline ArithF := Poly [pt 40 (-2); pt 24 26; pt (-8) 26; pt (-24) (-2); pt (-8) (-30); pt 24 (-30)] false.
Definition long86 : edge ArithF := (pt 0 0, pt 16 0).
Definition slant86 : edge ArithF := (pt (-2) 1, pt 10 (-7)).


Lemma segment_lost : exists H H' fuel p (b : polyline ArithF) s1 s2 q t1 t2 t1' t2',
  orientation (fst s2) (snd s2) (fst s1) = CCW /\ orientation (fst s2) (snd s2) (snd s1) = CCW /\
  insert_segments H fuel p (triangulator_new b) [s1; s2] = Ok (t1, RFine) /\ triangulate H fuel p t1 = Ok t2 /\
  insert_segments H' fuel p (triangulator_new b) [s1; s2] = Ok (t1', RFine) /\ triangulate H' fuel p t1' = Ok t2' /\
  (forall t, In t (tris (t_trn t2)) -> ~ side_of s2 t /\ ~ side_of (flip s2) t) /\
  poly_contains b q = Ok (Some Inside) /\
  (forall t, In t (tris (t_trn t2)) -> is_ghost t = false ->
     orientation (tv1 t) (tv2 t) q = CW \/ orientation (tv2 t) (tv3 t) q = CW \/ orientation (tv3 t) (tv1 t) q = CW) /\
  exists t t', In t (tris (t_trn t2')) /\ side_of s1 t /\ In t' (tris (t_trn t2')) /\ side_of s2 t'.
Proof.
  assert (Hb : okb (insert_segments ho_id 80 [] (triangulator_new sq86) [flat86; steep86]) (fun '(t1, r1) => fineb r1 &&
    okb (triangulate ho_id 80 [] t1) (fun t2 => negb (edge_inb steep86 (t_trn t2)) && negb (edge_inb (flip steep86) (t_trn t2)) && bareb (pt 2 10) (t_trn t2))) = true)
    by (vm_compute; reflexivity).
  assert (Hg : okb (insert_segments ho_rev 80 [] (triangulator_new sq86) [flat86; steep86]) (fun '(t1, r1) => fineb r1 &&
    okb (triangulate ho_rev 80 [] t1) (fun t2 => edge_inb flat86 (t_trn t2) && edge_inb steep86 (t_trn t2))) = true)
    by (vm_compute; reflexivity).
  assert (Ho : orientb (fst steep86) (snd steep86) (fst flat86) CCW && orientb (fst steep86) (snd steep86) (snd flat86) CCW = true) by (vm_compute; reflexivity).
  assert (Hq : okb (poly_contains sq86 (pt 2 10)) (fun o => match o with Some Inside => true | _ => false end) = true) by (vm_compute; reflexivity).
  apply andb_true_iff in Ho. destruct Ho as [O1 O2]. apply orient_eqb_eq in O1, O2.
  apply okb_ok in Hb. destruct Hb as ([t1 r1] & H1 & E1). apply andb_true_iff in E1. destruct E1 as [F1 E1]. apply fineb_fine in F1. subst r1.
  apply okb_ok in E1. destruct E1 as (t2 & H2 & E2). apply andb_true_iff in E2. destruct E2 as [E2 E3]. apply andb_true_iff in E2. destruct E2 as [N1 N2].
  apply negb_true_iff in N1, N2.
  apply okb_ok in Hg. destruct Hg as ([t1' r1] & H1' & E1'). apply andb_true_iff in E1'. destruct E1' as [F1 E1']. apply fineb_fine in F1. subst r1.
  apply okb_ok in E1'. destruct E1' as (t2' & H2' & E2'). apply andb_true_iff in E2'. destruct E2' as [I1 I2].
  apply edge_inb_true in I1, I2. destruct I1 as (t & Ht & Hs). destruct I2 as (t' & Ht' & Hs').
  apply okb_ok in Hq. destruct Hq as (o & Hq & Eo). assert (o = Some Inside) by (destruct o as [[| |]|]; congruence). subst o.
  exists ho_id, ho_rev, 80, [], sq86, flat86, steep86, (pt 2 10), t1, t2, t1', t2'.
  repeat (split; [assumption|]). split; [intros u Hu; split; [exact (edge_inb_false _ _ N1 u Hu)|exact (edge_inb_false _ _ N2 u Hu)]|].
  split; [exact Hq|]. split; [exact (bareb_true _ _ E3)|]. exists t, t'. auto.
Qed.

Definition panicb {X} (r : res X) : bool := match r with Panic => true | _ => false end.
Lemma panicb_true : forall X (r : res X), panicb r = true -> r = Panic.
Proof. intros X [| |] E; try discriminate. reflexivity. Qed.

Lemma segments_panic : exists H fuel p (b : polyline ArithF) s1 s2 t1,
  orientation (fst s2) (snd s2) (fst s1) = CCW /\ orientation (fst s2) (snd s2) (snd s1) = CCW /\
  insert_segments H fuel p (triangulator_new b) [s1; s2] = Ok (t1, RFine) /\ triangulate H fuel p t1 = Panic.
Proof.
  assert (Hb : okb (insert_segments ho_id 80 [] (triangulator_new hex86) [long86; slant86]) (fun '(t1, r1) => fineb r1 && panicb (triangulate ho_id 80 [] t1)) = true)
    by (vm_compute; reflexivity).
  assert (Ho : orientb (fst slant86) (snd slant86) (fst long86) CCW && orientb (fst slant86) (snd slant86) (snd long86) CCW = true) by (vm_compute; reflexivity).
  apply andb_true_iff in Ho. destruct Ho as [O1 O2]. apply orient_eqb_eq in O1, O2.
  apply okb_ok in Hb. destruct Hb as ([t1 r1] & H1 & E1). apply andb_true_iff in E1. destruct E1 as [F1 E1]. apply fineb_fine in F1. subst r1. apply panicb_true in E1.
  exists ho_id, 80, [], hex86, long86, slant86, t1. auto.
Qed.

(** ** C87 *)
Definition hex87 : polyline ArithF := Poly [pt 52 (-1); pt 28 41; pt (-20) 41; pt (-44) (-1); pt (-20) (-43); pt 28 (-43)] false.
Definition upper87 : edge ArithF := (pt 0 0, pt 16 0).
Definition lower87 : edge ArithF := (pt (-8) (-3), pt 16 (-3)).
Definition near87 : vertex ArithF := pt 8 1.
Definition prm87 : refine_params ArithF := RP (A:=ArithF) None (fpz 1000).
Definition ccwb (t : triangle ArithF) : bool := is_ghost t || orientb (tv1 t) (tv2 t) (tv3 t) CCW.

Lemma refine_loses : exists H fuel p (b : polyline ArithF) s1 s2 v prm t1 t2 t3 t4 cs e,
  insert_segments H fuel p (triangulator_new b) [s1; s2] = Ok (t1, RFine) /\ insert_vertices H p t1 [v] = Ok (t2, RFine) /\ triangulate H fuel p t2 = Ok t3 /\
  (forall t, In t (tris (t_trn t3)) -> is_ghost t = false -> orientation (tv1 t) (tv2 t) (tv3 t) = CCW) /\
  (exists t t', In t (tris (t_trn t3)) /\ side_of s1 t /\ In t' (tris (t_trn t3)) /\ side_of s2 t') /\
  refine H fuel p t3 prm = Ok (t4, cs) /\ In e cs /\ fst e = fst s1 /\ snd e = edge_midpoint s1 /\
  (forall t, In t (tris (t_trn t4)) -> ~ side_of e t /\ ~ side_of (flip e) t).
Proof.
  pose (e := (fst upper87, edge_midpoint upper87) : edge ArithF).
  assert (Hb : okb (insert_segments (ho_seed 1) 120 [] (triangulator_new hex87) [upper87; lower87]) (fun '(t1, r1) => fineb r1 &&
    okb (insert_vertices (ho_seed 1) [] t1 [near87]) (fun '(t2, r2) => fineb r2 &&
      okb (triangulate (ho_seed 1) 120 [] t2) (fun t3 => forallb ccwb (tris (t_trn t3)) && edge_inb upper87 (t_trn t3) && edge_inb lower87 (t_trn t3) &&
        okb (refine (ho_seed 1) 120 [] t3 prm87) (fun '(t4, cs) => hmem edec e cs && negb (edge_inb e (t_trn t4)) && negb (edge_inb (flip e) (t_trn t4)))))) = true)
    by (vm_compute; reflexivity).
  apply okb_ok in Hb. destruct Hb as ([t1 r1] & H1 & E1). apply andb_true_iff in E1. destruct E1 as [F1 E1]. apply fineb_fine in F1. subst r1.
  apply okb_ok in E1. destruct E1 as ([t2 r2] & H2 & E2). apply andb_true_iff in E2. destruct E2 as [F2 E2]. apply fineb_fine in F2. subst r2.
  apply okb_ok in E2. destruct E2 as (t3 & H3 & E3). apply andb_true_iff in E3. destruct E3 as [E3 E4]. apply andb_true_iff in E3. destruct E3 as [E3 I2].
  apply andb_true_iff in E3. destruct E3 as [E3 I1]. apply edge_inb_true in I1, I2. destruct I1 as (t & Ht & Hs). destruct I2 as (t' & Ht' & Hs').
  apply okb_ok in E4. destruct E4 as ([t4 cs] & H4 & E4). apply andb_true_iff in E4. destruct E4 as [E4 N2].
  apply andb_true_iff in E4. destruct E4 as [Hm N1]. apply hmem_In in Hm. apply negb_true_iff in N1, N2.
  exists (ho_seed 1), 120, [], hex87, upper87, lower87, near87, prm87, t1, t2, t3, t4, cs, e.
  split; [assumption|]. split; [assumption|]. split; [assumption|].
  split. { intros u Hu G. rewrite forallb_forall in E3. specialize (E3 u Hu). unfold ccwb in E3. rewrite G in E3. apply orient_eqb_eq in E3. exact E3. }
  split; [exists t, t'; auto|]. split; [assumption|]. split; [assumption|]. split; [reflexivity|]. split; [reflexivity|].
  intros u Hu; split; [exact (edge_inb_false _ _ N1 u Hu)|exact (edge_inb_false _ _ N2 u Hu)].
Qed.

Lemma refine_panics : exists H fuel p (b : polyline ArithF) s1 s2 v prm t1 t2 t3,
  insert_segments H fuel p (triangulator_new b) [s1; s2] = Ok (t1, RFine) /\ insert_vertices H p t1 [v] = Ok (t2, RFine) /\ triangulate H fuel p t2 = Ok t3 /\
  (forall t, In t (tris (t_trn t3)) -> is_ghost t = false -> orientation (tv1 t) (tv2 t) (tv3 t) = CCW) /\
  (exists t t', In t (tris (t_trn t3)) /\ side_of s1 t /\ In t' (tris (t_trn t3)) /\ side_of s2 t') /\
  refine H fuel p t3 prm = Panic.
Proof.
  assert (Hb : okb (insert_segments ho_id 120 [] (triangulator_new hex87) [upper87; lower87]) (fun '(t1, r1) => fineb r1 &&
    okb (insert_vertices ho_id [] t1 [near87]) (fun '(t2, r2) => fineb r2 &&
      okb (triangulate ho_id 120 [] t2) (fun t3 => forallb ccwb (tris (t_trn t3)) && edge_inb upper87 (t_trn t3) && edge_inb lower87 (t_trn t3) &&
        panicb (refine ho_id 120 [] t3 prm87)))) = true)
    by (vm_compute; reflexivity).
  apply okb_ok in Hb. destruct Hb as ([t1 r1] & H1 & E1). apply andb_true_iff in E1. destruct E1 as [F1 E1]. apply fineb_fine in F1. subst r1.
  apply okb_ok in E1. destruct E1 as ([t2 r2] & H2 & E2). apply andb_true_iff in E2. destruct E2 as [F2 E2]. apply fineb_fine in F2. subst r2.
  apply okb_ok in E2. destruct E2 as (t3 & H3 & E3). apply andb_true_iff in E3. destruct E3 as [E3 E4]. apply andb_true_iff in E3. destruct E3 as [E3 I2].
  apply andb_true_iff in E3. destruct E3 as [E3 I1]. apply edge_inb_true in I1, I2. destruct I1 as (t & Ht & Hs). destruct I2 as (t' & Ht' & Hs').
  apply panicb_true in E4. exists ho_id, 120, [], hex87, upper87, lower87, near87, prm87, t1, t2, t3.
  split; [assumption|]. split; [assumption|]. split; [assumption|].
  split. { intros u Hu G. rewrite forallb_forall in E3. specialize (E3 u Hu). unfold ccwb in E3. rewrite G in E3. apply orient_eqb_eq in E3. exact E3. }
  split; [exists t, t'; auto|]. assumption.
Qed.
