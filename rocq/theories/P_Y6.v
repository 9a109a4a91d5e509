(** P_Y6.v — triangulating a polygon over any arithmetic that agrees with the
    real plane on its corners. *)

From Coq Require Import Reals List ZArith Lra Lia Bool Permutation.
From Verif Require Import Base Arith Geometry Elements Polyline Procedures Triangulator ArithR Spec SpecR SpecD SpecP SpecQ
  P_Base P_Trn P_Fuel P_Vertices P_Flood P_Cavity P_Contains P_Checks P_Fill2 P_R1 P_R2 P_R5 P_D3 P_D4 P_D5 P_D6 P_D7 P_Polygon P_Polygon3 P_L2 P_L3 P_Y1 P_Y2 P_Y5.
Import ListNotations.
Local Open Scope R_scope.

Section Stages.
  Context {A : Arith}.
  Notation vertex := (vertex A).
  Notation edge := (edge A).
  Definition sides (l : list vertex) : list edge := match l with [] => [] | a :: _ => consecutive (l ++ [a]) end.
  Lemma sides_edges : forall l, l <> [] -> into_edges (Poly l false) = Ok (sides l).
  Proof. intros [|a l] Hn; [congruence|]. unfold into_edges, poly_pairs. cbn [pverts popened]. rewrite vertex_pairs_closed. reflexivity. Qed.
  Lemma consecutive_ends : forall (l : list vertex) e, In e (consecutive l) -> In (fst e) l /\ In (snd e) l.
  Proof.
    induction l as [|a l IH]; intros e He; [destruct He|]. destruct l as [|b l]; [destruct He|].
    change (consecutive (a :: b :: l)) with ((a, b) :: consecutive (b :: l)) in He. destruct He as [<-|He]; [cbn; auto|].
    destruct (IH e He). split; right; assumption.
  Qed.
  Lemma sides_ends : forall (l : list vertex) e, In e (sides l) -> In (fst e) l /\ In (snd e) l.
  Proof.
    intros [|a l] e He; [destruct He|]. apply consecutive_ends in He. destruct He as [H1 H2].
    split; [apply in_app_or in H1; destruct H1 as [H1|[<-|[]]]|apply in_app_or in H2; destruct H2 as [H2|[<-|[]]]]; auto; left; reflexivity.
  Qed.

  Lemma stages : forall (H : HashOrder) p (t : triangulator A) l v1 v2 rest n1 tr1 inc del, only_polygon t l -> l = v1 :: v2 :: rest ->
    (forall fuel, (n1 <= fuel)%nat -> vertices_include H fuel (1%nat :: 1%nat :: p) (from_initial_segment v1 v2) l [] None [] = Ok (tr1, inc, del)) -> adj_complete tr1 ->
    exists n0 t', (forall fuel, (n0 <= fuel)%nat -> triangulate H fuel p t = Ok t') /\
      forall x, In x (tris (t_trn t')) <->
        (In x (tris tr1) /\ ~ swept (fun x => In x (tris tr1)) (map flip (sides l)) (map flip (sides l)) x) \/
        exists e, In e (sides l) /\ x = Tri (snd e) (fst e) ghost_vertex.
  Proof.
    intros H p t l v1 v2 rest n1 tr1 inc del [Eb Eh Es Ev] El Hi Hc.
    set (n := (1 + n1 + 4 * length (tris tr1))%nat).
    assert (Ee : into_edges (Poly l false) = Ok (sides l)) by (apply sides_edges; rewrite El; discriminate).
    destruct (boundary_include_total H n (1%nat :: p) (from_initial_segment v1 v2) (Poly l false) [] (sides l) tr1 inc del) as [tr' Hb].
    - apply initial_sound.
    - exact Ee.
    - apply Hi. unfold n. lia.
    - unfold n. lia.
    - assert (Ht : triangulate H n p t = Ok (with_triangulation t tr')).
      { unfold triangulate. rewrite Eb, Eh, Es, Ev. cbn [pverts]. replace (nth_error l 0) with (Some v1) by (rewrite El; reflexivity). replace (nth_error l 1) with (Some v2) by (rewrite El; reflexivity). cbn [unwrap bind]. cbn zeta.
        rewrite Hb. cbn [bind]. rewrite Ee. cbn [bind]. rewrite !ho_nil. cbn [include_holes include_segments bind].
        rewrite include_present; [reflexivity|unfold n; lia|intros v []]. }
      exists n, (with_triangulation t tr'). split; [intros fuel Hf; refine (rle_ok _ _ _ _ _ Ht); apply triangulate_mono; exact Hf|].
      destruct (boundary_include_spec H _ _ _ _ _ _ (initial_sound v1 v2) Hb) as (es & tr1' & inc' & del' & Hes & Hi' & Hs & _ & Hiff).
      rewrite Ee in Hes. injection Hes as <-. cbn [pverts] in Hi'. rewrite (Hi n) in Hi' by (unfold n; lia). injection Hi' as <- <- <-.
      apply Hiff, Hc.
  Qed.
End Stages.

Section Polygon.
  Context {A : Arith} (rd : vertex A -> pnt) (U : list (vertex A)).
  Hypothesis HA : agrees rd U.
  Notation vertex := (vertex A).
  Notation edge := (edge A).
  Notation triangle := (triangle A).
  Notation triangulation := (triangulation A).
  Notation gA := (ghost_vertex (A:=A)).
  Notation shows := (shows rd U).
  Notation rt := (rt rd).
  Notation re := (re rd).

  Lemma sides_map : forall l, polygon_sides (map rd l) = map re (sides l).
  Proof.
    assert (C : forall l, path_sides (map rd l) = map re (consecutive l)).
    { induction l as [|a l IH]; [reflexivity|]. destruct l as [|b l]; [reflexivity|].
      change (consecutive (a :: b :: l)) with ((a, b) :: consecutive (b :: l)). cbn [map].
      change (path_sides (rd a :: rd b :: map rd l)) with ((rd a, rd b) :: path_sides (map rd (b :: l))). rewrite IH. reflexivity. }
    intros [|a l]; [reflexivity|]. unfold sides. rewrite <- C, map_app. reflexivity.
  Qed.

  Section Sweep.
    Variables (tr1 : triangulation) (M1 : mesh) (es : list edge).
    Hypothesis Hsh : shows tr1 M1.
    Hypothesis Hes : forall e, In e es -> okv U (fst e) /\ okv U (snd e).
    Let s := fun x => In x (tris tr1).
    Let s' := fun x => In x (tris M1).
    Let F := map flip es.
    Let F' := map flip (map re es).

    Lemma F_re : F' = map re F.
    Proof. unfold F', F. rewrite !map_map. apply map_ext. intros e. symmetry. apply re_flip. Qed.
    Lemma F_ok : forall e, In e F -> okv U (fst e) /\ okv U (snd e).
    Proof. intros e He. apply in_map_iff in He. destruct He as ([a b] & <- & Hi). destruct (Hes _ Hi). split; assumption. Qed.
    Lemma F_in : forall e, okv U (fst e) -> okv U (snd e) -> (In e F <-> In (re e) F').
    Proof.
      intros e H1 H2. rewrite F_re. split; [apply in_map|]. intros Hi. apply in_map_iff in Hi. destruct Hi as (x & K & Hx). destruct (F_ok x Hx).
      apply (re_inj rd U (ag_ghost _ _ HA) (ag_plain _ _ HA) (ag_inj _ _ HA)) in K; auto. subst x. exact Hx.
    Qed.
    Lemma swept_in : forall x, swept s F F x -> s x.
    Proof. intros x Hx. inversion Hx; assumption. Qed.
    Lemma swept_in' : forall x, swept s' F' F' x -> s' x.
    Proof. intros x Hx. inversion Hx; assumption. Qed.
    Lemma shown : forall x, s x -> s' (rt x).
    Proof. intros x Hx. apply (sh_tris _ _ _ _ Hsh). eauto. Qed.
    Lemma swept_to : forall x, swept s F F x -> swept s' F' F' (rt x).
    Proof.
      intros x Hx. induction Hx as [e x He Hx Hs|e x y Hx IH Hs Hn Hy Hf].
      - apply swept_start with (e := re e); [rewrite F_re; apply in_map, He|apply shown, Hx|apply rt_side, Hs].
      - apply swept_next with (x := re e) (t := rt x); auto.
        + apply rt_side, Hs.
        + destruct (side_ok U x e) as [K1 K2]; [apply (sh_ok _ _ _ _ Hsh), swept_in, Hx|exact Hs|]. rewrite <- (F_in e K1 K2). exact Hn.
        + apply shown, Hy.
        + rewrite <- re_flip. apply rt_side, Hf.
    Qed.
    Lemma swept_from : forall y, swept s' F' F' y -> forall x, s x -> rt x = y -> swept s F F x.
    Proof.
      intros y Hy. induction Hy as [e y He Hy Hs|e z y Hz IH Hs Hn Hy Hf]; intros x Hx <-.
      - rewrite F_re in He. apply in_map_iff in He. destruct He as (e0 & <- & He). destruct (F_ok e0 He).
        apply swept_start with (e := e0); auto. apply (rt_side_iff rd U (ag_ghost _ _ HA) (ag_plain _ _ HA) (ag_inj _ _ HA)); auto. apply (sh_ok _ _ _ _ Hsh x Hx).
      - pose proof (swept_in' _ Hz) as Hz0. apply (sh_tris _ _ _ _ Hsh) in Hz0. destruct Hz0 as (z0 & Hz0 & <-).
        destruct (rt_side_inv rd z0 e Hs) as (e0 & Hs0 & <-). destruct (side_ok U z0 e0) as [K1 K2]; [apply (sh_ok _ _ _ _ Hsh z0 Hz0)|exact Hs0|].
        apply swept_next with (x := e0) (t := z0); auto.
        + rewrite (F_in e0 K1 K2). exact Hn.
        + rewrite <- re_flip in Hf. apply (rt_side_iff rd U (ag_ghost _ _ HA) (ag_plain _ _ HA) (ag_inj _ _ HA)) in Hf; auto; [apply (sh_ok _ _ _ _ Hsh x Hx)| |]; destruct e0; assumption.
    Qed.
    Lemma flood_shows : forall ts, (forall x, In x ts <-> (In x (tris tr1) /\ ~ swept s F F x) \/ exists e, In e es /\ x = Tri (snd e) (fst e) gA) ->
      forall y, In y (map rt ts) <-> (In y (tris M1) /\ ~ swept s' F' F' y) \/ exists e, In e (map re es) /\ y = Tri (snd e) (fst e) gv.
    Proof.
      intros ts Hts y. rewrite in_map_iff. split.
      - intros (x & <- & Hx). apply Hts in Hx. destruct Hx as [[Hx Hn]|(e & He & ->)].
        + left. split; [apply shown, Hx|]. intros K. apply Hn. exact (swept_from _ K x Hx eq_refl).
        + right. exists (re e). split; [apply in_map, He|]. unfold P_Y1.rt. cbn [tv1 tv2 tv3]. rewrite (ag_ghost _ _ HA). reflexivity.
      - intros [[Hy Hn]|(e & He & ->)].
        + apply (sh_tris _ _ _ _ Hsh) in Hy. destruct Hy as (x & Hx & <-). exists x. split; [reflexivity|]. apply Hts. left. split; [exact Hx|].
          intros K. apply Hn, swept_to, K.
        + apply in_map_iff in He. destruct He as (e0 & <- & He). exists (Tri (snd e0) (fst e0) gA). split; [|apply Hts; right; eauto].
          unfold P_Y1.rt. cbn [tv1 tv2 tv3]. rewrite (ag_ghost _ _ HA). reflexivity.
    Qed.
  End Sweep.

  Notation image tr := (Trn (map rt (tris tr)) []).

  (** What is left of the mesh after the sweep. *)
  Lemma polygon_image : forall (H : HashOrder) p (t : triangulator A) l v1 v2 rest n1 tr1 M1 inc del, only_polygon t l -> l = v1 :: v2 :: rest -> incl l U ->
    (forall fuel, (n1 <= fuel)%nat -> vertices_include H fuel (1%nat :: 1%nat :: p) (from_initial_segment v1 v2) l [] None [] = Ok (tr1, inc, del)) -> shows tr1 M1 ->
    exists n0 t', (forall fuel, (n0 <= fuel)%nat -> triangulate H fuel p t = Ok t') /\
      (forall x, In x (tris (t_trn t')) -> okt U x /\ (is_ghost x = false -> In x (tris tr1))) /\
      forall y, In y (tris (image (t_trn t'))) <-> (In y (tris M1) /\ ~ swept (fun x => In x (tris M1)) (map flip (polygon_sides (map rd l))) (map flip (polygon_sides (map rd l))) y) \/
        exists e, In e (polygon_sides (map rd l)) /\ y = Tri (snd e) (fst e) gv.
  Proof.
    intros H p t l v1 v2 rest n1 tr1 M1 inc del Ho El Hl Hi Hsh.
    assert (Hes : forall e, In e (sides l) -> okv U (fst e) /\ okv U (snd e)) by (intros e He; apply sides_ends in He; split; left; apply Hl, He).
    destruct (stages H p t l v1 v2 rest n1 tr1 inc del Ho El Hi (sh_complete _ _ _ _ Hsh)) as (n0 & t' & Hr & Hts).
    exists n0, t'. split; [exact Hr|]. split.
    - intros x Hx. apply Hts in Hx. destruct Hx as [[Hx _]|(e & He & ->)]; [split; [apply (sh_ok _ _ _ _ Hsh x Hx)|auto]|].
      destruct (Hes e He). split; [split; [assumption|split; [assumption|right; reflexivity]]|].
      intros G. exfalso. unfold is_ghost in G. cbn in G. rewrite !orb_true_r in G. discriminate.
    - cbn [tris]. rewrite sides_map. apply (flood_shows tr1 M1 (sides l) Hsh Hes). exact Hts.
  Qed.

  Lemma apart_rd : forall l, NoDup (map rd l) -> NoDup l.
  Proof. induction l as [|a l IH]; intros Hn; [constructor|]. inversion Hn as [|? ? Hx Hn']; subst. constructor; [intros K; apply Hx, in_map, K|auto]. Qed.

  Lemma three_solid : forall S (M : mesh) a b c rest, delaunay S M -> resolved S -> NoDup (a :: b :: c :: rest) -> incl (a :: b :: c :: rest) S -> exists u, In u (tris M) /\ solid_over S u.
  Proof.
    intros S M a b c rest HD HR Hnd Hin. destruct (flat_or_solid _ M HD (rs_plain _ HR)) as [Hs|(x & y & _ & _ & _ & _ & _ & Hall)]; [exact Hs|]. exfalso.
    pose proof (Hall a (Hin a ltac:(cbn; auto))) as H1. pose proof (Hall b (Hin b ltac:(cbn; auto))) as H2. pose proof (Hall c (Hin c ltac:(cbn; auto))) as H3.
    inversion Hnd as [|? ? Q1 Hnd1]; subst. inversion Hnd1 as [|? ? Q2 _]; subst. cbn [In] in Q1, Q2. clear -H1 H2 H3 Q1 Q2.
    assert (a <> b /\ a <> c /\ b <> c) by (repeat split; intros ->; tauto). destruct H1, H2, H3; intuition congruence.
  Qed.

  (** Convex polygons. *)
  Lemma convex_run : forall (H : HashOrder) p (t : triangulator A) l, only_polygon t l -> U = l -> NoDup (map rd l) -> (3 <= length l)%nat ->
    (forall a b w, In (a, b) (polygon_sides (map rd l)) -> In w (map rd l) -> w <> a -> w <> b -> 0 < area2 a b w) ->
    exists n0 t', (forall fuel, (n0 <= fuel)%nat -> triangulate H fuel p t = Ok t') /\
      (forall x, In x (tris (t_trn t')) -> okt U x) /\ fills (map rd l) (image (t_trn t')).
  Proof.
    intros H p t l Ho EU Hnd Hl Hc. pose proof (ag_res _ _ HA) as HR. rewrite EU in HR.
    assert (Ha : 0 < shoelace (polygon_sides (map rd l))) by (apply convex_area; auto; rewrite map_length; exact Hl).
    pose proof (polygon_position (map rd l) (rs_plain _ HR) Hc) as HP.
    assert (El : exists a b c rest, l = a :: b :: c :: rest) by (destruct l as [|a [|b [|c l]]]; cbn in Hl; try lia; eauto).
    destruct El as (a & b & c & rest & El). pose proof (apart_rd l Hnd) as HN.
    assert (Nab : a <> b) by (rewrite El in HN; inversion HN as [|? ? Hx _]; intros ->; apply Hx; left; reflexivity).
    assert (Hab : In a l /\ In b l) by (rewrite El; cbn; auto).
    destruct (P_Y5.include_convex rd U HA ltac:(rewrite EU; exact HP) H (1%nat :: 1%nat :: p) a b l) as (n1 & tr1 & M1 & inc & del & Hi & Hsh & HD); try rewrite EU; try tauto; [apply incl_refl|].
    apply (delaunay_incl _ (map rd l)) in HD; [|intros w; rewrite map_app, in_app_iff; cbn [map In]; split; [intros [K|[<-|[<-|[]]]]; auto; apply in_map; tauto|tauto]].
    destruct (polygon_image H p t l a b (c :: rest) n1 tr1 M1 inc del Ho El ltac:(rewrite EU; apply incl_refl) Hi Hsh) as (n0 & t' & Hr & Hok & Him).
    exists n0, t'. split; [exact Hr|]. split; [intros x Hx; rewrite <- EU; apply Hok, Hx|].
    apply (stage_fills (map rd l) (map rd l) M1); auto; try tauto.
    - intros x y Hxy. apply hull_free. intros w Hw. apply Hc; assumption.
    - apply (three_solid _ M1 (rd a) (rd b) (rd c) (map rd rest) HD HR); rewrite El in *; [exact Hnd|apply incl_refl].
  Qed.

  (** Polygons with free sides. *)
  Lemma free_run : forall (H : HashOrder) p (t : triangulator A) l, only_polygon t l -> U = l -> NoDup (map rd l) -> 0 < shoelace (polygon_sides (map rd l)) ->
    (forall a b, In (a, b) (polygon_sides (map rd l)) -> free_side (map rd l) a b) ->
    exists n0 t', (forall fuel, (n0 <= fuel)%nat -> triangulate H fuel p t = Ok t') /\
      (forall x, In x (tris (t_trn t')) -> okt U x) /\
      ((forall w, In w l -> exists u, In u (tris (t_trn t')) /\ is_ghost u = false /\ corner_of w u) -> fills (map rd l) (image (t_trn t'))).
  Proof.
    intros H p t l Ho EU Hnd Ha Hfr. pose proof (ag_res _ _ HA) as HR. rewrite EU in HR.
    assert (El : exists a b rest, l = a :: b :: rest).
    { destruct l as [|a [|b l]]; eauto; exfalso; unfold shoelace, polygon_sides, total in Ha; cbn in Ha; lra. }
    destruct El as (a & b & rest & El). pose proof (apart_rd l Hnd) as HN.
    assert (Nab : a <> b) by (rewrite El in HN; inversion HN as [|? ? Hx _]; intros ->; apply Hx; left; reflexivity).
    assert (Hab : In a U /\ In b U) by (rewrite EU, El; cbn; auto). destruct Hab as [HaU HbU].
    destruct (include_shows rd U HA H (1%nat :: 1%nat :: p) [a; b] (from_initial_segment a b) (from_initial_segment (rd a) (rd b)) l) as (n1 & tr1 & M1 & inc & del & ins & dr & Hi & Hsh & HD & Hp & _).
    { intros w Hw. apply in_app_or in Hw. destruct Hw as [Hw|[<-|[<-|[]]]]; auto. rewrite EU. exact Hw. }
    { exact HN. }
    { apply (initial_shows rd U HA); assumption. }
    { apply initial_delaunay; [apply (ag_plain _ _ HA a HaU)|apply (ag_plain _ _ HA b HbU)|]. intros K. apply Nab. apply (ag_inj _ _ HA); assumption. }
    destruct (polygon_image H p t l a b rest n1 tr1 M1 inc del Ho El ltac:(rewrite EU; apply incl_refl) Hi Hsh) as (n0 & t' & Hr & Hok & Him).
    exists n0, t'. split; [exact Hr|]. split; [intros x Hx; apply Hok, Hx|]. intros Hs.
    set (S := ins ++ [a; b]) in *.
    assert (HSl : incl S l).
    { intros w Hw. apply in_app_or in Hw. destruct Hw as [Hw|[<-|[<-|[]]]]; [|rewrite <- EU; exact HaU|rewrite <- EU; exact HbU].
      assert (K : In w (ins ++ dr)) by (apply in_or_app; left; exact Hw). apply (Permutation_in _ (Permutation_sym Hp)) in K. apply filter_In in K. apply K. }
    assert (HSU : incl S U) by (rewrite EU; exact HSl).
    assert (Hsol : forall u, In u (tris (t_trn t')) -> is_ghost u = false -> exists x y z, u = Tri x y z /\ In (rt u) (tris M1) /\ In x S /\ In y S /\ In z S /\ 0 < area2 (rd x) (rd y) (rd z)).
    { intros u Hu G. destruct (Hok u Hu) as [_ Hu1]. specialize (Hu1 G).
      destruct (tri_shape rd U (ag_ghost _ _ HA) (ag_plain _ _ HA) (ag_inj _ _ HA) S tr1 M1 HSU Hsh HD u Hu1) as [(x & y & z & -> & Hx & Hy & Hz & P)|(x & y & -> & _)].
      - exists x, y, z. repeat split; auto. apply (sh_tris _ _ _ _ Hsh). eauto.
      - unfold is_ghost in G. cbn in G. rewrite !orb_true_r in G. discriminate. }
    assert (Hall : forall w, In w l -> In w S).
    { intros w Hw. destruct (Hs w Hw) as (u & Hu & G & Hcw). destruct (Hsol u Hu G) as (x & y & z & -> & _ & Hx & Hy & Hz & _). inversion Hcw; subst; assumption. }
    apply (stage_fills (map rd l) (map rd S) M1); auto.
    - intros w. split; intros Hw; apply in_map_iff in Hw; destruct Hw as (x & <- & Hx); apply in_map; auto.
    - destruct (Hs a ltac:(rewrite <- EU; exact HaU)) as (u & Hu & G & _). destruct (Hsol u Hu G) as (x & y & z & -> & Hu1 & Hx & Hy & Hz & P).
      exists (rt (Tri x y z)). split; [exact Hu1|]. exists (rd x), (rd y), (rd z). repeat split; auto using in_map.
  Qed.
End Polygon.
