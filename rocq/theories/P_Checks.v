(** P_Checks.v — decidable tests that establish, on concrete data, the
    hypotheses of the theorems about triangulations; used by examples only. *)

From Coq Require Import List Bool Arith Lia.
From Verif Require Import Base Arith Geometry Elements Polyline Procedures Refine Spec P_Base P_Trn.
Import ListNotations.

Section Checks.
  Context {A : Arith}.
  Notation vertex := (vertex A).
  Notation edge := (edge A).
  Notation triangle := (triangle A).
  Notation triangulation := (triangulation A).

  Lemma initial_sound : forall v1 v2 : vertex, adj_sound (from_initial_segment v1 v2).
  Proof. intros v1 v2. apply adj_sound_incl, adj_sound_incl, adj_sound_new. Qed.

  Definition teqb (t t' : triangle) : bool := if tdec t t' then true else false.
  Lemma teqb_eq : forall t t', teqb t t' = true <-> t = t'.
  Proof. intros t t'. unfold teqb. destruct (tdec t t'); split; congruence. Qed.

  Definition adj_completeb (tr : triangulation) : bool :=
    forallb (fun t => forallb (fun e => match adj_get e tr with Some t' => teqb t' t | None => false end)
      (inner_edges t)) (tris tr).
  Lemma adj_completeb_ok : forall tr, adj_completeb tr = true -> adj_complete tr.
  Proof.
    intros tr Hb e t Ht He. unfold adj_completeb in Hb. rewrite forallb_forall in Hb. specialize (Hb t Ht).
    rewrite forallb_forall in Hb. apply side_of_inner in He. specialize (Hb e He).
    destruct (adj_get e tr) as [t'|]; [|discriminate]. apply teqb_eq in Hb. congruence.
  Qed.

  Definition adj_soundb (tr : triangulation) : bool :=
    forallb (fun et => hmem tdec (snd et) (tris tr) && hmem edec (fst et) (inner_edges (snd et))) (adj tr).
  Lemma adj_soundb_ok : forall tr, adj_soundb tr = true -> adj_sound tr.
  Proof.
    intros tr Hb e t Hg. unfold adj_get in Hg. apply mget_In in Hg. unfold adj_soundb in Hb.
    rewrite forallb_forall in Hb. specialize (Hb _ Hg). apply andb_true_iff in Hb. destruct Hb as [H1 H2].
    apply hmem_In in H1. apply hmem_In in H2. split; [exact H1|]. apply side_of_inner, H2.
  Qed.

  Definition separatedb (l : list vertex) : bool :=
    forallb (fun u => forallb (fun w => negb (veqb u w) || (if vdec u w then true else false)) l) l.
  Definition known_list (tr : triangulation) (req : list vertex) : list vertex := flat_map tverts (tris tr) ++ req.
  Lemma separatedb_ok : forall tr req, separatedb (known_list tr req) = true ->
    forall u w, known tr req u -> known tr req w -> veqb u w = true -> u = w.
  Proof.
    intros tr req Hb u w Hu Hw He. unfold separatedb in Hb. rewrite forallb_forall in Hb.
    assert (Hin : forall x, known tr req x -> In x (known_list tr req)).
    { intros x [(t & Ht & Hx)|Hx]; apply in_or_app; [left|right; exact Hx].
      apply in_flat_map. exists t. split; [exact Ht|]. apply corner_of_tverts, Hx. }
    specialize (Hb u (Hin u Hu)). rewrite forallb_forall in Hb. specialize (Hb w (Hin w Hw)).
    rewrite He in Hb. cbn in Hb. destruct (vdec u w); [assumption|discriminate].
  Qed.

  (** [L] contains everything that can be swept. *)
  Definition sweep_closedb (ts : list triangle) (es : list edge) (L : list triangle) : bool :=
    forallb (fun t => negb (existsb (fun e => hmem edec e es) (inner_edges t)) || hmem tdec t L) ts &&
    forallb (fun t => forallb (fun x => hmem edec x es ||
      forallb (fun t' => negb (hmem edec (flip x) (inner_edges t')) || hmem tdec t' L) ts) (inner_edges t)) L.
  Lemma sweep_closedb_ok : forall ts es L, sweep_closedb ts es L = true ->
    forall t, swept (fun t => In t ts) es es t -> In t L.
  Proof.
    intros ts es L Hb t Hw. apply andb_true_iff in Hb. destruct Hb as [H1 H2].
    rewrite forallb_forall in H1, H2. induction Hw as [e t He Ht Hs|x t t' Hw IH Hx Hn Ht' Hs].
    - specialize (H1 t Ht). apply orb_true_iff in H1. destruct H1 as [H1|H1]; [|apply hmem_In in H1; exact H1].
      apply negb_true_iff in H1. apply side_of_inner in Hs.
      assert (E : existsb (fun e => hmem edec e es) (inner_edges t) = true).
      { apply existsb_exists. exists e. split; [exact Hs|apply hmem_In, He]. }
      congruence.
    - specialize (H2 t IH). rewrite forallb_forall in H2. apply side_of_inner in Hx. specialize (H2 x Hx).
      apply orb_true_iff in H2. destruct H2 as [H2|H2]; [apply hmem_In in H2; contradiction|].
      rewrite forallb_forall in H2. specialize (H2 t' Ht'). apply side_of_inner, (hmem_In edec) in Hs. rewrite Hs in H2.
      cbn in H2. apply hmem_In in H2. exact H2.
  Qed.

  (** The side conditions of the theorem on holes. *)
  Definition hole_conditionsb (tr2 : triangulation) (es : list edge) (L : list triangle) : bool :=
    adj_completeb tr2 &&
    forallb (fun e => negb (if vdec (fst e) ghost_vertex then true else false)
                      && negb (if vdec (snd e) ghost_vertex then true else false)) es &&
    forallb (fun e => forallb (fun t => negb (hmem edec (snd e, ghost_vertex) (inner_edges t))
                      && negb (hmem edec (ghost_vertex, fst e) (inner_edges t))) (tris tr2)) es &&
    sweep_closedb (tris tr2) es L &&
    forallb (fun e => forallb (fun t => negb (hmem edec (flip e) (inner_edges t))) L) es &&
    forallb (fun t => negb (hmem vdec ghost_vertex (tverts t))) L.

  Definition hole_conditions (tr2 : triangulation) (es : list edge) : Prop :=
    let Sw := swept (fun t => In t (tris tr2)) es es in
    adj_complete tr2 /\
    (forall e, In e es -> fst e <> ghost_vertex /\ snd e <> ghost_vertex) /\
    (forall e t, In e es -> In t (tris tr2) ->
       ~ side_of (snd e, ghost_vertex) t /\ ~ side_of (ghost_vertex, fst e) t) /\
    (forall e t, In e es -> Sw t -> ~ side_of (flip e) t) /\
    (forall t, Sw t -> ~ corner_of ghost_vertex t).
  Lemma hole_conditionsb_ok : forall tr2 es L, hole_conditionsb tr2 es L = true -> hole_conditions tr2 es.
  Proof.
    intros tr2 es L Hb. unfold hole_conditionsb in Hb. rewrite !andb_true_iff in Hb.
    destruct Hb as [[[[[H1 H2] H3] H4] H5] H6]. rewrite forallb_forall in H2, H3, H5, H6.
    pose proof (sweep_closedb_ok _ _ _ H4) as HL. unfold hole_conditions. cbv zeta. split; [apply adj_completeb_ok, H1|]. split; [|split; [|split]].
    - intros e He. specialize (H2 e He). apply andb_true_iff in H2. destruct H2 as [Ha Hb].
      destruct (vdec (fst e) ghost_vertex); [discriminate|]. destruct (vdec (snd e) ghost_vertex); [discriminate|]. auto.
    - intros e t He Ht. specialize (H3 e He). rewrite forallb_forall in H3. specialize (H3 t Ht).
      apply andb_true_iff in H3. rewrite !negb_true_iff, !hmem_false in H3. rewrite !side_of_inner. exact H3.
    - intros e t He Ht Hs. specialize (H5 e He). rewrite forallb_forall in H5. specialize (H5 t (HL t Ht)).
      rewrite negb_true_iff, hmem_false in H5. apply H5, side_of_inner, Hs.
    - intros t Ht Hc. specialize (H6 t (HL t Ht)). rewrite negb_true_iff, hmem_false in H6. apply H6, corner_of_tverts, Hc.
  Qed.

  (** All the steps of including a hole. *)
  Definition okc {X} (r : res X) (f : X -> bool) : bool := match r with Ok x => f x | _ => false end.
  Lemma okc_ok : forall X (r : res X) (f : X -> bool), okc r f = true -> exists x, r = Ok x /\ f x = true.
  Proof. intros X [x| |] f Hf; try discriminate. exists x. auto. Qed.
  Definition fst3 {X Y Z} (r : X * Y * Z) : X := fst (fst r).

  Definition hole_steps (H : HashOrder) (fuel : nat) (p : path) (mesh : res (triangulation * list triangle * list triangle))
    (h : polyline A) (cs : list edge) : bool :=
    okc mesh (fun r => okc (into_edges h) (fun es =>
    okc (vertices_include H fuel (1 :: p) (fst3 r) (pverts h) cs None []) (fun r1 =>
    okc (insert_missing H fuel (2 :: p) (hset edec es) (hset edec (cs ++ hset edec es)) (fst3 r1)) (fun tr2 =>
    okc (hole_include H fuel p (fst3 r) h cs) (fun tr' =>
      adj_soundb (fst3 r) &&
      hole_conditionsb tr2 es (filter (fun t => negb (hmem tdec t (tris tr'))) (tris tr2)) &&
      Nat.ltb (7 * length es + 4 * length (tris tr2)) fuel &&
      negb (Nat.eqb (length (filter (fun t => negb (hmem tdec t (tris tr'))) (tris tr2))) 0)))))).

  Lemma hole_steps_ok : forall H fuel p mesh h cs, hole_steps H fuel p mesh h cs = true ->
    exists tr inc0 del0 es tr1 inc del tr2 tr',
      mesh = Ok (tr, inc0, del0) /\ adj_sound tr /\
      into_edges h = Ok es /\
      vertices_include H fuel (1 :: p) tr (pverts h) cs None [] = Ok (tr1, inc, del) /\
      insert_missing H fuel (2 :: p) (hset edec es) (hset edec (cs ++ hset edec es)) tr1 = Ok tr2 /\
      hole_include H fuel p tr h cs = Ok tr' /\
      7 * length es + 4 * length (tris tr2) < fuel /\ hole_conditions tr2 es.
  Proof.
    intros H fuel p mesh h cs E. unfold hole_steps in E.
    destruct (okc_ok _ _ _ E) as ([[tr inc0] del0] & H0 & E0). destruct (okc_ok _ _ _ E0) as (es & He & E1).
    destruct (okc_ok _ _ _ E1) as ([[tr1 inc] del] & H1 & E2). destruct (okc_ok _ _ _ E2) as (tr2 & H2 & E3).
    destruct (okc_ok _ _ _ E3) as (tr' & H3 & E4). apply andb_prop in E4. destruct E4 as [E4 _].
    apply andb_prop in E4. destruct E4 as [E4 Ef]. apply andb_prop in E4. destruct E4 as [Es Ec].
    exists tr, inc0, del0, es, tr1, inc, del, tr2, tr'.
    split; [exact H0|]. split; [apply adj_soundb_ok, Es|]. split; [exact He|]. split; [exact H1|].
    split; [exact H2|]. split; [exact H3|]. split; [apply Nat.ltb_lt, Ef|].
    exact (hole_conditionsb_ok _ _ _ Ec).
  Qed.

  (** All the conditions of the theorem on rejected centres. *)
  Definition corner_ofb (v : vertex) (t : triangle) : bool := hmem vdec v (tverts t).
  Definition centre_steps (H : HashOrder) (fuel : nat) (p : path) (mesh : res (triangulation * list triangle * list triangle))
    (cs : list edge) (t : triangle) : bool :=
    okc mesh (fun r => match tri_circumcenter t with
      | None => false
      | Some cc =>
          adj_soundb (fst3 r) && adj_completeb (fst3 r) &&
          hmem tdec t (tris (fst3 r)) &&
          forallb (fun t' => negb (corner_ofb cc t')) (tris (fst3 r)) &&
          forallb (fun t' => forallb (fun e => negb (cont_eqb (continence (snd e) (fst e) cc cc) Inside)) (inner_edges t')) (tris (fst3 r)) &&
          okc (try_circumcenter H fuel p (fst3 r) t cs None []) (fun o => match snd o with inr _ => true | inl _ => false end)
      end).

  Lemma centre_steps_ok : forall (H : HashOrder) fuel p mesh cs t,
    (forall p q, ho H p (polyline A) [] = ho H q (polyline A) []) -> centre_steps H fuel p mesh cs t = true ->
    exists tr inc del t tr' enc cc,
    mesh = Ok (tr, inc, del) /\ adj_sound tr /\ adj_complete tr /\ In t (tris tr) /\ tri_circumcenter t = Some cc /\
    (forall t', In t' (tris tr) -> ~ corner_of cc t') /\
    (forall t' a b, In t' (tris tr) -> side_of (a, b) t' -> vghost a = false -> vghost b = false ->
       continence b a cc cc <> Inside) /\
    (forall p q, ho H p (polyline A) [] = ho H q (polyline A) []) /\
    try_circumcenter H fuel p tr t cs None [] = Ok (tr', inr enc).
  Proof.
    intros H fuel p mesh cs t Hst E. unfold centre_steps in E. destruct (okc_ok _ _ _ E) as ([[tr inc] del] & H0 & E0).
    clear E. destruct (tri_circumcenter t) as [cc|] eqn:Hcc; [|discriminate].
    unfold fst3 in E0. cbn [fst] in E0. rewrite !andb_true_iff in E0. destruct E0 as [[[[[E1 E2] E3] E4] E5] E6].
    destruct (okc_ok _ _ _ E6) as ([tr' o] & H1 & E7). cbn [snd] in E7. destruct o as [o|enc]; [discriminate|].
    exists tr, inc, del, t, tr', enc, cc. split; [exact H0|]. split; [apply adj_soundb_ok, E1|]. split; [apply adj_completeb_ok, E2|].
    split; [apply (hmem_In tdec), E3|]. split; [exact Hcc|]. split; [|split; [|split; [exact Hst|exact H1]]].
    - intros t' Ht' Hc. rewrite forallb_forall in E4. specialize (E4 t' Ht'). apply negb_true_iff, hmem_false in E4.
      apply E4, corner_of_tverts, Hc.
    - intros t' a b Ht' Hs _ _ Hc. rewrite forallb_forall in E5. specialize (E5 t' Ht'). rewrite forallb_forall in E5.
      specialize (E5 (a, b) (proj1 (side_of_inner _ _) Hs)). cbn [fst snd] in E5. rewrite Hc in E5. discriminate.
  Qed.
End Checks.
