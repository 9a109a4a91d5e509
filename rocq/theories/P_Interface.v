(** P_Interface.v — lemmas on the output, the viewer lists, the input
    interpretation and the domain (C52, C53, C54, C58). *)

From Coq Require Import String List Bool Arith Lia Permutation.
From Verif Require Import Base Arith Geometry Elements Polyline Procedures Refine Triangulator Interface Spec SpecI P_Base P_Poly P_Trn.
Import ListNotations.
Local Open Scope string_scope.
Local Open Scope list_scope.

Section InterfaceP.
  Context {A : Arith} (H : HashOrder).
  Notation vertex := (vertex A).
  Notation edge := (edge A).
  Notation triangle := (triangle A).
  Notation triangulation := (triangulation A).
  Notation polyline := (polyline A).
  Notation action := (action A).
  Notation domains := (domains A).

  (** ** C52 *)
  Lemma combine_seq_keys : forall (l : list vertex) n, map fst (combine l (seq n (length l))) = l.
  Proof. induction l as [|v l IH]; intros n; [reflexivity|]. cbn. f_equal. apply IH. Qed.

  Lemma combine_seq_nth : forall (l : list vertex) n v i, In (v, i) (combine l (seq n (length l))) ->
    n <= i /\ nth_error l (i - n) = Some v.
  Proof.
    induction l as [|w l IH]; intros n v i Hi; [destruct Hi|]. cbn in Hi. destruct Hi as [E|Hi].
    - injection E as <- <-. split; [lia|]. rewrite Nat.sub_diag. reflexivity.
    - apply IH in Hi. destruct Hi as [Hn He]. split; [lia|]. replace (i - n) with (S (i - S n)) by lia. exact He.
  Qed.

  Definition index_map (vec : list vertex) : list (vertex * nat) := mcollect vdec (combine vec (seq 0 (length vec))).

  Lemma index_map_get : forall vec v i, mget vdec v (index_map vec) = Some i -> nth_error vec i = Some v.
  Proof.
    intros vec v i Hg. apply mget_In in Hg. apply mcollect_In in Hg. apply combine_seq_nth in Hg.
    rewrite Nat.sub_0_r in Hg. apply Hg.
  Qed.
  Lemma index_map_total : forall vec v, In v vec -> exists i, mget vdec v (index_map vec) = Some i.
  Proof.
    intros vec v Hv. apply key_mget. apply mcollect_keys. rewrite combine_seq_keys. exact Hv.
  Qed.
  Lemma index_map_keys : forall vec, NoDup vec -> Permutation (map fst (index_map vec)) vec.
  Proof.
    intros vec Hn. apply NoDup_Permutation; [apply mcollect_NoDup|exact Hn|].
    intros v. unfold index_map. rewrite mcollect_keys, combine_seq_keys. reflexivity.
  Qed.

  Lemma output_triples : forall vec (ts : list triangle) acc,
    (forall t v, In t ts -> corner_of v t -> In v vec) ->
    exists l, foldM (fun acc t =>
        let! i1 := unwrap (mget vdec (tv1 t) (index_map vec)) in
        let! i2 := unwrap (mget vdec (tv2 t) (index_map vec)) in
        let! i3 := unwrap (mget vdec (tv3 t) (index_map vec)) in
        Ok (acc ++ [(i1, i2, i3)])) acc ts = Ok (acc ++ l) /\ Forall2 (names vec) ts l.
  Proof.
    intros vec ts. induction ts as [|t ts IH]; intros acc Hv.
    - exists []. cbn. rewrite app_nil_r. split; [reflexivity|constructor].
    - assert (Hc : forall v, corner_of v t -> exists i, mget vdec v (index_map vec) = Some i).
      { intros v Hc. apply index_map_total. apply (Hv t v (or_introl eq_refl) Hc). }
      destruct t as [a b c].
      destruct (Hc a) as [i Hi]; [constructor|]. destruct (Hc b) as [j Hj]; [constructor|]. destruct (Hc c) as [k Hk]; [constructor|].
      cbn [foldM tv1 tv2 tv3]. rewrite Hi, Hj, Hk. cbn [unwrap bind].
      destruct (IH (acc ++ [(i, j, k)])) as (l & E & HF).
      { intros t' v Ht. apply Hv. right. exact Ht. }
      exists ((i, j, k) :: l). rewrite E. split.
      + rewrite <- app_assoc. reflexivity.
      + constructor; [|exact HF]. cbn. split; [|split]; apply index_map_get; assumption.
  Qed.

  Lemma output_spec : forall p (tr : triangulation), exists coords triples vec order,
    output H p tr = Ok (coords, triples) /\
    Permutation vec (trn_vertices tr) /\ Permutation order (trn_vertices tr) /\
    coords = map (fun v => (vx v, vy v)) order /\
    Forall2 (names vec) (filter (fun t => negb (is_ghost t)) (ho H (3 :: p) _ (tris tr))) triples /\
    (forall i j k, In (i, j, k) triples -> i < length coords /\ j < length coords /\ k < length coords) /\
    (vec = order -> forall n t i j k, nth_error (filter (fun t => negb (is_ghost t)) (ho H (3 :: p) _ (tris tr))) n = Some t ->
       nth_error triples n = Some (i, j, k) ->
       nth_error coords i = Some (vx (tv1 t), vy (tv1 t)) /\ nth_error coords j = Some (vx (tv2 t), vy (tv2 t)) /\
       nth_error coords k = Some (vx (tv3 t), vy (tv3 t))).
  Proof.
    intros p tr. set (vec := ho H (1 :: p) _ (trn_vertices tr)).
    set (order := ho H (2 :: p) _ (map fst (index_map vec))).
    set (ts := filter (fun t => negb (is_ghost t)) (ho H (3 :: p) _ (tris tr))).
    assert (Hpv : Permutation vec (trn_vertices tr)) by (symmetry; apply ho_perm).
    assert (Hnd : NoDup vec).
    { apply ho_NoDup. unfold trn_vertices. apply hset_NoDup. }
    assert (Hpo : Permutation order (trn_vertices tr)).
    { transitivity (map fst (index_map vec)); [symmetry; apply ho_perm|]. rewrite index_map_keys by exact Hnd. exact Hpv. }
    destruct (output_triples vec ts []) as (l & E & HF).
    { intros t v Ht Hc. apply (Permutation_in _ (Permutation_sym Hpv)). apply trn_vertices_In.
      unfold ts in Ht. apply filter_In in Ht. destruct Ht as [Ht Hg]. apply ho_In in Ht. apply negb_true_iff in Hg. split.
      - destruct (vghost v) eqn:Hv; [|reflexivity]. exfalso.
        assert (Hgt : is_ghost t = true) by (apply is_ghost_ghostly; exists v; auto). congruence.
      - exists t. auto. }
    exists (map (fun v => (vx v, vy v)) order), l, vec, order.
    split; [|split; [exact Hpv|split; [exact Hpo|split; [reflexivity|split; [exact HF|split]]]]].
    - unfold output. cbv zeta. fold vec. change (mcollect vdec (combine vec (seq 0 (length vec)))) with (index_map vec).
      fold order ts. rewrite E. reflexivity.
    - assert (Hlen : length (map (fun v => (vx v, vy v)) order) = length vec).
      { rewrite map_length. rewrite (Permutation_length Hpo), (Permutation_length Hpv). reflexivity. }
      intros i j k Hi. enough (Hb : i < length vec /\ j < length vec /\ k < length vec) by (rewrite <- Hlen in Hb; exact Hb).
      clear -HF Hi. induction HF as [|t x ts l Hx HF IH]; [destruct Hi|].
      destruct Hi as [->|Hi]; [|apply IH, Hi]. destruct Hx as (H1 & H2 & H3).
      split; [|split]; apply nth_error_Some; congruence.
    - intros Evo n t i j k Ht Hl.
      assert (Hnm : names vec t (i, j, k)).
      { clear -HF Ht Hl. revert n Ht Hl. induction HF as [|t0 x ts l Hx HF IH]; intros [|n] Ht Hl; try discriminate.
        - cbn in Ht, Hl. injection Ht as <-. injection Hl as ->. exact Hx.
        - apply (IH n); assumption. }
      destruct Hnm as (H1 & H2 & H3). rewrite Evo in H1, H2, H3.
      split; [|split]; rewrite nth_error_map; [rewrite H1|rewrite H2|rewrite H3]; reflexivity.
  Qed.

  (** ** C53 *)
  Lemma clean_edges_spec : forall (l acc : list edge), NoDup acc ->
    (forall e, In e acc -> In (flip e) acc -> e = flip e) ->
    let r := fold_left (fun clean e =>
        if negb (hmem edec e clean) && negb (hmem edec (opposite e) clean)
        then hadd edec e clean else clean) l acc in
    NoDup r /\ (forall e, In e r -> In (flip e) r -> e = flip e) /\
    (forall e, In e r -> In e acc \/ In e l) /\
    (forall e, In e acc \/ In e l -> In e r \/ In (flip e) r).
  Proof.
    induction l as [|e l IH]; intros acc Hn Hd.
    { cbn. split; [exact Hn|]. split; [exact Hd|]. split; [auto|]. intros e [He|[]]; auto. }
    cbn [fold_left]. destruct (negb (hmem edec e acc) && negb (hmem edec (opposite e) acc)) eqn:Hb.
    - apply andb_true_iff in Hb. rewrite !negb_true_iff, !hmem_false, opposite_flip in Hb. destruct Hb as [Hb1 Hb2].
      destruct (IH (hadd edec e acc)) as (H1 & H2 & H3 & H4).
      + apply hadd_NoDup, Hn.
      + intros x Hx Hx'. apply hadd_In in Hx. apply hadd_In in Hx'. destruct Hx as [->|Hx], Hx' as [E|Hx'].
        * congruence.
        * contradiction.
        * rewrite <- E in Hb2. rewrite flip_flip in Hb2. contradiction.
        * apply Hd; assumption.
      + cbv zeta. split; [exact H1|]. split; [exact H2|]. split.
        * intros x Hx. apply H3 in Hx. rewrite hadd_In in Hx. cbn. intuition.
        * intros x Hx. apply H4. rewrite hadd_In. cbn in Hx. intuition.
    - destruct (IH acc Hn Hd) as (H1 & H2 & H3 & H4). cbv zeta. split; [exact H1|]. split; [exact H2|]. split.
      + intros x Hx. apply H3 in Hx. cbn. intuition.
      + intros x [Hx|[<-|Hx]]; [apply H4; auto| |apply H4; auto].
        apply andb_false_iff in Hb. rewrite !negb_false_iff, !hmem_In, opposite_flip in Hb. destruct Hb as [Hb|Hb].
        * apply H4. auto.
        * destruct (H4 (flip e) (or_introl Hb)) as [Hi|Hi]; [auto|]. rewrite flip_flip in Hi. auto.
  Qed.

  Definition solid_side (tr : triangulation) (e : edge) : Prop :=
    exists t, In t (tris tr) /\ ~ ghostly t /\ side_of e t.

  Lemma glium_edges_spec : forall p (tr : triangulation),
    let l := glium_edge_list H p tr in
    NoDup l /\ (forall e, In e l -> In (flip e) l -> e = flip e) /\
    (forall e, In e l -> solid_side tr e) /\
    (forall e, solid_side tr e -> In e l \/ In (flip e) l).
  Proof.
    intros p tr. unfold glium_edge_list, clean_edges.
    set (sides := flat_map inner_edges (filter (fun t => negb (is_ghost t)) (ho H p _ (tris tr)))).
    assert (Hs : forall e, In e (rev sides) <-> solid_side tr e).
    { intros e. rewrite <- in_rev. unfold sides, solid_side. rewrite in_flat_map. split.
      - intros (t & Ht & He). apply filter_In in Ht. destruct Ht as [Ht Hg]. apply ho_In in Ht. exists t.
        split; [exact Ht|]. split; [|apply side_of_inner, He]. intros Hgt. apply is_ghost_ghostly in Hgt. rewrite Hgt in Hg. discriminate.
      - intros (t & Ht & Hg & He). exists t. split; [|apply side_of_inner, He]. apply filter_In. split; [apply ho_In, Ht|].
        destruct (is_ghost t) eqn:E; [|reflexivity]. apply is_ghost_ghostly in E. contradiction. }
    destruct (clean_edges_spec (rev sides) []) as (H1 & H2 & H3 & H4); [constructor|intros e []|].
    cbv zeta. split; [exact H1|]. split; [exact H2|]. split.
    - intros e He. destruct (H3 e He) as [[]|Hi]. apply Hs, Hi.
    - intros e He. apply H4. right. apply Hs, He.
  Qed.

  Lemma glium_counts : forall F32 (cast : T A -> F32) p (tr : triangulation),
    length (glium_triangles H cast p tr) = 3 * length (filter (fun t => negb (is_ghost t)) (tris tr)) /\
    length (glium_edges H cast p tr) = 2 * length (glium_edge_list H (1 :: p) tr).
  Proof.
    intros F32 cast p tr. unfold glium_triangles, glium_edges. rewrite !map_length. split.
    - assert (E : length (filter (fun t => negb (is_ghost t)) (ho H p _ (tris tr))) = length (filter (fun t => negb (is_ghost t)) (tris tr))).
      { apply Permutation_length. pose proof (ho_perm H p _ (tris tr)) as Hp. clear -Hp.
        induction Hp as [|t l l' Hp IH|t t' l|l l' l'' H1 IH1 H2 IH2].
        - constructor.
        - cbn. destruct (negb (is_ghost t)); [constructor|]; exact IH.
        - cbn. destruct (negb (is_ghost t)), (negb (is_ghost t')); try apply Permutation_refl. apply perm_swap.
        - transitivity (filter (fun t => negb (is_ghost t)) l'); assumption. }
      rewrite <- E. generalize (filter (fun t => negb (is_ghost t)) (ho H p _ (tris tr))). intros l. clear E.
      induction l as [|t l IH]; [reflexivity|]. cbn [flat_map]. rewrite app_length, IH. cbn. lia.
    - rewrite <- (ho_length H (2 :: p) _ (glium_edge_list H (1 :: p) tr)).
      generalize (ho H (2 :: p) _ (glium_edge_list H (1 :: p) tr)). intros l.
      induction l as [|e l IH]; [reflexivity|]. cbn [flat_map]. rewrite app_length, IH. cbn. lia.
  Qed.

  (** ** C54 *)
  Lemma add_domain_spec : forall intent pl (d d' : domains), add_domain intent pl d = Some d' ->
    (intent = "include" /\ d' = Dom (d_includes d ++ [pl]) (d_removes d) (d_segments d) (d_vertices d)) \/
    (intent = "remove" /\ d' = Dom (d_includes d) (d_removes d ++ [pl]) (d_segments d) (d_vertices d)).
  Proof.
    intros intent pl d d' Ha. unfold add_domain in Ha. destruct (String.eqb_spec intent "include") as [->|Hn].
    - injection Ha as <-. auto.
    - destruct (String.eqb_spec intent "remove") as [->|Hn']; [injection Ha as <-; auto|discriminate].
  Qed.

  Lemma parse_action_some : forall fuel (d d' : domains) (a : action), parse_action fuel d a = Ok (Some d') ->
    exists f : effect (A:=A), means fuel a f /\
      d_includes d' = d_includes d ++ included f /\ d_removes d' = d_removes d ++ removed f /\
      (forall e : edge, In e (d_segments d') <-> In e (d_segments d) \/ In e (segments_of f)) /\
      (forall v : vertex, In v (d_vertices d') <-> In v (d_vertices d) \/ In v (vertices_of f)).
  Proof.
    intros fuel d d' a Ha. unfold parse_action in Ha.
    assert (Hadd : forall pl, body fuel a pl -> add_domain (a_intent a) pl d = Some d' ->
      exists f : effect (A:=A), means fuel a f /\
      d_includes d' = d_includes d ++ included f /\ d_removes d' = d_removes d ++ removed f /\
      (forall e : edge, In e (d_segments d') <-> In e (d_segments d) \/ In e (segments_of f)) /\
      (forall v : vertex, In v (d_vertices d') <-> In v (d_vertices d) \/ In v (vertices_of f))).
    { intros pl Hb Hadd. apply add_domain_spec in Hadd. destruct Hadd as [[Hi ->]|[Hi ->]].
      - exists (EInclude pl). split; [constructor; assumption|]. cbn. rewrite app_nil_r. intuition.
      - exists (ERemove pl). split; [constructor; assumption|]. cbn. rewrite app_nil_r. intuition. }
    destruct (String.eqb_spec (a_geometry a) "polyline") as [Hg|_].
    { apply bind_ok in Ha. destruct Ha as (o & Ho & Ha). injection Ha as Ha. destruct o as [pl|]; [|discriminate].
      apply (Hadd pl); [left; auto|exact Ha]. }
    destruct (String.eqb_spec (a_geometry a) "circle") as [Hg|_].
    { apply bind_ok in Ha. destruct Ha as (o & Ho & Ha). injection Ha as Ha. destruct o as [pl|]; [|discriminate].
      apply (Hadd pl); [right; auto|exact Ha]. }
    destruct (String.eqb_spec (a_geometry a) "segments") as [Hg|_].
    { apply bind_ok in Ha. destruct Ha as (o & Ho & Ha). injection Ha as Ha. destruct o as [es|]; [|discriminate].
      destruct (String.eqb_spec (a_intent a) "constraint") as [Hi|_]; [|discriminate]. injection Ha as <-.
      exists (ESegments es). split; [constructor; assumption|]. cbn. rewrite !app_nil_r. split; [reflexivity|]. split; [reflexivity|].
      split; [|intuition]. intros e. rewrite hset_In, in_app_iff. reflexivity. }
    destruct (String.eqb_spec (a_geometry a) "vertices") as [Hg|_]; [|discriminate].
    destruct (String.eqb_spec (a_intent a) "constraint") as [Hi|_]; [|discriminate]. injection Ha as <-.
    exists (EVertices (map point_to_vertex (a_points a))). split; [constructor; assumption|]. cbn. rewrite !app_nil_r.
    split; [reflexivity|]. split; [reflexivity|]. split; [intuition|].
    intros v. unfold parse_vertices. rewrite hset_In, in_app_iff, hset_In. reflexivity.
  Qed.

  Lemma parse_action_means : forall fuel (d : domains) a f, means fuel a f -> exists d', parse_action fuel d a = Ok (Some d').
  Proof.
    intros fuel d a f Hm. unfold parse_action. destruct Hm as [pl Hb Hi|pl Hb Hi|es Hg Hi Hp|Hg Hi].
    - destruct Hb as [[Hg Hp]|[Hg Hp]]; rewrite Hg, Hp; cbn; unfold add_domain; rewrite Hi; cbn; eauto.
    - destruct Hb as [[Hg Hp]|[Hg Hp]]; rewrite Hg, Hp; cbn; unfold add_domain; rewrite Hi; cbn; eauto.
    - rewrite Hg, Hp; cbn. rewrite Hi. cbn. eauto.
    - rewrite Hg; cbn. rewrite Hi. cbn. eauto.
  Qed.

  Lemma parse_action_none : forall fuel (d : domains) (a : action), parse_action fuel d a = Ok None -> forall f, ~ means fuel a f.
  Proof.
    intros fuel d a Ha f Hm. destruct (parse_action_means fuel d a f Hm) as [d' E]. congruence.
  Qed.

  Lemma parse_actions_some : forall fuel (acts : list action) (d d' : domains), parse_actions fuel acts d = Ok (Some d') ->
    exists fs, Forall2 (means fuel) acts fs /\
      d_includes d' = d_includes d ++ flat_map included fs /\ d_removes d' = d_removes d ++ flat_map removed fs /\
      (forall e : edge, In e (d_segments d') <-> In e (d_segments d) \/ exists f, In f fs /\ In e (segments_of f)) /\
      (forall v : vertex, In v (d_vertices d') <-> In v (d_vertices d) \/ exists f, In f fs /\ In v (vertices_of f)).
  Proof.
    intros fuel acts. induction acts as [|a acts IH]; intros d d' Hp; cbn [parse_actions] in Hp.
    - injection Hp as <-. exists []. cbn. rewrite !app_nil_r. split; [constructor|]. split; [reflexivity|]. split; [reflexivity|].
      split; intros x; (split; [auto|intros [Hx|(f & [] & _)]; exact Hx]).
    - apply bind_ok in Hp. destruct Hp as (o & Ha & Hp). destruct o as [d1|]; [|discriminate].
      destruct (parse_action_some _ _ _ _ Ha) as (f & Hm & I1 & R1 & S1 & V1).
      destruct (IH _ _ Hp) as (fs & HF & I2 & R2 & S2 & V2). exists (f :: fs).
      split; [constructor; assumption|]. cbn [flat_map].
      split; [rewrite I2, I1, app_assoc; reflexivity|]. split; [rewrite R2, R1, app_assoc; reflexivity|]. split.
      + intros e. rewrite S2, S1. split.
        * intros [[He|He]|(g & Hg & He)]; [auto|right; exists f; cbn; auto|right; exists g; cbn; auto].
        * intros [He|(g & [<-|Hg] & He)]; [auto|auto|right; exists g; auto].
      + intros v. rewrite V2, V1. split.
        * intros [[He|He]|(g & Hg & He)]; [auto|right; exists f; cbn; auto|right; exists g; cbn; auto].
        * intros [He|(g & [<-|Hg] & He)]; [auto|auto|right; exists g; auto].
  Qed.

  Lemma parse_actions_none : forall fuel (acts : list action) (d : domains), parse_actions fuel acts d = Ok None ->
    exists a, In a acts /\ forall f, ~ means fuel a f.
  Proof.
    intros fuel acts. induction acts as [|a acts IH]; intros d Hp; cbn [parse_actions] in Hp; [discriminate|].
    apply bind_ok in Hp. destruct Hp as (o & Ha & Hp). destruct o as [d1|].
    - destruct (IH _ Hp) as (a' & Hi & Hn). exists a'. split; [right; exact Hi|exact Hn].
    - exists a. split; [left; reflexivity|]. apply (parse_action_none _ _ _ Ha).
  Qed.

  Lemma parse_actions_total : forall fuel (acts : list action), (forall a, In a acts -> exists f : effect (A:=A), means fuel a f) ->
    forall d, exists d', parse_actions fuel acts d = Ok (Some d').
  Proof.
    intros fuel acts. induction acts as [|a acts IH]; intros Hm d; cbn [parse_actions]; [eauto|].
    destruct (Hm a (or_introl eq_refl)) as [f Hf]. destruct (parse_action_means fuel d a f Hf) as [d1 E].
    rewrite E. cbn. apply IH. intros a' Ha'. apply Hm. right. exact Ha'.
  Qed.

  Lemma interpret_accepts : forall fuel (inp : input A) d prm, interpret fuel inp = Ok (Some (d, prm)) ->
    prm = RP (i_max_area inp) (i_quality inp) /\
    exists fs, Forall2 (means fuel) (i_actions inp) fs /\
      d_includes d = flat_map included fs /\ d_removes d = flat_map removed fs /\
      (forall e : edge, In e (d_segments d) <-> exists f, In f fs /\ In e (segments_of f)) /\
      (forall v : vertex, In v (d_vertices d) <-> exists f, In f fs /\ In v (vertices_of f)).
  Proof.
    intros fuel inp d prm Hi. unfold interpret in Hi. apply bind_ok in Hi. destruct Hi as (o & Hp & Hi).
    injection Hi as Hi. destruct o as [d0|]; [|discriminate]. injection Hi as <- <-. split; [reflexivity|].
    destruct (parse_actions_some _ _ _ _ Hp) as (fs & HF & I & R & S & V). exists fs. cbn in *.
    split; [exact HF|]. split; [exact I|]. split; [exact R|].
    split; intros x; [rewrite S|rewrite V]; intuition.
  Qed.

  Lemma interpret_exact : forall fuel (inp : input A),
    ((exists d, interpret fuel inp = Ok (Some d)) <-> (forall a, In a (i_actions inp) -> exists f : effect (A:=A), means fuel a f)) /\
    (interpret fuel inp = Ok None -> exists a, In a (i_actions inp) /\ forall f, ~ means fuel a f).
  Proof.
    intros fuel inp. split; [split|].
    - intros ([d prm] & Hi) a Ha. destruct (interpret_accepts _ _ _ _ Hi) as (_ & fs & HF & _).
      clear -HF Ha. induction HF as [|a0 f0 acts fs Hm HF IH]; [destruct Ha|]. destruct Ha as [<-|Ha]; [exists f0; exact Hm|apply IH, Ha].
    - intros Hm. destruct (parse_actions_total fuel (i_actions inp) Hm (Dom [] [] [] [])) as [d E].
      unfold interpret. rewrite E. cbn. eauto.
    - intros Hi. unfold interpret in Hi. apply bind_ok in Hi. destruct Hi as (o & Hp & Hi). injection Hi as Hi.
      destruct o as [d0|]; [discriminate|]. apply (parse_actions_none _ _ _ Hp).
  Qed.

  (** The bodies of segment actions. *)
  Lemma parse_assemble_some : forall (pts : list (point (A:=A))) sets acc es, parse_assemble pts sets acc = Ok (Some es) ->
    (forall e, In e es <-> In e acc \/ exists i j r p1 p2, In (i :: j :: r) sets /\
       nth_error pts i = Some p1 /\ nth_error pts j = Some p2 /\ e = (point_to_vertex p1, point_to_vertex p2)) /\
    (forall s, In s sets -> exists i j r, s = i :: j :: r /\ i < length pts /\ j < length pts).
  Proof.
    intros pts sets. induction sets as [|s sets IH]; intros acc es Hp; cbn [parse_assemble] in Hp.
    - injection Hp as <-. split; [|intros s []]. intros e. split; [auto|]. intros [He|(i & j & r & p1 & p2 & [] & _)]. exact He.
    - destruct s as [|i [|j r]]; [discriminate|discriminate|].
      apply bind_ok in Hp. destruct Hp as (p1 & H1 & Hp). apply unwrap_ok in H1.
      apply bind_ok in Hp. destruct Hp as (p2 & H2 & Hp). apply unwrap_ok in H2.
      destruct (IH _ _ Hp) as [He Hs]. split.
      + intros e. rewrite He, hadd_In. split.
        * intros [[->|Ha]|(i' & j' & r' & q1 & q2 & Hin & Hr)]; [|auto|].
          -- right. exists i, j, r, p1, p2. split; [left; reflexivity|auto].
          -- right. exists i', j', r', q1, q2. split; [right; exact Hin|exact Hr].
        * intros [Ha|(i' & j' & r' & q1 & q2 & [E|Hin] & Hr)]; [auto| |].
          -- injection E as -> -> ->. destruct Hr as (E1 & E2 & ->). left. left. congruence.
          -- right. exists i', j', r', q1, q2. split; [exact Hin|exact Hr].
      + intros s [<-|Hs']; [|apply Hs, Hs']. exists i, j, r. split; [reflexivity|].
        split; apply nth_error_Some; congruence.
  Qed.

  Lemma pair_points_In : forall (pts : list (point (A:=A))) e, In e (pair_points pts) <->
    exists n p1 p2, nth_error pts (2 * n) = Some p1 /\ nth_error pts (S (2 * n)) = Some p2 /\
      e = (point_to_vertex p1, point_to_vertex p2).
  Proof.
    fix IH 1. intros [|p1 [|p2 pts]] e; cbn [pair_points].
    - split; [intros []|]. intros (n & q1 & q2 & Hn & _). destruct (2 * n); discriminate.
    - split; [intros []|]. intros (n & q1 & q2 & _ & Hn & _). cbn in Hn. destruct (n + (n + 0)); discriminate.
    - cbn [In]. rewrite IH. split.
      + intros [<-|(n & q1 & q2 & E1 & E2 & ->)].
        * exists 0, p1, p2. auto.
        * exists (S n), q1, q2. replace (2 * S n) with (S (S (2 * n))) by lia. auto.
      + intros ([|n] & q1 & q2 & E1 & E2 & ->).
        * cbn in E1, E2. injection E1 as <-. injection E2 as <-. auto.
        * right. exists n, q1, q2. replace (2 * S n) with (S (S (2 * n))) in E1, E2 by lia. auto.
  Qed.

  Lemma parse_segments_spec : forall (a : action),
    (a_assemble a = [] ->
       if Nat.even (length (a_points a))
       then exists es, parse_segments a = Ok (Some es) /\
         forall e, In e es <-> exists n p1 p2, nth_error (a_points a) (2 * n) = Some p1 /\
           nth_error (a_points a) (S (2 * n)) = Some p2 /\ e = (point_to_vertex p1, point_to_vertex p2)
       else parse_segments a = Ok None) /\
    (forall es, a_assemble a <> [] -> parse_segments a = Ok (Some es) ->
       (forall e, In e es <-> exists i j r p1 p2, In (i :: j :: r) (a_assemble a) /\
          nth_error (a_points a) i = Some p1 /\ nth_error (a_points a) j = Some p2 /\
          e = (point_to_vertex p1, point_to_vertex p2)) /\
       (forall s, In s (a_assemble a) -> exists i j r, s = i :: j :: r /\ i < length (a_points a) /\ j < length (a_points a))).
  Proof.
    intros a. unfold parse_segments. split.
    - intros ->. destruct (Nat.even (length (a_points a))); [|reflexivity].
      eexists. split; [reflexivity|]. intros e. rewrite hset_In. apply pair_points_In.
    - intros es Hne Hp. destruct (a_assemble a) as [|s sets] eqn:E; [contradiction|].
      destruct (parse_assemble_some _ _ _ _ Hp) as [H1 H2]. split; [|exact H2].
      intros e. rewrite H1. split; [intros [[]|He]; exact He|auto].
  Qed.

  (** ** C58 *)
  Lemma unite_one_spec : forall fuel (cands : list polyline) p (b : polyline) incs b' incs', unite_one H fuel p b cands incs = Ok (b', incs') ->
    (forall c, In c cands -> In c incs) ->
    (b' = b /\ incs' = incs) \/
    (exists c rest fuel' q, In c incs /\ poly_union H fuel' q b c = Ok (Some (b', rest)) /\ incs' = hdel pdec c incs).
  Proof.
    intros fuel cands. induction cands as [|c cands IH]; intros p b incs b' incs' Hu Hsub; cbn [unite_one] in Hu.
    - injection Hu as <- <-. auto.
    - apply bind_ok in Hu. destruct Hu as (o & Ho & Hu). destruct o as [[u rest]|].
      + injection Hu as <- <-. right. exists c, rest, fuel, (1 :: p). split; [apply Hsub; left; reflexivity|auto].
      + apply (IH _ _ _ _ _ Hu). intros c' Hc'. apply Hsub. right. exact Hc'.
  Qed.

  Lemma unite_all_spec : forall fuel n p (b : polyline) incs b' incs' done, unite_all H fuel p n b incs = Ok (b', incs') ->
    NoDup incs -> united H done b ->
    exists done', united H done' b' /\ Permutation (done' ++ incs') (done ++ incs) /\ NoDup incs'.
  Proof.
    intros fuel n. induction n as [|n IH]; intros p b incs b' incs' done Hu Hn Hd; cbn [unite_all] in Hu.
    - injection Hu as <- <-. exists done. auto.
    - apply bind_ok in Hu. destruct Hu as ([b1 incs1] & H1 & Hu).
      apply unite_one_spec in H1; [|intros c Hc; apply ho_In in Hc; exact Hc].
      destruct H1 as [[-> ->]|(c & rest & fuel' & q & Hc & Hun & ->)].
      + apply (IH _ _ _ _ _ _ Hu Hn Hd).
      + destruct (IH _ _ _ _ _ (c :: done) Hu) as (done' & D1 & D2 & D3).
        * apply hdel_NoDup, Hn.
        * eapply united_more; eassumption.
        * exists done'. split; [exact D1|]. split; [|exact D3]. rewrite D2. cbn.
          rewrite Permutation_middle. apply Permutation_app_head.
          apply NoDup_Permutation; [constructor; [rewrite hdel_In; tauto|apply hdel_NoDup, Hn]|exact Hn|].
          intros x. cbn. rewrite hdel_In. split; [intros [<-|[Hx _]]; assumption|].
          intros Hx. destruct (pdec c x) as [->|Hne]; [auto|]. right. split; [exact Hx|congruence].
  Qed.

  Lemma subtract_all_spec : forall fuel (removes : list polyline) p b unused b' unused', subtract_all H fuel p b removes unused = Ok (Some (b', unused')) ->
    exists kept, unused' = unused ++ kept /\ carved_out H b removes b' kept.
  Proof.
    intros fuel removes. induction removes as [|r removes IH]; intros p b unused b' unused' Hs; cbn [subtract_all] in Hs.
    - injection Hs as <- <-. exists []. rewrite app_nil_r. split; [reflexivity|constructor].
    - apply bind_ok in Hs. destruct Hs as ([ps rest] & Hp & Hs). destruct ps as [|b1 [|b2 ps]]; [| |discriminate].
      + destruct (IH _ _ _ _ _ Hs) as (kept & -> & HC). exists (r :: kept). rewrite <- app_assoc. split; [reflexivity|].
        eapply carve_uncut; eassumption.
      + destruct (IH _ _ _ _ _ Hs) as (kept & -> & HC). exists kept. split; [reflexivity|]. eapply carve_cut; eassumption.
  Qed.

  Lemma domain_boundary_spec : forall fuel p (includes removes : list polyline),
    (includes = [] -> domain_boundary H fuel p includes removes = Ok None) /\
    (forall b kept, domain_boundary H fuel p includes removes = Ok (Some (b, kept)) ->
       exists l b0, united H l b0 /\ NoDup l /\ (forall x, In x l <-> In x includes) /\ carved_out H b0 removes b kept).
  Proof.
    intros fuel p includes removes. split.
    - intros ->. unfold domain_boundary. cbn [hset fold_left]. rewrite ho_nil. reflexivity.
    - intros b kept Hd. unfold domain_boundary in Hd.
      destruct (ho H (1 :: p) _ (hset pdec includes)) as [|b0 l0] eqn:Ho; [discriminate|].
      apply bind_ok in Hd. destruct Hd as ([b1 incs] & Hu & Hd). destruct incs as [|i incs]; [|discriminate].
      assert (Hb0 : In b0 (hset pdec includes)) by (apply (ho_In H (1 :: p)); rewrite Ho; left; reflexivity).
      destruct (unite_all_spec _ _ _ _ _ _ _ [b0] Hu) as (done & D1 & D2 & _); [apply hdel_NoDup, hset_NoDup|constructor|].
      rewrite app_nil_r in D2. cbn in D2.
      destruct (subtract_all_spec _ _ _ _ _ _ _ Hd) as (kept' & -> & HC). cbn. exists done, b1. split; [exact D1|]. split; [|split].
      + apply (Permutation_NoDup (Permutation_sym D2)). constructor; [rewrite hdel_In; tauto|apply hdel_NoDup, hset_NoDup].
      + intros x. split.
        * intros Hx. apply (Permutation_in _ D2) in Hx. destruct Hx as [<-|Hx]; [apply (hset_In pdec), Hb0|].
          apply hdel_In in Hx. apply (hset_In pdec), Hx.
        * intros Hx. apply (Permutation_in _ (Permutation_sym D2)). destruct (pdec b0 x) as [->|Hne]; [left; reflexivity|].
          right. apply hdel_In. split; [apply hset_In, Hx|congruence].
      + exact HC.
  Qed.

  Lemma parse_polyline_some : forall fuel (a : action) pl, parse_polyline fuel a = Ok (Some pl) ->
    3 <= length (a_points a) /\ pl = Poly (map point_to_vertex (a_points a)) false.
  Proof.
    intros fuel a pl Hp. unfold parse_polyline in Hp. rewrite <- (map_length point_to_vertex (a_points a)).
    destruct (map point_to_vertex (a_points a)) as [|v vs] eqn:Hm; [discriminate|].
    apply bind_ok in Hp. destruct Hp as (segs & _ & Hp). apply bind_ok in Hp. destruct Hp as (split & _ & Hp).
    destruct (Nat.ltb (length segs) (length split)); [discriminate|].
    apply bind_ok in Hp. destruct Hp as (pl' & Hn & Hp). apply unwrap_ok in Hn. injection Hp as <-.
    unfold new_closed in Hn. destruct (Nat.ltb_spec (length (v :: vs)) 3) as [Hl|Hl]; [discriminate|].
    injection Hn as <-. auto.
  Qed.

  Lemma parse_polyline_accepts : forall fuel (a : action),
    3 <= length (a_points a) -> length (a_points a) < fuel ->
    (forall es, vertex_pairs (map point_to_vertex (a_points a)) false = Ok es ->
       pairwise (fun x y => ~ crossing y x) (rev es)) ->
    parse_polyline fuel a = Ok (Some (Poly (map point_to_vertex (a_points a)) false)).
  Proof.
    intros fuel a H3 Hf Hc. unfold parse_polyline.
    rewrite <- (map_length point_to_vertex (a_points a)) in H3, Hf.
    destruct (map point_to_vertex (a_points a)) as [|v vs] eqn:Hm; [cbn in H3; lia|].
    specialize (Hc _ eq_refl). cbn [vertex_pairs bind].
    assert (Hlen : length (consecutive (v :: vs) ++ [(last (v :: vs) v, v)]) = length (v :: vs)).
    { rewrite app_length. cbn [length]. clear. assert (E : forall (w : vertex) l, length (consecutive (w :: l)) = length l).
      { intros w l. revert w. induction l as [|x l IH]; intros w; [reflexivity|].
        change (consecutive (w :: x :: l)) with ((w, x) :: consecutive (x :: l)). cbn [length]. rewrite IH. reflexivity. }
      rewrite E. lia. }
    rewrite (split_intersections_identity fuel _) by (try exact Hc; rewrite Hlen; exact Hf).
    cbn [bind]. rewrite rev_length. rewrite Nat.ltb_irrefl. unfold new_closed.
    destruct (Nat.ltb_spec (length (v :: vs)) 3) as [Hl|Hl]; [lia|]. reflexivity.
  Qed.
End InterfaceP.
