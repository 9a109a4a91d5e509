(** P_W2.v — JSON values with the same content are read alike; what is written
    can be read back. *)

From Coq Require Import String List Bool Arith ZArith Permutation Lia.
From Verif Require Import Base Arith Geometry Elements Polyline Procedures Refine Triangulator Interface Json SpecW P_Base P_W1.
Import ListNotations.
Local Open Scope string_scope.
Local Open Scope list_scope.

Section Same.
  Context {A : Arith}.
  Notation F := (T A).
  Notation json := (json F).

  Definition respects {X} (f : json -> option X) : Prop := forall j j', same_content j j' -> f j = f j'.
  Definition opt_same (g g' : option json) : Prop :=
    match g, g' with Some j, Some j' => same_content j j' | None, None => True | _, _ => False end.
  Definition steady {X} (names : list string) (build : bool -> (string -> option json) -> option X) : Prop :=
    forall b get get', (forall k, In k names -> opt_same (get k) (get' k)) -> build b get = build b get'.

  Lemma scalar_respects : forall X (f : json -> option X), (forall l l', f (JArr l) = f (JArr l')) -> (forall o o', f (JObj o) = f (JObj o')) -> respects f.
  Proof. intros X f Hl Ho j j' Hs. induction Hs; auto; congruence. Qed.
  Lemma read_all_item : forall X (f : json -> option X) v v', f v = f v' -> forall l1 l2, read_all f (l1 ++ v :: l2) = read_all f (l1 ++ v' :: l2).
  Proof. intros X f v v' E l1 l2. induction l1 as [|x l1 IH]; cbn [app read_all]; [rewrite E; reflexivity|]. rewrite IH. reflexivity. Qed.
  Lemma vec_respects : forall X (f : json -> option X), respects f -> respects (read_vec f).
  Proof.
    intros X f Hf j j' Hs. induction Hs as [| | | | | |l1 v v' l2 Hv IH]; auto; try reflexivity; [congruence|]. cbn [read_vec]. apply read_all_item, Hf, Hv.
  Qed.
  Lemma opt_ext : forall X (o o' : option X), (forall x, o = Some x <-> o' = Some x) -> o = o'.
  Proof.
    intros X o o' He. destruct o as [x|]; [symmetry; apply He; reflexivity|]. destruct o' as [x|]; [|reflexivity]. specialize (He x). destruct He as [_ He]. symmetry. rewrite He; reflexivity.
  Qed.
  Lemma opt_same_refl : forall g, opt_same g g. Proof. intros [j|]; cbn; [apply same_refl|exact I]. Qed.
  Lemma steady_only : forall X names (build : bool -> (string -> option json) -> option X), steady names build -> only names build.
  Proof. intros X names build Hs b get get' Hg. apply Hs. intros k Hk. rewrite (Hg k Hk). apply opt_same_refl. Qed.

  Lemma fields_order : forall names (o o' : list (string * json)) b get, Permutation o o' -> fields names (JObj o) b get -> fields names (JObj o') b get.
  Proof.
    intros names o o' b get Hp [Hb Hg]. split; [exact Hb|]. intros k Hk. specialize (Hg k Hk). pose proof (Permutation_map fst Hp) as Hm. destruct (get k) as [v|].
    - destruct Hg as [G1 G2]. split; [exact (Permutation_in _ Hp G1)|]. rewrite <- (proj1 (Permutation_count_occ string_dec _ _) Hm). exact G2.
    - intros Hi. apply Hg. exact (Permutation_in _ (Permutation_sym Hm) Hi).
  Qed.
  Lemma fields_extra : forall names k v (o : list (string * json)) b get, ~ In k names -> (fields names (JObj ((k, v) :: o)) b get <-> fields names (JObj o) b get).
  Proof.
    intros names k v o b get Hk. cbn [fields]. split; intros [Hb Hg]; (split; [exact Hb|]); intros k' Hk'; specialize (Hg k' Hk'); assert (Hn : k <> k') by congruence; destruct (get k').
    - apply given_there in Hg; assumption.
    - apply absent_cons in Hg. apply Hg.
    - apply given_there; assumption.
    - apply absent_cons. auto.
  Qed.
  Lemma fields_field : forall names k v v' (o : list (string * json)) b get, same_content v v' -> fields names (JObj ((k, v) :: o)) b get ->
    exists get', fields names (JObj ((k, v') :: o)) b get' /\ forall k', opt_same (get k') (get' k').
  Proof.
    intros names k v v' o b get Hs [Hb Hg]. exists (fun k' => if string_dec k k' then match get k' with Some _ => if in_dec string_dec k' names then Some v' else get k' | None => None end else get k'). split.
    - split; [exact Hb|]. intros k' Hk'. specialize (Hg k' Hk'). destruct (string_dec k k') as [<-|Hn].
      + destruct (in_dec string_dec k names) as [_|]; [|contradiction]. destruct (get k).
        * apply given_key in Hg. destruct Hg as [_ Ha]. apply given_here, Ha.
        * apply absent_cons in Hg. destruct Hg; congruence.
      + destruct (get k'); [apply given_there; [exact Hn|]; apply given_there in Hg; assumption|]. apply absent_cons. apply absent_cons in Hg. exact Hg.
    - intros k'. destruct (string_dec k k') as [<-|Hn]; [|apply opt_same_refl]. destruct (get k) as [w|] eqn:E; [|exact I]. destruct (in_dec string_dec k names) as [Hk|]; [|apply same_refl].
      specialize (Hg k Hk). rewrite E in Hg. apply given_key in Hg. destruct Hg as [-> _]. exact Hs.
  Qed.
  Lemma fields_item : forall names (l1 : list json) v v' l2 b get, NoDup names -> same_content v v' -> fields names (JArr (l1 ++ v :: l2)) b get ->
    exists get', fields names (JArr (l1 ++ v' :: l2)) b get' /\ forall k', In k' names -> opt_same (get k') (get' k').
  Proof.
    intros names l1 v v' l2 b get Hn Hs (Hb & Hl & Hg). exists (fun k => find_field k (combine names (l1 ++ v' :: l2))). split.
    - split; [exact Hb|]. split; [rewrite app_length in *; exact Hl|]. intros i k Hi. apply find_combine; assumption.
    - intros k Hk. apply In_nth_error in Hk. destruct Hk as (i & Hi). rewrite (find_combine names _ i k Hn Hi), (Hg i k Hi). clear - Hs.
      revert i. induction l1 as [|x l1 IH]; intros [|i]; cbn [app nth_error]; try apply IH; try apply opt_same_refl. exact Hs.
  Qed.
  Lemma struct_respects : forall X names (build : bool -> (string -> option json) -> option X), NoDup names -> incl names all_names -> steady names build -> respects (read_struct names build).
  Proof.
    intros X names build Hn Hi Hb j j' Hs. pose proof (read_struct_iff X names build Hn (steady_only _ _ _ Hb)) as Hr.
    induction Hs as [j|j j' Hs IH|j j' j'' Hs1 IH1 Hs2 IH2|o o' Hp|k v o Hk|k v v' o Hs IH|l1 v v' l2 Hs IH]; try congruence.
    - apply opt_ext. intros x. rewrite !Hr. split; intros (b & get & Hf & E); exists b, get; (split; [|exact E]); [exact (fields_order _ _ _ _ _ Hp Hf)|exact (fields_order _ _ _ _ _ (Permutation_sym Hp) Hf)].
    - assert (Hk' : ~ In k names) by (intros Hx; apply Hk, Hi, Hx). apply opt_ext. intros x. rewrite !Hr.
      split; intros (b & get & Hf & E); exists b, get; (split; [|exact E]); [exact (proj1 (fields_extra names k v o b get Hk') Hf)|exact (proj2 (fields_extra names k v o b get Hk') Hf)].
    - assert (One : forall v v', same_content v v' -> forall x, read_struct names build (JObj ((k, v) :: o)) = Some x -> read_struct names build (JObj ((k, v') :: o)) = Some x).
      { clear v v' Hs IH. intros v v' Hs x Hx. apply Hr in Hx. apply Hr. destruct Hx as (b & get & Hf & E). destruct (fields_field _ _ _ _ _ _ _ Hs Hf) as (get' & Hf' & Hg). exists b, get'. split; [exact Hf'|].
        rewrite <- E. symmetry. apply Hb. intros k' _. apply Hg. }
      apply opt_ext. intros x. split; apply One; [exact Hs|apply same_sym, Hs].
    - assert (One : forall v v', same_content v v' -> forall x, read_struct names build (JArr (l1 ++ v :: l2)) = Some x -> read_struct names build (JArr (l1 ++ v' :: l2)) = Some x).
      { clear v v' Hs IH. intros v v' Hs x Hx. apply Hr in Hx. apply Hr. destruct Hx as (b & get & Hf & E). destruct (fields_item _ _ _ _ _ _ _ Hn Hs Hf) as (get' & Hf' & Hg). exists b, get'. split; [exact Hf'|].
        rewrite <- E. symmetry. apply Hb. exact Hg. }
      apply opt_ext. intros x. split; apply One; [exact Hs|apply same_sym, Hs].
  Qed.

  Lemma required_same : forall X (f : json -> option X) b g g', respects f -> opt_same g g' -> required f b g = required f b g'.
  Proof. intros X f b g g' Hf Hg. destruct g, g'; cbn in Hg; try contradiction; [exact (Hf _ _ Hg)|reflexivity]. Qed.
  Lemma defaulted_same : forall X d (f : json -> option X) b g g', respects f -> opt_same g g' -> defaulted d f b g = defaulted d f b g'.
  Proof. intros X d f b g g' Hf Hg. destruct g, g'; cbn in Hg; try contradiction; [exact (Hf _ _ Hg)|reflexivity]. Qed.
  Lemma optional_same : forall X (f : json -> option X) b g g', respects (read_option f) -> opt_same g g' -> optional f b g = optional f b g'.
  Proof. intros X f b g g' Hf Hg. destruct g, g'; cbn in Hg; try contradiction; [exact (Hf _ _ Hg)|reflexivity]. Qed.
  Lemma obind_same : forall X Y (o o' : option X) (k k' : X -> option Y), o = o' -> (forall x, k x = k' x) -> obind o k = obind o' k'.
  Proof. intros X Y o o' k k' -> Hk. destruct o'; cbn; auto. Qed.
End Same.

Section Readers.
  Context {A : Arith}.
  Notation F := (T A).
  Notation json := (json F).
  Variables (of_int : Z -> F) (uuid : Type) (uuid_read : string -> option uuid).

  Ltac distinct := repeat (constructor; [cbn; intuition congruence|]); constructor.
  Ltac inside := intros x Hx; cbn in Hx |- *; intuition congruence.
  Ltac here := match goal with Hg : forall k, In k _ -> opt_same _ _ |- _ => apply Hg; cbn; tauto end.

  Lemma f64_respects : respects (read_f64 of_int). Proof. apply scalar_respects; reflexivity. Qed.
  Lemma area_respects : respects (read_option (read_f64 of_int)). Proof. apply scalar_respects; reflexivity. Qed.
  Lemma usize_respects : respects (A:=A) read_usize. Proof. apply scalar_respects; reflexivity. Qed.
  Lemma string_respects : respects (A:=A) read_string. Proof. apply scalar_respects; reflexivity. Qed.
  Lemma uuid_respects : respects (A:=A) (read_uuid uuid uuid_read). Proof. apply scalar_respects; reflexivity. Qed.
  Lemma point_respects : respects (read_point of_int).
  Proof.
    apply struct_respects; [distinct|inside|]. intros b get get' Hg.
    apply obind_same; [apply required_same; [apply f64_respects|here]|intros x1]. apply obind_same; [apply required_same; [apply f64_respects|here]|intros x2].
    apply obind_same; [apply defaulted_same; [apply f64_respects|here]|intros x3]. reflexivity.
  Qed.
  Lemma action_respects : respects (read_action of_int).
  Proof.
    apply struct_respects; [distinct|inside|]. intros b get get' Hg.
    apply obind_same; [apply required_same; [apply string_respects|here]|intros x1]. apply obind_same; [apply required_same; [apply string_respects|here]|intros x2].
    apply obind_same; [apply defaulted_same; [apply vec_respects, f64_respects|here]|intros x3].
    apply obind_same; [apply defaulted_same; [apply vec_respects, point_respects|here]|intros x4].
    apply obind_same; [apply defaulted_same; [apply vec_respects, vec_respects, usize_respects|here]|intros x5]. reflexivity.
  Qed.
  Lemma params_respects : respects (read_params of_int).
  Proof.
    apply struct_respects; [distinct|inside|]. intros b get get' Hg.
    apply obind_same; [apply optional_same; [apply area_respects|here]|intros x1]. apply obind_same; [apply required_same; [apply f64_respects|here]|intros x2]. reflexivity.
  Qed.
  Lemma input_respects : forall id now j j', same_content j j' -> read_input of_int uuid uuid_read id now j = read_input of_int uuid uuid_read id now j'.
  Proof.
    intros id now. apply struct_respects; [distinct|inside|]. intros b get get' Hg.
    apply obind_same; [apply defaulted_same; [apply uuid_respects|here]|intros x1]. apply obind_same; [apply required_same; [apply string_respects|here]|intros x2].
    apply obind_same; [apply defaulted_same; [apply string_respects|here]|intros x3].
    apply obind_same; [apply required_same; [apply vec_respects, action_respects|here]|intros x4].
    apply obind_same; [apply required_same; [apply params_respects|here]|intros x5]. reflexivity.
  Qed.
  Lemma program_same : forall (H : HashOrder) finite uuid_show fuel p id now j j', same_content j j' ->
    run_program H of_int finite uuid uuid_read uuid_show fuel p id now j = run_program H of_int finite uuid uuid_read uuid_show fuel p id now j'.
  Proof. intros. unfold run_program. rewrite (input_respects id now j j') by assumption. reflexivity. Qed.

  (** Writing and reading back. *)
  Variables (finite : F -> bool) (uuid_show : uuid -> string).
  Hypothesis Hshow : forall u, uuid_read (uuid_show u) = Some u.
  Hypothesis Hzero : finite (of_int 0) = true.
  Notation finite_point := (finite_point finite).

  Lemma read_map : forall X (f : json -> option X) w l, (forall x, In x l -> f (w x) = Some x) -> read_all f (map w l) = Some l.
  Proof.
    intros X f w l. induction l as [|x l IH]; intros Hx; cbn [map read_all]; [reflexivity|]. rewrite (Hx x (or_introl eq_refl)), IH; [reflexivity|]. intros y Hy. apply Hx. right. exact Hy.
  Qed.
  Lemma back_f64 : forall x, finite x = true -> read_f64 of_int (write_f64 finite x) = Some x.
  Proof. intros x E. unfold write_f64. rewrite E. reflexivity. Qed.
  Lemma back_usize : forall n, read_usize (A:=A) (write_usize n) = Some n.
  Proof. intros n. unfold write_usize, read_usize. destruct (Z.leb_spec 0 (Z.of_nat n)); [rewrite Nat2Z.id; reflexivity|lia]. Qed.
  Lemma back_point : forall q, finite_point q -> read_point of_int (write_point of_int finite q) = Some q.
  Proof.
    intros [x y] [E1 E2]. cbn [fst snd] in *. unfold read_point, write_point, read_struct. cbn [fst snd visit_map existsb String.eqb Ascii.eqb Bool.eqb find_field orb obind required defaulted].
    rewrite !back_f64 by assumption. reflexivity.
  Qed.
  Lemma lost_point : forall q, read_point of_int (write_point of_int finite q) = Some q -> finite_point q.
  Proof.
    intros [x y]. unfold read_point, write_point, read_struct. cbn [fst snd visit_map existsb String.eqb Ascii.eqb Bool.eqb find_field orb obind required defaulted]. unfold finite_point, write_f64. cbn [fst snd].
    destruct (finite x); [|discriminate]. cbn [read_f64 obind]. destruct (finite y); [|discriminate]. auto.
  Qed.
  Lemma back_points : forall l, read_all (read_point of_int) (map (write_point of_int finite) l) = Some l <-> Forall finite_point l.
  Proof.
    intros l. split.
    - intros E. apply read_all_iff in E. induction l as [|q l IH]; [constructor|]. cbn [map] in E. inversion E; subst. constructor; [apply lost_point; assumption|apply IH; assumption].
    - intros Hl. rewrite Forall_forall in Hl. apply read_map. intros q Hq. apply back_point, Hl, Hq.
  Qed.
  Lemma some_points : forall l l', read_all (read_point of_int) (map (write_point of_int finite) l) = Some l' -> Forall finite_point l.
  Proof.
    intros l. induction l as [|q l IH]; intros l' E; [constructor|]. cbn [map read_all] in E. destruct (read_point of_int (write_point of_int finite q)) as [q'|] eqn:Eq; [|discriminate].
    destruct (read_all _ (map _ l)) as [l''|]; [|discriminate]. constructor; [|exact (IH l'' eq_refl)]. clear - Eq. destruct q as [x y].
    unfold read_point, write_point, read_struct in Eq. cbn [fst snd visit_map existsb String.eqb Ascii.eqb Bool.eqb find_field orb obind required defaulted] in Eq. unfold write_f64 in Eq. unfold finite_point. cbn [fst snd].
    destruct (finite x); [|discriminate]. cbn [read_f64 obind] in Eq. destruct (finite y); [|discriminate]. auto.
  Qed.
  Lemma back_triangle : forall t, read_triangle (A:=A) (write_triangle t) = Some t.
  Proof.
    intros [[i j] k]. unfold read_triangle, write_triangle, read_struct. cbn [visit_map existsb String.eqb Ascii.eqb Bool.eqb find_field orb obind required].
    rewrite !back_usize. reflexivity.
  Qed.
  Lemma back_tetrahedron : forall t, read_tetrahedron (A:=A) (write_tetrahedron t) = Some t.
  Proof.
    intros [[[i j] k] l]. unfold read_tetrahedron, write_tetrahedron, read_struct. cbn [visit_map existsb String.eqb Ascii.eqb Bool.eqb find_field orb obind required].
    rewrite !back_usize. reflexivity.
  Qed.
  Lemma report_back : forall id now r, Forall finite_point (r_coordinates _ r) -> read_report of_int uuid uuid_read id now (write_report of_int finite uuid uuid_show r) = Some r.
  Proof.
    intros id now [i n d c t h] Hc. cbn [r_coordinates] in Hc. unfold read_report, write_report, read_struct.
    cbn [visit_map existsb String.eqb Ascii.eqb Bool.eqb find_field orb obind required defaulted r_id r_name r_date r_coordinates r_triangles r_tetrahedrons read_uuid read_string read_vec].
    rewrite Hshow. cbn [obind]. rewrite (proj2 (back_points c) Hc). cbn [obind].
    rewrite (read_map _ _ _ t (fun x _ => back_triangle x)), (read_map _ _ _ h (fun x _ => back_tetrahedron x)). reflexivity.
  Qed.
  Lemma report_lost : forall id now r r', read_report of_int uuid uuid_read id now (write_report of_int finite uuid uuid_show r) = Some r' -> Forall finite_point (r_coordinates _ r).
  Proof.
    intros id now [i n d c t h] r'. unfold read_report, write_report, read_struct.
    cbn [visit_map existsb String.eqb Ascii.eqb Bool.eqb find_field orb obind required defaulted r_id r_name r_date r_coordinates r_triangles r_tetrahedrons read_uuid read_string read_vec].
    rewrite Hshow. cbn [obind]. intros E. destruct (read_all (read_point of_int) (map (write_point of_int finite) c)) as [c'|] eqn:Ec; [|discriminate]. exact (some_points c c' Ec).
  Qed.

  Notation finite_action := (finite_action finite).
  Notation finite_input := (finite_input finite).
  Lemma back_action : forall a, finite_action a -> read_action of_int (write_action of_int finite a) = Some a.
  Proof.
    intros [i g s q m] [Hs Hq]. cbn [a_scalars a_points] in *. unfold read_action, write_action, read_struct.
    cbn [visit_map existsb String.eqb Ascii.eqb Bool.eqb find_field orb obind required defaulted a_intent a_geometry a_scalars a_points a_assemble read_string read_vec].
    rewrite Forall_forall in Hs. rewrite (read_map _ _ _ s (fun x Hx => back_f64 x (Hs x Hx))). cbn [obind]. rewrite (proj2 (back_points q) Hq). cbn [obind].
    rewrite (read_map _ (read_vec read_usize) (fun l => JArr (map write_usize l)) m); [reflexivity|]. intros l _. cbn [read_vec]. apply read_map. intros n _. apply back_usize.
  Qed.
  Lemma input_back : forall id now d, finite_input (d_input _ d) -> read_input of_int uuid uuid_read id now (write_input of_int finite uuid uuid_show d) = Some d.
  Proof.
    intros id now [i n t [a m q]] (Ha & Hm & Hq). cbn [d_input i_actions i_max_area i_quality] in *. unfold read_input, write_input, read_struct.
    cbn [visit_map existsb String.eqb Ascii.eqb Bool.eqb find_field orb obind required defaulted d_id d_name d_date d_input i_actions i_max_area i_quality read_uuid read_string read_vec].
    rewrite Hshow. cbn [obind]. rewrite Forall_forall in Ha. rewrite (read_map _ _ _ a (fun x Hx => back_action x (Ha x Hx))). cbn [obind].
    assert (E : read_params of_int (write_params finite m q) = Some (m, q)).
    { unfold read_params, write_params, read_struct. cbn [visit_map existsb String.eqb Ascii.eqb Bool.eqb find_field orb obind required optional]. destruct m as [x|].
      - unfold write_f64 at 1. rewrite (Hm x eq_refl). cbn [read_option read_f64 obind]. rewrite back_f64 by exact Hq. reflexivity.
      - cbn [read_option obind]. rewrite back_f64 by exact Hq. reflexivity. }
    rewrite E. reflexivity.
  Qed.

  (** The program. *)
  Lemma program_iff : forall (H : HashOrder) fuel p id now j out, run_program H of_int finite uuid uuid_read uuid_show fuel p id now j = Ok out <->
    exists d coords triples, tells_input of_int uuid uuid_read id now j d /\ run_main H fuel p (d_input _ d) = Ok (Some (coords, triples)) /\
      out = write_report of_int finite uuid uuid_show (Rep uuid (d_id _ d) (d_name _ d) (d_date _ d) coords triples []).
  Proof.
    intros H fuel p id now j out. unfold run_program. split.
    - destruct (read_input of_int uuid uuid_read id now j) as [d|] eqn:Ed; [|discriminate]. intros E. apply bind_ok in E. destruct E as (o & Eo & E). destruct o as [[c t]|]; [|discriminate].
      exists d, c, t. split; [apply input_iff, Ed|]. split; [exact Eo|]. congruence.
    - intros (d & c & t & Hd & Er & ->). apply input_iff in Hd. rewrite Hd, Er. reflexivity.
  Qed.
End Readers.
