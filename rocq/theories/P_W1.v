(** P_W1.v — reading JSON values. *)

From Coq Require Import String List Bool Arith ZArith Permutation Lia.
From Verif Require Import Base Arith Geometry Elements Polyline Procedures Refine Triangulator Interface Json SpecW P_Base.
Import ListNotations.
Local Open Scope string_scope.
Local Open Scope list_scope.

Section Visit.
  Context {A : Arith}.
  Notation F := (T A).
  Notation json := (json F).
  Notation find := (find_field (A:=A)).

  Lemma known : forall k names, existsb (String.eqb k) names = true <-> In k names.
  Proof.
    intros k names. rewrite existsb_exists. split.
    - intros (x & Hx & E). apply String.eqb_eq in E. subst x. exact Hx.
    - intros Hi. exists k. split; [exact Hi|apply String.eqb_refl].
  Qed.
  Lemma find_cons : forall k k' v f, find k ((k', v) :: f) = if String.eqb k k' then Some v else find k f. Proof. reflexivity. Qed.
  Lemma absent_cons : forall k k' (v : json) o, absent ((k', v) :: o) k <-> k' <> k /\ absent o k.
  Proof. intros k k' v o. unfold absent. cbn [map In fst]. tauto. Qed.
  Lemma given_here : forall k (v : json) o, absent o k -> given ((k, v) :: o) k v.
  Proof.
    intros k v o Ha. split; [left; reflexivity|]. cbn [map fst count_occ]. destruct (string_dec k k); [|congruence]. f_equal. apply count_occ_not_In, Ha.
  Qed.
  Lemma given_there : forall k k' (v v' : json) o, k' <> k -> (given ((k', v') :: o) k v <-> given o k v).
  Proof.
    intros k k' v v' o Hn. unfold given. cbn [map fst count_occ In]. destruct (string_dec k' k); [congruence|]. split; intros [H1 H2]; (split; [|exact H2]); [|auto].
    destruct H1 as [E|H1]; [congruence|exact H1].
  Qed.
  Lemma given_key : forall k (v v' : json) o, given ((k, v') :: o) k v -> v = v' /\ absent o k.
  Proof.
    intros k v v' o [H1 H2]. cbn [map fst count_occ] in H2. destruct (string_dec k k); [|congruence]. assert (H3 : absent o k) by (apply (count_occ_not_In string_dec); lia).
    split; [|exact H3]. destruct H1 as [E|H1]; [congruence|]. apply (in_map fst) in H1. contradiction.
  Qed.
  Lemma given_in : forall k (v : json) o, given o k v -> ~ absent o k.
  Proof. intros k v o [H1 _] Ha. apply Ha. apply (in_map fst) in H1. exact H1. Qed.
  Lemma given_fun : forall o k (v v' : json), given o k v -> given o k v' -> v = v'.
  Proof.
    induction o as [|[k0 v0] o IH]; intros k v v' G G'; [destruct G as [[] _]|]. destruct (string_dec k0 k) as [->|Hn].
    - apply given_key in G. apply given_key in G'. destruct G, G'. congruence.
    - apply given_there in G; [|exact Hn]. apply given_there in G'; [|exact Hn]. exact (IH k v v' G G').
  Qed.

  (** What the visitor stores. *)
  Lemma visit_some : forall names o found f, visit_map names o found = Some f -> forall k, In k names ->
    match find k found with
    | Some v => absent o k /\ find k f = Some v
    | None => match find k f with Some v => given o k v | None => absent o k end
    end.
  Proof.
    intros names o. induction o as [|[k0 v0] o IH]; intros found f Hv k Hk; cbn [visit_map] in Hv.
    - injection Hv as <-. destruct (find k found); [split; [intros []|reflexivity]|intros []].
    - destruct (existsb (String.eqb k0) names) eqn:E0.
      + destruct (find_field k0 found) eqn:Ef; [discriminate|]. specialize (IH _ _ Hv k Hk). rewrite find_cons in IH. destruct (String.eqb k k0) eqn:Ek.
        * apply String.eqb_eq in Ek. subst k0. rewrite Ef. destruct IH as [IH1 IH2]. rewrite IH2. apply given_here, IH1.
        * apply String.eqb_neq in Ek. assert (Hn : k0 <> k) by congruence. destruct (find k found).
          -- destruct IH as [IH1 IH2]. split; [apply absent_cons; auto|exact IH2].
          -- destruct (find k f); [apply given_there; assumption|apply absent_cons; auto].
      + assert (Hn : k0 <> k). { intros ->. apply known in Hk. congruence. }
        specialize (IH _ _ Hv k Hk). destruct (find k found).
        * destruct IH as [IH1 IH2]. split; [apply absent_cons; auto|exact IH2].
        * destruct (find k f); [apply given_there; assumption|apply absent_cons; auto].
  Qed.
  Lemma visit_runs : forall names o found, (forall k, In k names -> absent o k \/ (find k found = None /\ exists v, given o k v)) -> exists f, visit_map names o found = Some f.
  Proof.
    intros names o. induction o as [|[k0 v0] o IH]; intros found Ha; cbn [visit_map]; [eauto|].
    destruct (existsb (String.eqb k0) names) eqn:E0.
    - apply known in E0. destruct (Ha k0 E0) as [Hb|[Hf (v & G)]]; [apply absent_cons in Hb; destruct Hb; congruence|]. rewrite Hf. apply given_key in G. destruct G as [_ G0].
      apply IH. intros k Hk. destruct (string_dec k0 k) as [->|Hn]; [auto|]. destruct (Ha k Hk) as [Hb|[Hf' (v' & G)]]; [left; apply absent_cons in Hb; apply Hb|].
      right. rewrite find_cons. destruct (String.eqb k k0) eqn:Ek; [apply String.eqb_eq in Ek; congruence|]. split; [exact Hf'|]. exists v'. apply given_there in G; assumption.
    - apply IH. intros k Hk. assert (Hn : k0 <> k). { intros ->. apply known in Hk. congruence. }
      destruct (Ha k Hk) as [Hb|[Hf (v & G)]]; [left; apply absent_cons in Hb; apply Hb|]. right. split; [exact Hf|]. exists v. apply given_there in G; assumption.
  Qed.

  (** Positions. *)
  Lemma find_combine : forall names (l : list json) i k, NoDup names -> nth_error names i = Some k -> find k (combine names l) = nth_error l i.
  Proof.
    induction names as [|n names IH]; intros l i k Hn Hi; [destruct i; discriminate|]. inversion Hn as [|? ? Hn1 Hn2]; subst. destruct l as [|j l].
    - destruct i; reflexivity.
    - cbn [combine]. rewrite find_cons. destruct i as [|i]; cbn [nth_error] in *.
      + injection Hi as ->. rewrite String.eqb_refl. reflexivity.
      + destruct (String.eqb k n) eqn:E; [|apply IH; assumption]. apply String.eqb_eq in E. subst n. apply nth_error_In in Hi. contradiction.
  Qed.

  Definition only {X} (names : list string) (build : bool -> (string -> option json) -> option X) : Prop :=
    forall b get get', (forall k, In k names -> get k = get' k) -> build b get = build b get'.

  Lemma fields_fun : forall names (j : json) b b' get get', fields names j b get -> fields names j b' get' -> b = b' /\ forall k, In k names -> get k = get' k.
  Proof.
    intros names j b b' get get' H1 H2. destruct j; cbn in *; try contradiction.
    - destruct H1 as (-> & _ & H1). destruct H2 as (-> & _ & H2). split; [reflexivity|]. intros k Hk. apply In_nth_error in Hk. destruct Hk as (i & Hi). rewrite (H1 i k Hi), (H2 i k Hi). reflexivity.
    - destruct H1 as (-> & H1). destruct H2 as (-> & H2). split; [reflexivity|]. intros k Hk. specialize (H1 k Hk). specialize (H2 k Hk). destruct (get k) as [v|]; destruct (get' k) as [v'|].
      + f_equal. exact (given_fun _ _ _ _ H1 H2).
      + destruct (given_in _ _ _ H1 H2).
      + destruct (given_in _ _ _ H2 H1).
      + reflexivity.
  Qed.
  Lemma read_struct_iff : forall X names (build : bool -> (string -> option json) -> option X), NoDup names -> only names build ->
    forall j x, read_struct names build j = Some x <-> exists b get, fields names j b get /\ build b get = Some x.
  Proof.
    intros X names build Hn Ho j x. split.
    - intros Hr. destruct j as [| | | | |l|o]; try discriminate; cbn [read_struct] in Hr.
      + destruct (Nat.leb (length l) (length names)) eqn:El; [|discriminate]. apply Nat.leb_le in El. exists false, (fun k => find k (combine names l)).
        split; [|exact Hr]. split; [reflexivity|]. split; [exact El|]. intros i k Hi. apply find_combine; assumption.
      + destruct (visit_map names o []) as [f|] eqn:Ev; [|discriminate]. exists true, (fun k => find k f). split; [|exact Hr]. split; [reflexivity|]. intros k Hk.
        exact (visit_some _ _ _ _ Ev k Hk).
    - intros (b & get & Hf & Hb). destruct j as [| | | | |l|o]; try destruct Hf; cbn [read_struct].
      + destruct H0 as [Hl Hi]. subst b. apply Nat.leb_le in Hl. rewrite Hl. rewrite <- Hb. apply Ho. intros k Hk. apply In_nth_error in Hk. destruct Hk as (i & Hk). rewrite (Hi i k Hk).
        apply find_combine; assumption.
      + subst b. destruct (visit_runs names o []) as (f & Ev). { intros k Hk. specialize (H0 k Hk). destruct (get k) as [v|]; [right; split; [reflexivity|eauto]|auto]. }
        rewrite Ev. cbn [obind]. rewrite <- Hb. apply Ho. intros k Hk.
        apply (fields_fun names (JObj o) true true (fun k => find k f) get); [|split; [reflexivity|exact H0]|exact Hk].
        split; [reflexivity|]. intros k' Hk'. exact (visit_some _ _ _ _ Ev k' Hk').
  Qed.

  Lemma read_all_iff : forall X (f : json -> option X) l xs, read_all f l = Some xs <-> Forall2 (fun j x => f j = Some x) l xs.
  Proof.
    intros X f l. induction l as [|j l IH]; intros xs; cbn [read_all].
    - split; [intros E; injection E as <-; constructor|]. intros E. inversion E. reflexivity.
    - split.
      + destruct (f j) as [x|] eqn:Ej; [|discriminate]. destruct (read_all f l) as [ys|] eqn:El; [|discriminate]. intros E. injection E as <-. constructor; [exact Ej|apply IH; reflexivity].
      + intros E. inversion E as [|? x ? ys Ej El]; subst. rewrite Ej. apply IH in El. rewrite El. reflexivity.
  Qed.
  Lemma read_vec_iff : forall X (f : json -> option X) (P : json -> X -> Prop), (forall j x, f j = Some x <-> P j x) -> forall j xs, read_vec f j = Some xs <-> listing P j xs.
  Proof.
    intros X f P HP j xs. unfold listing. split.
    - destruct j as [| | | | |l|o]; try discriminate. cbn [read_vec]. rewrite read_all_iff. intros E. exists l. split; [reflexivity|].
      clear - HP E. induction E; constructor; [apply HP; assumption|assumption].
    - intros (l & -> & E). cbn [read_vec]. apply read_all_iff. clear - HP E. induction E; constructor; [apply HP; assumption|assumption].
  Qed.
End Visit.

Section Read.
  Context {A : Arith}.
  Notation F := (T A).
  Notation json := (json F).
  Variables (of_int : Z -> F) (uuid : Type) (uuid_read : string -> option uuid).
  Notation number := (number of_int).

  Lemma f64_iff : forall j x, read_f64 of_int j = Some x <-> number j x.
  Proof.
    intros j x. unfold number. destruct j; cbn [read_f64]; split; try discriminate; intros E.
    all: try (destruct E as [(z' & E & _)|E]; discriminate).
    - injection E as <-. left. eauto.
    - destruct E as [(z' & E & ->)|E]; [injection E as ->; reflexivity|discriminate].
    - injection E as <-. right. reflexivity.
    - destruct E as [(z' & E & _)|E]; [discriminate|injection E as ->; reflexivity].
  Qed.
  Lemma usize_iff : forall (j : json) n, read_usize j = Some n <-> index j n.
  Proof.
    intros j n. unfold index. destruct j; cbn [read_usize]; split; try discriminate; intros E.
    - destruct (0 <=? z)%Z eqn:Ez; [|discriminate]. injection E as <-. apply Z.leb_le in Ez. rewrite Z2Nat.id by exact Ez. reflexivity.
    - injection E as ->. destruct (Z.leb_spec 0 (Z.of_nat n)) as [_|Hn]; [rewrite Nat2Z.id; reflexivity|lia].
  Qed.
  Lemma string_iff : forall (j : json) s, read_string j = Some s <-> j = JStr s.
  Proof. intros j s. destruct j; cbn [read_string]; split; try discriminate; intros E; injection E as ->; reflexivity. Qed.
  Lemma obind_iff : forall X Y (o : option X) (k : X -> option Y) y, obind o k = Some y <-> exists x, o = Some x /\ k x = Some y.
  Proof. intros X Y o k y. destruct o as [x|]; cbn [obind]; split; [eauto|intros (x' & E & Hk); injection E as ->; exact Hk|discriminate|intros (x' & E & _); discriminate]. Qed.
  Lemma required_iff : forall X (f : json -> option X) b got x, required f b got = Some x <-> exists j, got = Some j /\ f j = Some x.
  Proof. intros X f b got x. destruct got as [j|]; cbn [required]; split; [eauto|intros (j' & E & Hf); injection E as ->; exact Hf|discriminate|intros (j' & E & _); discriminate]. Qed.
  Lemma defaulted_iff : forall X d (f : json -> option X) (P : json -> X -> Prop), (forall j x, f j = Some x <-> P j x) -> forall b got x, defaulted d f b got = Some x <-> or_else P d got x.
  Proof.
    intros X d f P HP b got x. destruct got as [j|]; cbn [defaulted or_else]; [apply HP|]. split; [intros E; injection E as <-; reflexivity|intros ->; reflexivity].
  Qed.

  Ltac ext_names := let b := fresh in let g := fresh in let g' := fresh in let Hg := fresh in
    intros b g g' Hg; repeat match goal with |- context [g ?k] => rewrite (Hg k) by (cbn; tauto) end; reflexivity.
  Ltac distinct := repeat (constructor; [cbn; intuition congruence|]); constructor.

  Lemma point_iff : forall j q, read_point of_int j = Some q <-> tells_point of_int j q.
  Proof.
    intros j [x y]. unfold read_point, tells_point. rewrite read_struct_iff; [|distinct|ext_names]. cbn [fst snd]. split.
    - intros (b & get & Hf & Hb). apply obind_iff in Hb. destruct Hb as (x' & H1 & Hb). apply obind_iff in Hb. destruct Hb as (y' & H2 & Hb). apply obind_iff in Hb. destruct Hb as (z & H3 & Hb).
      injection Hb as -> ->. apply required_iff in H1. destruct H1 as (jx & G1 & N1). apply required_iff in H2. destruct H2 as (jy & G2 & N2).
      exists b, get, jx, jy, z. split; [exact Hf|]. split; [exact G1|]. split; [apply f64_iff, N1|]. split; [exact G2|]. split; [apply f64_iff, N2|]. exact (proj1 (defaulted_iff _ _ _ _ f64_iff _ _ _) H3).
    - intros (b & get & jx & jy & z & Hf & G1 & N1 & G2 & N2 & H3). exists b, get. split; [exact Hf|]. apply f64_iff in N1. apply f64_iff in N2. rewrite G1, G2. cbn [required]. rewrite N1, N2. cbn [obind].
      apply (defaulted_iff _ _ _ _ f64_iff b) in H3. rewrite H3. reflexivity.
  Qed.
  Lemma action_iff : forall j a, read_action of_int j = Some a <-> tells_action of_int j a.
  Proof.
    intros j [i g s q m]. unfold read_action, tells_action. rewrite read_struct_iff; [|distinct|ext_names]. cbn [a_intent a_geometry a_scalars a_points a_assemble]. split.
    - intros (b & get & Hf & Hb). apply obind_iff in Hb. destruct Hb as (x1 & H1 & Hb). apply obind_iff in Hb. destruct Hb as (x2 & H2 & Hb). apply obind_iff in Hb. destruct Hb as (x3 & H3 & Hb).
      apply obind_iff in Hb. destruct Hb as (x4 & H4 & Hb). apply obind_iff in Hb. destruct Hb as (x5 & H5 & Hb). injection Hb as -> -> -> -> ->.
      apply required_iff in H1. destruct H1 as (j1 & G1 & N1). apply string_iff in N1. subst j1. apply required_iff in H2. destruct H2 as (j2 & G2 & N2). apply string_iff in N2. subst j2.
      exists b, get. split; [exact Hf|]. split; [exact G1|]. split; [exact G2|].
      split; [exact (proj1 (defaulted_iff _ _ _ _ (read_vec_iff _ _ _ f64_iff) _ _ _) H3)|].
      split; [exact (proj1 (defaulted_iff _ _ _ _ (read_vec_iff _ _ _ point_iff) _ _ _) H4)|].
      exact (proj1 (defaulted_iff _ _ _ _ (read_vec_iff _ _ _ (read_vec_iff _ _ _ usize_iff)) _ _ _) H5).
    - intros (b & get & Hf & G1 & G2 & H3 & H4 & H5). exists b, get. split; [exact Hf|]. rewrite G1, G2. cbn [required read_string obind].
      apply (defaulted_iff _ _ _ _ (read_vec_iff _ _ _ f64_iff) b) in H3. rewrite H3. cbn [obind].
      apply (defaulted_iff _ _ _ _ (read_vec_iff _ _ _ point_iff) b) in H4. rewrite H4. cbn [obind].
      apply (defaulted_iff _ _ _ _ (read_vec_iff _ _ _ (read_vec_iff _ _ _ usize_iff)) b) in H5. rewrite H5. reflexivity.
  Qed.
  Lemma option_iff : forall X (f : json -> option X) j o, f JNull = None -> (read_option f j = Some o <-> match o with Some x => f j = Some x | None => j = JNull end).
  Proof.
    intros X f j o Hn. destruct o as [x|].
    - destruct j; cbn [read_option]; try (match goal with |- context [f ?a] => destruct (f a) end; (split; intros E; [try discriminate E; injection E as E; subst; reflexivity|try discriminate E; injection E as E; subst; reflexivity])).
      split; intros E; [discriminate E|congruence].
    - destruct j; cbn [read_option]; try (match goal with |- context [f ?a] => destruct (f a) end; split; intros E; discriminate E). split; intros _; reflexivity.
  Qed.
  Lemma params_iff : forall j m q, read_params of_int j = Some (m, q) <-> tells_params of_int j m q.
  Proof.
    intros j m q. unfold read_params, tells_params. rewrite read_struct_iff; [|distinct|ext_names]. split.
    - intros (b & get & Hf & Hb). apply obind_iff in Hb. destruct Hb as (m' & H1 & Hb). apply obind_iff in Hb. destruct Hb as (q' & H2 & Hb). injection Hb as -> ->.
      apply required_iff in H2. destruct H2 as (jq & G & N). apply f64_iff in N. exists b, get, jq. split; [exact Hf|]. split; [exact G|]. split; [exact N|].
      destruct (get "max_area") as [jm|]; cbn [optional] in H1.
      + apply option_iff in H1; [|reflexivity]. destruct m; [apply f64_iff|]; exact H1.
      + destruct b; [|discriminate]. injection H1 as <-. reflexivity.
    - intros (b & get & jq & Hf & G & N & Hm). exists b, get. split; [exact Hf|]. apply f64_iff in N. rewrite G. cbn [required]. rewrite N.
      assert (E : optional (read_f64 of_int) b (get "max_area") = Some m).
      { destruct (get "max_area") as [jm|]; cbn [optional]; [apply option_iff; [reflexivity|]; destruct m; [apply f64_iff|]; exact Hm|]. destruct m; [contradiction|]. rewrite Hm. reflexivity. }
      rewrite E. reflexivity.
  Qed.
  Lemma uuid_iff : forall (j : json) u, read_uuid uuid uuid_read j = Some u <-> exists s, j = JStr s /\ uuid_read s = Some u.
  Proof.
    intros j u. unfold read_uuid. rewrite obind_iff. split; intros (s & H1 & H2); exists s; (split; [|exact H2]); [apply string_iff in H1; exact H1|apply string_iff; exact H1].
  Qed.
  Lemma input_iff : forall id now j d, read_input of_int uuid uuid_read id now j = Some d <-> tells_input of_int uuid uuid_read id now j d.
  Proof.
    intros id now j [i n t [ac m q]]. unfold read_input, tells_input. rewrite read_struct_iff; [|distinct|ext_names]. cbn [d_id d_name d_date d_input i_actions i_max_area i_quality]. split.
    - intros (b & get & Hf & Hb). apply obind_iff in Hb. destruct Hb as (x1 & H1 & Hb). apply obind_iff in Hb. destruct Hb as (x2 & H2 & Hb). apply obind_iff in Hb. destruct Hb as (x3 & H3 & Hb).
      apply obind_iff in Hb. destruct Hb as (x4 & H4 & Hb). apply obind_iff in Hb. destruct Hb as ([m' q'] & H5 & Hb). cbn [fst snd] in Hb. injection Hb as -> -> -> -> -> ->.
      apply required_iff in H2. destruct H2 as (j2 & G2 & N2). apply string_iff in N2. subst j2. apply required_iff in H4. destruct H4 as (ja & G4 & N4). apply required_iff in H5. destruct H5 as (jp & G5 & N5).
      exists b, get, ja, jp. split; [exact Hf|]. split; [exact (proj1 (defaulted_iff _ _ _ _ uuid_iff _ _ _) H1)|]. split; [exact G2|].
      split; [exact (proj1 (defaulted_iff _ _ _ _ string_iff _ _ _) H3)|]. split; [exact G4|]. split; [exact (proj1 (read_vec_iff _ _ _ action_iff _ _) N4)|]. split; [exact G5|]. apply params_iff, N5.
    - intros (b & get & ja & jp & Hf & H1 & G2 & H3 & G4 & N4 & G5 & N5). exists b, get. split; [exact Hf|]. rewrite G2, G4, G5.
      apply (defaulted_iff _ _ _ _ uuid_iff b) in H1. rewrite H1. apply (defaulted_iff _ _ _ _ string_iff b) in H3. rewrite H3. cbn [required read_string obind].
      apply (read_vec_iff _ _ _ action_iff) in N4. rewrite N4. apply params_iff in N5. rewrite N5. reflexivity.
  Qed.
End Read.
