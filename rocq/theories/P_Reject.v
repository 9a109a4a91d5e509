(** P_Reject.v — which inputs are refused, and which make the program panic (C146). *)

From Coq Require Import String List Arith Lia Bool ZArith.
From Verif Require Import Base Arith Geometry Elements Polyline Refine Triangulator Interface SpecI SpecRej P_Base P_Poly P_Interface ArithF Samples.
Import ListNotations.
Local Open Scope string_scope.
Local Open Scope list_scope.
Local Open Scope nat_scope.

Section Reject.
  Context {A : Arith}.
  Notation vertex := (vertex A).
  Notation edge := (edge A).
  Notation action := (action A).

  Lemma crosses_meet : forall v1 v2 v3 v4 : vertex, crosses (v1, v2) (v3, v4) = true -> intersection v1 v2 v3 v4 <> None.
  Proof. intros v1 v2 v3 v4 Hc. unfold crosses in Hc. destruct (intersection v1 v2 v3 v4); [discriminate|discriminate Hc]. Qed.

  Lemma split_sound : forall fuel (aux done : list edge), split_loop fuel aux done <> Panic.
  Proof.
    induction fuel as [|fuel IH]; intros aux done; cbn [split_loop]; [discriminate|]. destruct aux as [|[v1 v2] aux]; [discriminate|].
    destruct (extract (crosses (v1, v2)) done) as [[[v3 v4] done']|] eqn:Ex; [|apply IH].
    destruct (extract_some _ _ _ _ _ Ex) as (_ & _ & _ & _ & Hc & _). apply crosses_meet in Hc.
    destruct (intersection v1 v2 v3 v4) as [iv|]; [|contradiction]. cbn [unwrap bind]. apply IH.
  Qed.

  (** ** Rings *)
  Lemma set_length : forall a : action, length (map set_at (a_points a)) = length (a_points a). Proof. intros a. apply map_length. Qed.
  Lemma ring_empty : forall fuel (a : action), a_points a = [] -> parse_polyline fuel a = Ok None.
  Proof. intros fuel a E. unfold parse_polyline. rewrite E. reflexivity. Qed.
  Lemma ring_cut : forall fuel (a : action) es cut, cut_into fuel a es cut ->
    parse_polyline fuel a = if Nat.ltb (length es) (length cut) then Ok None else let! pl := unwrap (new_closed (map set_at (a_points a))) in Ok (Some pl).
  Proof.
    intros fuel a es cut [E1 E2]. unfold parse_polyline. change (map point_to_vertex (a_points a)) with (map set_at (a_points a)).
    destruct (map set_at (a_points a)) as [|v vs] eqn:Ev; [discriminate|]. rewrite E1. cbn [bind]. rewrite E2. reflexivity.
  Qed.
  Lemma ring_cases : forall fuel (a : action), parse_polyline fuel a = NoFuel \/ a_points a = [] \/ exists es cut, cut_into fuel a es cut.
  Proof.
    intros fuel a. unfold parse_polyline, cut_into. change (map point_to_vertex (a_points a)) with (map set_at (a_points a)). destruct (a_points a) as [|q pts]; [auto|]. cbn [map].
    cbn [vertex_pairs bind]. match goal with |- context[split_intersections fuel ?l] => set (es := l); destruct (split_intersections fuel es) as [cut| |] eqn:E end.
    - right. right. exists es, cut. split; [reflexivity|exact E].
    - exfalso. exact (split_sound _ _ _ E).
    - auto.
  Qed.
  Lemma closed_few : forall l : list vertex, new_closed l = if Nat.ltb (length l) 3 then None else Some (Poly l false). Proof. reflexivity. Qed.

  (** ** Circles *)
  Lemma circle_few : forall (a : action) r rest c, a_scalars a = r :: rest -> a_points a = [c] ->
    parse_circle a = if Nat.ltb (corners rest) 3 then Panic else Ok (Some (Poly (circle_points r c (corners rest)) false)).
  Proof.
    intros a r rest c E1 E2. unfold parse_circle. rewrite E1, E2. fold (corners rest). unfold new_closed. unfold circle_points at 1. rewrite map_length, seq_length.
    destruct (Nat.ltb (corners rest) 3); reflexivity.
  Qed.
  Lemma circle_none : forall a : action, a_scalars a = [] \/ length (a_points a) <> 1 -> parse_circle a = Ok None.
  Proof.
    intros a K. unfold parse_circle. destruct (a_scalars a) as [|r rest]; [reflexivity|]. destruct K as [K|K]; [discriminate|].
    destruct (a_points a) as [|c [|c' pts]]; [reflexivity|cbn in K; lia|reflexivity].
  Qed.

  (** ** Segments *)
  Lemma assemble_skip : forall (a : action) before, (forall x, In x before -> good_set a x) -> forall sets acc, exists acc', parse_assemble (a_points a) (before ++ sets) acc = parse_assemble (a_points a) sets acc'.
  Proof.
    intros a before. induction before as [|s before IH]; intros Hg sets acc; [exists acc; reflexivity|].
    destruct (Hg s (or_introl eq_refl)) as (i & j & r & -> & Hi & Hj). cbn [app parse_assemble].
    destruct (nth_error (a_points a) i) as [p1|] eqn:E1; [|apply nth_error_None in E1; lia]. destruct (nth_error (a_points a) j) as [p2|] eqn:E2; [|apply nth_error_None in E2; lia].
    cbn [unwrap bind]. apply IH. intros x Hx. apply Hg. right. exact Hx.
  Qed.
  Lemma assemble_short : forall (a : action) before s after acc, (forall x, In x before -> good_set a x) -> length s < 2 -> parse_assemble (a_points a) (before ++ s :: after) acc = Ok None.
  Proof. intros a before s after acc Hg Hs. destruct (assemble_skip a before Hg (s :: after) acc) as [acc' ->]. destruct s as [|i [|j r]]; [reflexivity|reflexivity|cbn in Hs; lia]. Qed.
  Lemma assemble_far : forall (a : action) before i j r after acc, (forall x, In x before -> good_set a x) -> length (a_points a) <= i \/ length (a_points a) <= j ->
    parse_assemble (a_points a) (before ++ (i :: j :: r) :: after) acc = Panic.
  Proof.
    intros a before i j r after acc Hg Hs. destruct (assemble_skip a before Hg ((i :: j :: r) :: after) acc) as [acc' ->]. cbn [parse_assemble].
    destruct (nth_error (a_points a) i) as [p1|] eqn:E1; [|reflexivity]. cbn [unwrap bind]. destruct (nth_error (a_points a) j) as [p2|] eqn:E2; [|reflexivity].
    exfalso. assert (i < length (a_points a)) by (apply nth_error_Some; congruence). assert (j < length (a_points a)) by (apply nth_error_Some; congruence). lia.
  Qed.
  Lemma assemble_cases : forall (a : action) sets, (forall s, In s sets -> good_set a s) \/
    (exists before s after, sets = before ++ s :: after /\ (forall x, In x before -> good_set a x) /\ length s < 2) \/
    (exists before i j r after, sets = before ++ (i :: j :: r) :: after /\ (forall x, In x before -> good_set a x) /\ (length (a_points a) <= i \/ length (a_points a) <= j)).
  Proof.
    intros a sets. induction sets as [|s sets IH]; [left; intros s []|].
    assert (Hno : forall x, In x [] -> good_set a x) by (intros x []).
    destruct s as [|i [|j r]]; [right; left; exists [], [], sets; cbn; auto|right; left; exists [], [i], sets; cbn; auto|].
    destruct (Nat.ltb i (length (a_points a))) eqn:Ei; [apply Nat.ltb_lt in Ei|apply Nat.ltb_ge in Ei; right; right; exists [], i, j, r, sets; auto].
    destruct (Nat.ltb j (length (a_points a))) eqn:Ej; [apply Nat.ltb_lt in Ej|apply Nat.ltb_ge in Ej; right; right; exists [], i, j, r, sets; auto].
    assert (G : good_set a (i :: j :: r)) by (exists i, j, r; auto).
    assert (Hmore : forall before, (forall x, In x before -> good_set a x) -> forall x, In x ((i :: j :: r) :: before) -> good_set a x) by (intros before Hb x [<-|Hx]; auto).
    destruct IH as [Hs|[(b & s & af & -> & Hb & Hs)|(b & i' & j' & r' & af & -> & Hb & Hs)]]; [left; apply Hmore, Hs|right; left|right; right].
    - exists ((i :: j :: r) :: b), s, af. split; [reflexivity|]. split; [apply Hmore, Hb|exact Hs].
    - exists ((i :: j :: r) :: b), i', j', r', af. split; [reflexivity|]. split; [apply Hmore, Hb|exact Hs].
  Qed.

  Lemma paired_some : forall a : action, paired a -> exists es, parse_segments a = Ok (Some es).
  Proof.
    intros a [[E He]|[N Hg]]; unfold parse_segments.
    - rewrite E. apply Nat.even_spec in He. rewrite He. eexists. reflexivity.
    - destruct (assemble_skip a (a_assemble a) Hg [] []) as [acc E]. rewrite app_nil_r in E. destruct (a_assemble a) as [|s sets]; [contradiction|]. rewrite E. eexists. reflexivity.
  Qed.
  Lemma ring_body : forall fuel (a : action), ring fuel a -> exists pl, body fuel a pl.
  Proof.
    intros fuel a [(Eg & H3 & es & cut & Hc & Hl)|(Eg & r & rest & c & Es & Ep & H3)].
    - exists (Poly (map set_at (a_points a)) false). left. split; [exact Eg|]. rewrite (ring_cut fuel a es cut Hc), (proj2 (Nat.ltb_ge _ _) Hl), closed_few, set_length, (proj2 (Nat.ltb_ge _ _) H3). reflexivity.
    - exists (Poly (circle_points r c (corners rest)) false). right. split; [exact Eg|]. rewrite (circle_few a r rest c Es Ep), (proj2 (Nat.ltb_ge _ _) H3). reflexivity.
  Qed.

  (** ** One action *)
  Lemma other_intent : forall (a : action) (pl : polyline A) (d : domains A), a_intent a <> "include" -> a_intent a <> "remove" -> add_domain (a_intent a) pl d = None.
  Proof.
    intros a pl d N1 N2. unfold add_domain. rewrite (proj2 (String.eqb_neq _ _) N1), (proj2 (String.eqb_neq _ _) N2). reflexivity.
  Qed.
  Lemma intent_cases : forall (a : action) (pl : polyline A) (d : domains A), (exists d', add_domain (a_intent a) pl d = Some d') \/ (a_intent a <> "include" /\ a_intent a <> "remove").
  Proof.
    intros a pl d. unfold add_domain. destruct (String.eqb (a_intent a) "include") eqn:E1; [left; eauto|]. destruct (String.eqb (a_intent a) "remove") eqn:E2; [left; eauto|].
    right. split; apply String.eqb_neq; assumption.
  Qed.
  Lemma refused_none : forall fuel (a : action), refused fuel a -> forall d, parse_action fuel d a = Ok None.
  Proof.
    intros fuel a Hr d. unfold parse_action. destruct Hr as [Hg|Eg Ep|es cut Eg Hc Hl|Eg Hc|Hb N1 N2|Eg Ea Ho|before s after Eg Ea Hb Hs|Eg Hp Ni|Eg Ni].
    - rewrite !(proj2 (String.eqb_neq _ _)) by (intros E; apply Hg; rewrite E; cbn; auto). reflexivity.
    - rewrite Eg. cbn. rewrite (ring_empty fuel a Ep). reflexivity.
    - rewrite Eg. cbn. rewrite (ring_cut fuel a es cut Hc). rewrite (proj2 (Nat.ltb_lt _ _) Hl). reflexivity.
    - rewrite Eg. cbn. rewrite (circle_none a Hc). reflexivity.
    - destruct (ring_body fuel a Hb) as [pl [[Eg Eb]|[Eg Eb]]]; rewrite Eg; cbn; rewrite Eb; cbn [bind]; rewrite other_intent; auto.
    - rewrite Eg. cbn. unfold parse_segments. rewrite Ea. replace (Nat.even (length (a_points a))) with false; [reflexivity|].
      symmetry. apply not_true_is_false. intros E. apply Nat.even_spec in E. exact (Nat.Even_Odd_False _ E Ho).
    - rewrite Eg. cbn. unfold parse_segments. rewrite Ea. rewrite (assemble_short a before s after [] Hb Hs). destruct (before ++ s :: after) eqn:E; [destruct before; discriminate|reflexivity].
    - destruct (paired_some a Hp) as [es Ep]. rewrite Eg. cbn. rewrite Ep. cbn [bind]. rewrite (proj2 (String.eqb_neq _ _) Ni). reflexivity.
    - rewrite Eg. cbn. rewrite (proj2 (String.eqb_neq _ _) Ni). reflexivity.
  Qed.
  Lemma broken_panic : forall fuel (a : action), broken fuel a -> forall d, parse_action fuel d a = Panic.
  Proof.
    intros fuel a Hr d. unfold parse_action. destruct Hr as [es cut Eg Hc Hl H3|r rest c Eg Es Ep H3|before i j r after Eg Ea Hb Hs].
    - rewrite Eg. cbn. rewrite (ring_cut fuel a es cut Hc). rewrite (proj2 (Nat.ltb_ge _ _) Hl). rewrite closed_few, set_length, (proj2 (Nat.ltb_lt _ _) H3). reflexivity.
    - rewrite Eg. cbn. rewrite (circle_few a r rest c Es Ep). rewrite (proj2 (Nat.ltb_lt _ _) H3). reflexivity.
    - rewrite Eg. cbn. unfold parse_segments. rewrite Ea. rewrite (assemble_far a before i j r after [] Hb Hs). destruct (before ++ (i :: j :: r) :: after) eqn:E; [destruct before; discriminate|reflexivity].
  Qed.
  Lemma action_cases : forall fuel (a : action) d, parse_action fuel d a = NoFuel \/ (exists d', parse_action fuel d a = Ok (Some d')) \/ refused fuel a \/ broken fuel a.
  Proof.
    intros fuel a d. destruct (in_dec String.string_dec (a_geometry a) ["polyline"; "circle"; "segments"; "vertices"]) as [Hg|Hg]; [|right; right; left; apply rf_geometry, Hg].
    unfold parse_action. destruct Hg as [Eg|[Eg|[Eg|[Eg|[]]]]]; symmetry in Eg; rewrite Eg; cbn [String.eqb Ascii.eqb Bool.eqb].
    - destruct (ring_cases fuel a) as [E|[E|(es & cut & Hc)]]; [left; rewrite E; reflexivity|right; right; left; apply rf_empty; assumption|].
      destruct (Nat.ltb (length es) (length cut)) eqn:El; [apply Nat.ltb_lt in El; right; right; left; apply (rf_crossing fuel a es cut); assumption|].
      destruct (Nat.ltb (length (a_points a)) 3) eqn:E3; [apply Nat.ltb_lt in E3; apply Nat.ltb_ge in El; right; right; right; apply (bk_ring fuel a es cut); assumption|].
      assert (Eb : parse_polyline fuel a = Ok (Some (Poly (map set_at (a_points a)) false))) by (rewrite (ring_cut fuel a es cut Hc), El, closed_few, set_length, E3; reflexivity).
      destruct (intent_cases a (Poly (map set_at (a_points a)) false) d) as [[d' E]|[N1 N2]].
      + right. left. exists d'. rewrite Eb. cbn [bind]. rewrite E. reflexivity.
      + right. right. left. apply rf_ring; [left|exact N1|exact N2]. apply Nat.ltb_ge in El, E3. split; [exact Eg|]. split; [exact E3|]. exists es, cut. auto.
    - destruct (a_scalars a) as [|r rest] eqn:Es; [right; right; left; apply rf_circle; auto|].
      destruct (Nat.eq_dec (length (a_points a)) 1) as [E1|N1]; [|right; right; left; apply rf_circle; auto].
      destruct (a_points a) as [|c [|c' pts]] eqn:Ep; try discriminate.
      destruct (Nat.ltb (corners rest) 3) eqn:E3; [apply Nat.ltb_lt in E3; right; right; right; apply (bk_circle fuel a r rest c); assumption|].
      pose proof (circle_few a r rest c Es Ep) as Eb. rewrite E3 in Eb.
      destruct (intent_cases a (Poly (circle_points r c (corners rest)) false) d) as [[d' E]|[N1 N2]].
      + right. left. exists d'. rewrite Eb. cbn [bind]. rewrite E. reflexivity.
      + right. right. left. apply rf_ring; [right|exact N1|exact N2]. apply Nat.ltb_ge in E3. split; [exact Eg|]. exists r, rest, c. auto.
    - assert (K : paired a \/ refused fuel a \/ broken fuel a).
      { destruct (a_assemble a) as [|s sets] eqn:Ea.
        - destruct (Nat.Even_or_Odd (length (a_points a))) as [He|Ho]; [left; left; auto|right; left; apply rf_odd; assumption].
        - destruct (assemble_cases a (s :: sets)) as [Hs|[(b & s' & af & E & Hb & Hs)|(b & i & j & r & af & E & Hb & Hs)]]; [left; right|right; left|right; right].
          + rewrite Ea. split; [discriminate|exact Hs].
          + apply (rf_set fuel a b s' af); auto. rewrite Ea. exact E.
          + apply (bk_set fuel a b i j r af); auto. rewrite Ea. exact E. }
      destruct K as [K|K]; [|right; right; exact K]. destruct (paired_some a K) as [es E]. rewrite E. cbn [bind].
      destruct (String.eqb (a_intent a) "constraint") eqn:Ei; [right; left; eauto|]. apply String.eqb_neq in Ei. right. right. left. apply rf_segments; assumption.
    - destruct (String.eqb (a_intent a) "constraint") eqn:Ei; [right; left; eauto|]. apply String.eqb_neq in Ei. right. right. left. apply rf_vertices; assumption.
  Qed.

  (** ** All actions *)
  Lemma some_means : forall fuel (a : action) d d', parse_action fuel d a = Ok (Some d') -> exists f : effect (A:=A), means fuel a f.
  Proof.
    intros fuel a d d' E. pose proof (proj1 (proj1 (interpret_exact fuel (Inp [a] None (c0 (A:=A)))))) as K.
    apply K; [|left; reflexivity].
    assert (E0 : exists d0, parse_action fuel (Dom [] [] [] []) a = Ok (Some d0)).
    { destruct (action_cases fuel a (Dom [] [] [] [])) as [N|[S|[R|B]]]; [|exact S|rewrite (refused_none fuel a R d) in E; discriminate|rewrite (broken_panic fuel a B d) in E; discriminate].
      exfalso. revert E N. unfold parse_action. repeat match goal with |- context[String.eqb (a_geometry a) ?s] => destruct (String.eqb (a_geometry a) s) end;
        try (destruct (parse_polyline fuel a)); try (destruct (parse_circle a)); try (destruct (parse_segments a)); cbn; discriminate. }
    destruct E0 as [d0 E0]. unfold interpret. cbn [i_actions parse_actions]. rewrite E0. cbn. eauto.
  Qed.
  Lemma actions_stop : forall fuel (acts : list action) before a after d, acts = before ++ a :: after -> (forall b, In b before -> exists f : effect (A:=A), means fuel b f) ->
    (refused fuel a -> parse_actions fuel acts d = Ok None) /\ (broken fuel a -> parse_actions fuel acts d = Panic).
  Proof.
    intros fuel acts before. revert acts. induction before as [|b before IH]; intros acts a after d -> Hm; cbn [app parse_actions].
    - split; intros K; [rewrite (refused_none fuel a K d)|rewrite (broken_panic fuel a K d)]; reflexivity.
    - destruct (Hm b (or_introl eq_refl)) as [f Hf]. destruct (parse_action_means fuel d b f Hf) as [d1 E]. rewrite E. cbn [bind].
      apply (IH _ a after d1 eq_refl). intros b' Hb'. apply Hm. right. exact Hb'.
  Qed.
  Lemma actions_cases : forall fuel (acts : list action) d, parse_actions fuel acts d = NoFuel \/ (exists d', parse_actions fuel acts d = Ok (Some d')) \/
    exists before a after, acts = before ++ a :: after /\ (forall b, In b before -> exists f : effect (A:=A), means fuel b f) /\ (refused fuel a \/ broken fuel a).
  Proof.
    intros fuel acts. induction acts as [|a acts IH]; intros d; cbn [parse_actions]; [right; left; eauto|].
    destruct (action_cases fuel a d) as [E|[[d' E]|K]]; [left; rewrite E; reflexivity| |right; right; exists [], a, acts; split; [reflexivity|]; split; [intros b []|exact K]].
    rewrite E. cbn [bind]. destruct (IH d') as [N|[S|(before & x & after & -> & Hb & K)]]; [auto|auto|].
    right. right. exists (a :: before), x, after. split; [reflexivity|]. split; [|exact K]. intros b [<-|Hb']; [exact (some_means fuel a d d' E)|auto].
  Qed.

  Lemma interpret_refused : forall fuel (inp : input A), interpret fuel inp = Ok None <-> exists a, stops_at fuel inp a /\ refused fuel a.
  Proof.
    intros fuel inp. unfold interpret, stops_at. split.
    - intros E. destruct (actions_cases fuel (i_actions inp) (Dom [] [] [] [])) as [N|[[d S]|(before & a & after & Ea & Hb & [R|B])]].
      + rewrite N in E. discriminate.
      + rewrite S in E. discriminate.
      + exists a. split; [exists before, after; auto|exact R].
      + rewrite (proj2 (actions_stop fuel _ before a after (Dom [] [] [] []) Ea Hb) B) in E. discriminate.
    - intros (a & (before & after & Ea & Hb) & R). rewrite (proj1 (actions_stop fuel _ before a after (Dom [] [] [] []) Ea Hb) R). reflexivity.
  Qed.
  Lemma interpret_broken : forall fuel (inp : input A), interpret fuel inp = Panic <-> exists a, stops_at fuel inp a /\ broken fuel a.
  Proof.
    intros fuel inp. unfold interpret, stops_at. split.
    - intros E. destruct (actions_cases fuel (i_actions inp) (Dom [] [] [] [])) as [N|[[d S]|(before & a & after & Ea & Hb & [R|B])]].
      + rewrite N in E. discriminate.
      + rewrite S in E. discriminate.
      + rewrite (proj1 (actions_stop fuel _ before a after (Dom [] [] [] []) Ea Hb) R) in E. discriminate.
      + exists a. split; [exists before, after; auto|exact B].
    - intros (a & (before & after & Ea & Hb) & R). rewrite (proj2 (actions_stop fuel _ before a after (Dom [] [] [] []) Ea Hb) R). reflexivity.
  Qed.
  Lemma run_stops : forall (H : HashOrder) fuel p (inp : input A) a, stops_at fuel inp a ->
    (refused fuel a -> parse H fuel p inp = Ok None /\ run_main H fuel p inp = Ok None) /\ (broken fuel a -> parse H fuel p inp = Panic /\ run_main H fuel p inp = Panic).
  Proof.
    intros H fuel p inp a Hs. split; intros K.
    - assert (E : interpret fuel inp = Ok None) by (apply interpret_refused; eauto).
      assert (P : forall q, parse H fuel q inp = Ok None) by (intros q; unfold parse; rewrite E; reflexivity). split; [apply P|]. unfold run_main. rewrite P. reflexivity.
    - assert (E : interpret fuel inp = Panic) by (apply interpret_broken; eauto).
      assert (P : forall q, parse H fuel q inp = Panic) by (intros q; unfold parse; rewrite E; reflexivity). split; [apply P|]. unfold run_main. rewrite P. reflexivity.
  Qed.
End Reject.

(** ** A square, then any action *)
Definition a_square : action ArithF := Act (A:=ArithF) "include" "polyline" [] [point_of 0 0; point_of 10 0; point_of 10 10; point_of 0 10] [].
Definition square_first (a : action ArithF) : input ArithF := Inp (A:=ArithF) [a_square; a] None (fpz 1%Z).
Lemma case_square : forall a, stops_at 30 (square_first a) a.
Proof.
  intros a. exists [a_square], []. split; [reflexivity|]. intros b Hb. revert b Hb.
  apply (proj1 (proj1 (interpret_exact 30 (Inp (A:=ArithF) [a_square] None (fpz 1%Z))))).
  assert (K : okb (interpret 30 (Inp (A:=ArithF) [a_square] None (fpz 1%Z))) (fun o => match o with Some _ => true | None => false end) = true) by (vm_compute; reflexivity).
  apply okb_ok in K. destruct K as ([d|] & E & K); [exists d; exact E|discriminate K].
Qed.
