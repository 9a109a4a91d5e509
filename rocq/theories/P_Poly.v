(** P_Poly.v — splitting, continence, union, arrange, decompose. *)

From Coq Require Import List Permutation Arith Bool ZArith Lia.
From Verif Require Import Base Arith Geometry Elements Polyline Procedures Refine Triangulator Spec P_Base P_Trn P_Triangulator.
Import ListNotations.
Local Open Scope nat_scope.

Section Poly.
  Context {A : Arith}.
  Notation vertex := (vertex A).
  Notation edge := (edge A).
  Notation triangle := (triangle A).
  Notation polyline := (polyline A).

  Lemma veqb_refl : forall v : vertex, veqb v v = true.
  Proof. intros v. unfold veqb. destruct (vghost v); cbn; [reflexivity|]. rewrite !aeq_refl. reflexivity. Qed.

  (** ** split_intersections *)

  Lemma extract_some : forall X (f : X -> bool) l x r, extract f l = Some (x, r) ->
    exists l1 l2, l = l1 ++ x :: l2 /\ r = l1 ++ l2 /\ f x = true /\ forall y, In y l1 -> f y = false.
  Proof.
    intros X f l. induction l as [|a l IH]; intros x r He; cbn in He; [discriminate|].
    destruct (f a) eqn:Hf.
    - injection He as <- <-. exists [], l. repeat split; auto. intros y [].
    - destruct (extract f l) as [[y r']|]; [|discriminate]. injection He as <- <-.
      destruct (IH y r' eq_refl) as (l1 & l2 & -> & -> & Hy & Hn). exists (a :: l1), l2. repeat split; auto.
      intros z [<-|Hz]; auto.
  Qed.
  Lemma extract_none : forall X (f : X -> bool) l, extract f l = None <-> forall x, In x l -> f x = false.
  Proof.
    intros X f l. induction l as [|a l IH]; cbn; [split; [intros _ x []|reflexivity]|].
    destruct (f a) eqn:Hf.
    - split; [discriminate|]. intros Hn. specialize (Hn a (or_introl eq_refl)). congruence.
    - destruct (extract f l) as [[y r]|].
      + split; [discriminate|]. intros Hn. assert (Hx : Some (y, r) = None) by (apply IH; auto). discriminate.
      + split; [|reflexivity]. intros _ x [<-|Hx]; [exact Hf|]. apply IH; [reflexivity|exact Hx].
  Qed.

  Lemma pairwise_nil : forall X (Q : X -> X -> Prop), pairwise Q [].
  Proof. intros X Q l1 x l2 y l3 He. destruct l1; discriminate. Qed.
  Lemma pairwise_snoc : forall X (Q : X -> X -> Prop) l y,
    pairwise Q l -> (forall x, In x l -> Q x y) -> pairwise Q (l ++ [y]).
  Proof.
    intros X Q l y Hp Hy l1 x l2 z l3 He. destruct (exists_last (l := z :: l3)) as [l3' [w Hw]]; [discriminate|].
    assert (He' : l ++ [y] = (l1 ++ x :: l2 ++ l3') ++ [w]).
    { rewrite He, Hw, <- !app_assoc. cbn. rewrite <- !app_assoc. reflexivity. }
    apply app_inj_tail in He'. destruct He' as [-> ->]. destruct l3' as [|z' l3'].
    - cbn in Hw. injection Hw as -> ->. apply Hy. rewrite in_app_iff. right; left; reflexivity.
    - cbn in Hw. injection Hw as <- _. apply (Hp l1 x l2 z l3'). reflexivity.
  Qed.
  Lemma pairwise_remove : forall X (Q : X -> X -> Prop) l1 x l2, pairwise Q (l1 ++ x :: l2) -> pairwise Q (l1 ++ l2).
  Proof.
    intros X Q l1. induction l1 as [|a l1 IH]; intros x l2 Hp; cbn in *.
    - intros k1 y k2 z k3 He. apply (Hp (x :: k1) y k2 z k3). cbn. rewrite He. reflexivity.
    - assert (Ht : forall b l, pairwise Q (b :: l) -> pairwise Q l /\ forall y, In y l -> Q b y).
      { intros b l Hb. split.
        - intros k1 y k2 z k3 He. apply (Hb (b :: k1) y k2 z k3). cbn. rewrite He. reflexivity.
        - intros y Hy. apply in_split in Hy. destruct Hy as [k1 [k2 ->]]. apply (Hb [] b k1 y k2). reflexivity. }
      destruct (Ht a _ Hp) as [Hp1 Ha]. specialize (IH x l2 Hp1).
      intros k1 y k2 z k3 He. destruct k1 as [|b k1]; cbn in He; injection He as <- He.
      + apply Ha. assert (Hz : In z (l1 ++ l2)) by (rewrite He, in_app_iff; right; left; reflexivity).
        apply in_app_iff in Hz. rewrite in_app_iff. cbn. tauto.
      + apply (IH k1 y k2 z k3). exact He.
  Qed.

  Lemma linked_near_trans : forall (ss : list edge) a b c,
    linked_near ss a b -> linked_near ss b c -> linked_near ss a c.
  Proof.
    intros ss a b c Hab. induction Hab; intros Hbc; [exact Hbc|eapply near_step|eapply near_hop]; eauto.
  Qed.

  Lemma split_loop_spec : forall fuel aux (done : list edge) r,
    split_loop fuel aux done = Ok r ->
    pairwise (fun x y => crosses y x = false) done ->
    pairwise (fun x y => crosses y x = false) r /\
    forall s, In s aux \/ In s done -> linked_near r (fst s) (snd s).
  Proof.
    intros fuel. induction fuel as [|fuel IH]; intros aux done r Hr Hp; cbn [split_loop] in Hr; [discriminate|].
    destruct aux as [|[v1 v2] aux].
    - injection Hr as <-. split; [exact Hp|]. intros s [[]|Hs]. destruct s as [a b].
      eapply near_step; [exact Hs|constructor].
    - destruct (extract (crosses (v1, v2)) done) as [[[v3 v4] done']|] eqn:Hex.
      + apply extract_some in Hex. destruct Hex as (l1 & l2 & -> & -> & Hc & _).
        apply bind_ok in Hr. destruct Hr as [iv [Hiv Hr]].
        destruct (IH _ _ _ Hr (pairwise_remove _ _ _ _ _ Hp)) as [I1 I2]. split; [exact I1|].
        assert (Q : forall (c : bool) (x : edge) l s, In s (if c then x :: l else l) <-> ((c : bool) = true /\ s = x) \/ In s l).
        { intros [|] x l s; cbn; intuition congruence. }
        assert (H3 : linked_near r v3 iv).
        { destruct (veqb v3 iv) eqn:Hv; [eapply near_hop; [left; exact Hv|constructor]|].
          apply (I2 (v3, iv)). left. rewrite !Q. do 3 right. left. auto. }
        assert (H4 : linked_near r iv v4).
        { destruct (veqb v4 iv) eqn:Hv; [eapply near_hop; [right; exact Hv|constructor]|].
          apply (I2 (iv, v4)). left. rewrite !Q. do 2 right. left. auto. }
        assert (H1 : linked_near r v1 iv).
        { destruct (veqb v1 iv) eqn:Hv; [eapply near_hop; [left; exact Hv|constructor]|].
          apply (I2 (v1, iv)). left. rewrite !Q. right. left. auto. }
        assert (H2 : linked_near r iv v2).
        { destruct (veqb v2 iv) eqn:Hv; [eapply near_hop; [right; exact Hv|constructor]|].
          apply (I2 (iv, v2)). left. rewrite !Q. left. auto. }
        intros s [[<-|Hs]|Hs].
        * cbn. eapply linked_near_trans; eassumption.
        * apply I2. left. rewrite !Q. tauto.
        * apply in_app_iff in Hs. destruct Hs as [Hs|[<-|Hs]].
          -- apply I2. right. apply in_app_iff. tauto.
          -- cbn. eapply linked_near_trans; eassumption.
          -- apply I2. right. apply in_app_iff. tauto.
      + rewrite extract_none in Hex.
        destruct (IH _ _ _ Hr (pairwise_snoc _ _ _ _ Hp Hex)) as [I1 I2]. split; [exact I1|].
        intros s [[<-|Hs]|Hs]; apply I2; rewrite in_app_iff; cbn; auto.
  Qed.

  Lemma split_intersections_spec : forall fuel (segs : list edge) r,
    split_intersections fuel segs = Ok r ->
    pairwise (fun x y => crosses y x = false) r /\
    forall s, In s segs -> linked_near r (fst s) (snd s).
  Proof.
    intros fuel segs r Hr. destruct (split_loop_spec _ _ _ _ Hr (pairwise_nil _ _)) as [H1 H2].
    split; [exact H1|]. intros s Hs. apply H2. left. apply -> in_rev. exact Hs.
  Qed.

  Lemma pairwise_split : forall X (Q : X -> X -> Prop) l1 l2 x y, pairwise Q (l1 ++ l2) -> In x l1 -> In y l2 -> Q x y.
  Proof.
    intros X Q l1 l2 x y Hp Hx Hy. apply in_split in Hx. destruct Hx as (a & b & ->).
    apply in_split in Hy. destruct Hy as (c & d & ->). apply (Hp a x (b ++ c) y d).
    rewrite <- !app_assoc. reflexivity.
  Qed.

  Lemma split_loop_id : forall aux fuel (done : list edge),
    length aux < fuel -> pairwise (fun x y => crosses y x = false) (done ++ aux) ->
    split_loop fuel aux done = Ok (done ++ aux).
  Proof.
    induction aux as [|[v1 v2] aux IH]; intros fuel done Hf Hp; (destruct fuel as [|fuel]; [cbn in Hf; lia|]); cbn [split_loop].
    - rewrite app_nil_r. reflexivity.
    - assert (He : extract (crosses (v1, v2)) done = None).
      { apply extract_none. intros x Hx. apply (pairwise_split _ _ done ((v1, v2) :: aux) x (v1, v2) Hp Hx). left; reflexivity. }
      rewrite He, IH; [rewrite <- app_assoc; reflexivity|cbn in Hf; lia|rewrite <- app_assoc; exact Hp].
  Qed.

  Lemma split_intersections_id : forall fuel (segs : list edge),
    length segs < fuel -> pairwise (fun x y => crosses y x = false) (rev segs) ->
    split_intersections fuel segs = Ok (rev segs).
  Proof.
    intros fuel segs Hf Hp. unfold split_intersections. apply (split_loop_id (rev segs) fuel []).
    - rewrite rev_length. exact Hf.
    - exact Hp.
  Qed.

  Lemma crosses_crossing : forall s s' : edge, crosses s s' = false <-> ~ crossing s s'.
  Proof.
    intros [v1 v2] [v3 v4]. unfold crosses, crossing. cbn [fst snd].
    destruct (intersection v1 v2 v3 v4) as [v|].
    - destruct (veqb v1 v3), (veqb v1 v4), (veqb v2 v3), (veqb v2 v4), (parallel v1 v2 v3 v4); cbn;
        split; try (intros _; intuition discriminate); try reflexivity; try discriminate.
      intros Hno. exfalso. apply Hno. repeat split; eauto.
    - split; [|reflexivity]. intros _ [[v Hv] _]. discriminate.
  Qed.
  Lemma pairwise_impl : forall X (Q Q' : X -> X -> Prop) l, (forall x y, Q x y -> Q' x y) -> pairwise Q l -> pairwise Q' l.
  Proof. intros X Q Q' l Hq Hp l1 x l2 y l3 He. apply Hq, (Hp l1 x l2 y l3 He). Qed.
  Lemma split_intersections_no_crossing : forall fuel (segs : list edge) r,
    split_intersections fuel segs = Ok r ->
    pairwise (fun x y => ~ crossing y x) r /\
    forall s, In s segs -> linked_near r (fst s) (snd s).
  Proof.
    intros fuel segs r Hr. destruct (split_intersections_spec fuel segs r Hr) as [Hp Hl]. split; [|exact Hl].
    eapply pairwise_impl; [|exact Hp]. intros x y Hc. apply crosses_crossing, Hc.
  Qed.
  Lemma split_intersections_identity : forall fuel (segs : list edge),
    length segs < fuel -> pairwise (fun x y => ~ crossing y x) (rev segs) ->
    split_intersections fuel segs = Ok (rev segs).
  Proof.
    intros fuel segs Hf Hp. apply split_intersections_id; [exact Hf|].
    eapply pairwise_impl; [|exact Hp]. intros x y Hc. apply crosses_crossing, Hc.
  Qed.

  Lemma crosses_intersection : forall (v1 v2 v3 v4 : vertex), crosses (v1, v2) (v3, v4) = true ->
    exists iv, intersection v1 v2 v3 v4 = Some iv.
  Proof. intros v1 v2 v3 v4 Hc. unfold crosses in Hc. destruct (intersection v1 v2 v3 v4) as [iv|]; [eauto|discriminate]. Qed.

  Lemma split_loop_no_panic : forall fuel aux (done : list edge), split_loop fuel aux done <> Panic.
  Proof.
    induction fuel as [|fuel IH]; intros aux done; cbn [split_loop]; [discriminate|].
    destruct aux as [|[v1 v2] aux]; [discriminate|].
    destruct (extract (crosses (v1, v2)) done) as [[[v3 v4] done']|] eqn:Hex; [|apply IH].
    apply extract_some in Hex. destruct Hex as (_ & _ & _ & _ & Hc & _).
    apply crosses_intersection in Hc. destruct Hc as [iv ->]. cbn [unwrap bind]. apply IH.
  Qed.

  (** ** continence *)

  Lemma contains_unwrap_total : forall (p : polyline) v, pverts p <> [] -> popened p = false ->
    exists c, contains_unwrap p v = Ok c.
  Proof.
    intros p v Hp Ho. unfold contains_unwrap. destruct (poly_contains_total p v Hp) as [[c|] [-> Hn]]; cbn.
    - exists c; reflexivity.
    - rewrite Ho in Hn. destruct Hn as [Hn _]. specialize (Hn eq_refl). discriminate.
  Qed.

  Lemma continence_loop1_total : forall (p1 : polyline), pverts p1 <> [] -> popened p1 = false ->
    forall vs pc pb, exists o, continence_loop1 p1 vs pc pb = Ok o /\
      forall pc' pb', o = Some (pc', pb') ->
        (pc' = None -> pc = None /\ (vs <> [] \/ pb = Closed -> pb' = Closed)).
  Proof.
    intros p1 Hp Ho vs. induction vs as [|v vs IH]; intros pc pb; cbn [continence_loop1].
    - exists (Some (pc, pb)). split; [reflexivity|]. intros pc' pb' He. injection He as -> ->.
      intros ->. split; [reflexivity|]. intros [Hx| ->]; congruence.
    - destruct (contains_unwrap_total p1 v Hp Ho) as [c ->]. cbn [bind].
      destruct (cont_eqb c Boundary) eqn:Hc.
      + destruct (IH pc Closed) as [o [-> Hsp]]. exists o. split; [reflexivity|]. intros pc' pb' He Hn.
        destruct (Hsp pc' pb' He Hn) as [Hpc Hb]. split; [exact Hpc|]. intros _. apply Hb. right; reflexivity.
      + destruct pc as [c'|].
        * destruct (cont_eqb c' c).
          -- destruct (IH (Some c') pb) as [o [-> Hsp]]. exists o. split; [reflexivity|]. intros pc' pb' He Hn.
             destruct (Hsp pc' pb' He Hn) as [Hpc _]. discriminate.
          -- exists None. split; [reflexivity|]. discriminate.
        * destruct (IH (Some c) pb) as [o [-> Hsp]]. exists o. split; [reflexivity|]. intros pc' pb' He Hn.
          destruct (Hsp pc' pb' He Hn) as [Hpc _]. discriminate.
  Qed.

  Lemma continence_loop2_total : forall (p1 : polyline), pverts p1 <> [] -> popened p1 = false ->
    forall es pc, exists b, continence_loop2 p1 es pc = Ok b.
  Proof.
    intros p1 Hp Ho es. induction es as [|e es IH]; intros pc; cbn [continence_loop2]; [eauto|].
    destruct (contains_unwrap_total p1 (edge_midpoint e) Hp Ho) as [c ->]. cbn [bind].
    destruct (cont_eqb c Boundary); [apply IH|]. destruct pc as [c'|]; [|eauto].
    destruct (cont_eqb c' c); [apply IH|eauto].
  Qed.

  Lemma poly_pairs_nonempty : forall (p : polyline) es, proper p -> poly_pairs p = Ok es -> es <> [].
  Proof.
    intros p es Hp He Hn. subst es. unfold poly_pairs, vertex_pairs in He.
    destruct Hp as [Hp|Hp]; unfold new_closed, new_opened in Hp;
      destruct (pverts p) as [|a [|b l]] eqn:Hv; try discriminate.
    - destruct (Nat.ltb _ _); [discriminate|]. destruct p as [vs op]. injection Hp as _ <-. cbn in He. discriminate.
    - destruct p as [vs op]. injection Hp as _ <-. cbn in He. discriminate.
  Qed.

  Lemma poly_continence_opened : forall fuel (p1 p2 : polyline), popened p1 = true ->
    poly_continence fuel p1 p2 = Ok None.
  Proof. intros fuel p1 p2 Ho. unfold poly_continence. rewrite Ho. reflexivity. Qed.

  Lemma poly_continence_no_panic : forall fuel (p1 p2 : polyline), proper p1 -> proper p2 ->
    poly_continence fuel p1 p2 <> Panic.
  Proof.
    intros fuel p1 p2 H1 H2. pose proof (proper_nonempty _ H1) as N1. pose proof (proper_nonempty _ H2) as N2.
    unfold poly_continence. destruct (popened p1) eqn:Ho; [discriminate|].
    unfold into_edges. destruct (poly_pairs_total p2 N2) as [es Hes]. rewrite Hes. cbn [bind].
    pose proof (poly_pairs_nonempty p2 es H2 Hes) as Hne.
    destruct (continence_loop1_total p1 N1 Ho (flat_map (fun e => [edge_midpoint e; ev1 e]) es) None Open) as [o [-> Hsp]].
    cbn [bind]. destruct o as [[pc pb]|]; [|discriminate].
    destruct (poly_pairs_total p1 N1) as [es1 ->]. cbn [bind].
    destruct (split_intersections fuel (es1 ++ es)) as [sp| |] eqn:Hs; cbn [bind]; [| |discriminate].
    2: { exfalso. apply (split_loop_no_panic _ _ _ Hs). }
    destruct (continence_loop2_total p1 N1 Ho sp pc) as [b ->]. cbn [bind].
    destruct b; cbn [negb]; [|discriminate]. destruct pc as [c|]; [cbn; discriminate|].
    destruct (Hsp None pb eq_refl eq_refl) as [_ Hb]. rewrite Hb; [discriminate|].
    left. destruct es as [|e es]; [congruence|]. cbn. discriminate.
  Qed.

  (** ** union *)

  Lemma by_midpoint_spec : forall keep poss (read unused r u : list edge),
    by_midpoint keep poss read unused = Ok (r, u) ->
    (forall s, In s r <-> In s read \/ (In s poss /\ keep (midpoint (fst s) (snd s)) = Ok true)) /\
    (forall s, In s u <-> In s unused \/ (In s poss /\ keep (midpoint (fst s) (snd s)) = Ok false)) /\
    (forall s, In s poss -> exists b, keep (midpoint (fst s) (snd s)) = Ok b).
  Proof.
    intros keep poss. induction poss as [|s0 poss IH]; intros read unused r u Hb; cbn [by_midpoint] in Hb.
    - injection Hb as <- <-. cbn. split; [|split]; [intros s; tauto|intros s; tauto|intros s []].
    - apply bind_ok in Hb. destruct Hb as [k [Hk Hb]]. unfold ev1, ev2 in Hk. destruct k.
      + destruct (IH _ _ _ _ Hb) as (I1 & I2 & I3). split; [|split].
        * intros s. rewrite I1, in_app_iff. cbn [In]. split; [intros [[Hs|[<-|[]]]|Hs]; tauto|].
          intros [Hs|[[<-|Hs] Hs']]; tauto.
        * intros s. rewrite I2. cbn [In]. split; [intros [Hs|Hs]; tauto|].
          intros [Hs|[[<-|Hs] Hs']]; [tauto|congruence|tauto].
        * intros s [<-|Hs]; eauto.
      + destruct (IH _ _ _ _ Hb) as (I1 & I2 & I3). split; [|split].
        * intros s. rewrite I1. cbn [In]. split; [intros [Hs|Hs]; tauto|].
          intros [Hs|[[<-|Hs] Hs']]; [tauto|congruence|tauto].
        * intros s. rewrite I2, hadd_In. cbn [In]. split; [intros [[->|Hs]|Hs]; tauto|].
          intros [Hs|[[<-|Hs] Hs']]; tauto.
        * intros s [<-|Hs]; eauto.
  Qed.

  Lemma fold_best_In : forall X (better : X -> X -> bool) l (s : X),
    In (fold_left (fun best s => if better s best then s else best) l s) (s :: l).
  Proof.
    intros X better l. induction l as [|a l IH]; intros s; cbn [fold_left]; [left; reflexivity|].
    destruct (IH (if better a s then a else s)) as [<-|Hin]; [|right; right; exact Hin].
    destruct (better a s); [right; left|left]; reflexivity.
  Qed.
  Lemma first_by_angle_In : forall desc v1 v2 (l : list edge) s, first_by_angle desc v1 v2 l = Ok s -> In s l.
  Proof.
    intros desc v1 v2 l s Hf. unfold first_by_angle in Hf. destruct l as [|a l]; [discriminate|].
    destruct (_ && _); [discriminate|]. injection Hf as <-. apply fold_best_In.
  Qed.

  (** [trail] of a list with one more element at the end. *)
  Lemma trail_snoc : forall (l : list edge) s s', trail (l ++ [s]) -> follows s s' -> trail (l ++ [s; s']).
  Proof.
    induction l as [|a l IH]; intros s s' Ht Hf; [cbn; auto|].
    destruct l as [|b l]; cbn in *; [tauto|]. destruct Ht as [Hab Ht]. split; [exact Hab|]. apply IH; assumption.
  Qed.

  Lemma chain_loop_spec : forall H fuel p desc (chain poss chain' poss' : list edge),
    chain_loop H fuel p desc chain poss = Ok (chain', poss') ->
    trail (rev chain) ->
    exists l, chain' = l ++ chain /\ NoDup l /\ trail (rev chain') /\
      (forall s, In s l -> In s poss) /\
      (forall s, In s poss' <-> In s poss /\ ~ In s l).
  Proof.
    intros H fuel. induction fuel as [|fuel IH]; intros p desc chain poss chain' poss' Hc Ht; cbn [chain_loop] in Hc; [discriminate|].
    destruct chain as [|[v1 v2] chain]; [discriminate|].
    destruct (filter (continues v1 v2) (ho H (1 :: p) edge poss)) as [|n ns] eqn:Hn.
    - injection Hc as <- <-. exists []. split; [reflexivity|]. split; [constructor|]. split; [exact Ht|].
      split; [intros s []|]. intros s; cbn; tauto.
    - apply bind_ok in Hc. destruct Hc as [s [Hs Hc]]. apply first_by_angle_In in Hs. rewrite <- Hn in Hs.
      apply filter_In in Hs. destruct Hs as [Hs Hcont]. apply ho_In in Hs.
      assert (Hfol : follows (v1, v2) s).
      { unfold continues in Hcont. destruct s as [v3 v4]. unfold follows; cbn. destruct (_ || _ || _); [discriminate|exact Hcont]. }
      assert (Ht' : trail (rev (s :: (v1, v2) :: chain))).
      { cbn in Ht |- *. rewrite <- app_assoc. cbn. apply trail_snoc; assumption. }
      destruct (IH _ _ _ _ _ _ Hc Ht') as (l & -> & Hnd & Htr & Hsub & Hrest).
      exists (l ++ [s]). split; [rewrite <- app_assoc; reflexivity|].
      assert (Hsl : ~ In s l).
      { intros Hin. apply Hsub, hdel_In in Hin. apply (proj2 Hin). reflexivity. }
      split; [|split; [exact Htr|split]].
      + apply (Permutation_NoDup (Permutation_cons_append l s)). constructor; assumption.
      + intros x Hx. apply in_app_iff in Hx. destruct Hx as [Hx|[<-|[]]]; [|exact Hs].
        apply Hsub, hdel_In in Hx. apply Hx.
      + intros x. rewrite Hrest, hdel_In, in_app_iff. cbn. intuition congruence.
  Qed.

  Lemma union_loop_spec : forall H fuel p (poss unused : list edge) pl u,
    union_loop H fuel p poss unused = Ok (Some (pl, u)) ->
    (forall s, In s poss -> ~ In s unused) -> 
    exists chain, NoDup chain /\ trail chain /\ 3 <= length chain /\
      pl = Poly (map fst chain) false /\
      (forall d, follows (last chain d) (hd d chain)) /\
      flt (area_segments chain) c0 = true /\
      (forall s, In s chain -> In s poss) /\
      (forall s, In s u -> In s poss \/ In s unused) /\
      (forall s, In s poss \/ In s unused -> In s chain \/ In s u) /\
      (forall s, In s chain -> ~ In s u).
  Proof.
    intros H fuel. induction fuel as [|fuel IH]; intros p poss unused pl u Hu Hdis; cbn [union_loop] in Hu; [discriminate|].
    destruct (ho H (1 :: p) _ poss) as [|h rest] eqn:Hh; [discriminate|].
    assert (Hhp : In h poss) by (apply (ho_In H (1 :: p)); rewrite Hh; left; reflexivity).
    apply bind_ok in Hu. destruct Hu as [[chain poss'] [Hc Hu]].
    destruct (chain_loop_spec _ _ _ _ _ _ _ _ Hc I) as (l & -> & Hnd & Htr & Hsub & Hrest).
    set (ch := rev (l ++ [h])) in *.
    assert (Hch : forall s, In s ch <-> In s l \/ s = h).
    { intros s. unfold ch. rewrite <- in_rev, in_app_iff. cbn. intuition congruence. }
    assert (Hhl : ~ In h l).
    { intros Hin. apply Hsub, hdel_In in Hin. apply (proj2 Hin). reflexivity. }
    assert (Hndc : NoDup ch).
    { unfold ch. rewrite rev_app_distr. cbn. constructor; [rewrite <- in_rev; exact Hhl|]. apply NoDup_rev, Hnd. }
    assert (Hchp : forall s, In s ch -> In s poss).
    { intros s Hs. apply Hch in Hs. destruct Hs as [Hs| ->]; [|exact Hhp]. apply Hsub, hdel_In in Hs. apply Hs. }
    assert (Hpart : forall s, In s poss -> In s ch \/ In s poss').
    { intros s Hs. rewrite Hch, Hrest, hdel_In. destruct (edec s h); [tauto|].
      destruct (in_dec edec s l); tauto. }
    assert (Hp' : forall s, In s poss' -> In s poss /\ ~ In s ch).
    { intros s Hs. rewrite Hrest, hdel_In in Hs. rewrite Hch. tauto. }
    apply bind_ok in Hu. destruct Hu as [ccw [Hccw Hu]]. destruct ccw.
    - apply bind_ok in Hu. destruct Hu as [pl' [Hpl Hu]]. apply unwrap_ok in Hpl. injection Hu as <- <-.
      destruct (chain_closed (l ++ [h])) eqn:Hcl; [|discriminate].
      apply bind_ok in Hccw. destruct Hccw as [o [Ho Hccw]]. injection Hccw as Hccw. apply orient_eqb_eq in Hccw. subst o.
      exists ch. split; [exact Hndc|]. split; [exact Htr|].
      unfold chain_closed in Hcl. apply andb_true_iff in Hcl. destruct Hcl as [Hlen Hcl]. apply Nat.ltb_lt in Hlen.
      split; [unfold ch; rewrite rev_length; lia|]. split.
      { unfold new_closed in Hpl. destruct (Nat.ltb _ _); [discriminate|]. injection Hpl as <-. reflexivity. }
      split.
      { intros d.
        assert (Hrv : l ++ [h] = rev ch) by (unfold ch; symmetry; apply rev_involutive).
        assert (Hl : last ch d = hd d (rev ch)).
        { clear. induction ch as [|a k IHk] using rev_ind; [reflexivity|]. rewrite last_last, rev_app_distr. reflexivity. }
        rewrite Hl, <- Hrv. clearbody ch. destruct (l ++ [h]) as [|[a b] k]; [discriminate|]. destruct ch as [|[c e] k']; [discriminate|].
        rewrite Hrv, rev_involutive in Hcl. exact Hcl. }
      split.
      { unfold segments_orientation in Ho. fold ch in Ho. destruct (flt (area_segments ch) c0) eqn:Ha; [reflexivity|].
        destruct (flt c0 (area_segments ch)); discriminate. }
      split; [exact Hchp|]. split; [|split].
      + intros s Hs. apply hset_In, in_app_iff in Hs. destruct Hs as [Hs|Hs]; [left; apply Hp', Hs|right; exact Hs].
      + intros s Hs. rewrite hset_In, in_app_iff. destruct Hs as [Hs|Hs]; [|tauto]. destruct (Hpart s Hs); tauto.
      + intros s Hs Hsu. apply hset_In, in_app_iff in Hsu. destruct Hsu as [Hsu|Hsu].
        * apply Hp' in Hsu. tauto.
        * apply (Hdis s); auto.
    - destruct (IH _ _ _ _ _ Hu) as (chain & I1 & I2 & I3 & I4 & I5 & I6 & I7 & I8 & I9 & I10).
      { intros s Hs Hsu. apply hset_In, in_app_iff in Hsu. destruct (Hp' s Hs) as [Hs1 Hs2].
        destruct Hsu as [Hsu|Hsu]; [apply (Hdis s); assumption|]. apply Hs2. exact Hsu. }
      exists chain. do 6 (split; [assumption|]). split; [|split; [|split; [|exact I10]]].
      + intros s Hs. apply Hp', I7, Hs.
      + intros s Hs. destruct (I8 s Hs) as [Hx|Hx]; [left; apply Hp', Hx|].
        apply hset_In, in_app_iff in Hx. destruct Hx as [Hx|Hx]; [right; exact Hx|left; apply Hchp, Hx].
      + intros s Hs. apply I9. rewrite hset_In, in_app_iff. destruct Hs as [Hs|Hs]; [|tauto].
        destruct (Hpart s Hs); tauto.
  Qed.

  Lemma keep_union_true : forall (p1 p2 : polyline) m, keep_union p1 p2 m = Ok true ->
    poly_contains p1 m = Ok (Some Outside) \/ poly_contains p2 m = Ok (Some Outside).
  Proof.
    assert (Ho : forall (p : polyline) m, is_outside p m = Ok true -> poly_contains p m = Ok (Some Outside)).
    { intros p m Hm. unfold is_outside, contains_unwrap in Hm. apply bind_ok in Hm. destruct Hm as [c [Hc Hm]].
      apply bind_ok in Hc. destruct Hc as [o [Ho Hc]]. apply unwrap_ok in Hc. subst o.
      injection Hm as Hm. apply cont_eqb_eq in Hm. subst c. exact Ho. }
    intros p1 p2 m Hm. unfold keep_union, orM in Hm. apply bind_ok in Hm. destruct Hm as [b [Hb Hm]].
    destruct b; auto.
  Qed.

  Lemma poly_union_spec : forall H fuel p (p1 p2 : polyline) pl u,
    poly_union H fuel p p1 p2 = Ok (Some (pl, u)) ->
    exists s1 s2 split chain,
      into_edges p1 = Ok s1 /\ into_edges p2 = Ok s2 /\ split_intersections fuel (s1 ++ s2) = Ok split /\
      NoDup chain /\ trail chain /\ 3 <= length chain /\
      pl = Poly (map fst chain) false /\
      (forall d, follows (last chain d) (hd d chain)) /\
      flt (area_segments chain) c0 = true /\
      (forall s, In s chain -> In s split /\
         (poly_contains p1 (midpoint (fst s) (snd s)) = Ok (Some Outside) \/
          poly_contains p2 (midpoint (fst s) (snd s)) = Ok (Some Outside))) /\
      (forall s, In s u -> In s split) /\
      (forall s, In s split -> In s chain \/ In s u) /\
      (forall s, In s chain -> ~ In s u).
  Proof.
    intros H fuel p p1 p2 pl u Hu. unfold poly_union in Hu. destruct (_ || _); [discriminate|].
    apply bind_ok in Hu. destruct Hu as [b1 [_ Hu]]. apply bind_ok in Hu. destruct Hu as [b2 [_ Hu]].
    destruct (bbox_intersection b1 b2); [|discriminate].
    apply bind_ok in Hu. destruct Hu as [s1 [Hs1 Hu]]. apply bind_ok in Hu. destruct Hu as [s2 [Hs2 Hu]].
    apply bind_ok in Hu. destruct Hu as [split [Hsp Hu]].
    apply bind_ok in Hu. destruct Hu as [[read unused] [Hm Hu]].
    destruct (by_midpoint_spec _ _ _ _ _ _ Hm) as (M1 & M2 & M3).
    destruct (union_loop_spec _ _ _ _ _ _ _ Hu) as (chain & I1 & I2 & I3 & I4 & I5 & I6 & I7 & I8 & I9 & I10).
    { intros s Hs Hsu. apply hset_In, M1 in Hs. apply M2 in Hsu. destruct Hs as [[]|[_ Hs]]. destruct Hsu as [[]|[_ Hsu]]. congruence. }
    exists s1, s2, split, chain. do 9 (split; [assumption|]). split; [|split; [|split; [|exact I10]]].
    - intros s Hs. apply I7, hset_In, M1 in Hs. destruct Hs as [[]|[Hs Hk]]. rewrite <- in_rev in Hs.
      split; [exact Hs|]. apply keep_union_true, Hk.
    - intros s Hs. apply I8 in Hs. rewrite hset_In, M1, M2 in Hs. rewrite <- !in_rev in Hs. cbn in Hs. tauto.
    - intros s Hs. apply I9. rewrite hset_In, M1, M2. rewrite <- !in_rev.
      destruct (M3 s) as [[|] Hk]; [apply -> in_rev; exact Hs|tauto|tauto].
  Qed.

  Lemma poly_union_opened : forall H fuel p (p1 p2 : polyline), popened p1 = true \/ popened p2 = true ->
    poly_union H fuel p p1 p2 = Ok None.
  Proof. intros H fuel p p1 p2 Ho. unfold poly_union. rewrite (proj2 (orb_true_iff _ _) Ho). reflexivity. Qed.

  Lemma poly_union_far : forall H fuel p (p1 p2 : polyline) b1 b2,
    poly_bbox p1 = Some b1 -> poly_bbox p2 = Some b2 -> bbox_intersection b1 b2 = None ->
    poly_union H fuel p p1 p2 = Ok None.
  Proof.
    intros H fuel p p1 p2 b1 b2 H1 H2 H3. unfold poly_union. destruct (_ || _); [reflexivity|].
    rewrite H1, H2. cbn. rewrite H3. reflexivity.
  Qed.

  (** ** decompose *)

  Lemma chain_from_snoc : forall a b c (l : list edge), chain_from a b l -> chain_from a c (l ++ [(b, c)]).
  Proof. intros a b c l Hc. induction Hc; cbn; [apply chain_cons, chain_one|apply chain_cons; assumption]. Qed.

  Lemma decompose_walk_spec : forall fuel m tail last (acc l : list edge) a,
    decompose_walk fuel m tail last acc = Ok (Some l) ->
    (acc = [] /\ last = a) \/ chain_from a last acc ->
    (forall s, In s acc -> In s m) ->
    (forall s, In s l -> In s m) /\
    ((l = [] /\ veqb a tail = true) \/ exists b, chain_from a b l /\ veqb b tail = true).
  Proof.
    induction fuel as [|fuel IH]; intros m tail last acc l a Hd Hc Hm; cbn [decompose_walk] in Hd; [discriminate|].
    destruct (veqb last tail) eqn:Hv.
    - injection Hd as <-. split; [exact Hm|]. destruct Hc as [[-> ->]|Hc]; [left; auto|right; eauto].
    - destruct (mget vdec last m) as [t|] eqn:Hg; [|discriminate].
      apply (IH _ _ _ _ _ _ Hd).
      + right. destruct Hc as [[-> ->]|Hc]; [apply chain_one|apply chain_from_snoc, Hc].
      + intros s Hs. apply in_app_iff in Hs. destruct Hs as [Hs|[<-|[]]]; [auto|]. apply (mget_In vdec), Hg.
  Qed.

  Lemma decompose_spec : forall H fuel p (base : list edge) e l,
    decompose H fuel p base e = Ok (Some l) ->
    (forall s, In s l -> In s base /\
       (exists v, intersection (fst s) (snd s) (fst e) (snd e) = Some v) /\
       parallel (fst s) (snd s) (fst e) (snd e) = true /\
       flt c0 (dot (fst s) (snd s) (fst e) (snd e)) = true) /\
    ((l = [] /\ veqb (fst e) (snd e) = true) \/
     exists b, chain_from (fst e) b l /\ veqb b (snd e) = true).
  Proof.
    intros H fuel p base e l Hd. unfold decompose in Hd.
    destruct (decompose_walk_spec _ _ _ _ _ _ (ev1 e) Hd (or_introl (conj eq_refl eq_refl)) (fun s Hs => match Hs with end)) as [H1 H2].
    split; [|exact H2]. intros s Hs. apply H1 in Hs. apply mcollect_In in Hs. apply filter_In in Hs.
    destruct Hs as [Hs Hf]. apply ho_In in Hs. split; [exact Hs|]. unfold decompose_filter, ev1, ev2 in Hf.
    destruct (intersection _ _ _ _) as [v|]; [|discriminate]. destruct (parallel _ _ _ _) eqn:Hp; [|discriminate].
    split; [exists v; reflexivity|]. split; [reflexivity|exact Hf].
  Qed.
End Poly.
