(** P_K4.v — segments that are balanced at every point are joined to closed
    polygons, and none of them is left over. *)

From Coq Require Import Reals List ZArith Lra Lia Psatz Bool Permutation.
From Verif Require Import Base Arith Geometry Elements Polyline Procedures ArithR Spec SpecR SpecD SpecM SpecK
  P_Base P_Poly P_Trn P_Triangulator P_Bool P_Nest.
Import ListNotations.

Fixpoint leads (a : pnt) (l : list (edge ArithR)) (b : pnt) : Prop :=
  match l with [] => a = b | e :: l' => fst e = a /\ leads (snd e) l' b end.
Lemma leads_app : forall l l' a b, leads a (l ++ l') b <-> exists m, leads a l m /\ leads m l' b.
Proof.
  induction l as [|e l IH]; intros l' a b; cbn.
  - split; [intros Hl; exists a; auto|intros (m & -> & Hl); exact Hl].
  - rewrite IH. split; [intros (E & m & Hm & Hl); exists m; auto|intros (m & (E & Hm) & Hl); eauto].
Qed.
Lemma leads_sides : forall l a b, leads a l b -> l <> [] -> path_sides (map fst l ++ [b]) = l.
Proof.
  induction l as [|[x y] l IH]; intros a b Hl N; [congruence|]. destruct l as [|[z w] l].
  - cbn in *. destruct Hl as [_ ->]. reflexivity.
  - destruct Hl as [E Hl]. pose proof (IH (snd (x, y)) b Hl ltac:(discriminate)) as IH'. destruct Hl as [E' _]. cbn [fst snd] in *. subst z.
    change (map fst ((x, y) :: (y, w) :: l) ++ [b]) with (x :: (map fst ((y, w) :: l) ++ [b])). cbn [map fst app] in *. cbn [path_sides]. f_equal. exact IH'.
Qed.
Lemma ring_sides : forall l a, leads a l a -> l <> [] -> polygon_sides (map fst l) = l.
Proof.
  intros l a Hl N. rewrite <- (leads_sides l a a Hl N) at 2. destruct l as [|[x y] l]; [congruence|]. cbn in Hl. destruct Hl as [E _]. cbn [fst] in E. subst x. reflexivity.
Qed.

Lemma first_total : forall desc v1 v2 (l : list (edge ArithR)), l <> [] -> exists s, first_by_angle desc v1 v2 l = Ok s.
Proof.
  intros desc v1 v2 l N. unfold first_by_angle. destruct l as [|s l]; [congruence|].
  assert (E : forall l' : list (edge ArithR), existsb (fun s => negb (feq (ang v1 v2 s) (ang v1 v2 s))) l' = false).
  { induction l' as [|x l' IH]; [reflexivity|]. cbn [existsb]. rewrite IH. assert (Q : feq (a:=ArithR) (ang v1 v2 x) (ang v1 v2 x) = true) by (change (Reqb (ang v1 v2 x) (ang v1 v2 x) = true); unfold Reqb; destruct (Req_EM_T _ _); congruence). rewrite Q. reflexivity. }
  rewrite E, andb_false_r. eauto.
Qed.

Lemma chain_closed_leads : forall (new : list (edge ArithR)) v1 v2, 3 <= length (new ++ [(v1, v2)]) -> leads v1 (rev (new ++ [(v1, v2)])) v1 ->
  chain_closed (new ++ [(v1, v2)]) = true.
Proof.
  intros new v1 v2 Hlen Hl. assert (Er : rev (new ++ [(v1, v2)]) = (v1, v2) :: rev new) by (rewrite rev_app_distr; reflexivity).
  unfold chain_closed. apply andb_true_iff. split; [apply Nat.ltb_lt; exact Hlen|]. destruct new as [|[a b] new]; [cbn in Hlen; lia|].
  assert (E : b = v1). { cbn [app rev] in Hl. apply leads_app in Hl. destruct Hl as (m & _ & _ & E). exact E. }
  cbn [app] in *. match type of Er with ?L = _ => match goal with |- match ?R with _ => _ end = true => change R with L end end. rewrite Er, E. apply veqb_refl.
Qed.

Section Join.
  Variable H : HashOrder.
  Variable M : list (edge ArithR).
  Hypothesis Hends : forall e f u w, In e M -> In f M -> u = fst e \/ u = snd e -> w = fst f \/ w = snd f -> veqb u w = true -> u = w.
  Hypothesis Hproper : forall e, In e M -> fst e <> snd e.
  Hypothesis Hflip : forall e, In e M -> ~ In (snd e, fst e) M.

  Lemma continues_iff : forall v1 v2 s, In (v1, v2) M -> In s M -> continues v1 v2 s = true <-> fst s = v2.
  Proof.
    intros v1 v2 [v3 v4] H1 H2. unfold continues. cbn [fst]. split.
    - destruct (veqb v1 v3 || veqb v1 v4 || veqb v2 v4); [discriminate|]. intros E. symmetry. apply (Hends (v1, v2) (v3, v4) v2 v3 H1 H2); cbn; auto.
    - intros ->. assert (E1 : veqb v1 v2 = false). { destruct (veqb v1 v2) eqn:E; [exfalso|reflexivity]. apply (Hproper (v1, v2) H1). apply (Hends (v1, v2) (v1, v2) v1 v2 H1 H1); cbn; auto. }
      assert (E2 : veqb v1 v4 = false). { destruct (veqb v1 v4) eqn:E; [exfalso|reflexivity]. apply (Hflip (v1, v2) H1). cbn. rewrite (Hends (v1, v2) (v2, v4) v1 v4 H1 H2); cbn; auto. }
      assert (E3 : veqb v2 v4 = false). { destruct (veqb v2 v4) eqn:E; [exfalso|reflexivity]. apply (Hproper (v2, v4) H2). apply (Hends (v2, v4) (v2, v4) v2 v4 H2 H2); cbn; auto. }
      rewrite E1, E2, E3. apply veqb_refl.
  Qed.

  Lemma chain_closing : forall fuel p desc c v1 v2 poss st, In (v1, v2) M -> incl poss M -> NoDup poss -> leads st (rev ((v1, v2) :: c)) v2 ->
    Permutation (st :: map fst poss) (v2 :: map snd poss) -> length poss < fuel ->
    exists (new poss' : list (edge ArithR)), chain_loop H fuel p desc ((v1, v2) :: c) poss = Ok (new ++ (v1, v2) :: c, poss') /\ Permutation poss (new ++ poss') /\
      leads st (rev (new ++ (v1, v2) :: c)) st /\ Permutation (map fst poss') (map snd poss') /\ NoDup poss'.
  Proof.
    induction fuel as [|fuel IH]; intros p desc c v1 v2 poss st Hm Hi Hnd Hl Hb Hf; [lia|]. cbn [chain_loop].
    destruct (filter (continues v1 v2) (ho H (1 :: p) _ poss)) as [|s0 l0] eqn:Hfil.
    - assert (Est : v2 = st).
      { assert (Q : In v2 (st :: map fst poss)) by (apply (Permutation_in _ (Permutation_sym Hb)); left; reflexivity). destruct Q as [E|Q]; [congruence|exfalso].
        apply in_map_iff in Q. destruct Q as (s & E & Hs). assert (Q : In s (filter (continues v1 v2) (ho H (1 :: p) _ poss))).
        { apply filter_In. split; [apply ho_In, Hs|]. apply continues_iff; [exact Hm|apply Hi, Hs|exact E]. }
        rewrite Hfil in Q. destruct Q. }
      subst st. exists [], poss. split; [reflexivity|]. split; [reflexivity|]. split; [exact Hl|]. split; [|exact Hnd]. apply (Permutation_cons_inv Hb).
    - destruct (first_total desc v1 v2 (s0 :: l0)) as [s Hs]; [discriminate|]. rewrite Hs. cbn [bind].
      pose proof (first_by_angle_In _ _ _ _ _ Hs) as Hin. rewrite <- Hfil in Hin. apply filter_In in Hin. destruct Hin as [Hin Hc]. apply ho_In in Hin.
      destruct s as [v3 v4]. apply (continues_iff v1 v2 (v3, v4) Hm (Hi _ Hin)) in Hc. cbn [fst] in Hc. subst v3.
      destruct (in_split _ _ Hin) as (l1 & l2 & Ep). assert (P : Permutation poss ((v2, v4) :: (l1 ++ l2))) by (rewrite Ep; apply Permutation_sym, Permutation_middle).
      pose proof (hdel_perm (v2, v4) poss (l1 ++ l2) Hnd P) as Pd.
      destruct (IH (0 :: p) desc ((v1, v2) :: c) v2 v4 (hdel edec (v2, v4) poss) st) as (new & poss' & Hr & Pn & Hl' & Hb' & Hnd').
      + apply Hi, Hin.
      + intros x Hx. apply hdel_In in Hx. apply Hi, Hx.
      + apply hdel_NoDup, Hnd.
      + cbn [rev] in *. apply leads_app. exists v2. split; [exact Hl|]. cbn. auto.
      + rewrite (Permutation_map fst Pd), (Permutation_map snd Pd). rewrite (Permutation_map fst P), (Permutation_map snd P) in Hb. cbn [map fst snd] in Hb.
        apply (Permutation_cons_inv (a := v2)). rewrite <- Hb. apply perm_swap.
      + rewrite (Permutation_length Pd). rewrite (Permutation_length P) in Hf. cbn in Hf. lia.
      + exists (new ++ [(v2, v4)]), poss'. split; [rewrite <- app_assoc; exact Hr|]. split; [|split; [rewrite <- app_assoc; exact Hl'|auto]].
        rewrite P, <- Pd, Pn, <- app_assoc. cbn. apply Permutation_middle.
  Qed.

  Lemma build_closing : forall fuel p poss unused acc, incl poss M -> NoDup poss -> Permutation (map fst poss) (map snd poss) -> length poss < fuel ->
    exists chains : list (list (edge ArithR)), build_loop H fuel p poss unused acc = Ok (acc ++ map (fun c => Poly (map fst c) false) chains, unused) /\
      Permutation (concat chains) poss /\ forall c, In c chains -> polygon_sides (map fst c) = c /\ 3 <= length c.
  Proof.
    induction fuel as [|fuel IH]; intros p poss unused acc Hi Hnd Hb Hf; [lia|]. cbn [build_loop].
    destruct (ho H (1 :: p) _ poss) as [|[v1 v2] l0] eqn:Hh.
    - apply ho_nil_inv in Hh. subst poss. exists []. cbn. rewrite app_nil_r. split; [reflexivity|]. split; [reflexivity|]. intros c [].
    - assert (Hin : In (v1, v2) (ho H (1 :: p) _ poss)) by (rewrite Hh; left; reflexivity). apply ho_In in Hin.
      destruct (in_split _ _ Hin) as (l1 & l2 & Ep). assert (P : Permutation poss ((v1, v2) :: (l1 ++ l2))) by (rewrite Ep; apply Permutation_sym, Permutation_middle).
      pose proof (hdel_perm (v1, v2) poss (l1 ++ l2) Hnd P) as Pd.
      destruct (chain_closing fuel (2 :: p) false [] v1 v2 (hdel edec (v1, v2) poss) v1) as (new & poss' & Hr & Pn & Hl & Hb' & Hnd').
      + apply Hi, Hin.
      + intros x Hx. apply hdel_In in Hx. apply Hi, Hx.
      + apply hdel_NoDup, Hnd.
      + cbn. auto.
      + rewrite (Permutation_map fst Pd), (Permutation_map snd Pd). rewrite (Permutation_map fst P), (Permutation_map snd P) in Hb. exact Hb.
      + rewrite (Permutation_length Pd). rewrite (Permutation_length P) in Hf. cbn in Hf. lia.
      + match type of Hr with ?L = _ => match goal with |- context [chain_loop ?a ?b ?c ?d ?e ?f] => change (chain_loop a b c d e f) with L end end. rewrite Hr. cbn [bind]. set (ch := rev (new ++ [(v1, v2)])) in *.
        assert (Hsub : incl (new ++ [(v1, v2)]) M).
        { intros x Hx. apply in_app_or in Hx. destruct Hx as [Hx|[<-|[]]]; [|apply Hi, Hin]. apply Hi. apply (Permutation_in _ (Permutation_sym P)). right. apply (Permutation_in _ Pd), (Permutation_in _ (Permutation_sym Pn)), in_or_app. left. exact Hx. }
        assert (Hlen : 3 <= length (new ++ [(v1, v2)])).
        { revert Hl Hsub. unfold ch. clear - Hproper Hflip. intros Hl Hsub. destruct new as [|[a b] [|e new]]; [| |cbn; rewrite app_length; cbn; lia]; exfalso.
          - cbn in Hl. destruct Hl as [_ E]. apply (Hproper (v1, v2)); [apply Hsub; left; reflexivity|cbn; congruence].
          - cbn in Hl. destruct Hl as (_ & E1 & E2). subst a b. apply (Hflip (v1, v2)); [apply Hsub; right; left; reflexivity|]. apply Hsub. left. reflexivity. }
        assert (Hcc : chain_closed (new ++ [(v1, v2)]) = true).
        { apply chain_closed_leads; assumption. }
        rewrite Hcc. assert (Hne : ch <> []) by (intros E; apply (f_equal (@length _)) in E; unfold ch in E; rewrite rev_length in E; cbn in E; lia).
        assert (Hnc : new_closed (map ev1 ch) = Some (Poly (map fst ch) false)).
        { change (map ev1 ch) with (map (@fst pnt pnt) ch). unfold new_closed. destruct (Nat.ltb_spec (length (map fst ch)) 3) as [L|L]; [|reflexivity]. rewrite map_length in L. unfold ch in L. rewrite rev_length in L. lia. }
        rewrite Hnc. cbn [unwrap bind].
        assert (Hp' : incl poss' poss) by (intros x Hx; apply (Permutation_in _ (Permutation_sym P)); right; apply (Permutation_in _ Pd), (Permutation_in _ (Permutation_sym Pn)), in_or_app; right; exact Hx).
        destruct (IH (0 :: p) poss' unused (acc ++ [Poly (map fst ch) false])) as (chains & Hrun & Pc & Hc).
        * intros x Hx. apply Hi, Hp', Hx.
        * exact Hnd'.
        * exact Hb'.
        * assert (Q : length poss' <= length (l1 ++ l2)) by (rewrite <- (Permutation_length Pd), (Permutation_length Pn), app_length; apply Nat.le_add_l). rewrite (Permutation_length P) in Hf. exact (Nat.le_lt_trans _ _ _ Q (proj2 (Nat.succ_lt_mono _ _) Hf)).
        * exists (ch :: chains). rewrite Hrun. split; [cbn; rewrite <- app_assoc; reflexivity|]. split.
          -- cbn. rewrite Pc, P, <- Pd, Pn. unfold ch. rewrite <- (Permutation_rev (new ++ [(v1, v2)])). rewrite <- app_assoc. cbn. apply Permutation_sym, Permutation_middle.
          -- intros c [<-|Hc']; [|apply Hc, Hc']. split; [apply (ring_sides ch v1); assumption|]. unfold ch. rewrite rev_length. exact Hlen.
  Qed.
End Join.
