(** P_Y3.v — binary64 agrees with the real plane on small grids without four
    points on a circle; so insertion of vertices in doubles yields Delaunay
    meshes. *)

From Coq Require Import Reals List ZArith Lra Lia Bool Permutation Floats.SpecFloat.
From Verif Require Import Base Arith Geometry Elements Polyline Procedures ArithR ArithF Spec SpecR SpecD SpecF Samples
  P_Base P_Trn P_Fuel P_R1 P_RX P_D1 P_D3 P_D4 P_D5 P_D6 P_D7 P_Y1 P_Y2 P_Z1 P_Z2 P_Z3 P_Z9 P_Z10.
Import ListNotations.
Local Open Scope R_scope.

(** ** The real number of a double, as a function *)
Definition sfR (x : spec_float) : R := match x with S754_finite s m e => IZR (if s then Zneg m else Zpos m) * powerRZ 2 e | _ => 0 end.
Definition rdF (v : vertex ArithF) : pnt := V (A:=ArithR) (sfR (vx v)) (sfR (vy v)) (vghost v).
Lemma double_val : forall x r, double x r -> sfR x = r.
Proof. intros [s|s| |s m e] r D; cbn in *; try contradiction; [symmetry; exact D|symmetry; apply D]. Qed.
Lemma reads_rd : forall v w, reads v w -> rdF v = w.
Proof.
  intros v [x y g] (Dx & Dy & G). cbn [vx vy vghost] in *. unfold rdF. rewrite (double_val _ _ Dx), (double_val _ _ Dy), G. reflexivity.
Qed.
Lemma reads_map : forall k l l', Forall2 (fine_reads k) l l' -> map rdF l = l' /\ forall w, In w l -> fine_reads k w (rdF w).
Proof.
  intros k l l' HF. induction HF as [|v w l l' Hv HF [IH1 IH2]]; [split; [reflexivity|intros w []]|]. pose proof (reads_rd _ _ (proj1 Hv)) as E. cbn [map].
  split; [rewrite E, IH1; reflexivity|]. intros x [<-|Hx]; [rewrite E; exact Hv|apply IH2, Hx].
Qed.
Lemma rd_ghost : rdF ghost_vertex = gv.
Proof. reflexivity. Qed.
Lemma ghost_reads : reads ghost_vertex gv.
Proof. unfold reads. cbn. auto. Qed.

Lemma map_inj : forall {X Y} (f : X -> Y) l a b, NoDup (map f l) -> In a l -> In b l -> f a = f b -> a = b.
Proof.
  intros X Y f l. induction l as [|x l IH]; intros a b HN Ha Hb E; [destruct Ha|]. cbn [map] in HN. inversion HN as [|? ? Hx HN']; subst.
  destruct Ha as [<-|Ha]; destruct Hb as [<-|Hb]; auto.
  - exfalso. apply Hx. rewrite E. apply in_map, Hb.
  - exfalso. apply Hx. rewrite <- E. apply in_map, Ha.
Qed.

(** ** Small grids are told apart *)
Lemma fine_grid_point : forall k w, fine_point k w -> grid_point k w.
Proof. intros k w ((i & Hi & Ei) & (j & Hj & Ej) & G). split; [exists i; split; [lia|exact Ei]|]. split; [exists j; split; [lia|exact Ej]|exact G]. Qed.
Lemma fine_spacing_spacing : forall k, fine_spacing k -> spacing k.
Proof. unfold fine_spacing, spacing. lia. Qed.
Lemma fine_resolved : forall k l, fine_spacing k -> (forall w, In w l -> fine_point k w) -> resolved l.
Proof.
  intros k l Hk HF. unfold fine_spacing in Hk. split.
  - intros a Ha. apply (HF a Ha).
  - intros a b Ha Hb [Hx Hy]. destruct (HF a Ha) as ((i & _ & Ei) & (j & _ & Ej) & Ga). destruct (HF b Hb) as ((i' & _ & Ei') & (j' & _ & Ej') & Gb).
    apply plain_coincide; auto. unfold X, Y in *. change (T ArithR) with R in *.
    assert (Zx : vx a - vx b = 0) by (apply (grid_zero _ (i - i') k); [lia|rewrite Ei, Ei', minus_IZR; ring|exact Hx]).
    assert (Zy : vy a - vy b = 0) by (apply (grid_zero _ (j - j') k); [lia|rewrite Ej, Ej', minus_IZR; ring|exact Hy]).
    split; unfold X, Y; change (T ArithR) with R in *; lra.
  - intros a b c Ha Hb Hc L. destruct (HF a Ha) as ((i & _ & Ei) & (j & _ & Ej) & _). destruct (HF b Hb) as ((i' & _ & Ei') & (j' & _ & Ej') & _). destruct (HF c Hc) as ((i2 & _ & Ei2) & (j2 & _ & Ej2) & _).
    apply (grid_zero _ ((i' - i) * (j2 - j) - (j' - j) * (i2 - i)) (k + k)); [lia| |exact L].
    unfold area2, X, Y. change (T ArithR) with R in *. rewrite Ei, Ej, Ei', Ej', Ei2, Ej2, pw_add, !minus_IZR, !mult_IZR, !minus_IZR. ring.
  - intros a b c d Ha Hb Hc Hd L. destruct (HF a Ha) as ((i & _ & Ei) & (j & _ & Ej) & _). destruct (HF b Hb) as ((i' & _ & Ei') & (j' & _ & Ej') & _). destruct (HF c Hc) as ((i2 & _ & Ei2) & (j2 & _ & Ej2) & _).
    destruct (HF d Hd) as ((i3 & _ & Ei3) & (j3 & _ & Ej3) & _).
    apply (grid_zero _ (((i - i3) * (i' - i3) + (j - j3) * (j' - j3)) * ((i' - i) * (j2 - j) - (j' - j) * (i2 - i)) -
      ((i' - i) * (j3 - j) - (j' - j) * (i3 - i)) * ((i - i2) * (i' - i2) + (j - j2) * (j' - j2))) (k + k + k + k)); [lia| |exact L].
    unfold in_square, dotp, area2, X, Y. change (T ArithR) with R in *. rewrite Ei, Ej, Ei', Ej', Ei2, Ej2, Ei3, Ej3, !pw_add.
    rewrite !minus_IZR, !mult_IZR, !minus_IZR, !plus_IZR, !mult_IZR, !minus_IZR. ring.
Qed.

Section Fine.
  Variables (k : Z) (U : list (vertex ArithF)).
  Hypothesis Hk : fine_spacing k.
  Hypothesis HU : forall w, In w U -> fine_reads k w (rdF w).
  Hypothesis HN : NoDup (map rdF U).
  Hypothesis H4 : no_four_on_a_circle (map rdF U).

  Lemma cont_agrees : forall a b c v, In a U -> In b U -> In c U -> In v U -> v <> a -> v <> b -> v <> c -> 0 < area2 (rdF a) (rdF b) (rdF c) ->
    (continence a b c v = Inside <-> continence (rdF a) (rdF b) (rdF c) (rdF v) = Inside).
  Proof.
    intros a b c v Ha Hb Hc Hv Na Nb Nc HP.
    destruct (HU a Ha) as [Ra Fa]. destruct (HU b Hb) as [Rb Fb]. destruct (HU c Hc) as [Rc Fc]. destruct (HU v Hv) as [Rv Fv].
    destruct (circumcenter_spec (rdF a) (rdF b) (rdF c)) as [_ Hcc]. destruct Hcc as (o & _ & _ & H1 & H2 & _); [lra|].
    pose proof (D_neq _ _ _ HP) as (N1 & N2 & N3).
    assert (Hm : forall x, In x U -> v <> x -> rdF v <> rdF x) by (intros x Hx Hn E; apply Hn; apply (map_inj rdF U); assumption).
    assert (Hno : d2 o (rdF v) <> d2 o (rdF a)).
    { intros E. apply (H4 o (rdF a) (rdF b) (rdF c) (rdF v)); auto using in_map. constructor; [cbn [In]; intros [K|[K|[K|[]]]]|].
      - apply N1. symmetry. exact K.
      - apply N3. exact K.
      - apply (Hm a); auto.
      - constructor; [cbn [In]; intros [K|[K|[]]]; [apply N2; symmetry; exact K|apply (Hm b); auto]|]. constructor; [cbn [In]; intros [K|[]]; apply (Hm c); auto|]. constructor; [intros []|constructor]. }
    assert (EI := incircle_power (rdF a) (rdF b) (rdF c) (rdF v) o H1 H2).
    assert (HI : incircle (rdF a) (rdF b) (rdF c) (rdF v) <> 0).
    { rewrite EI. intros Z. apply Rmult_integral in Z. destruct Z as [Z|Z]; [lra|]. apply Hno. lra. }
    rewrite (float_incircle k Hk a b c v _ _ _ _ Fa Fb Fc Fv Ra Rb Rc Rv HI), continence_sign.
    destruct (incircle_grid k _ _ _ _ Fa Fb Fc Fv) as (z & Ez).
    assert (Hbig : ~ (- eps <= incircle (rdF a) (rdF b) (rdF c) (rdF v) <= eps)).
    { intros L. apply HI. apply (grid_zero _ z (4 * k)); [unfold fine_spacing in Hk; lia|exact Ez|exact L]. }
    assert (Er : Raeq (incircle (rdF a) (rdF b) (rdF c) (rdF v)) 0 = false).
    { unfold Raeq. rewrite Rminus_0_r.
      unfold Rleb. destruct (Rle_dec (Rabs (incircle (rdF a) (rdF b) (rdF c) (rdF v))) eps) as [L|L]; [|reflexivity]. exfalso. apply Hbig. revert L. unfold Rabs. destruct (Rcase_abs (incircle (rdF a) (rdF b) (rdF c) (rdF v))); lra. }
    rewrite Er. tauto.
  Qed.

  Lemma float_agrees : agrees rdF U.
  Proof.
    assert (Hs : spacing k) by (apply fine_spacing_spacing, Hk).
    split.
    - exact rd_ghost.
    - intros w Hw. destruct (HU w Hw) as [(_ & _ & G) (_ & _ & G')]. split; [rewrite G; exact G'|exact G'].
    - intros a b Ha Hb E. apply (map_inj rdF U); assumption.
    - intros a b Ha Hb E. destruct (HU a Ha) as [Ra Fa]. destruct (HU b Hb) as [Rb Fb].
      apply (map_inj rdF U); auto. apply plain_coincide; [apply Fa|apply Fb|].
      apply (float_equal k Hs a b); auto using fine_grid_point.
    - exact cont_agrees.
    - intros a b v Ha Hb Hv. destruct (HU a Ha) as [Ra Fa]. destruct (HU b Hb) as [Rb Fb]. destruct (HU v Hv) as [Rv Fv].
      apply (orientation_same k Hs); auto using fine_grid_point.
    - intros a b v Ha Hb Hv. destruct (HU a Ha) as [Ra Fa]. destruct (HU b Hb) as [Rb Fb]. destruct (HU v Hv) as [Rv Fv].
      apply (edge_contains_same k Hs); auto using fine_grid_point.
    - apply (fine_resolved k); [exact Hk|]. intros w Hw. apply in_map_iff in Hw. destruct Hw as (x & <- & Hx). apply (HU x Hx).
  Qed.

  Lemma rt_reads : forall t, okt U t -> tri_reads t (rt rdF t).
  Proof.
    assert (Ho : forall w, okv U w -> reads w (rdF w)) by (intros w [Hw| ->]; [apply (HU w Hw)|apply ghost_reads]).
    intros [a b c] (O1 & O2 & O3). unfold tri_reads, rt. cbn [tv1 tv2 tv3] in *. repeat split; apply Ho; assumption.
  Qed.
  Lemma tri_reads_rt : forall t t', tri_reads t t' -> rt rdF t = t'.
  Proof.
    intros [a b c] [a' b' c'] (R1 & R2 & R3). cbn [tv1 tv2 tv3] in *. unfold rt. cbn [tv1 tv2 tv3]. rewrite (reads_rd _ _ R1), (reads_rd _ _ R2), (reads_rd _ _ R3). reflexivity.
  Qed.
  Lemma stands_shows : forall S tr M, incl S U -> stands_for S tr M -> shows rdF U tr M.
  Proof.
    intros S tr M HS HF. split; try apply HF.
    - intros [a b c] Ht. unfold okt. cbn [tv1 tv2 tv3]. repeat split.
      + destruct (sf_over _ _ _ HF _ a Ht (corner_a a b c)) as [Hi| ->]; [left; apply HS, Hi|right; reflexivity].
      + destruct (sf_over _ _ _ HF _ b Ht (corner_b a b c)) as [Hi| ->]; [left; apply HS, Hi|right; reflexivity].
      + destruct (sf_over _ _ _ HF _ c Ht (corner_c a b c)) as [Hi| ->]; [left; apply HS, Hi|right; reflexivity].
    - intros t'. split.
      + intros Ht'. destruct (sf_shown _ _ _ HF t' Ht') as (t & Ht & Hr). exists t. split; [exact Ht|apply tri_reads_rt, Hr].
      + intros (t & Ht & <-). destruct (sf_shows _ _ _ HF t Ht) as (t' & Ht' & Hr). rewrite (tri_reads_rt _ _ Hr). exact Ht'.
  Qed.
  Lemma shows_stands : forall S tr M, incl S U -> shows rdF U tr M -> delaunay (map rdF S) M -> stands_for S tr M.
  Proof.
    intros S tr M HS Hsh HD. pose proof float_agrees as HA. split; try apply Hsh.
    - intros t w Ht Hc.
      destruct (tri_shape rdF U (ag_ghost _ _ HA) (ag_plain _ _ HA) (ag_inj _ _ HA) S tr M HS Hsh HD t Ht) as [(a & b & c & -> & Ha & Hb & Hcs & _)|(a & b & -> & Ha & Hb & _)];
        inversion Hc; subst; auto.
    - intros t Ht. exists (rt rdF t). split; [apply (sh_tris _ _ _ _ Hsh); eauto|]. apply rt_reads, (sh_ok _ _ _ _ Hsh t Ht).
    - intros t' Ht'. apply (sh_tris _ _ _ _ Hsh) in Ht'. destruct Ht' as (t & Ht & <-). exists t. split; [exact Ht|]. apply rt_reads, (sh_ok _ _ _ _ Hsh t Ht).
  Qed.
End Fine.

(** ** The statements *)
Lemma Forall2_app2 : forall {X Y} (R : X -> Y -> Prop) l l' m m', Forall2 R l l' -> Forall2 R m m' -> Forall2 R (l ++ m) (l' ++ m').
Proof. intros X Y R l l' m m' H1 H2. apply Forall2_app; assumption. Qed.

Lemma filter_permut : forall {X} (f : X -> bool) l, exists r, Permutation l (filter f l ++ r).
Proof.
  intros X f l. induction l as [|x l [r IH]]; [exists []; constructor|]. cbn [filter]. destruct (f x).
  - exists r. cbn [app]. constructor. exact IH.
  - exists (x :: r). rewrite IH at 1. apply Permutation_middle.
Qed.

Theorem float_insertion : forall k, fine_spacing k -> forall (H : HashOrder) p S S' tr M vs vs', Forall2 (fine_reads k) S S' -> Forall2 (fine_reads k) vs vs' ->
  NoDup (vs' ++ S') -> no_four_on_a_circle (vs' ++ S') -> stands_for S tr M -> delaunay S' M ->
  exists n0 tr2 M2 inc del ins ins', (forall fuel, (n0 <= fuel)%nat -> vertices_include H fuel p tr vs [] None [] = Ok (tr2, inc, del)) /\
    Forall2 (fine_reads k) ins ins' /\ NoDup ins /\ incl ins vs /\ stands_for (ins ++ S) tr2 M2 /\ delaunay (ins' ++ S') M2 /\
    ((exists w, In w vs' /\ ~ all_on_a_line (w :: S')) -> ins <> []).
Proof.
  intros k Hk H p S S' tr M vs vs' HS Hvs HN H4 HF HD.
  destruct (reads_map k _ _ (Forall2_app2 _ _ _ _ _ Hvs HS)) as [EU HU]. set (U := vs ++ S) in *.
  rewrite <- EU in HN, H4. destruct (reads_map k _ _ HS) as [ES _]. rewrite <- ES in HD. destruct (reads_map k _ _ Hvs) as [Ev _].
  assert (HA := float_agrees k U Hk HU HN H4).
  assert (HSU : incl S U) by (intros w Hw; apply in_or_app; auto).
  assert (Hsh := stands_shows U S tr M HSU HF).
  assert (HNU : NoDup (vs ++ S)) by (apply (NoDup_map_inv rdF), HN).
  assert (HNv : NoDup vs).
  { clear - HNU. induction vs as [|x vs IH]; [constructor|]. cbn [app] in HNU. inversion HNU as [|? ? Hx HN']; subst. constructor; [|apply IH, HN']. intros Hi. apply Hx, in_or_app. auto. }
  assert (HvS : forall w, In w vs -> ~ In w S).
  { clear - HNU. induction vs as [|x vs IH]; [intros w []|]. cbn [app] in HNU. inversion HNU as [|? ? Hx HN']; subst. intros w [<-|Hw]; [|apply IH; assumption]. intros Hi. apply Hx, in_or_app. auto. }
  destruct (include_shows rdF U HA H p S tr M vs (incl_refl _) HNv Hsh HD) as (n0 & tr2 & M2 & inc & del & ins & dropped & Hrun & Hsh2 & HD2 & HP & Hne).
  assert (Hi : incl ins vs).
  { intros w Hw. assert (Hf : In w (filter (fun v => negb (hmem vdec v (trn_vertices tr))) vs)) by (apply (Permutation_in _ (Permutation_sym HP)), in_or_app; auto). apply filter_In in Hf. apply Hf. }
  assert (HNi : NoDup ins).
  { assert (Hn : NoDup (ins ++ dropped)) by (apply (Permutation_NoDup HP), NoDup_filter, HNv). clear - Hn.
    induction ins as [|x ins IH]; [constructor|]. cbn [app] in Hn. inversion Hn as [|? ? Hx Hn']; subst. constructor; [|apply IH, Hn']. intros Hi. apply Hx, in_or_app. auto. }
  assert (Hiu : incl (ins ++ S) U) by (intros w Hw; apply in_app_or in Hw; apply in_or_app; destruct Hw; auto).
  exists n0, tr2, M2, inc, del, ins, (map rdF ins). split; [exact Hrun|]. split.
  { clear - Hi HU. assert (Hu : incl ins U) by (intros w Hw; apply in_or_app; left; apply Hi, Hw). clear Hi. induction ins as [|x ins IH]; [constructor|]. cbn [map]. constructor; [apply HU, Hu; left; reflexivity|].
    apply IH. intros w Hw. apply Hu. right. exact Hw. }
  split; [exact HNi|]. split; [exact Hi|]. split; [apply (shows_stands k U Hk HU HN H4); assumption|]. split; [rewrite map_app, ES in HD2; exact HD2|].
  intros (w & Hw & Hl). apply Hne. rewrite <- Ev in Hw. apply in_map_iff in Hw. destruct Hw as (x & <- & Hx).
  rewrite <- ES in Hl. destruct (sees_some (map rdF S) M (rdF x) HD) as (t' & Ht' & He); auto.
  - apply (HR' rdF U (ag_res _ _ HA) S x HSU). apply in_or_app. auto.
  - apply (HvS' rdF U (ag_inj _ _ HA) S x); auto. apply in_or_app. auto.
  - apply (sh_tris _ _ _ _ Hsh) in Ht'. destruct Ht' as (t & Ht & <-). exists t, x. split; [exact Ht|]. split; [exact Hx|]. split; [apply HvS, Hx|].
    apply (encircles_same rdF U (ag_ghost _ _ HA) (ag_plain _ _ HA) (ag_inj _ _ HA) (ag_cont _ _ HA) (ag_ori _ _ HA) S tr M x); auto. apply in_or_app. auto.
Qed.

Lemma float_initial : forall k (a b : vertex ArithF) (a' b' : pnt), fine_spacing k -> fine_reads k a a' -> fine_reads k b b' -> a' <> b' ->
  stands_for [a; b] (from_initial_segment a b) (from_initial_segment a' b').
Proof.
  intros k a b a' b' Hk Ra Rb Hn. assert (HF : Forall2 (fine_reads k) [a; b] [a'; b']) by (constructor; [exact Ra|constructor; [exact Rb|constructor]]).
  destruct (reads_map k _ _ HF) as [E HU].
  assert (HN : NoDup (map rdF [a; b])) by (rewrite E; constructor; [cbn; intros [K|[]]; congruence|]; constructor; [intros []|constructor]).
  assert (H4 : no_four_on_a_circle (map rdF [a; b])).
  { rewrite E. intros o x y z w Hx Hy Hz Hw Hnd. exfalso.
    assert (L : (length [x; y; z; w] <= length [a'; b'])%nat) by (apply NoDup_incl_length; [exact Hnd|]; intros q [<-|[<-|[<-|[<-|[]]]]]; assumption). cbn in L. lia. }
  assert (HA := float_agrees k [a; b] Hk HU HN H4).
  assert (Hd : delaunay (map rdF [a; b]) (from_initial_segment a' b')) by (rewrite E; apply initial_delaunay; [apply (proj2 Ra)|apply (proj2 Rb)|exact Hn]).
  apply (shows_stands k [a; b] Hk HU HN H4); [apply incl_refl| |exact Hd].
  cbn [map] in E. injection E as <- <-. apply (initial_shows rdF [a; b] HA); [left; reflexivity|right; left; reflexivity|]. intros ->. apply Hn. reflexivity.
Qed.

Theorem float_one : forall k, fine_spacing k -> forall (H : HashOrder) p S S' tr M v v', Forall2 (fine_reads k) S S' -> fine_reads k v v' ->
  NoDup (v' :: S') -> no_four_on_a_circle (v' :: S') -> ~ all_on_a_line (v' :: S') -> stands_for S tr M -> delaunay S' M ->
  exists n0 tr2 M2 inc del, (forall fuel, (n0 <= fuel)%nat -> vertices_include H fuel p tr [v] [] None [] = Ok (tr2, inc, del)) /\
    stands_for (v :: S) tr2 M2 /\ delaunay (v' :: S') M2.
Proof.
  intros k Hk H p S S' tr M v v' HS Hv HN H4 Hl HF HD.
  destruct (float_insertion k Hk H p S S' tr M [v] [v'] HS) as (n0 & tr2 & M2 & inc & del & ins & ins' & Hrun & HFi & Hnd & Hi & Hst & HD2 & Hne); auto.
  assert (Ei : ins = [v]).
  { destruct ins as [|x ins]; [exfalso; apply Hne; [exists v'; split; [left; reflexivity|exact Hl]|reflexivity]|]. destruct (Hi x (or_introl eq_refl)) as [<-|[]].
    destruct ins as [|y ins]; [reflexivity|]. destruct (Hi y (or_intror (or_introl eq_refl))) as [<-|[]]. inversion Hnd as [|? ? Hx _]; subst. exfalso. apply Hx. left. reflexivity. }
  subst ins. inversion HFi as [|? w' ? l' Hw Hl']; subst. inversion Hl'; subst. rewrite <- (reads_rd _ _ (proj1 Hw)), (reads_rd _ _ (proj1 Hv)) in HD2.
  exists n0, tr2, M2, inc, del. auto.
Qed.

Theorem float_each : forall k, fine_spacing k -> forall (H : HashOrder) vs vs' p S S' tr M, Forall2 (fine_reads k) S S' -> Forall2 (fine_reads k) vs vs' ->
  NoDup (vs' ++ S') -> no_four_on_a_circle (vs' ++ S') -> (vs' <> [] -> ~ all_on_a_line (hd gv vs' :: S')) -> stands_for S tr M -> delaunay S' M ->
  exists n0 tr2 M2, (forall fuel, (n0 <= fuel)%nat -> include_each H fuel p tr vs = Ok tr2) /\ stands_for (vs ++ S) tr2 M2 /\ delaunay (vs' ++ S') M2.
Proof.
  intros k Hk H vs vs'. revert vs. induction vs' as [|v' vs' IH]; intros vs p S S' tr M HS Hvs HN H4 Hl HF HD; inversion Hvs as [|v ? vs0 ? Hv Hvs0]; subst.
  { exists 0%nat, tr, M. auto. }
  specialize (Hl ltac:(discriminate)). cbn [hd] in Hl. cbn [app] in HN, H4. inversion HN as [|? ? Hx HN']; subst.
  assert (HNS : NoDup S') by (clear - HN'; induction vs' as [|x vs IH]; [exact HN'|]; cbn [app] in HN'; inversion HN'; subst; apply IH; assumption).
  destruct (float_one k Hk H (1%nat :: p) S S' tr M v v') as (n1 & tr1 & M1 & inc & del & R1 & F1 & D1); auto.
  { constructor; [|exact HNS]. intros Hi. apply Hx, in_or_app. auto. }
  { intros o a b c d Ha Hb Hc Hd. apply H4; cbn [In] in *; rewrite in_app_iff; tauto. }
  assert (Hmid : Permutation (v' :: vs' ++ S') (vs' ++ v' :: S')) by apply Permutation_middle.
  destruct (IH vs0 (0%nat :: p) (v :: S) (v' :: S') tr1 M1) as (n2 & tr2 & M2 & R2 & F2 & D2); auto.
  { apply (Permutation_NoDup Hmid), HN. }
  { intros o a b c d Ha Hb Hc Hd. apply H4; apply (Permutation_in _ (Permutation_sym Hmid)); assumption. }
  { intros _ Hc. apply Hl. apply (line_incl _ _ Hc). intros w Hw. right. exact Hw. }
  exists (n1 + n2)%nat, tr2, M2. split; [|split].
  - intros fuel Hf. cbn [include_each]. rewrite (R1 fuel) by lia. cbn [bind]. apply R2. lia.
  - split; try apply F2. intros t w Ht Hc. destruct (sf_over _ _ _ F2 t w Ht Hc) as [Hi|Hi]; [left|right; exact Hi].
    apply in_app_or in Hi. cbn [app In]. rewrite in_app_iff. cbn [In] in Hi. tauto.
  - apply (delaunay_incl _ _ _ D2). intros w. cbn [app In]. rewrite !in_app_iff. cbn [In]. tauto.
Qed.
