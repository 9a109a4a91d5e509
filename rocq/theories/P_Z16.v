(** P_Z16.v — the whole program in doubles on polygons that are not convex: no corner
    is in the circle over a side. *)

From Coq Require Import String Reals List ZArith Lra Lia Bool Permutation.
From Verif Require Import Base Arith ArithR ArithF Geometry Elements Polyline Procedures Refine Triangulator Interface Spec SpecI SpecM SpecR SpecD SpecP SpecF SpecX Samples
  P_Base P_Fuel P_Trn P_Trn2 P_Interface P_RX P_Fill2 P_R1 P_D7 P_D8 P_C5 P_X1 P_Polygon3 P_Y1 P_Y2 P_Y3 P_Y4 P_Y6 P_Y7 P_Z3 P_Z10 P_Made P_Refuted P_Z11 P_Z12 P_Z15.
Import ListNotations.
Local Open Scope R_scope.

(** ** Sides whose circles are empty *)
Definition clear_sides (l : list pnt) : Prop :=
  forall a b w m, In (a, b) (polygon_sides l) -> In w l -> w <> a -> w <> b -> half_point a b m -> d2 a b / 4 < d2 m w.

Lemma over_side : forall a b w m, half_point a b m -> d2 m w - d2 a b / 4 = (X w - X a) * (X w - X b) + (Y w - Y a) * (Y w - Y b).
Proof. intros a b w m [Ex Ey]. unfold d2. rewrite Ex, Ey. field. Qed.
Definition halfway (a b : pnt) : pnt := at_ ((X a + X b) / 2) ((Y a + Y b) / 2).
Lemma halfway_is : forall a b, half_point a b (halfway a b).
Proof. intros a b. unfold half_point, at_ratio, halfway. rewrite P_RX.X_at, P_RX.Y_at. lra. Qed.
Lemma clear_dot : forall l a b w, clear_sides l -> In (a, b) (polygon_sides l) -> In w l -> w <> a -> w <> b -> 0 < (X w - X a) * (X w - X b) + (Y w - Y a) * (Y w - Y b).
Proof. intros l a b w HC Hs Hw N1 N2. pose proof (HC a b w _ Hs Hw N1 N2 (halfway_is a b)). rewrite <- (over_side a b w _ (halfway_is a b)). lra. Qed.

Lemma clear_free : forall l a b, clear_sides l -> In (a, b) (polygon_sides l) -> free_side l a b.
Proof.
  intros l a b HC Hs. exists (halfway a b). split; [unfold d2, halfway; rewrite P_RX.X_at, P_RX.Y_at; field|]. intros w Hw N1 N2.
  pose proof (HC a b w _ Hs Hw N1 N2 (halfway_is a b)) as Hl. replace (d2 (halfway a b) a) with (d2 a b / 4); [exact Hl|]. unfold d2, halfway. rewrite P_RX.X_at, P_RX.Y_at. field.
Qed.
Lemma clear_round : forall l a b w m, clear_sides l -> In (a, b) (polygon_sides l) -> In w l -> half_point a b m -> d2 a b / 4 <= d2 m w.
Proof.
  intros l a b w m HC Hs Hw Hm. destruct (vdec w a) as [-> |N1]; [|destruct (vdec w b) as [-> |N2]; [|left; apply (HC a b w m); assumption]]; right; pose proof (over_side a b) as E.
  - specialize (E a m Hm). replace ((X a - X a) * (X a - X b) + (Y a - Y a) * (Y a - Y b)) with 0 in E by ring. lra.
  - specialize (E b m Hm). replace ((X b - X a) * (X b - X b) + (Y b - Y a) * (Y b - Y b)) with 0 in E by ring. lra.
Qed.

(** The circles over two sides cut each other along a line that separates the sides. *)
Definition gap (a b c d q : pnt) : R := (X q - X a) * (X q - X b) + (Y q - Y a) * (Y q - Y b) - ((X q - X c) * (X q - X d) + (Y q - Y c) * (Y q - Y d)).
Lemma gap_line : forall a b c d t x y p, at_ratio t x y p -> gap a b c d p = (1 - t) * gap a b c d x + t * gap a b c d y.
Proof. intros a b c d t x y p [Ex Ey]. unfold gap. rewrite Ex, Ey. ring. Qed.
Lemma gap_start : forall a b c d, gap a b c d a = - ((X a - X c) * (X a - X d) + (Y a - Y c) * (Y a - Y d)). Proof. intros. unfold gap. ring. Qed.
Lemma gap_end : forall a b c d, gap a b c d b = - ((X b - X c) * (X b - X d) + (Y b - Y c) * (Y b - Y d)). Proof. intros. unfold gap. ring. Qed.
Lemma gap_other : forall a b c d, gap a b c d c = (X c - X a) * (X c - X b) + (Y c - Y a) * (Y c - Y b). Proof. intros. unfold gap. ring. Qed.
Lemma gap_last : forall a b c d, gap a b c d d = (X d - X a) * (X d - X b) + (Y d - Y a) * (Y d - Y b). Proof. intros. unfold gap. ring. Qed.
Lemma mix_pos : forall t u v, 0 <= t <= 1 -> 0 < u -> 0 < v -> 0 < (1 - t) * u + t * v.
Proof. intros t u v [H1 H2] Hu Hv. destruct H1 as [H1| <-]; [|lra]. pose proof (Rmult_le_pos (1 - t) u ltac:(lra) ltac:(lra)). pose proof (Rmult_lt_0_compat t v H1 Hv). lra. Qed.
Lemma sides_in : forall (l : list pnt) a b, In (a, b) (polygon_sides l) -> In a l /\ In b l.
Proof. intros l a b Hs. destruct (P_Fill2.polygon_ends l (a, b) Hs) as [H1 H2]. auto. Qed.
Lemma clear_simple : forall l, clear_sides l ->
  forall a b c d, In (a, b) (polygon_sides l) -> In (c, d) (polygon_sides l) -> a <> c -> a <> d -> b <> c -> b <> d -> ~ exists p, on_segment a b p /\ on_segment c d p.
Proof.
  intros l HC a b c d Hab Hcd n1 n2 n3 n4 (p & (t & Ht & Et) & (s & Hs & Es)). destruct (sides_in l a b Hab) as [Ia Ib]. destruct (sides_in l c d Hcd) as [Ic Id].
  pose proof (gap_line a b c d t a b p Et) as E1. pose proof (gap_line a b c d s c d p Es) as E2. rewrite gap_start, gap_end in E1. rewrite gap_other, gap_last in E2.
  pose proof (clear_dot l a b c HC Hab Ic ltac:(auto) ltac:(auto)) as P1. pose proof (clear_dot l a b d HC Hab Id ltac:(auto) ltac:(auto)) as P2.
  pose proof (clear_dot l c d a HC Hcd Ia n1 n2) as P3. pose proof (clear_dot l c d b HC Hcd Ib n3 n4) as P4.
  pose proof (mix_pos t _ _ Ht P3 P4). pose proof (mix_pos s _ _ Hs P1 P2). lra.
Qed.

Section Quiet.
  Variables (k : Z) (l : list (vertex ArithF)) (l' : list pnt).
  Hypothesis Hk : fine_spacing k.
  Hypothesis HF : Forall2 (fine_reads k) l l'.
  Hypothesis HN : NoDup l'.
  Variables (H : HashOrder) (p : path) (inp : input ArithF) (n : nat) (t : triangulator ArithF) (prm : refine_params ArithF).
  Hypothesis Hp : parse H n (1%nat :: p) inp = Ok (Some (t, prm)).
  Hypothesis Ho : only_polygon t l.
  Hypothesis H3 : (3 <= length l')%nat.
  Hypothesis Hfree : forall a b w m, In (a, b) (polygon_sides l') -> In w l' -> half_point a b m -> d2 a b / 4 <= d2 m w.
  Hypothesis Hfine : forall a b c, In a l -> In b l -> In c l -> orientation a b c = CCW -> ~ misses prm (Tri a b c).
  Variables (n1 : nat) (t' : triangulator ArithF) (M : mesh).
  Hypothesis Ht : forall fuel, (n1 <= fuel)%nat -> triangulate H fuel (2%nat :: p) t = Ok t'.
  Hypothesis HR : reads_as l (t_trn t') M.
  Hypothesis HM : fills l' M.

  (** P_Z11.float_quiet, for whatever filling the triangulation has made. *)
  Lemma quiet_from : exists n0 coords triples order vec ts, (forall fuel, (n0 <= fuel)%nat -> run_main H fuel p inp = Ok (Some (coords, triples))) /\
    coords = map (fun v => (vx v, vy v)) order /\ Permutation order l /\ Permutation vec l /\ Forall2 (names vec) ts triples /\ NoDup ts /\
    (forall x, In x ts -> exists y, solid_in M y /\ tri_reads x y) /\ (forall y, solid_in M y -> exists x, In x ts /\ tri_reads x y).
  Proof.
    pose proof (reads_points k l l' HF HN (t_trn t') M HR HM) as Pl. destruct (keeps_parts _ H n1 (2%nat :: p) t t' (Ht n1 ltac:(lia))) as (E1 & E2 & E3).
    assert (Eb : t_boundary t' = Poly l false) by (rewrite E1; apply Ho). assert (Eh : t_holes t' = []) by (rewrite E2; apply Ho). assert (Es : t_segments t' = []) by (rewrite E3; apply Ho).
    assert (Hl : length l = length l') by (destruct (reads_map k l l' HF) as [E _]; rewrite <- E, map_length; reflexivity).
    assert (G1 : pverts (t_boundary t') <> []) by (rewrite Eb; cbn; destruct l; [cbn in *; lia|discriminate]).
    assert (G2 : forall h, In h (t_holes t') -> pverts h <> []) by (rewrite Eh; intros h []).
    assert (G3 : forall e v, constraint_on t' e -> In v (trn_vertices (t_trn t')) -> edge_encroach e v <> Inside).
    { intros e v He Hv. unfold constraint_on in He. rewrite Eb, Eh, Es in He. destruct He as [He|[(h & [] & _)|[]]]. apply (Permutation_in _ Pl) in Hv.
      destruct (read_side k l l' HF e He) as (Ha & Hb & He'). destruct (read_in k l l' HF _ Ha) as [_ [Ra Fa]]. destruct (read_in k l l' HF _ Hb) as [_ [Rb Fb]]. destruct (read_in k l l' HF _ Hv) as [Hv' [Rv Fv]].
      assert (Hm : half_point (rdF (fst e)) (rdF (snd e)) (edge_midpoint (rdF (fst e), rdF (snd e)))) by (destruct (edge_midpoint_spec (rdF (fst e), rdF (snd e))) as [Hm _]; exact Hm).
      intros Hin. apply (float_encroach k (fine_coarse k Hk) (fst e) (snd e) v _ _ _ (fine_grid_point _ _ Fa) (fine_grid_point _ _ Fb) (fine_grid_point _ _ Fv) Ra Rb Rv _ Hm) in Hin.
      pose proof (Hfree _ _ _ _ He' Hv' Hm). lra. }
    assert (G4 : forall x, In x (tris (t_trn t')) -> is_ghost x = false -> ~ misses prm x).
    { intros [a b c] Hx Hg. destruct (ra_reads _ _ _ HR _ Hx) as ([a' b' c'] & Hy & (Ra & Rb & Rc)). cbn [tv1 tv2 tv3] in *.
      assert (O : forall w, corner_of w (Tri a b c) -> In w l).
      { intros w Cw. destruct (ra_over _ _ _ HR _ _ Hx Cw) as [Hw| ->]; [exact Hw|]. exfalso. unfold is_ghost in Hg. cbn [tv1 tv2 tv3] in Hg.
        inversion Cw; subst; cbn in Hg; rewrite ?orb_true_r in Hg; discriminate Hg. }
      assert (Ha : In a l) by (apply O; constructor). assert (Hb : In b l) by (apply O; constructor). assert (Hcc : In c l) by (apply O; constructor). apply Hfine; auto.
      pose proof (reads_rd _ _ Ra) as Ea. pose proof (reads_rd _ _ Rb) as Eb'. pose proof (reads_rd _ _ Rc) as Ec. destruct (read_in k l l' HF a Ha) as [_ [_ Fa]]. destruct (read_in k l l' HF b Hb) as [_ [_ Fb]]. destruct (read_in k l l' HF c Hcc) as [_ [_ Fc]].
      rewrite Ea in Fa. rewrite Eb' in Fb. rewrite Ec in Fc.
      apply (float_orientation k (fine_coarse k Hk) a b c a' b' c' (fine_grid_point _ _ Fa) (fine_grid_point _ _ Fb) (fine_grid_point _ _ Fc) Ra Rb Rc).
      apply (fl_shape _ _ HM a' b' c'). split; [exact Hy|]. destruct Fa as (_ & _ & Fa). destruct Fb as (_ & _ & Fb). destruct Fc as (_ & _ & Fc). unfold is_ghost. cbn [tv1 tv2 tv3]. rewrite Fa, Fb, Fc. reflexivity. }
    destruct (output_spec H (4%nat :: p) (t_trn t')) as (coords & triples & vec & order & Eo & Pv & Po & Ec & F2 & _).
    exists (S (n + n1)), coords, triples, order, vec, (filter (fun t => negb (is_ghost t)) (ho H (3%nat :: 4%nat :: p) _ (tris (t_trn t')))). split.
    { intros fuel Hfu. pose proof (rle_ok _ _ _ _ (parse_mono H n fuel ltac:(lia) (1%nat :: p) inp) Hp) as Hp'. unfold run_main. rewrite Hp'. cbn [bind]. rewrite (Ht fuel ltac:(lia)). cbn [bind].
      destruct (refine_rests H fuel (3%nat :: p) t' prm ltac:(lia) G1 G2 G3 G4) as (cs & Er & _). rewrite Er. cbn [bind]. rewrite Eo. reflexivity. }
    split; [exact Ec|]. split; [rewrite Po; exact Pl|]. split; [rewrite Pv; exact Pl|]. split; [exact F2|].
    assert (GG : forall x y, tri_reads x y -> is_ghost x = is_ghost y).
    { intros [a b c] [a' b' c'] (R1 & R2 & R3). cbn [tv1 tv2 tv3] in *. unfold is_ghost. cbn [tv1 tv2 tv3]. destruct R1 as (_ & _ & ->), R2 as (_ & _ & ->), R3 as (_ & _ & ->). reflexivity. }
    split; [|split].
    - apply NoDup_filter, ho_NoDup. destruct (triangulate_made H n1 (2%nat :: p) t t' (Ht n1 ltac:(lia))) as [h ->]. apply NoDup_history. constructor.
    - intros x Hx. apply filter_In in Hx. destruct Hx as [Hx Gx]. apply ho_In in Hx. apply negb_true_iff in Gx. destruct (ra_reads _ _ _ HR x Hx) as (y & Hy & Ry). exists y. split; [|exact Ry]. split; [exact Hy|]. rewrite <- (GG x y Ry). exact Gx.
    - intros y [Hy Gy]. destruct (ra_read _ _ _ HR y Hy) as (x & Hx & Rx). exists x. split; [|exact Rx]. apply filter_In. rewrite ho_In, negb_true_iff. split; [exact Hx|]. rewrite (GG x y Rx). exact Gy.
  Qed.
End Quiet.

Lemma clear_program : forall k (l : list (vertex ArithF)) (l' : list pnt), fine_spacing k -> Forall2 (fine_reads k) l l' -> NoDup l' -> no_four_on_a_circle l' -> (3 <= length l')%nat ->
  0 < shoelace (polygon_sides l') -> clear_sides l' ->
  forall (H : HashOrder) p (inp : input ArithF) a, i_actions inp = [a] -> a_intent a = "include"%string -> a_geometry a = "polyline"%string -> map (fun q => mkv (fst q) (snd q)) (a_points a) = l ->
  (forall a b c, In a l -> In b l -> In c l -> orientation a b c = CCW -> ~ misses (RP (i_max_area inp) (i_quality inp)) (Tri a b c)) ->
  exists n1 t t', only_polygon t l /\ (forall fuel, (n1 <= fuel)%nat -> parse H fuel (1%nat :: p) inp = Ok (Some (t, RP (i_max_area inp) (i_quality inp))) /\ triangulate H fuel (2%nat :: p) t = Ok t') /\
    ((forall w, In w l -> exists u, In u (tris (t_trn t')) /\ is_ghost u = false /\ corner_of w u) ->
     exists n0 coords triples M order vec ts, (forall fuel, (n0 <= fuel)%nat -> run_main H fuel p inp = Ok (Some (coords, triples))) /\ fills l' M /\
       coords = map (fun v => (vx v, vy v)) order /\ Permutation order l /\ Permutation vec l /\ Forall2 (names vec) ts triples /\ NoDup ts /\
       (forall x, In x ts -> exists y, solid_in M y /\ tri_reads x y) /\ (forall y, solid_in M y -> exists x, In x ts /\ tri_reads x y)).
Proof.
  intros k l l' Hk HF HN H4 H3 Ha0 HC H p inp a Ha Hi Hg Hl Hfine. destruct (read_accepts k l l' Hk HF H3 (clear_simple l' HC) H inp a Ha Hi Hg Hl) as (t & Ho & Hp).
  destruct (float_free k Hk H (2%nat :: p) t l l' Ho HF HN H4 Ha0 (fun a b => clear_free l' a b HC)) as (n1 & t' & Ht & Hfill).
  exists (S (length l + n1)), t, t'. split; [exact Ho|]. split; [intros fuel Hf; split; [apply Hp; lia|apply Ht; lia]|]. intros Hu. destruct (Hfill Hu) as (M & HR & HM).
  destruct (quiet_from k l l' Hk HF HN H p inp (S (length l)) t _ (Hp (S (length l)) (1%nat :: p) ltac:(lia)) Ho H3 (fun a b w m => clear_round l' a b w m HC) Hfine n1 t' M Ht HR HM) as (n0 & c & ts & order & vec & tt & E0 & E2 & E3 & E4 & E5 & E6 & E7 & E8).
  exists n0, c, ts, M, order, vec, tt. repeat (split; [assumption|]). assumption.
Qed.

Lemma clear_same : forall k (l : list (vertex ArithF)) (l' : list pnt), fine_spacing k -> Forall2 (fine_reads k) l l' -> NoDup l' -> no_four_on_a_circle l' ->
  0 < shoelace (polygon_sides l') -> clear_sides l' ->
  forall (H H' : HashOrder) fuel fuel' p p' (t t' u u' : triangulator ArithF), only_polygon t l -> only_polygon u l ->
  triangulate H fuel p t = Ok t' -> triangulate H' fuel' p' u = Ok u' ->
  (forall w, In w l -> exists x, In x (tris (t_trn t')) /\ is_ghost x = false /\ corner_of w x) -> (forall w, In w l -> exists x, In x (tris (t_trn u')) /\ is_ghost x = false /\ corner_of w x) ->
  forall x, In x (tris (t_trn t')) -> exists y, In y (tris (t_trn u')) /\ exists a b c, x = Tri a b c /\ (y = Tri a b c \/ y = Tri b c a \/ y = Tri c a b).
Proof.
  intros k l l' Hk HF HN H4 Ha0 HC H H' fuel fuel' p p' t t' u u' Ot Ou Rt Ru Ut Uu x Hx.
  destruct (float_free k Hk H p t l l' Ot HF HN H4 Ha0 (fun a b => clear_free l' a b HC)) as (n1 & t1 & Ht & Ft).
  destruct (float_free k Hk H' p' u l l' Ou HF HN H4 Ha0 (fun a b => clear_free l' a b HC)) as (n2 & t2 & Hu & Fu).
  assert (t1 = t') as -> by (pose proof (Ht (n1 + fuel)%nat ltac:(lia)) as E1; pose proof (rle_ok _ _ _ _ (triangulate_mono H fuel (n1 + fuel) ltac:(lia) p t) Rt) as E2; congruence).
  assert (t2 = u') as -> by (pose proof (Hu (n2 + fuel')%nat ltac:(lia)) as E1; pose proof (rle_ok _ _ _ _ (triangulate_mono H' fuel' (n2 + fuel') ltac:(lia) p' u) Ru) as E2; congruence).
  destruct (Ft Ut) as (M & HR & HM). destruct (Fu Uu) as (M' & HR' & HM').
  destruct (ra_reads _ _ _ HR x Hx) as (y & Hy & Ry). assert (Hy' : exists y', In y' (tris M') /\ same_triangle y y').
  { destruct (is_ghost y) eqn:G.
    - exists y. split; [|destruct y as [a b c]; exists a, b, c; auto]. apply (fl_outer _ _ HM'), (fl_outer _ _ HM). auto.
    - destruct (fills_match l' M M' H4 HM HM' y (conj Hy G)) as (y' & [Hy' _] & S'). exists y'. auto. }
  destruct Hy' as (y' & Hy' & Sy). destruct (ra_read _ _ _ HR' y' Hy') as (x' & Hx' & Rx'). exists x'. split; [exact Hx'|].
  apply (read_turned k l l' HF HN x x' y y'); auto; intros w Cw; [apply (ra_over _ _ _ HR x w Hx Cw)|apply (ra_over _ _ _ HR' x' w Hx' Cw)].
Qed.

(** ** A sample: a pentagon with a notch *)
Definition notch : list pnt := [at_ 5 2; at_ 6 3; at_ 3 6; at_ 0 2; at_ 4 0].
Definition notchF : list (vertex ArithF) := [pt 5 2; pt 6 3; pt 3 6; pt 0 2; pt 4 0].
Definition notch_job : input ArithF := Inp (A:=ArithF) [act_of "include" [(5, 2); (6, 3); (3, 6); (0, 2); (4, 0)]%Z] None (fpz 10).
Section Check.
  Context {A : Arith}.
  Definition check_used (l : list (vertex A)) (r : res (triangulator A)) : bool :=
    match r with
    | Ok t' => forallb (fun w => existsb (fun u => negb (is_ghost u) && (if vdec (A:=A) w (tv1 u) then true else if vdec (A:=A) w (tv2 u) then true else if vdec (A:=A) w (tv3 u) then true else false)) (tris (t_trn t'))) l
    | _ => false
    end.
  Lemma check_used_ok : forall l r, check_used l r = true -> exists t', r = Ok t' /\ forall w, In w l -> exists u, In u (tris (t_trn t')) /\ is_ghost u = false /\ corner_of w u.
  Proof.
    intros l [t'| |] C; try discriminate C. exists t'. split; [reflexivity|]. intros w Hw. cbn [check_used] in C. rewrite forallb_forall in C. specialize (C w Hw). apply existsb_exists in C. destruct C as (u & Hu & C).
    apply andb_true_iff in C. destruct C as [G C]. apply negb_true_iff in G. exists u. split; [exact Hu|]. split; [exact G|]. destruct u as [a b c]. cbn [tv1 tv2 tv3] in C.
    destruct (vdec w a) as [-> |]; [constructor|]. destruct (vdec w b) as [-> |]; [constructor|]. destruct (vdec w c) as [-> |]; [constructor|discriminate C].
  Qed.
End Check.
Lemma notch_used : check_used (A:=ArithF) notchF (triangulate ho_id 60 [2%nat] (triangulator_new (Poly notchF false))) = true. Proof. vm_compute. reflexivity. Qed.
Lemma notch_used_rev : check_used (A:=ArithF) notchF (triangulate ho_rev 60 [2%nat] (triangulator_new (Poly notchF false))) = true. Proof. vm_compute. reflexivity. Qed.
Lemma notch_fine : check_fine (A:=ArithF) (RP (A:=ArithF) None (fpz 10)) notchF = true. Proof. vm_compute. reflexivity. Qed.

Lemma case_notch : fine_spacing 0 /\ Forall2 (fine_reads 0) notchF notch /\ NoDup notch /\ no_four_on_a_circle notch /\ (3 <= length notch)%nat /\ 0 < shoelace (polygon_sides notch) /\
  (forall a b w m, In (a, b) (polygon_sides notch) -> In w notch -> w <> a -> w <> b -> half_point a b m -> d2 a b / 4 < d2 m w) /\
  (exists a b w, In (a, b) (polygon_sides notch) /\ In w notch /\ area2 a b w < 0).
Proof.
  assert (NE : forall x y z w : R, at_ x y = at_ z w -> x = z /\ y = w) by (intros x y z w E; unfold at_, mkv in E; injection E; auto).
  split; [unfold fine_spacing; lia|]. split; [repeat (apply Forall2_cons; [apply pt_fine; lia|]); apply Forall2_nil|]. split.
  { unfold notch. repeat constructor; cbn [In]; intros Hin; repeat (destruct Hin as [Hin|Hin]; [apply NE in Hin; lra|]); exact Hin. }
  split.
  { intros o a b c d Ha Hb Hc Hd Hn E1 E2 E3. unfold notch in *. cbn [In app] in Ha, Hb, Hc, Hd.
    inversion Hn as [|? ? Q1 Hn1]. inversion Hn1 as [|? ? Q2 Hn2]. inversion Hn2 as [|? ? Q3 _]. cbn [In] in Q1, Q2, Q3. subst. clear Hn Hn1 Hn2.
    destruct Ha as [<-|[<-|[<-|[<-|[<-|[]]]]]]; destruct Hb as [<-|[<-|[<-|[<-|[<-|[]]]]]]; try (exfalso; solve [apply Q1; solve [left; reflexivity|right; left; reflexivity|right; right; left; reflexivity]|apply Q2; solve [left; reflexivity|right; left; reflexivity]|apply Q3; left; reflexivity]); destruct Hc as [<-|[<-|[<-|[<-|[<-|[]]]]]]; try (exfalso; solve [apply Q1; solve [left; reflexivity|right; left; reflexivity|right; right; left; reflexivity]|apply Q2; solve [left; reflexivity|right; left; reflexivity]|apply Q3; left; reflexivity]); destruct Hd as [<-|[<-|[<-|[<-|[<-|[]]]]]]; try (exfalso; solve [apply Q1; solve [left; reflexivity|right; left; reflexivity|right; right; left; reflexivity]|apply Q2; solve [left; reflexivity|right; left; reflexivity]|apply Q3; left; reflexivity]);
      unfold d2 in E1, E2, E3; rewrite ?X_at, ?Y_at in E1, E2, E3; lra. }
  split; [cbn; lia|]. split; [unfold shoelace, notch, polygon_sides; cbn; lra|]. split.
  - intros a b w m Hs Hw n1 n2 [Ex Ey]. cbn in Hs. destruct Hs as [E|[E|[E|[E|[E|[]]]]]]; injection E as <- <-; destruct Hw as [<-|[<-|[<-|[<-|[<-|[]]]]]]; try congruence;
      unfold d2; rewrite Ex, Ey; rewrite ?P_RX.X_at, ?P_RX.Y_at; lra.
  - exists (at_ 5 2), (at_ 6 3), (at_ 4 0). split; [left; reflexivity|]. split; [cbn; tauto|]. unfold area2. rewrite ?P_RX.X_at, ?P_RX.Y_at. lra.
Qed.
Lemma case_notch_job : exists a, i_actions notch_job = [a] /\ a_intent a = "include"%string /\ a_geometry a = "polyline"%string /\ map (fun q => mkv (fst q) (snd q)) (a_points a) = notchF /\
  (forall a b c, In a notchF -> In b notchF -> In c notchF -> orientation a b c = CCW -> ~ misses (RP (i_max_area notch_job) (i_quality notch_job)) (Tri a b c)) /\
  forall t, only_polygon t notchF -> t_trn t = trn_new -> (exists t', triangulate ho_id 60 [2%nat] t = Ok t' /\ forall w, In w notchF -> exists u, In u (tris (t_trn t')) /\ is_ghost u = false /\ corner_of w u) /\
    (exists t', triangulate ho_rev 60 [2%nat] t = Ok t' /\ forall w, In w notchF -> exists u, In u (tris (t_trn t')) /\ is_ghost u = false /\ corner_of w u).
Proof.
  eexists. split; [reflexivity|]. split; [reflexivity|]. split; [reflexivity|]. split; [reflexivity|]. split; [exact (check_fine_ok _ _ notch_fine)|].
  intros t [O1 O2 O3 O4] O5. assert (t = triangulator_new (Poly notchF false)) as -> by (destruct t; cbn in *; subst; reflexivity).
  split; [apply (check_used_ok _ _ notch_used)|apply (check_used_ok _ _ notch_used_rev)].
Qed.
