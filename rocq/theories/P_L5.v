(** P_L5.v — the whole program on a convex polygon with vertices in it. *)

From Coq Require Import String Reals List ZArith Lra Lia Bool Permutation.
From Verif Require Import Base Arith Geometry Elements Polyline Procedures Refine Triangulator Interface ArithR Spec SpecI SpecR SpecD SpecP SpecC SpecE SpecQ SpecM SpecT
  P_Base P_Fuel P_Poly P_Contains P_Trn2 P_Triangulator P_Interface P_RX P_R1 P_R2 P_R3 P_R4 P_D1 P_D5 P_D8 P_Fill2 P_Polygon3 P_C7 P_C8 P_E4 P_E5 P_E6 P_E7 P_E8 P_F1 P_F2 P_F3 P_G6 P_L4.
Import ListNotations.
Local Open Scope R_scope.
Local Open Scope string_scope.
Local Open Scope list_scope.

Lemma hdel_alone : forall X (dec : forall a b : X, {a = b} + {a <> b}) x, hdel dec x [x] = [].
Proof. intros X dec x. assert (Q : forall y, ~ In y (hdel dec x [x])) by (intros y Hy; apply hdel_In in Hy; cbn in Hy; intuition congruence). destruct (hdel dec x [x]) as [|y r]; [reflexivity|]. exfalso. apply (Q y). left; reflexivity. Qed.
(** A vertex well inside is reported to be inside. *)
Lemma deep_inside : forall l w, convex_polygon l -> resolved (w :: l) -> deep l w -> poly_contains (Poly l false) w = Ok (Some Inside).
Proof.
  intros l w Hc HR Hd. assert (Hn : l <> []) by (intros ->; pose proof (cp_three _ Hc) as Q; cbn in Q; lia).
  assert (Hp : forall a b, In (a, b) (polygon_sides l) -> 0 < area2 a b w) by (intros a b Hab; apply (spread_pos 3); [lra|apply Hd, Hab]).
  destruct (contains_winding l w Hn) as (k & Ek & Hb & _ & Ho). rewrite Ek. destruct k; [reflexivity| |].
  - exfalso. apply (inner_winding l w Hn Hp). apply Ho. reflexivity.
  - exfalso. destruct (proj1 Hb eq_refl) as ([a b] & Hab & Ht). unfold touches_side in Ht. destruct Ht as (_ & Ht & _).
    pose proof (polygon_ends l _ Hab) as [Ha Hb']. cbn [fst snd] in Ha, Hb'.
    pose proof (rs_line _ HR a b w (or_intror Ha) (or_intror Hb') (or_introl eq_refl) Ht) as Z. specialize (Hp a b Hab). lra.
Qed.

Section Job.
  Variables (H : HashOrder) (l vs : list pnt) (inp : input ArithR).
  Hypothesis HJ : polygon_job inp l vs.
  Hypothesis H3 : (3 <= length l)%nat.
  Hypothesis HQ : forall e e', In e (polygon_sides l) -> In e' (polygon_sides l) -> crosses e e' = false.
  Hypothesis Hd : forall w, In w vs -> poly_contains (Poly l false) w = Ok (Some Inside).

  Lemma sides_pairs : forall es, vertex_pairs l false = Ok es -> es = polygon_sides l.
  Proof.
    intros es Hes. destruct l as [|a l0]; [discriminate|]. pose proof (vertex_pairs_closed l0 a) as E. rewrite E in Hes. injection Hes as <-. reflexivity.
  Qed.
  Lemma polyline_read : forall fuel (a : action ArithR), map put (a_points a) = l -> (length l < fuel)%nat -> parse_polyline fuel a = Ok (Some (Poly l false)).
  Proof.
    intros fuel a Hp Hf. assert (Hp' : map (point_to_vertex (A:=ArithR)) (a_points a) = l) by exact Hp.
    assert (El : length (a_points a) = length l) by (rewrite <- Hp'; symmetry; apply map_length).
    rewrite (parse_polyline_accepts fuel a).
    - rewrite Hp'. reflexivity.
    - rewrite El. exact H3.
    - rewrite El. exact Hf.
    - rewrite Hp'. intros es Hes. apply sides_pairs in Hes. subst es. intros l1 x l2 y l3 E.
      assert (Hx : In x (polygon_sides l)) by (apply in_rev; rewrite E, in_app_iff; right; left; reflexivity).
      assert (Hy : In y (polygon_sides l)) by (apply in_rev; rewrite E, in_app_iff; right; right; rewrite in_app_iff; right; left; reflexivity).
      apply crosses_crossing. apply HQ; assumption.
  Qed.
  Lemma circle_ring_points : forall c r n, (1 <= n)%nat -> circle_points (A:=ArithR) r c n = circle_ring c r n.
  Proof.
    clear HJ H3 HQ Hd. intros c r n Hn. unfold circle_points, circle_ring. apply map_ext. intros i. unfold circle_point, put. cbn [fst snd].
    assert (E : fmul (a:=ArithR) (fdiv (fmul fpi c2) (fofnat n)) (fofnat i) = 2 * PI * INR i / INR n).
    { change (PI * INR 2 / INR n * INR i = 2 * PI * INR i / INR n). replace (INR 2) with 2 by (cbn; ring). field. apply not_0_INR. lia. }
    rewrite E. reflexivity.
  Qed.
  Lemma circle_read : forall c r n (a : action ArithR), asks_circle c r n a -> parse_circle a = Ok (Some (Poly (circle_ring c r n) false)).
  Proof.
    clear HJ H3 HQ Hd. intros c r n a (_ & _ & Hp & Hge & rest & Hs & Hn).
    assert (E : (match rest with v :: _ => fround_usize (a:=ArithR) v | [] => 100%nat end) = n).
    { destruct Hn as [[-> ->]|(x & Hx & Hr)]; [reflexivity|]. destruct rest as [|x' rest]; [discriminate|]. injection Hx as ->. apply round_spec, Hr. }
    unfold parse_circle. rewrite Hs, Hp. cbv zeta. change (T ArithR) with R in *. rewrite E, circle_ring_points by lia. unfold new_closed. unfold circle_ring at 1. rewrite map_length, seq_length.
    destruct (Nat.ltb_spec n 3); [lia|]. reflexivity.
  Qed.
  Lemma asks_include : forall a : action ArithR, asks_polygon l a -> a_intent a = "include" /\ forall fuel, (length l < fuel)%nat ->
    (a_geometry a = "polyline" /\ parse_polyline fuel a = Ok (Some (Poly l false))) \/ (a_geometry a = "circle" /\ parse_circle a = Ok (Some (Poly l false))).
  Proof.
    intros a [(Ei & Eg & Hp)|(c & r & n & Ha & ->)].
    - split; [exact Ei|]. intros fuel Hf. left. split; [exact Eg|apply polyline_read; assumption].
    - split; [apply Ha|]. intros fuel _. right. split; [apply Ha|apply circle_read, Ha].
  Qed.

  Lemma effect_of : forall fuel (a : action ArithR) f, (length l < fuel)%nat -> In a (i_actions inp) -> means fuel a f ->
    (asks_polygon l a /\ f = EInclude (Poly l false)) \/ (asks_vertices a /\ f = EVertices (map put (a_points a))).
  Proof.
    intros fuel a f Hf Ha Hm. destruct (pj_only _ _ _ HJ a Ha) as [Hp|Hv].
    - left. split; [exact Hp|]. destruct (asks_include a Hp) as [Ei Er]. specialize (Er fuel Hf). inversion Hm as [pl Hb E|pl Hb E|es Eg' E|Eg' E]; subst f; try (rewrite Ei in E; discriminate).
      destruct Er as [[Eg Er]|[Eg Er]], Hb as [[Eg' Hb]|[Eg' Hb]]; try (rewrite Eg in Eg'; discriminate); rewrite Er in Hb; injection Hb as <-; reflexivity.
    - right. split; [exact Hv|]. destruct Hv as (Ei & Eg). inversion Hm as [pl Hb E|pl Hb E|es Eg' E|Eg' E]; subst f; try (rewrite Ei in E; discriminate); [|reflexivity]. rewrite Eg in Eg'. discriminate.
  Qed.
  Lemma job_means : forall fuel (a : action ArithR), (length l < fuel)%nat -> In a (i_actions inp) -> exists f : effect (A:=ArithR), means fuel a f.
  Proof.
    intros fuel a Hf Ha. destruct (pj_only _ _ _ HJ a Ha) as [Hp|Hv].
    - exists (EInclude (Poly l false)). destruct (asks_include a Hp) as [Ei Er]. apply means_include; [|exact Ei]. exact (Er fuel Hf).
    - eexists. apply means_vertices; apply Hv.
  Qed.

  Lemma job_read : forall fuel, (length l < fuel)%nat -> exists d, interpret fuel inp = Ok (Some (d, RP (i_max_area inp) (i_quality inp))) /\
    hset pdec (d_includes d) = [Poly l false] /\ d_removes d = [] /\ d_segments d = [] /\ forall w, In w (d_vertices d) <-> In w vs.
  Proof.
    intros fuel Hf. destruct (proj2 (proj1 (interpret_exact fuel inp)) (fun a Ha => job_means fuel a Hf Ha)) as [[d prm] Hi].
    destruct (interpret_accepts fuel inp d prm Hi) as (-> & fs & HF & E1 & E2 & E3 & E4). exists d. split; [exact Hi|].
    assert (Hfs : forall f, In f fs -> exists a, In a (i_actions inp) /\ means fuel a f).
    { clear -HF. intros f Hf. induction HF as [|a0 f0 acts fs Hm HF IH]; [destruct Hf|]. destruct Hf as [<-|Hf]; [exists a0; split; [left; reflexivity|exact Hm]|].
      destruct (IH Hf) as (a & Ha & Hm'). exists a. split; [right; exact Ha|exact Hm']. }
    assert (Haf : forall a, In a (i_actions inp) -> exists f, In f fs /\ means fuel a f).
    { clear -HF. intros a Ha. induction HF as [|a0 f0 acts fs Hm HF IH]; [destruct Ha|]. destruct Ha as [<-|Ha]; [exists f0; split; [left; reflexivity|exact Hm]|].
      destruct (IH Ha) as (f & Hf & Hm'). exists f. split; [right; exact Hf|exact Hm']. }
    split; [|split; [|split]].
    - assert (Hin : forall pl, In pl (d_includes d) <-> pl = Poly l false).
      { intros pl. rewrite E1, in_flat_map. split.
        - intros (f & Hf' & Hp). destruct (Hfs f Hf') as (a & Ha & Hm). destruct (effect_of fuel a f Hf Ha Hm) as [(_ & ->)|(_ & ->)]; cbn in Hp; [|destruct Hp].
          destruct Hp as [<-|[]]. reflexivity.
        - intros ->. destruct (pj_some _ _ _ HJ) as (a & Ha & Hp). destruct (Haf a Ha) as (f & Hf' & Hm). exists f. split; [exact Hf'|].
          destruct (effect_of fuel a f Hf Ha Hm) as [(_ & ->)|((Ev & _) & _)]; [left; reflexivity|]. destruct (asks_include a Hp) as [Ep _]. rewrite Ep in Ev. discriminate. }
      pose proof (hset_NoDup pdec (d_includes d)) as Hnd.
      assert (Hi' : forall pl, In pl (hset pdec (d_includes d)) <-> pl = Poly l false) by (intros pl; rewrite hset_In; apply Hin).
      destruct (hset pdec (d_includes d)) as [|x [|y r]].
      + destruct (proj2 (Hi' (Poly l false)) eq_refl).
      + f_equal. apply Hi'. left; reflexivity.
      + exfalso. inversion Hnd as [|? ? Hx _]. apply Hx. left. rewrite (proj1 (Hi' x) (or_introl eq_refl)). apply Hi'. right; left; reflexivity.
    - rewrite E2. clear E1 E2 E3 E4 HF Haf. induction fs as [|f fs IH]; [reflexivity|]. cbn [flat_map]. rewrite IH by (intros; apply Hfs; right; assumption).
      destruct (Hfs f (or_introl eq_refl)) as (a & Ha & Hm). destruct (effect_of fuel a f Hf Ha Hm) as [(_ & ->)|(_ & ->)]; reflexivity.
    - destruct (d_segments d) as [|e es]; [reflexivity|]. exfalso. destruct (proj1 (E3 e) (or_introl eq_refl)) as (f & Hf' & He). destruct (Hfs f Hf') as (a & Ha & Hm).
      destruct (effect_of fuel a f Hf Ha Hm) as [(_ & ->)|(_ & ->)]; destruct He.
    - intros w. rewrite E4, (pj_vertices _ _ _ HJ w). split.
      + intros (f & Hf' & Hw). destruct (Hfs f Hf') as (a & Ha & Hm). destruct (effect_of fuel a f Hf Ha Hm) as [(_ & ->)|(Hv & ->)]; cbn in Hw; [destruct Hw|].
        apply in_map_iff in Hw. destruct Hw as (q & <- & Hq). exists a, q. auto.
      + intros (a & q & Ha & Hv & Hq & ->). destruct (Haf a Ha) as (f & Hf' & Hm). exists f. split; [exact Hf'|].
        destruct (effect_of fuel a f Hf Ha Hm) as [(Hx & _)|(_ & ->)]; [destruct (asks_include a Hx) as [Ei _]; destruct Hv as (Ev & _); rewrite Ei in Ev; discriminate|]. cbn. apply in_map, Hq.
  Qed.

  Lemma place_free : forall ws p (t : triangulator ArithR), t_segments t = [] -> t_segments (place_vertices H p ws t) = [] /\
    (NoDup (t_vertices t) -> NoDup (t_vertices (place_vertices H p ws t))) /\ forall w, In w (t_vertices (place_vertices H p ws t)) <-> In w (t_vertices t) \/ In w ws.
  Proof.
    induction ws as [|v ws IH]; intros p t Hs; cbn [place_vertices]; [split; [exact Hs|split; [auto|cbn; tauto]]|].
    rewrite Hs, ho_nil. cbn [place_vertex]. destruct (IH (0%nat :: p) (with_vertices t (hadd vdec v (t_vertices t)))) as (I1 & I2 & I3); [exact Hs|].
    split; [exact I1|]. split; [intros Hn; apply I2; cbn [with_vertices t_vertices]; apply hadd_NoDup, Hn|].
    intros w. rewrite I3. cbn [with_vertices t_vertices In]. rewrite hadd_In. intuition congruence.
  Qed.

  Lemma read_parse : forall p, exists n t ws, (forall fuel, (n <= fuel)%nat -> parse H fuel p inp = Ok (Some (t, RP (i_max_area inp) (i_quality inp)))) /\
    polygon_with t l ws /\ NoDup ws /\ forall w, In w ws <-> In w vs.
  Proof.
    intros p. set (f := S (length l)). destruct (job_read f) as (d & Hi & E1 & E2 & E3 & E4); [unfold f; lia|].
    assert (Hr : exists t ws, parse H f p inp = Ok (Some (t, RP (i_max_area inp) (i_quality inp))) /\ polygon_with t l ws /\ NoDup ws /\ forall w, In w ws <-> In w vs).
    { unfold parse. rewrite Hi. cbn [bind]. unfold domain_boundary. rewrite E1, ho_single, E2.
      assert (E0 : hdel pdec (Poly l false) [Poly l false] = []).
      { apply hdel_alone. }
      rewrite E0. cbn [length unite_all bind subtract_all]. unfold f. unfold domain_holes. cbn [rev holes_loop bind]. rewrite ho_nil. cbn [insert_holes bind].
      rewrite E3. cbn [insert_segments bind].
      unfold insert_vertices. destruct (d_vertices d) as [|v ds] eqn:Ed.
      - cbn [bind]. eexists _, []. split; [reflexivity|]. split; [split; reflexivity|]. split; [constructor|]. intros w. rewrite <- E4. reflexivity.
      - rewrite <- Ed in *. clear Ed v ds.
        assert (Ef : filterM (vertex_rejected (triangulator_new (Poly l false))) (d_vertices d) = Ok []).
        { rewrite (filterM_total _ _ (fun _ => false)); [f_equal; clear; induction (d_vertices d); auto|].
          intros w Hw. unfold vertex_rejected, contains_is. cbn [triangulator_new t_boundary t_holes]. rewrite (Hd w); [reflexivity|apply E4, Hw]. }
        rewrite Ef. cbn [bind].
        match goal with |- context[place_vertices H ?p ?ws ?t] => destruct (place_free ws p t eq_refl) as (I1 & I2 & I3); pose proof (place_vertices_frame H p ws t) as Hfr; set (t3 := place_vertices H p ws t) in * end.
        exists t3, (t_vertices t3). split; [reflexivity|]. split; [|split].
        + destruct Hfr as (F1 & F2 & F3). split; [exact F1|exact F2|exact I1|reflexivity].
        + apply I2. constructor.
        + intros w. rewrite I3, ho_In, E4. cbn. tauto. }
    destruct Hr as (t & ws & Hr & Q). exists f, t, ws. split; [|exact Q]. intros fuel Hf. apply (rle_ok _ _ _ _ (parse_mono H f fuel Hf p inp) Hr).
  Qed.
End Job.

Lemma job_parse : forall (H : HashOrder) (l vs : list pnt) (inp : input ArithR), polygon_job inp l vs -> convex_polygon l -> resolved (vs ++ l) -> (forall w, In w vs -> deep l w) ->
  forall p, exists n t ws, (forall fuel, (n <= fuel)%nat -> parse H fuel p inp = Ok (Some (t, RP (i_max_area inp) (i_quality inp)))) /\
    polygon_with t l ws /\ NoDup ws /\ forall w, In w ws <-> In w vs.
Proof.
  intros H l vs inp HJ Hc HR Hd p. apply read_parse; [exact HJ|apply (cp_three _ Hc)|apply (sides_quiet l Hc)|].
  intros w Hw. apply (deep_inside l w Hc); [|apply Hd, Hw].
  apply (resolved_incl (vs ++ l)); [exact HR|]. intros x [<-|Hx]; apply in_or_app; [left; exact Hw|right; exact Hx].
Qed.

Lemma whole_run : forall l, convex_polygon l -> exists N, forall (H : HashOrder) p (inp : input ArithR) vs, polygon_job inp l vs -> resolved (vs ++ l) -> (forall w, In w vs -> deep l w) ->
  exists n0 t t', (forall fuel, (n0 <= fuel)%nat -> parse H fuel (1%nat :: p) inp = Ok (Some (t, RP (i_max_area inp) (i_quality inp))) /\ triangulate H fuel (2%nat :: p) t = Ok t') /\
    ((forall fuel a, In a (refine_attempts H fuel (3%nat :: p) t' (RP (i_max_area inp) (i_quality inp))) -> sound_attempt l a) ->
     exists n1 coords triples, (forall fuel, (n1 <= fuel)%nat -> run_main H fuel p inp = Ok (Some (coords, triples))) /\ (length coords <= N)%nat /\
       exists S (tr : mesh) order vec ts, framed l S tr /\ resolved S /\ (vs <> [] -> exists w, In w vs /\ In w S) /\
         (forall q, in_region tr q <-> winding q (polygon_sides l) = 1%Z \/ on_polygon l q) /\
         (forall e, part l S e -> exists u, solid_in tr u /\ side_of e u) /\
         (forall x, solid_in tr x -> misses (RP (i_max_area inp) (i_quality inp)) x ->
            exists fuel tr1, In (Centre tr1 x) (refine_attempts H fuel (3%nat :: p) t' (RP (i_max_area inp) (i_quality inp))) /\ turned_down l tr1 x) /\
         coords = map (fun v : pnt => (X v, Y v)) order /\ NoDup coords /\ (forall w, In w order <-> In w S) /\ Permutation vec order /\
         Forall2 (names vec) ts triples /\ NoDup ts /\ (forall x, In x ts <-> solid_in tr x)).
Proof.
  intros l Hc. destruct (convex_refines_ends l Hc) as [N HN]. exists N. intros H p inp vs HJ HR Hd. set (prm := RP (i_max_area inp) (i_quality inp)).
  destruct (job_parse H l vs inp HJ Hc HR Hd (1%nat :: p)) as (n & t & ws & Hp & Hw & Hn & Hws).
  assert (HR' : resolved (ws ++ l)) by (apply (resolved_incl (vs ++ l)); [exact HR|]; intros w; rewrite !in_app_iff, Hws; tauto).
  assert (Hd' : forall w, In w ws -> deep l w) by (intros w Hx; apply Hd, Hws, Hx).
  destruct (HN H (2%nat :: p) t ws Hw Hn HR' Hd') as (n2 & t' & Ht & He).
  destruct (convex_refines H (2%nat :: p) t l ws Hw Hc Hn HR' Hd') as (n3 & t2 & ins & Ht2 & Hi & Hne & Hf).
  assert (t2 = t') as ->.
  { specialize (Ht (n2 + n3)%nat ltac:(lia)). specialize (Ht2 (n2 + n3)%nat ltac:(lia)). congruence. }
  exists (n + n2)%nat, t, t'. split; [intros fuel Hfu; split; [apply Hp|apply Ht]; lia|]. intros Ha.
  destruct (He prm (3%nat :: p) Ha) as (n4 & t3 & cs & Hr & Hlen).
  destruct (Hf prm n4 (3%nat :: p) (Ha n4)) as [_ Hf']. destruct (Hf' t3 cs (Hr n4 ltac:(lia))) as (S & HF & HS & Hin & Hreg & Hpart & Hbad).
  destruct (output_spec H (4%nat :: p) (t_trn t3)) as (coords & triples & vec & order & Eo & Pv & Po & Ec & F2 & _).
  exists (n + n2 + n4)%nat, coords, triples. split.
  { intros fuel Hfu. unfold run_main. rewrite Hp by lia. cbn [bind]. rewrite Ht by lia. cbn [bind]. fold prm. rewrite Hr by lia. cbn [bind]. rewrite Eo. reflexivity. }
  assert (Hpts : forall w, In w (trn_vertices (t_trn t3)) <-> In w S) by (apply delaunay_points; [apply (fr_delaunay _ _ _ HF)|apply (rs_plain _ HS)]).
  assert (Hord : forall w, In w order <-> In w S).
  { intros w. rewrite <- Hpts. split; apply Permutation_in; [exact Po|symmetry; exact Po]. }
  split; [rewrite Ec, map_length, (Permutation_length Po); exact Hlen|].
  exists S, (t_trn t3), order, vec, (filter (fun t => negb (is_ghost t)) (ho H (3%nat :: 4%nat :: p) _ (tris (t_trn t3)))).
  split; [exact HF|]. split; [exact HS|]. split.
  { intros Hv. destruct ins as [|w ins].
    - exfalso. apply Hne; [|reflexivity]. destruct vs as [|v vs0]; [congruence|]. intros E. specialize (Hws v). rewrite E in Hws. apply Hws. left; reflexivity.
    - exists w. split; [apply Hws, Hi; left; reflexivity|apply Hin; left; reflexivity]. }
  split; [exact Hreg|]. split; [exact Hpart|]. split; [intros x Hx Hm; exists n4; apply Hbad; assumption|]. split; [exact Ec|].
  assert (Hno : NoDup order) by (apply (Permutation_NoDup (Permutation_sym Po)), (proj1 (trn_lists_NoDup (t_trn t3)))).
  split.
  { rewrite Ec. assert (Hpl : forall w, In w order -> vghost w = false) by (intros w Hw'; apply (rs_plain _ HS), Hord, Hw'). clear -Hno Hpl. induction order as [|v r IH]; [constructor|].
    cbn [map]. inversion Hno as [|? ? Hv Hr]; subst. constructor; [|apply IH; [exact Hr|intros; apply Hpl; right; assumption]].
    rewrite in_map_iff. intros (u & E & Hu). apply Hv. assert (u = v) as <-; [|exact Hu]. pose proof (Hpl u (or_intror Hu)) as G1. pose proof (Hpl v (or_introl eq_refl)) as G2.
    destruct u as [ux uy ug], v as [vx' vy' vg]. cbn in *. injection E as -> ->. subst. reflexivity. }
  split; [exact Hord|]. split; [rewrite Pv; symmetry; exact Po|]. split; [exact F2|]. split.
  - apply NoDup_filter, ho_NoDup. apply (dl_nodup _ _ (fr_delaunay _ _ _ HF)).
  - intros x. rewrite filter_In, ho_In. unfold solid_in. rewrite negb_true_iff. reflexivity.
Qed.

(** ** A sample: the square of side eight with its area bound *)
Definition square_job : input ArithR :=
  Inp (A:=ArithR) [Act (A:=ArithR) "include" "polyline" [] [(0, 0); (8, 0); (8, 8); (0, 8)] []] (max_area four_params) (quality_ratio four_params).
Lemma square_job_ok : polygon_job square_job four [].
Proof.
  assert (Ha : asks_polygon four (Act (A:=ArithR) "include" "polyline" [] [(0, 0); (8, 0); (8, 8); (0, 8)] [])) by (left; split; [reflexivity|]; split; reflexivity).
  split.
  - eexists. split; [left; reflexivity|exact Ha].
  - intros a [<-|[]]. left. exact Ha.
  - intros w. split; [intros []|]. intros (a & q & [<-|[]] & (E & _) & _). discriminate.
Qed.
Lemma four_misses : forall tr : mesh, framed four four tr -> forall x, solid_in tr x -> misses four_params x.
Proof.
  intros tr HF x [Hx Hg]. right. destruct (dl_shape _ _ (fr_delaunay _ _ _ HF) x Hx) as [(a & b & c & -> & Ha & Hb & Hc & P)|(a & b & -> & _)]; [|unfold is_ghost in Hg; cbn in Hg; rewrite !orb_true_r in Hg; discriminate].
  exists (area_triangle a b c), 25. unfold tri_area. rewrite Hg. split; [reflexivity|]. split; [reflexivity|]. right. rewrite area_triangle_spec. change (Rleb 25 (D a b c / 2) = true). revert P.
  destruct Ha as [<-|[<-|[<-|[<-|[]]]]], Hb as [<-|[<-|[<-|[<-|[]]]]], Hc as [<-|[<-|[<-|[<-|[]]]]]; unfold area2, tA, tB, tC, tD; rewrite !X_at, !Y_at; intros P; try (exfalso; lra); rcase; try reflexivity; exfalso; lra.
Qed.
Lemma case_job : polygon_job square_job four [] /\ convex_polygon four /\ resolved ([] ++ four) /\ (forall w, In w [] -> deep four w) /\
  forall (H : HashOrder) p n t t' prm, parse H n (1%nat :: p) square_job = Ok (Some (t, prm)) -> triangulate H n (2%nat :: p) t = Ok t' ->
    prm = four_params /\ (exists x, solid_in (t_trn t') x /\ misses prm x) /\
    forall fuel a, In a (refine_attempts H fuel (3%nat :: p) t' prm) -> sound_attempt four a.
Proof.
  assert (HR : resolved four) by (apply (resolved_incl _ _ four_resolved); intros w Hw; right; exact Hw).
  split; [exact square_job_ok|]. split; [exact four_convex|]. split; [exact HR|]. split; [intros w []|]. intros H p n t t' prm Hp Ht.
  destruct (job_parse H four [] square_job square_job_ok four_convex HR ltac:(intros w []) (1%nat :: p)) as (n1 & t1 & ws & Hp1 & Hw & Hn & Hws).
  specialize (Hp1 (n + n1)%nat ltac:(lia)). apply (rle_ok _ _ _ _ (parse_mono H n (n + n1) ltac:(lia) (1%nat :: p) square_job)) in Hp. rewrite Hp1 in Hp. injection Hp as <- <-.
  change (RP (i_max_area square_job) (i_quality square_job)) with four_params. split; [reflexivity|].
  assert (ws = []) as -> by (destruct ws as [|w ws]; [reflexivity|]; exfalso; apply (Hws w); left; reflexivity).
  destruct (convex_with_vertices H (2%nat :: p) t1 four [] Hw four_convex Hn HR ltac:(intros w [])) as (n2 & t2 & ins & dropped & Hr & HD & Hpm & _).
  specialize (Hr (n + n2)%nat ltac:(lia)). pose proof (rle_ok _ _ _ _ (triangulate_mono H n (n + n2) ltac:(lia) (2%nat :: p) t1) Ht) as Ht2. rewrite Hr in Ht2. injection Ht2 as ->.
  destruct ins as [|x ins]; [|apply Permutation_length in Hpm; cbn in Hpm; lia]. cbn [app] in HD.
  destruct (start_framed four [] (t_trn t') four_convex HR ltac:(intros w []) HD) as [HFr _].
  destruct (triangulate_keeps H n (2%nat :: p) t1 t' Ht) as (E1 & E2 & E3).
  split.
  - assert (HS : stage four four (t_trn t') (polygon_sides four)) by (split; [exact HFr|]; split; [exact HR|]; exact (sides_parts four four_convex four (t_trn t') HFr HR four_piece)).
    assert (He : part four four (tA, tB)) by (apply HS; left; reflexivity). destruct (part_solid four four (t_trn t') _ four_convex HFr HR He) as (x & Hx & _). exists x. split; [exact Hx|].
    apply (four_misses (t_trn t') HFr x Hx).
  - intros fuel a. apply square_attempts; [rewrite E1; apply Hw|rewrite E2; apply Hw|rewrite E3; apply Hw|exact HFr].
Qed.

(** A hexagon with one vertex. *)
Definition hexagon_job (m : option R) (r : R) : input ArithR :=
  Inp (A:=ArithR) [Act (A:=ArithR) "constraint" "vertices" [] [(2, 3)] []; Act (A:=ArithR) "include" "polyline" [] [(0, 0); (4, 0); (6, 3); (4, 6); (0, 6); (- 2, 3)] []] m r.
Lemma case_hexagon_job : forall m r, polygon_job (hexagon_job m r) hexagon [at_ 2 3] /\ convex_polygon hexagon /\ resolved ([at_ 2 3] ++ hexagon) /\ (forall w, In w [at_ 2 3] -> deep hexagon w).
Proof.
  intros m r. destruct case_hexagon as (_ & _ & Hc & HR & _ & Hd & _). split; [|split; [exact Hc|]; split; [exact HR|]; intros w [<-|[]]; exact Hd]. split.
  - eexists. split; [right; left; reflexivity|]. left. split; [reflexivity|]. split; reflexivity.
  - intros a [<-|[<-|[]]]; [right; split; reflexivity|left]. left. split; [reflexivity|]. split; reflexivity.
  - intros w. split.
    + intros [<-|[]]. eexists _, (2, 3). split; [left; reflexivity|]. split; [split; reflexivity|]. split; [left; reflexivity|reflexivity].
    + intros (a & q & [<-|[<-|[]]] & (E & _) & Hq & ->); [|discriminate]. destruct Hq as [<-|[]]. left. reflexivity.
Qed.
