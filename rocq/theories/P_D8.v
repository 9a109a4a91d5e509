(** P_D8.v — the Delaunay theorems as statements about results, and sample points. *)

From Coq Require Import Reals List ZArith Lra Lia Psatz Bool Permutation.
From Verif Require Import Base Arith Geometry Elements Polyline Procedures ArithR Spec SpecR SpecD
  P_Base P_Trn P_Fuel P_Vertices P_Cavity P_R1 P_R2 P_R5 P_D1 P_D2 P_D3 P_D4 P_D5 P_D6 P_D7 P_RX.
Import ListNotations.
Local Open Scope R_scope.

Lemma ok_agree : forall X (f : nat -> res X), (forall n n', (n <= n')%nat -> rle (f n) (f n')) ->
  forall n0 x, (forall n, (n0 <= n)%nat -> f n = Ok x) -> forall n y, f n = Ok y -> y = x.
Proof.
  intros X f Hm n0 x Hx n y Hy. assert (E : f (n0 + n)%nat = Ok y) by (apply (rle_ok _ _ _ _ (Hm n (n0 + n)%nat ltac:(lia))), Hy).
  rewrite Hx in E by lia. congruence.
Qed.

Lemma insertion : forall (H : HashOrder) fuel p S (tr : mesh) vs tr' inc del, delaunay S tr -> resolved (vs ++ S) ->
  vertices_include H fuel p tr vs [] None [] = Ok (tr', inc, del) ->
  exists ins, NoDup ins /\ (forall w, In w ins -> In w vs /\ ~ In w S) /\ delaunay (ins ++ S) tr'.
Proof.
  intros H fuel p S tr vs tr' inc del HD HR Hr.
  destruct (include_delaunay H p S tr vs HD HR) as (n0 & tr1 & inc1 & del1 & ins & dr & Hrun & HD' & Hp & Hnd & Hnew & _).
  pose proof (ok_agree _ (fun n => vertices_include H n p tr vs [] None []) (fun n n' L => vertices_include_mono H _ _ L _ _ _ _ _ _) n0 _ Hrun fuel _ Hr) as E.
  injection E as -> -> ->. exists ins. split; [exact Hnd|]. split; [|exact HD']. intros w Hw. split; [|apply Hnew, Hw].
  assert (Hi : In w (ins ++ dr)) by (apply in_or_app; left; exact Hw). apply (Permutation_in _ (Permutation_sym Hp)) in Hi. apply filter_In in Hi. apply Hi.
Qed.

Lemma insertion_returns : forall (H : HashOrder) p S (tr : mesh) vs, delaunay S tr -> resolved (vs ++ S) ->
  exists n0 x, forall fuel, (n0 <= fuel)%nat -> vertices_include H fuel p tr vs [] None [] = Ok x.
Proof.
  intros H p S tr vs HD HR. destruct (include_delaunay H p S tr vs HD HR) as (n0 & tr1 & inc1 & del1 & ins & dr & Hrun & _).
  exists n0, (tr1, inc1, del1). exact Hrun.
Qed.

Lemma closed_surface : forall S (tr : mesh), delaunay S tr -> resolved S -> forall t e, In t (tris tr) -> side_of e t ->
  (forall u, In u (tris tr) -> side_of e u -> u = t) /\ exists u, In u (tris tr) /\ side_of (flip e) u /\ forall u', In u' (tris tr) -> side_of (flip e) u' -> u' = u.
Proof.
  intros S tr HD HR t e Ht Se. destruct (has_two S tr HD) as [s Hs]. pose proof (resolved_dup S s HR Hs) as HR'. split.
  - intros u Hu Su. apply (excl S tr HD u t e); auto.
  - destruct (dl_closed _ _ HD t e Ht Se) as (u & Hu & Su). exists u. split; [exact Hu|]. split; [exact Su|]. intros u' Hu' Su'. apply (excl S tr HD u' u (flip e)); auto.
Qed.

Lemma insertion_closed : forall (H : HashOrder) fuel p S (tr : mesh) vs tr' inc del, delaunay S tr -> resolved (vs ++ S) ->
  vertices_include H fuel p tr vs [] None [] = Ok (tr', inc, del) -> forall t e, In t (tris tr') -> side_of e t ->
  (forall u, In u (tris tr') -> side_of e u -> u = t) /\ exists u, In u (tris tr') /\ side_of (flip e) u /\ forall u', In u' (tris tr') -> side_of (flip e) u' -> u' = u.
Proof.
  intros H fuel p S tr vs tr' inc del HD HR Hr. destruct (insertion H fuel p S tr vs tr' inc del HD HR Hr) as (ins & _ & Hi & HD').
  apply (closed_surface (ins ++ S)); [exact HD'|]. apply (resolved_incl _ _ HR). intros w Hw. apply in_or_app. apply in_app_or in Hw. destruct Hw as [Hw|Hw]; [left; apply Hi, Hw|auto].
Qed.

Lemma insertion_tiles : forall (H : HashOrder) fuel p S (tr : mesh) vs tr' inc del, delaunay S tr -> resolved (vs ++ S) -> ~ all_on_a_line S ->
  vertices_include H fuel p tr vs [] None [] = Ok (tr', inc, del) ->
  (forall q, in_hull (trn_vertices tr') q <-> exists a b c, In (Tri a b c) (tris tr') /\ vghost c = false /\ in_triangle a b c q) /\
  (forall q a b c a' b' c', In (Tri a b c) (tris tr') -> In (Tri a' b' c') (tris tr') -> vghost c = false -> vghost c' = false ->
    inside_triangle a b c q -> inside_triangle a' b' c' q -> Tri a b c = Tri a' b' c').
Proof.
  intros H fuel p S tr vs tr' inc del HD HR Hl Hr. destruct (insertion H fuel p S tr vs tr' inc del HD HR Hr) as (ins & _ & Hi & HD').
  assert (HR' : resolved (ins ++ S)).
  { apply (resolved_incl _ _ HR). intros w Hw. apply in_or_app. apply in_app_or in Hw. destruct Hw as [Hw|Hw]; [left; apply Hi, Hw|auto]. }
  split.
  - intros q. rewrite <- (tiles_hull (ins ++ S) tr' q HD' HR').
    + pose proof (delaunay_points _ _ HD' (rs_plain _ HR')) as Hv. unfold in_hull. split; intros Hq x y Hw; apply Hq; intros w Hw'; apply Hw, Hv, Hw'.
    + intros Hc. apply Hl. apply (line_incl _ _ Hc). intros w Hw. apply in_or_app. right. exact Hw.
  - intros q a b c a' b' c'. apply (tiles_once (ins ++ S)); assumption.
Qed.

(** The mono lemma of the client loop. *)
Lemma include_each_mono : forall (H : HashOrder) vs n n', (n <= n')%nat -> forall p (tr : mesh), rle (include_each H n p tr vs) (include_each H n' p tr vs).
Proof.
  intros H vs. induction vs as [|v vs IH]; intros n n' L p tr; [right; reflexivity|]. cbn [include_each].
  destruct (vertices_include_mono H n n' L (1%nat :: p) tr [v] [] None []) as [-> | ->]; [left; reflexivity|].
  destruct (vertices_include H n' (1%nat :: p) tr [v] [] None []) as [[[tr1 inc] del]| |]; cbn [bind]; [apply IH; exact L|right; reflexivity|left; reflexivity].
Qed.

Lemma each_result : forall (H : HashOrder) fuel p S (tr : mesh) vs tr', delaunay S tr -> resolved (vs ++ S) -> ~ all_on_a_line S ->
  include_each H fuel p tr vs = Ok tr' -> delaunay (vs ++ S) tr'.
Proof.
  intros H fuel p S tr vs tr' HD HR Hl Hr. destruct (include_each_delaunay H vs p S tr HD HR) as (n0 & tr1 & Hrun & HD').
  - intros _ Hc. apply Hl. apply (line_incl _ _ Hc). intros w Hw. right. exact Hw.
  - rewrite (ok_agree _ (fun n => include_each H n p tr vs) (fun n n' L => include_each_mono H vs n n' L p tr) n0 _ Hrun fuel _ Hr). exact HD'.
Qed.

(** C61 *)
Lemma order_independent : forall (H H' : HashOrder) fuel fuel' p p' S (tr : mesh) vs vs' tr1 tr2, delaunay S tr -> resolved (vs ++ S) -> ~ all_on_a_line S ->
  no_four_on_a_circle (vs ++ S) -> Permutation vs vs' -> include_each H fuel p tr vs = Ok tr1 -> include_each H' fuel' p' tr vs' = Ok tr2 ->
  forall t, In t (tris tr1) -> exists u, In u (tris tr2) /\ same_triangle t u.
Proof.
  intros H H' fuel fuel' p p' S tr vs vs' tr1 tr2 HD HR Hl H4 Hp R1 R2.
  pose proof (each_result H fuel p S tr vs tr1 HD HR Hl R1) as D1.
  assert (Heq : forall w, In w (vs' ++ S) <-> In w (vs ++ S)).
  { intros w. rewrite !in_app_iff. split; (intros [Hw|Hw]; [left|auto]); [apply (Permutation_in _ (Permutation_sym Hp))|apply (Permutation_in _ Hp)]; exact Hw. }
  assert (HR2 : resolved (vs' ++ S)) by (apply (resolved_incl _ _ HR); intros w Hw; apply Heq, Hw).
  pose proof (each_result H' fuel' p' S tr vs' tr2 HD HR2 Hl R2) as D2.
  apply (unique (vs ++ S)); auto. apply (delaunay_incl _ _ _ D2). exact Heq.
Qed.

(** C67 *)
Lemma alone_kept : forall (H : HashOrder) fuel p S (tr : mesh) v tr' inc del, delaunay S tr -> resolved (v :: S) -> ~ all_on_a_line (v :: S) ->
  vertices_include H fuel p tr [v] [] None [] = Ok (tr', inc, del) -> delaunay (v :: S) tr' /\ In v (trn_vertices tr').
Proof.
  intros H fuel p S tr v tr' inc del HD HR Hl Hr. destruct (include_one H p S tr v HD HR Hl) as (n0 & tr1 & inc1 & del1 & Hrun & HD').
  pose proof (ok_agree _ (fun n => vertices_include H n p tr [v] [] None []) (fun n n' L => vertices_include_mono H _ _ L _ _ _ _ _ _) n0 _ Hrun fuel _ Hr) as E.
  injection E as -> -> ->. split; [exact HD'|]. apply (delaunay_points _ _ HD' (rs_plain _ HR)). left. reflexivity.
Qed.

Lemma each_kept : forall (H : HashOrder) p a b c (vs : list pnt), grid (a :: b :: c :: vs) -> area2 a b c <> 0 ->
  exists n0 tr', (forall fuel, (n0 <= fuel)%nat -> include_each H fuel p (from_initial_segment a b) (c :: vs) = Ok tr') /\
    delaunay ((c :: vs) ++ [a; b]) tr' /\ forall w, In w (trn_vertices tr') <-> In w (a :: b :: c :: vs).
Proof.
  intros H p a b c vs G Hn. assert (Hab : a <> b) by (intros ->; apply Hn; unfold area2; ring).
  assert (HR : resolved ((c :: vs) ++ [a; b])).
  { apply (resolved_incl (a :: b :: c :: vs)); [apply grid_resolved, G|]. intros w Hw. apply in_app_or in Hw. cbn [In] in *. tauto. }
  destruct (include_each_delaunay H (c :: vs) p [a; b] (from_initial_segment a b)) as (n0 & tr' & Hrun & HD'); auto.
  - apply initial_delaunay; auto; apply G; cbn; auto.
  - intros _ Hl. apply Hn. apply Hl; cbn; auto.
  - exists n0, tr'. split; [exact Hrun|]. split; [exact HD'|]. intros w. rewrite (delaunay_points _ _ HD' (rs_plain _ HR)). rewrite in_app_iff. cbn [In]. tauto.
Qed.

Lemma grid_batch : forall (H : HashOrder) p a b (vs : list pnt), grid (a :: b :: vs) -> a <> b ->
  exists n0 tr' inc del ins, (forall fuel, (n0 <= fuel)%nat -> vertices_include H fuel p (from_initial_segment a b) vs [] None [] = Ok (tr', inc, del)) /\
    (forall w, In w ins -> In w vs) /\ delaunay (ins ++ [a; b]) tr'.
Proof.
  intros H p a b vs G Hab. assert (HR : resolved (vs ++ [a; b])).
  { apply (resolved_incl (a :: b :: vs)); [apply grid_resolved, G|]. intros w Hw. apply in_app_or in Hw. cbn [In] in *. tauto. }
  assert (HD : delaunay [a; b] (from_initial_segment a b)) by (apply initial_delaunay; auto; apply G; cbn; auto).
  destruct (insertion_returns H p [a; b] (from_initial_segment a b) vs HD HR) as (n0 & [[tr' inc] del] & Hrun).
  destruct (insertion H n0 p [a; b] (from_initial_segment a b) vs tr' inc del HD HR (Hrun n0 (Nat.le_refl _))) as (ins & _ & Hi & HD').
  exists n0, tr', inc, del, ins. split; [exact Hrun|]. split; [intros w Hw; apply Hi, Hw|exact HD'].
Qed.

(** ** Sample points *)
Definition pA := at_ 0 0. Definition pB := at_ 4 0. Definition pC := at_ 1 3. Definition pE := at_ 2 1. Definition pF := at_ 7 5.
Lemma case_points : grid [pA; pB; pC; pE; pF] /\ pA <> pB /\ area2 pA pB pC <> 0 /\ no_four_on_a_circle [pE; pC; pA; pB].
Proof.
  assert (N : forall x y x' y', x <> x' \/ y <> y' -> at_ x y <> at_ x' y') by (intros x y x' y' Hn E; injection E; intros; lra).
  split; [|split; [|split]].
  - intros w Hw. cbn [In] in Hw. destruct Hw as [<-|[<-|[<-|[<-|[<-|[]]]]]]; (split; [reflexivity|]);
      [exists 0%Z, 0%Z|exists 4%Z, 0%Z|exists 1%Z, 3%Z|exists 2%Z, 1%Z|exists 7%Z, 5%Z]; split; reflexivity.
  - apply N. lra.
  - unfold area2, pA, pB, pC. rewrite !X_at, !Y_at. lra.
  - intros o a b c d Ha Hb Hc Hd Hn E1 E2 E3. cbn [In] in Ha, Hb, Hc, Hd.
    inversion Hn as [|? ? Q1 Hn1]. inversion Hn1 as [|? ? Q2 Hn2]. inversion Hn2 as [|? ? Q3 _]. cbn [In] in Q1, Q2, Q3. subst. clear Hn Hn1 Hn2.
    destruct Ha as [<-|[<-|[<-|[<-|[]]]]]; destruct Hb as [<-|[<-|[<-|[<-|[]]]]]; try tauto; destruct Hc as [<-|[<-|[<-|[<-|[]]]]]; try tauto; destruct Hd as [<-|[<-|[<-|[<-|[]]]]]; try tauto;
      unfold d2, pA, pB, pC, pE in E1, E2, E3; rewrite ?X_at, ?Y_at in E1, E2, E3; lra.
Qed.
Lemma case_resolved : resolved [pA; pB; pC; pE; pF].
Proof. apply grid_resolved, case_points. Qed.
Lemma case_start : delaunay [pA; pB] (from_initial_segment pA pB).
Proof. apply initial_delaunay; [reflexivity|reflexivity|apply case_points]. Qed.
Lemma case_insertion : delaunay [pA; pB] (from_initial_segment pA pB) /\ resolved ([pC; pE; pF] ++ [pA; pB]) /\ grid [pA; pB; pC; pE; pF] /\ pA <> pB /\
  exists n0 x, vertices_include ho_id n0 [] (from_initial_segment pA pB) [pC; pE; pF] [] None [] = Ok x.
Proof.
  assert (HR : resolved ([pC; pE; pF] ++ [pA; pB])) by (apply (resolved_incl _ _ case_resolved); cbn [In app]; tauto).
  split; [exact case_start|]. split; [exact HR|]. split; [apply case_points|]. split; [apply case_points|].
  destruct (insertion_returns ho_id [] _ _ _ case_start HR) as (n0 & x & Hr). exists n0, x. apply Hr. lia.
Qed.
Lemma case_alone : resolved (pC :: [pA; pB]) /\ ~ all_on_a_line (pC :: [pA; pB]) /\ area2 pA pB pC <> 0 /\
  exists n0 x, vertices_include ho_id n0 [] (from_initial_segment pA pB) [pC] [] None [] = Ok x.
Proof.
  assert (HR : resolved (pC :: [pA; pB])) by (apply (resolved_incl _ _ case_resolved); cbn [In app]; tauto).
  destruct case_points as (_ & _ & Hn & _). split; [exact HR|]. split; [intros Hl; apply Hn, Hl; cbn; auto|]. split; [exact Hn|].
  destruct (insertion_returns ho_id [] _ _ [pC] case_start HR) as (n0 & x & Hr). exists n0, x. apply Hr. lia.
Qed.
Lemma case_mesh : exists tr, delaunay [pC; pA; pB] tr.
Proof.
  destruct case_alone as (HR & Hl & _ & _). destruct (include_one ho_id [] [pA; pB] _ pC case_start HR Hl) as (_ & tr & _ & _ & _ & HD). exists tr. exact HD.
Qed.
Lemma case_off_line : ~ all_on_a_line [pC; pA; pB].
Proof. apply case_alone. Qed.
Lemma case_orders : exists tr, delaunay [pC; pA; pB] tr /\ resolved ([pE] ++ [pC; pA; pB]) /\ ~ all_on_a_line [pC; pA; pB] /\
  no_four_on_a_circle ([pE] ++ [pC; pA; pB]) /\ exists n0 tr1 tr2, include_each ho_id n0 [] tr [pE] = Ok tr1 /\ include_each ho_rev n0 [] tr [pE] = Ok tr2.
Proof.
  destruct case_mesh as [tr HD]. exists tr. assert (HR : resolved ([pE] ++ [pC; pA; pB])) by (apply (resolved_incl _ _ case_resolved); cbn [In app]; tauto).
  split; [exact HD|]. split; [exact HR|]. split; [exact case_off_line|]. split; [apply case_points|].
  assert (Hl : [pE] <> [] -> ~ all_on_a_line (hd gv [pE] :: [pC; pA; pB])) by (intros _ Hc; apply case_off_line, (line_incl _ _ Hc); intros w Hw; right; exact Hw).
  destruct (include_each_delaunay ho_id [pE] [] _ tr HD HR Hl) as (n1 & t1 & R1 & _). destruct (include_each_delaunay ho_rev [pE] [] _ tr HD HR Hl) as (n2 & t2 & R2 & _).
  exists (n1 + n2)%nat, t1, t2. split; [apply R1|apply R2]; lia.
Qed.
Lemma case_tiling : exists tr, delaunay [pC; pA; pB] tr /\ resolved ([pE; pF] ++ [pC; pA; pB]) /\ ~ all_on_a_line [pC; pA; pB] /\
  exists n0 x, vertices_include ho_id n0 [] tr [pE; pF] [] None [] = Ok x.
Proof.
  destruct case_mesh as [tr HD]. exists tr. assert (HR : resolved ([pE; pF] ++ [pC; pA; pB])) by (apply (resolved_incl _ _ case_resolved); cbn [In app]; tauto).
  split; [exact HD|]. split; [exact HR|]. split; [exact case_off_line|].
  destruct (insertion_returns ho_id [] _ _ [pE; pF] HD HR) as (n0 & x & Hr). exists n0, x. apply Hr. lia.
Qed.
