(** P_Cw1.v — a boundary given clockwise: what is inside is removed. *)

From Coq Require Import Reals List ZArith Lra Lia Psatz Bool Permutation ClassicalDedekindReals.
From Verif Require Import Base Arith Geometry Elements Polyline Procedures Refine Triangulator Interface ArithR Spec SpecR SpecD SpecP SpecC SpecE SpecQ SpecM SpecK SpecN
  P_Base P_Fuel P_Trn P_Vertices P_Flood P_Contains P_R1 P_R5 P_D1 P_D2 P_D3 P_D4 P_D5 P_D6 P_D7 P_D8 P_RX P_Fill P_Fill2 P_Slide P_Region P_Region2 P_Region3 P_C3 P_Polygon P_Polygon2 P_Polygon3 P_J1 P_K7 P_E4 P_L2 P_L3.
Import ListNotations.
Local Open Scope R_scope.

Lemma flip_turn : forall e : edge ArithR, flip e = P_Contains.turn e. Proof. intros [a b]. reflexivity. Qed.
Lemma flipped_sides : forall (h : list pnt) x, In x (map flip (polygon_sides (rev h))) <-> In x (polygon_sides h).
Proof.
  intros h x. rewrite in_map_iff. split.
  - intros (e & <- & He). rewrite flip_turn. apply side_turned, He.
  - intros Hx. exists (P_Contains.turn x). split; [rewrite flip_turn; apply turn_turn|apply turned_side, Hx].
Qed.
Lemma swept_same : forall (s : tri -> Prop) F F', (forall x, In x F <-> In x F') -> forall t, swept s F F t -> swept s F' F' t.
Proof.
  intros s F F' E t Hs. induction Hs as [e t He Ht St|x t t' Hs IH Sx Hno Ht' Sf].
  - apply (swept_start _ _ _ e); [apply E, He|assumption|assumption].
  - apply (swept_next _ _ _ x t t'); auto. intros Hi. apply Hno, E, Hi.
Qed.

Section Hollow.
  Variables (S : list pnt) (tr tr' : mesh) (h : list pnt).
  Hypothesis HD : delaunay S tr.
  Hypothesis HR : resolved S.
  Hypothesis Hsolid : exists t, In t (tris tr) /\ solid_over S t.
  Hypothesis Hnd : NoDup h.
  Hypothesis HS : forall w, In w h -> In w S.
  Hypothesis Harea : 0 < shoelace (polygon_sides h).
  Hypothesis Hfree : forall a b, In (a, b) (polygon_sides h) -> free_side S a b.
  Hypothesis Hiff : forall x, In x (tris tr') <->
    (In x (tris tr) /\ ~ swept (fun x => In x (tris tr)) (map flip (polygon_sides (rev h))) (map flip (polygon_sides (rev h))) x) \/
    exists e, In e (polygon_sides (rev h)) /\ x = Tri (snd e) (fst e) ghost_vertex.

  Lemma cw_medge : forall x y, In (x, y) (polygon_sides h) -> medge S tr x y.
  Proof.
    intros x y Hxy. destruct (polygon_ends h (x, y) Hxy) as [Hx Hy]. cbn [fst snd] in *. apply (free_medge S tr S x y HD HR Hsolid); auto.
    intros ->. pose proof (both_ways h y y Hnd Hxy Hxy). lra.
  Qed.
  Lemma cw_swept : forall t, In t (tris tr) -> (~ swept (fun x => In x (tris tr)) (map flip (polygon_sides (rev h))) (map flip (polygon_sides (rev h))) t <-> W h t = 0%Z).
  Proof.
    intros t Ht. split.
    - intros Hn. destruct (W_01 S tr h HD HR Hsolid Hnd cw_medge Harea t) as [E|E]; [exact E|exfalso].
      apply (inside_swept S tr h HD HR Hsolid Hnd cw_medge Harea t Ht E). intros Hs. apply Hn.
      apply (swept_same _ (polygon_sides h)); [intros x; symmetry; apply flipped_sides|exact Hs].
    - intros E Hs. apply (swept_same _ _ (polygon_sides h) (flipped_sides h)) in Hs.
      destruct (swept_inside S tr h HD HR Hsolid Hnd cw_medge Harea t Hs) as [_ E']. rewrite E in E'. discriminate.
  Qed.
  Lemma cw_kept : forall t, In t (tris tr') <-> (In t (tris tr) /\ W h t = 0%Z) \/ exists s, In s (polygon_sides h) /\ t = Tri (fst s) (snd s) ghost_vertex.
  Proof.
    intros t. rewrite Hiff. split.
    - intros [[Ht Hn]|(e & He & ->)]; [left; split; [exact Ht|apply cw_swept; assumption]|]. right. exists (P_Contains.turn e). split; [apply side_turned, He|destruct e; reflexivity].
    - intros [[Ht E]|(s & Hs & ->)]; [left; split; [exact Ht|apply cw_swept; assumption]|]. right. exists (P_Contains.turn s). split; [apply turned_side, Hs|destruct s; reflexivity].
  Qed.
  Lemma old_solid : forall t, In t (tris tr) -> is_ghost t = false -> exists a b c, t = Tri a b c /\ In a S /\ In b S /\ In c S /\ 0 < D a b c /\ vghost c = false.
  Proof.
    intros t Ht G. destruct (dl_shape _ _ HD t Ht) as [(a & b & c & -> & Ha & Hb & Hc & Hp)|(a & b & -> & _)].
    - exists a, b, c. repeat (split; [assumption||reflexivity|]). apply (rs_plain _ HR c Hc).
    - unfold is_ghost in G. cbn in G. rewrite !orb_true_r in G. discriminate.
  Qed.
  Lemma new_ghost : forall s, is_ghost (A:=ArithR) (Tri (fst s) (snd s) ghost_vertex) = true.
  Proof. intros s. unfold is_ghost. cbn. rewrite !orb_true_r. reflexivity. Qed.
  Lemma kept_old : forall t, solid_in tr' t -> solid_in tr t /\ W h t = 0%Z.
  Proof.
    intros t [Ht G]. apply cw_kept in Ht. destruct Ht as [[Ht E]|(s & _ & ->)]; [split; [split; assumption|exact E]|]. rewrite new_ghost in G. discriminate.
  Qed.
  Lemma ghost_W : forall t, In t (tris tr) -> is_ghost t = true -> W h t = 0%Z.
  Proof.
    intros t Ht G. destruct (dl_shape _ _ HD t Ht) as [(a & b & c & -> & Ha & Hb & Hc & Hp)|(a & b & -> & _)]; [|reflexivity].
    unfold is_ghost in G. cbn [tv1 tv2 tv3] in G. rewrite (rs_plain _ HR a Ha), (rs_plain _ HR b Hb), (rs_plain _ HR c Hc) in G. discriminate.
  Qed.

  Lemma stage_hollow : hollowed h tr tr'.
  Proof.
    split.
    - intros a b c q [Ht G] Hq. destruct (old_solid _ Ht G) as (x & y & z & E & Ha & Hb & Hc & Hp & Gc). injection E as <- <- <-.
      assert (Ew : winding q (polygon_sides h) = W h (Tri a b c)).
      { apply (inside_const S tr h HD HR cw_medge a b c q Ht Gc Hq). }
      rewrite Ew, cw_kept. split; [|auto]. intros [[_ E]|(s & _ & Es)]; [exact E|]. rewrite Es, new_ghost in G. discriminate.
    - intros t Ht. apply kept_old, Ht.
    - intros t G. rewrite cw_kept. split.
      + intros [[Ht _]|Hs]; auto.
      + intros [Ht|Hs]; [left; split; [exact Ht|apply ghost_W; assumption]|auto].
    - intros q Hoff. split.
      + intros (a & b & c & Ht & Hi). destruct (kept_old _ Ht) as [Ho E]. split; [exists a, b, c; auto|].
        destruct Ho as [Ho G]. destruct (old_solid _ Ho G) as (x & y & z & Ex & _ & _ & _ & _ & Gc). injection Ex as <- <- <-.
        rewrite (closed_W S tr h HD HR cw_medge a b c q Ho Gc Hi Hoff). exact E.
      + intros [(a & b & c & [Ho G] & Hi) E]. destruct (old_solid _ Ho G) as (x & y & z & Ex & _ & _ & _ & _ & Gc). injection Ex as <- <- <-.
        exists a, b, c. split; [|exact Hi]. split; [|exact G]. apply cw_kept. left. split; [exact Ho|].
        rewrite <- (closed_W S tr h HD HR cw_medge a b c q Ho Gc Hi Hoff). exact E.
  Qed.
End Hollow.

(** ** The boundary step on a mesh that has the polygon already *)
Lemma boundary_hollow : forall (H : HashOrder) p S (tr : mesh) h, delaunay S tr -> resolved S -> (exists t, In t (tris tr) /\ solid_over S t) ->
  NoDup h -> (forall w, In w h -> In w S) -> 0 < shoelace (polygon_sides h) -> (forall a b, In (a, b) (polygon_sides h) -> free_side S a b) ->
  exists n0 tr', (forall fuel, (n0 <= fuel)%nat -> boundary_include H fuel p tr (Poly (rev h) false) [] = Ok tr') /\ hollowed h tr tr'.
Proof.
  intros H p S tr h HD HR Hs Hnd HS Ha Hf.
  assert (Hn : rev h <> []).
  { intros E. apply (f_equal (@rev pnt)) in E. rewrite rev_involutive in E. subst h. cbn in Ha. unfold shoelace, total in Ha. cbn in Ha. lra. }
  assert (Hp : forall f, (0 < f)%nat -> vertices_include H f (1%nat :: p) tr (pverts (Poly (rev h) false)) [] None [] = Ok (tr, [], [])).
  { intros f Hf0. apply include_present; [exact Hf0|]. cbn [pverts]. intros v Hv. apply in_rev in Hv. apply (delaunay_points S tr HD (rs_plain _ HR)), HS, Hv. }
  set (n := (1 + 4 * length (tris tr))%nat).
  assert (Hr : forall f, (n <= f)%nat -> exists tr', boundary_include H f p tr (Poly (rev h) false) [] = Ok tr').
  { intros f Hf0. unfold n in Hf0. apply (boundary_include_total H f p tr (Poly (rev h) false) [] (polygon_sides (rev h)) tr [] []); [apply (dl_sound _ _ HD)|apply polygon_edges, Hn|apply Hp; lia|lia]. }
  destruct (Hr n (Nat.le_refl _)) as [tr' Hb]. exists n, tr'. split.
  - intros f Hf0. refine (rle_ok _ _ _ _ _ Hb). apply boundary_include_mono. exact Hf0.
  - destruct (boundary_include_spec H n p tr _ [] tr' (dl_sound _ _ HD) Hb) as (es & tr1 & inc & del & E1 & E2 & _ & _ & Hi).
    rewrite (polygon_edges (rev h) Hn) in E1. injection E1 as <-. rewrite Hp in E2 by (unfold n; lia). injection E2 as <- <- <-.
    apply (stage_hollow S tr tr' h HD HR Hs Hnd HS Ha Hf). apply Hi, (dl_complete _ _ HD).
Qed.
