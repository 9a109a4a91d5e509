(** P_J1.v — the two sides of a hole in a Delaunay triangulation: the triangles
    swept out from the sides of the hole are those inside of it. *)

From Coq Require Import Reals List ZArith Lra Lia Psatz Bool Permutation ClassicalDedekindReals.
From Verif Require Import Base Arith Geometry Elements Polyline Procedures Triangulator ArithR Spec SpecR SpecD SpecP SpecC
  P_Base P_R1 P_R5 P_D1 P_D2 P_D3 P_D4 P_D5 P_D6 P_D7 P_D8 P_RX P_Fill P_Fill2 P_Slide P_Region P_Region2 P_Region3 P_C3.
Import ListNotations.
Local Open Scope R_scope.

Section Inside.
  Variables (S : list pnt) (tr : mesh) (h : list pnt).
  Notation es := (polygon_sides h).
  Hypothesis HD : delaunay S tr.
  Hypothesis HR : resolved S.
  Hypothesis Hsolid : exists t, In t (tris tr) /\ solid_over S t.
  Hypothesis Hnd : NoDup h.
  Hypothesis Hes : forall x y, In (x, y) es -> medge S tr x y.
  Hypothesis Harea : 0 < shoelace es.
  Let pl := rs_plain S HR.
  Notation W := (W h).

  Lemma h_one : forall x y, In (x, y) es -> ~ In (y, x) es.
  Proof. intros x y H1 H2. pose proof (both_ways h x y Hnd H1 H2). lra. Qed.
  Lemma h_some : exists e u, In e es /\ In u (tris tr) /\ side_of e u.
  Proof.
    assert (Hx : exists e, In e es). { destruct es as [|e r]; [exfalso; unfold shoelace in Harea; cbn in Harea; lra|]. exists e. left. reflexivity. }
    destruct Hx as ([x y] & Hi). destruct (Hes x y Hi) as (u & Hu & Su & _). exists (x, y), u. auto.
  Qed.
  (** Across a side that does not belong to the hole nothing changes. *)
  Lemma same_side : forall t t' x, In t (tris tr) -> In t' (tris tr) -> side_of x t -> side_of (flip x) t' -> ~ In x es -> ~ In (flip x) es -> W t = W t'.
  Proof.
    intros t t' [a b] Ht Ht' Sx Sf N1 N2. cbn [flip fst snd] in *.
    assert (Hpl : (In a S /\ In b S) \/ (W t = 0%Z /\ W t' = 0%Z)).
    { destruct (HRv S tr HD HR) as [v Hv]. destruct (dl_shape _ _ HD t Ht) as [(x & y & z & -> & Hx & Hy & Hz & _)|(x & y & -> & Hx & Hy & _)]; [left; inversion Sx; subst; auto|].
      inversion Sx; subst; [left; auto| |].
      - right. split; [reflexivity|]. destruct (view_gv2 S tr v HD Hv t' _ Ht' Sf) as (c & -> & _). reflexivity.
      - right. split; [reflexivity|]. destruct (view_gv1 S tr v HD Hv t' _ Ht' Sf) as (c & -> & _). reflexivity. }
    destruct Hpl as [[Ha Hb]|[-> ->]]; [|reflexivity].
    assert (Hm : medge S tr a b) by (exists t; auto). pose proof (cross_side S tr h HD HR Hsolid Hes a b t t' Hm Ht Sx Ht' Sf) as Ec.
    rewrite (crossed_none h a b N1 N2) in Ec. lia.
  Qed.
  Lemma right_less : forall e t u, In e es -> In t (tris tr) -> side_of (flip e) t -> In u (tris tr) -> side_of e u -> W t = (W u - 1)%Z.
  Proof.
    intros [a b] t u He Ht St Hu Su. cbn [flip fst snd] in *.
    pose proof (cross_side S tr h HD HR Hsolid Hes a b u t (Hes a b He) Hu Su Ht St) as E. rewrite (crossed_one h Hnd h_one a b He) in E. lia.
  Qed.

  (** The left side is the inside. *)
  Definition lvl (c : Z) (t : tri) : bool := (W t =? c)%Z.
  Lemma level_fill : forall e u, In e es -> In u (tris tr) -> side_of e u ->
    (forall t t' x, In t (tris tr) -> In t' (tris tr) -> lvl (W u) t = true -> side_of x t' -> side_of (flip x) t -> ~ In x (map flip es) -> lvl (W u) t' = true) /\
    (forall e t, In e es -> In t (tris tr) -> side_of (flip e) t -> lvl (W u) t = false) /\
    (forall e, In e es -> exists v, In v (tris tr) /\ side_of e v /\ lvl (W u) v = true).
  Proof.
    intros e u He Hu Su. unfold lvl. split; [|split].
    - intros t t' x Ht Ht' E Sx Sf Hno. apply Z.eqb_eq in E. apply Z.eqb_eq. destruct (in_dec edec x es) as [Hi|Hi].
      + apply (left_alike S tr h HD HR Hnd Hes h_one x e t' u); assumption.
      + rewrite <- E. apply (same_side t' t x); auto. intros Hf. apply Hno. apply in_map_iff. exists (flip x). split; [destruct x; reflexivity|exact Hf].
    - intros e' t He' Ht St. apply Z.eqb_neq. destruct e' as [a b]. destruct (Hes a b He') as (v & Hv & Sv & _).
      rewrite (right_less (a, b) t v He' Ht St Hv Sv), (left_alike S tr h HD HR Hnd Hes h_one (a, b) e v u He' He Hv Sv Hu Su). lia.
    - intros [a b] He'. destruct (Hes a b He') as (v & Hv & Sv & _). exists v. split; [exact Hv|]. split; [exact Sv|]. apply Z.eqb_eq.
      apply (left_alike S tr h HD HR Hnd Hes h_one (a, b) e v u He' He Hv Sv Hu Su).
  Qed.
  Lemma ends_in : forall e, In e es -> In (fst e) S /\ In (snd e) S.
  Proof. intros [a b] He. destruct (Hes a b He) as (_ & _ & _ & Ha & Hb). auto. Qed.
  Lemma left_one : forall e u, In e es -> In u (tris tr) -> side_of e u -> W u = 1%Z.
  Proof.
    intros e u He Hu Su. destruct (level_fill e u He Hu Su) as (N1 & N2 & N3). pose proof (polygon_NoDup h Hnd) as Hn.
    destruct (vghost (tv3 u)) eqn:G.
    - exfalso. pose proof (faces_out S tr es (lvl (W u)) HD HR Hn N1 N2 N3 ends_in (or_introl Harea) u Hu G) as F. unfold lvl in F. rewrite Z.eqb_refl in F. discriminate.
    - destruct (solid_shape S tr HD u Hu G) as (a & b & c & -> & Ha & Hb & Hc & Hp).
      assert (Hk : In (Tri a b c) (kept tr (lvl (W (Tri a b c))))). { unfold kept. apply solids_In. split; [exact Hu|]. split; [exact G|]. unfold lvl. apply Z.eqb_refl. }
      pose proof (kept_inside S tr es (lvl (W (Tri a b c))) HD HR Hn N1 N2 N3 ends_in (or_introl Harea) (mid (Tri a b c)) a b c Hk (mid_inside a b c Hp)) as E.
      unfold P_Region3.W. rewrite G. exact E.
  Qed.
  Lemma winding_01 : forall q, winding q es = 0%Z \/ winding q es = 1%Z.
  Proof.
    intros q. destruct h_some as (e & u & He & Hu & Su). destruct (level_fill e u He Hu Su) as (N1 & N2 & N3).
    exact (kept_01 S tr es (lvl (W u)) HD HR (polygon_NoDup h Hnd) N1 N2 N3 ends_in (or_introl Harea) q).
  Qed.
  Lemma W_01 : forall t, W t = 0%Z \/ W t = 1%Z.
  Proof. intros t. unfold P_Region3.W. destruct (vghost (tv3 t)); [left; reflexivity|apply winding_01]. Qed.
  Lemma right_zero : forall e t, In e es -> In t (tris tr) -> side_of (flip e) t -> W t = 0%Z.
  Proof.
    intros [a b] t He Ht St. destruct (Hes a b He) as (u & Hu & Su & _). rewrite (right_less (a, b) t u He Ht St Hu Su), (left_one (a, b) u He Hu Su). reflexivity.
  Qed.

  (** ** Swept out *)
  Notation Sw := (swept (fun x => In x (tris tr)) es es).
  Lemma swept_inside : forall t, Sw t -> In t (tris tr) /\ W t = 1%Z.
  Proof.
    intros t Hsw. induction Hsw as [e t He Ht St|x t t' Hsw [Ht E] Sx Hno Ht' Sf].
    - split; [exact Ht|]. apply (left_one e t He Ht St).
    - split; [exact Ht'|]. rewrite <- E. symmetry. apply (same_side t t' x); auto. intros Hi.
      pose proof (right_zero (flip x) t Hi Ht) as Z. rewrite Z in E; [discriminate|]. destruct x; exact Sx.
  Qed.
  Lemma inside_swept : forall t, In t (tris tr) -> W t = 1%Z -> ~ ~ Sw t.
  Proof.
    intros t Ht E HnS. set (N := fun u => if sig_not_dec (Sw u) then true else false).
    assert (HN : forall u, N u = true <-> ~ ~ Sw u) by (intros u; unfold N; destruct (sig_not_dec (Sw u)); split; intros; tauto || discriminate).
    assert (N1 : forall t t' x, In t (tris tr) -> In t' (tris tr) -> N t = true -> side_of x t' -> side_of (flip x) t -> ~ In x (map flip es) -> N t' = true).
    { intros u u' x Hu Hu' Eu Sx Sf Hno. apply HN. apply HN in Eu. intros C. apply Eu. intros Hs. apply C. apply (swept_next _ _ _ (flip x) u u' Hs Sf); auto.
      - intros Hi. apply Hno. apply in_map_iff. exists (flip x). split; [destruct x; reflexivity|exact Hi].
      - destruct x; exact Sx. }
    assert (N2 : forall e t, In e es -> In t (tris tr) -> side_of (flip e) t -> N t = false).
    { intros e u He Hu Su. destruct (N u) eqn:Eu; [|reflexivity]. exfalso. apply HN in Eu. apply Eu. intros Hs. destruct (swept_inside u Hs) as [_ E1]. rewrite (right_zero e u He Hu Su) in E1. discriminate. }
    assert (N3 : forall e, In e es -> exists u, In u (tris tr) /\ side_of e u /\ N u = true).
    { intros [a b] He. destruct (Hes a b He) as (u & Hu & Su & _). exists u. split; [exact Hu|]. split; [exact Su|]. apply HN. intros C. apply C. apply (swept_start _ _ _ (a, b) u He Hu Su). }
    assert (G : vghost (tv3 t) = false). { destruct (vghost (tv3 t)) eqn:G; [|reflexivity]. unfold P_Region3.W in E. rewrite G in E. discriminate. }
    destruct (solid_shape S tr HD t Ht G) as (a & b & c & -> & Ha & Hb & Hc & Hp).
    assert (Wm : winding (mid (Tri a b c)) es = 1%Z) by (unfold P_Region3.W in E; rewrite G in E; exact E).
    destruct (kept_covers S tr es N HD HR (polygon_NoDup h Hnd) N1 N2 N3 ends_in (or_introl Harea) _ Wm) as (a' & b' & c' & Hk & Hin).
    unfold kept in Hk. apply solids_In in Hk. destruct Hk as (Hk & Gk & Nk). apply HN in Nk. apply Nk. intros Hs. apply HnS.
    destruct (solid_view S tr a' b' c' HD HR Hk Gk) as (_ & _ & _ & Hp').
    destruct (near_common a' b' c' a b c _ Hp' Hin (mid_inside a b c Hp)) as (q & Hq' & Hq).
    assert (Et : Tri a' b' c' = Tri a b c); [|rewrite <- Et; exact Hs].
    exact (tiles_once S tr q a' b' c' a b c HD HR Hk Ht Gk G Hq' Hq).
  Qed.

  (** ** The closed triangles *)
  Lemma h_apart : forall x y, In (x, y) es -> ~ coincide x y.
  Proof. intros x y Hi. destruct (medge_view S tr HD HR x y (Hes x y Hi)) as (_ & _ & Hco & _). exact Hco. Qed.
  Lemma closed_W : forall a b c q, In (Tri a b c) (tris tr) -> vghost c = false -> in_triangle a b c q -> ~ on_polygon h q -> winding q es = W (Tri a b c).
  Proof.
    intros a b c q Ht Gc Hin Hoff. destruct (solid_view S tr a b c HD HR Ht Gc) as (Ha & Hb & Hc & Hp). set (m := mid (Tri a b c)).
    destruct (avoid_all es q m m) as (e & He & Q).
    { intros x y Hi. split; [apply h_apart, Hi|]. intros Hon. apply Hoff. exists (x, y). auto. }
    rewrite <- (inside_const S tr h HD HR Hes a b c (toward q m e) Ht Gc (toward_inside a b c q m e Hin (mid_inside a b c Hp) ltac:(lra))).
    apply winding_const. intros x y Hi (z & (k & Hk & Rk) & Hz). apply (Q (k * e) m x y); [split; [apply mpp; lra|pose proof (mpp (1 - k) e ltac:(lra) ltac:(lra)); lra]|exists 0; split; [lra|split; ring]|exact Hi|].
    apply (on_segment_coincide x y z); [|exact Hz]. destruct Rk as [Rx Ry]. unfold toward in *. split; rewrite ?X_at, ?Y_at in *; lra.
  Qed.
End Inside.
