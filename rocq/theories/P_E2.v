(** P_E2.v — one vertex put in a Delaunay mesh with constraints and a boundary
    that do not hinder it. *)

From Coq Require Import Reals List ZArith Lra Lia Psatz Bool Permutation.
From Verif Require Import Base Arith Geometry Elements Polyline Procedures Refine ArithR Spec SpecR SpecD
  P_Base P_Trn P_Fuel P_Vertices P_Cavity P_Refine P_R1 P_R2 P_R5 P_R6 P_D1 P_D2 P_D3 P_D4 P_D5 P_E1.
Import ListNotations.
Local Open Scope R_scope.

Lemma insert_shape : forall (H : HashOrder) S (tr : mesh) v, delaunay S tr -> resolved (v :: S) -> ~ In v S ->
  forall t (s : state) fuel p, In t (tris tr) -> encircles t v = Inside -> ss_tr s = rem_tri t tr -> (2 * length (tris tr) + 2 < fuel)%nat ->
  exists s', cavity_loop H fuel p [] None [] v [te3 t; te2 t; te1 t] s = Ok s' /\ delaunay (v :: S) (ss_tr s') /\
    (forall x, In x (tris (ss_tr s')) <-> (In x (tris tr) /\ is_conflicting x v = false) \/ exists e, border tr v e /\ x = new_triangle e v).
Proof.
  intros H S tr v HD HR Hv t s fuel p Ht He Es Hf.
  assert (Hst : exists t, In t (tris tr) /\ encircles t v = Inside) by eauto.
  destruct (cavity_total H tr v) with (up := up v) (rank := rank S tr v) (t := t) (s := s) (fuel := fuel) (p := p)
    as (s' & Hs & A1 & A2 & A3 & Hx); auto.
  - exact (dl_sound _ _ HD).
  - exact (dl_complete _ _ HD).
  - exact (dl_nodup _ _ HD).
  - exact (dl_closed _ _ HD).
  - intros t1 e e' Ht1 Se Se' Eq.
    assert (Hc : forall x, corner_of x t1 -> In x (v :: S) \/ x = gv).
    { intros x Hx. destruct (dl_shape _ _ HD t1 Ht1) as [(a & b & c & -> & Ha & Hb & Hcs & _)|(a & b & -> & Ha & Hb & _)]; inversion Hx; subst; cbn [In]; auto. }
    unfold eeqb, ev1, ev2 in Eq. apply andb_true_iff in Eq. destruct Eq as [E1 E2].
    rewrite (surjective_pairing e), (surjective_pairing e'). f_equal; apply (veqb_exact (v :: S)); auto; apply Hc;
      first [apply (side_corner1 _ _ Se) | apply (side_corner1 _ _ Se') | apply (side_corner2 _ _ Se) | apply (side_corner2 _ _ Se')].
  - exact (sides3 S tr v HD HR).
  - exact (link S tr v HD HR Hv Hst).
  - exact (one S tr v HD HR).
  - exact (rank_up S tr v HD HR Hv Hst).
  - exact (root_one S tr v HD HR Hv Hst).
  - exact (new_excl S tr v HD HR Hv Hst).
  - exact (new_fresh S tr v HD HR Hv Hst).
  - split; [exact Ht|]. unfold is_conflicting. rewrite He. reflexivity.
  - exists s'. split; [exact Hs|]. split; [|exact Hx]. exact (mesh_delaunay S tr v HD HR Hv Hst (ss_tr s') A1 A2 A3 Hx).
Qed.

Lemma rle_both : forall {X} (a b c : res X) (x y : X), rle a c -> rle b c -> a = Ok x -> b = Ok y -> x = y.
Proof. intros X a b c x y Ha Hb -> ->. destruct Ha as [Ha|Ha]; destruct Hb as [Hb|Hb]; congruence. Qed.

Lemma own_circle : forall a b c : pnt, continence b a c c <> Inside.
Proof. intros a b c. rewrite continence_sign, I_c. pose proof eps_pos. repeat rcase; intros E; try discriminate; lra. Qed.
Lemma fresh_corner : forall S (tr : mesh) v, delaunay S tr -> resolved (v :: S) -> ~ In v S -> forall t, In t (tris tr) -> ~ corner_of v t.
Proof.
  intros S tr v HD HR Hv t Ht Hc. destruct (dl_shape _ _ HD t Ht) as [(a & b & c & -> & Ha & Hb & Hcs & _)|(a & b & -> & Ha & Hb & _)]; inversion Hc; subst; try contradiction.
  pose proof (rs_plain _ HR gv (or_introl eq_refl)). discriminate.
Qed.

Section Insert.
  Variables (H : HashOrder) (S : list pnt) (tr : mesh) (v : pnt) (K : list (edge ArithR)) (bd : option (polyline ArithR)).
  Hypothesis HD : delaunay S tr.
  Hypothesis HR : resolved (v :: S).
  Hypothesis Hv : ~ In v S.
  Hypothesis HK : forall e, In e K -> vghost (fst e) = false /\ vghost (snd e) = false.
  Hypothesis Hyes : forall t fuel p m, In t (tris tr) -> is_conflicting t v = true -> may_insert_triangle H fuel p t v bd [] = Ok m -> m = true.
  Hypothesis Hbar : forall t u e, In t (tris tr) -> In u (tris tr) -> is_conflicting t v = true -> is_conflicting u v = true ->
    side_of e t -> side_of (flip e) u -> is_constrained K e = false.

  Definition effect (tr' : mesh) (inc del : list tri) : Prop :=
    delaunay (v :: S) tr' /\
    (forall x, In x (tris tr') <-> (In x (tris tr) /\ is_conflicting x v = false) \/ exists e, border tr v e /\ x = new_triangle e v) /\
    (forall x, In x inc <-> In x (tris tr') /\ ~ In x (tris tr)) /\
    (forall x, In x del <-> In x (tris tr) /\ is_conflicting x v = true).

  Lemma insert_effect : forall fuel p t0 s, In t0 (tris tr) -> encircles t0 v = Inside -> accepted H v bd [] t0 ->
    solve_conflicts H fuel p tr [(t0, [v])] [] K bd [] = Ok s -> effect (ss_tr s) (ss_inc s) (ss_del s).
  Proof.
    intros fuel p t0 s Ht He Ha Hs.
    destruct (single_same H tr v K bd [] (dl_sound _ _ HD) (dl_complete _ _ HD) (fresh_corner S tr v HD HR Hv) (rs_plain _ HR v (or_introl eq_refl)) HK
      (fun t a b _ _ _ _ => own_circle a b v) (fun p q => eq_trans (ho_nil H p _) (eq_sym (ho_nil H q _))) Hyes Hbar fuel p t0 s Ht Ha Hs) as ((f & Hc) & HI & Hrep).
    set (s0 := SS (rem_tri t0 tr) [] [] [] (hadd tdec t0 [])) in *.
    destruct (insert_shape H S tr v HD HR Hv t0 s0 (3 + 2 * length (tris tr))%nat (2%nat :: p) Ht He eq_refl ltac:(lia)) as (s' & Hc' & HD' & Hx).
    assert (E : s = s').
    { apply (rle_both _ _ (cavity_loop H (f + (3 + 2 * length (tris tr))) (2%nat :: p) [] None [] v [te3 t0; te2 t0; te1 t0] s0) _ _) with (3 := Hc) (4 := Hc'); apply cavity_loop_mono; lia. }
    subst s'. destruct Hrep as (_ & _ & R1 & R2 & R3).
    assert (Hnc : forall x, In x (ss_inc s) -> corner_of v x) by (intros x Hi; destruct (rc_inc _ _ _ _ _ _ _ HI x Hi) as (e & -> & _); apply new_triangle_corner).
    split; [exact HD'|]. split; [exact Hx|]. split.
    - intros x. split.
      + intros Hi. assert (Hn : ~ In x (tris tr)) by (intros Hi'; apply (fresh_corner S tr v HD HR Hv x Hi'), Hnc, Hi). split; [|exact Hn].
        destruct (R2 x (or_intror Hi)) as [G|G]; [exact G|]. exfalso. apply Hn. apply (rc_del _ _ _ _ _ _ _ HI), G.
      + intros [Hi Hn]. destruct (R1 x Hi); [contradiction|assumption].
    - intros x. split.
      + intros Hi. destruct (rc_del _ _ _ _ _ _ _ HI x Hi) as [G [G' _]]. auto.
      + intros [Hi Hcx]. destruct (R2 x (or_introl Hi)) as [G|G]; [|exact G]. apply Hx in G. destruct G as [[_ G]|(e & _ & ->)]; [congruence|].
        exfalso. apply (fresh_corner S tr v HD HR Hv _ Hi), new_triangle_corner.
  Qed.

  (** ** The first triangle *)
  Lemma distribute_single : forall fuel ts p cm rest, distribute_all H fuel p ts [] [v] bd [] = Ok (cm, rest) -> (forall t, In t ts -> In t (tris tr)) ->
    (cm = [] /\ rest = [v] /\ forall t, In t ts -> encircles t v <> Inside) \/
    exists t0, cm = [(t0, [v])] /\ rest = [] /\ In t0 (tris tr) /\ encircles t0 v = Inside /\ accepted H v bd [] t0.
  Proof.
    intros fuel ts. induction ts as [|t ts IH]; intros p cm rest Hd Hts; cbn [distribute_all] in Hd.
    - injection Hd as <- <-. left. split; [reflexivity|]. split; [reflexivity|]. intros t [].
    - apply bind_ok in Hd. destruct Hd as ([cm' vs'] & Hd & Hf). unfold distribute_conflicts in Hd. cbn [split_conflicts] in Hd.
      apply bind_ok in Hd. destruct Hd as ([conf r] & Hsp & Hd). apply bind_ok in Hsp. destruct Hsp as (may & Hm & Hsp). cbn [bind] in Hsp.
      assert (Ht : In t (tris tr)) by (apply Hts; left; reflexivity).
      destruct (cont_eqb (encircles t v) Inside) eqn:Ee.
      + assert (Ei : encircles t v = Inside) by (destruct (encircles t v); [reflexivity|discriminate|discriminate]).
        assert (Ec : is_conflicting t v = true) by (unfold is_conflicting; rewrite Ee; reflexivity).
        pose proof (Hyes t _ _ _ Ht Ec Hm) as ->. cbn [andb] in Hsp. injection Hsp as <- <-. cbn [add_conflicts mget mset] in Hd. injection Hd as <- <-.
        right. exists t. destruct ts as [|t1 ts]; cbn [distribute_all] in Hf; injection Hf as <- <-; unfold mset; cbn;
          (split; [reflexivity|]; split; [reflexivity|]; split; [exact Ht|]; split; [exact Ei|]; split; [exact Ec|]; eexists _, _; exact Hm).
      + cbn [andb] in Hsp. injection Hsp as <- <-. cbn [add_conflicts] in Hd. injection Hd as <- <-.
        destruct (IH _ _ _ Hf) as [(E1 & E2 & E3)|G]; [intros t' Ht'; apply Hts; right; exact Ht'| |right; exact G].
        left. split; [exact E1|]. split; [exact E2|]. intros t' [<-|Ht']; [intros E; rewrite E in Ee; discriminate|apply E3, Ht'].
  Qed.
  (** [vertices::include] of one vertex. *)
  Lemma include_effect : forall fuel p tr' inc del, (exists t, In t (tris tr) /\ encircles t v = Inside) ->
    vertices_include H fuel p tr [v] K bd [] = Ok (tr', inc, del) -> effect tr' inc del.
  Proof.
    intros fuel p tr' inc del (t1 & Ht1 & He1) Hi. unfold vertices_include in Hi. cbn [filter] in Hi.
    assert (Em : hmem vdec v (trn_vertices tr) = false).
    { apply hmem_false. intros Hm. apply Hv. apply (delaunay_points S tr HD); [intros w Hw; apply (rs_plain _ HR); right; exact Hw|exact Hm]. }
    rewrite Em in Hi. cbn [negb] in Hi. apply bind_ok in Hi. destruct Hi as ([cm rem] & Hd & Hi). apply bind_ok in Hi. destruct Hi as (s & Hs & Hi). injection Hi as <- <- <-.
    destruct (distribute_single _ _ _ _ _ Hd) as [(_ & _ & Hno)|(t0 & -> & -> & Ht0 & He0 & Ha)].
    - intros t Ht. apply ho_In in Ht. exact Ht.
    - exfalso. apply (Hno t1); [apply ho_In; exact Ht1|exact He1].
    - apply (insert_effect _ _ t0 s Ht0 He0 Ha Hs).
  Qed.
End Insert.
