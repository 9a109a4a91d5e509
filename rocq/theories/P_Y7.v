(** P_Y7.v — polygons triangulated in doubles over points of a small grid. *)

From Coq Require Import Reals List ZArith Lra Lia Bool.
From Verif Require Import Base Arith ArithR ArithF Geometry Elements Polyline Procedures Triangulator Spec SpecR SpecD SpecP SpecF Samples
  P_R1 P_D7 P_D8 P_Polygon3 P_Y1 P_Y2 P_Y3 P_Y4 P_Y6.
Import ListNotations.
Local Open Scope R_scope.

Lemma image_reads : forall k l (tr : triangulation ArithF), (forall w, In w l -> fine_reads k w (rdF w)) ->
  (forall x, In x (tris tr) -> okt l x) -> reads_as l tr (Trn (map (rt rdF) (tris tr)) []).
Proof.
  intros k l tr HU Hok. split.
  - intros t w Ht Hc. exact (okt_corner l t w (Hok t Ht) Hc).
  - intros t Ht. exists (rt rdF t). cbn [tris]. split; [apply in_map, Ht|]. apply (rt_reads k l HU), Hok, Ht.
  - intros t' Ht'. cbn [tris] in Ht'. apply in_map_iff in Ht'. destruct Ht' as (t & <- & Ht). exists t. split; [exact Ht|]. apply (rt_reads k l HU), Hok, Ht.
Qed.

Theorem float_convex : forall k, fine_spacing k -> forall (H : HashOrder) p (t : triangulator ArithF) l l', only_polygon t l -> Forall2 (fine_reads k) l l' ->
  NoDup l' -> no_four_on_a_circle l' -> (3 <= length l')%nat ->
  (forall a b w, In (a, b) (polygon_sides l') -> In w l' -> w <> a -> w <> b -> 0 < area2 a b w) ->
  exists n0 t' M, (forall fuel, (n0 <= fuel)%nat -> triangulate H fuel p t = Ok t') /\ reads_as l (t_trn t') M /\ fills l' M.
Proof.
  intros k Hk H p t l l' Ho HF Hnd H4 Hl Hc. destruct (reads_map k l l' HF) as [<- HU].
  destruct (convex_run rdF l (float_agrees k l Hk HU Hnd H4) H p t l Ho eq_refl Hnd ltac:(rewrite map_length in Hl; exact Hl) Hc) as (n0 & t' & Hr & Hok & HM).
  exists n0, t', (Trn (map (rt rdF) (tris (t_trn t'))) []). split; [exact Hr|]. split; [apply (image_reads k); assumption|exact HM].
Qed.

Theorem float_free : forall k, fine_spacing k -> forall (H : HashOrder) p (t : triangulator ArithF) l l', only_polygon t l -> Forall2 (fine_reads k) l l' ->
  NoDup l' -> no_four_on_a_circle l' -> 0 < shoelace (polygon_sides l') -> (forall a b, In (a, b) (polygon_sides l') -> free_side l' a b) ->
  exists n0 t', (forall fuel, (n0 <= fuel)%nat -> triangulate H fuel p t = Ok t') /\
    ((forall w, In w l -> exists u, In u (tris (t_trn t')) /\ is_ghost u = false /\ corner_of w u) -> exists M, reads_as l (t_trn t') M /\ fills l' M).
Proof.
  intros k Hk H p t l l' Ho HF Hnd H4 Ha Hfr. destruct (reads_map k l l' HF) as [<- HU].
  destruct (free_run rdF l (float_agrees k l Hk HU Hnd H4) H p t l Ho eq_refl Hnd Ha Hfr) as (n0 & t' & Hr & Hok & HM).
  exists n0, t'. split; [exact Hr|]. intros Hs. exists (Trn (map (rt rdF) (tris (t_trn t'))) []). split; [apply (image_reads k); assumption|apply HM, Hs].
Qed.

(** ** Samples: the kite and the dart, in doubles *)
Definition kiteF : triangulator ArithF := triangulator_new (Poly [pt 0 0; pt 4 0; pt 7 5; pt 1 3] false).
Definition dartF : triangulator ArithF := triangulator_new (Poly [pt 0 0; pt 4 0; pt 2 1; pt 1 3] false).
Lemma four_incl : forall l l', no_four_on_a_circle l -> incl l' l -> no_four_on_a_circle l'.
Proof. intros l l0 H Hi o a b c d Ha Hb Hc Hd. apply H; auto. Qed.
Lemma case_float_kite : fine_spacing 0 /\ only_polygon kiteF [pt 0 0; pt 4 0; pt 7 5; pt 1 3] /\ Forall2 (fine_reads 0) [pt 0 0; pt 4 0; pt 7 5; pt 1 3] kite /\
  NoDup kite /\ no_four_on_a_circle kite /\ (3 <= length kite)%nat /\
  (forall a b w, In (a, b) (polygon_sides kite) -> In w kite -> w <> a -> w <> b -> 0 < area2 a b w).
Proof.
  destruct fine_samples as [F1 F2]. inversion F1 as [|? ? ? ? A1 F1']; subst. inversion F1' as [|? ? ? ? A2 _]; subst.
  inversion F2 as [|? ? ? ? A3 F2']; subst. inversion F2' as [|? ? ? ? A4 F3]; subst. inversion F3 as [|? ? ? ? A5 _]; subst.
  destruct case_kite as (_ & _ & Hn & _ & _ & _ & _ & _ & Hc & _).
  split; [unfold fine_spacing; lia|]. split; [split; reflexivity|]. split; [constructor; [exact A1|constructor; [exact A2|constructor; [exact A5|constructor; [exact A3|constructor]]]]|].
  split; [exact Hn|]. split; [|split; [cbn; lia|exact Hc]].
  apply (four_incl _ _ (proj2 samples_apart)). intros w Hw. unfold kite in Hw. cbn [In app] in *. tauto.
Qed.
Lemma case_float_dart : only_polygon dartF [pt 0 0; pt 4 0; pt 2 1; pt 1 3] /\ Forall2 (fine_reads 0) [pt 0 0; pt 4 0; pt 2 1; pt 1 3] dart /\
  NoDup dart /\ no_four_on_a_circle dart /\ 0 < shoelace (polygon_sides dart) /\ (forall a b, In (a, b) (polygon_sides dart) -> free_side dart a b) /\
  match triangulate ho_id 100 [] dartF with
  | Ok t' => forallb (fun w => existsb (fun u => negb (is_ghost u) && (if vdec (A:=ArithF) w (tv1 u) then true else if vdec (A:=ArithF) w (tv2 u) then true else if vdec (A:=ArithF) w (tv3 u) then true else false)) (tris (t_trn t'))) [pt 0 0; pt 4 0; pt 2 1; pt 1 3]
  | _ => false
  end = true.
Proof.
  destruct fine_samples as [F1 F2]. inversion F1 as [|? ? ? ? A1 F1']; subst. inversion F1' as [|? ? ? ? A2 _]; subst.
  inversion F2 as [|? ? ? ? A3 F2']; subst. inversion F2' as [|? ? ? ? A4 F3]; subst. inversion F3 as [|? ? ? ? A5 _]; subst.
  destruct case_dart as (_ & Hn & _ & Ha & Hf & _).
  split; [split; reflexivity|]. split; [constructor; [exact A1|constructor; [exact A2|constructor; [exact A4|constructor; [exact A3|constructor]]]]|].
  split; [exact Hn|]. split; [|split; [exact Ha|split; [exact Hf|vm_compute; reflexivity]]].
  apply (four_incl _ _ (proj2 samples_apart)). intros w Hw. unfold dart in Hw. cbn [In app] in *. tauto.
Qed.
