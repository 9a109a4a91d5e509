(** P_W4.v — reading outputs: the value says it, and its order does not matter. *)

From Coq Require Import String List Bool ZArith Lia.
From Verif Require Import Base Arith Geometry Elements Polyline Procedures Refine Triangulator Interface Json SpecW SpecY P_W1 P_W2.
Import ListNotations.
Local Open Scope string_scope.
Local Open Scope list_scope.

Section Output.
  Context {A : Arith}.
  Notation F := (T A).
  Notation json := (json F).
  Variables (of_int : Z -> F) (uuid : Type) (uuid_read : string -> option uuid).

  Ltac ext_names := let b := fresh in let g := fresh in let g' := fresh in let Hg := fresh in
    intros b g g' Hg; repeat match goal with |- context [g ?k] => rewrite (Hg k) by (cbn; tauto) end; reflexivity.
  Ltac distinct := repeat (constructor; [cbn; intuition congruence|]); constructor.

  Lemma triangle_iff : forall (j : json) t, read_triangle j = Some t <-> tells_triangle j t.
  Proof.
    intros j [[a b] c]. unfold read_triangle, tells_triangle. rewrite read_struct_iff; [|distinct|ext_names]. cbn [fst snd]. split.
    - intros (bn & get & Hf & Hb). apply obind_iff in Hb. destruct Hb as (x1 & H1 & Hb). apply obind_iff in Hb. destruct Hb as (x2 & H2 & Hb). apply obind_iff in Hb. destruct Hb as (x3 & H3 & Hb).
      injection Hb as -> -> ->. apply required_iff in H1. destruct H1 as (j1 & G1 & N1). apply required_iff in H2. destruct H2 as (j2 & G2 & N2). apply required_iff in H3. destruct H3 as (j3 & G3 & N3).
      exists bn, get, j1, j2, j3. repeat split; try assumption; apply usize_iff; assumption.
    - intros (bn & get & j1 & j2 & j3 & Hf & G1 & N1 & G2 & N2 & G3 & N3). exists bn, get. split; [exact Hf|]. rewrite G1, G2, G3. cbn [required].
      apply usize_iff in N1. apply usize_iff in N2. apply usize_iff in N3. rewrite N1, N2, N3. reflexivity.
  Qed.
  Lemma tetrahedron_iff : forall (j : json) t, read_tetrahedron j = Some t <-> tells_tetrahedron j t.
  Proof.
    intros j [[[a b] c] d]. unfold read_tetrahedron, tells_tetrahedron. rewrite read_struct_iff; [|distinct|ext_names]. cbn [fst snd]. split.
    - intros (bn & get & Hf & Hb). apply obind_iff in Hb. destruct Hb as (x1 & H1 & Hb). apply obind_iff in Hb. destruct Hb as (x2 & H2 & Hb). apply obind_iff in Hb. destruct Hb as (x3 & H3 & Hb).
      apply obind_iff in Hb. destruct Hb as (x4 & H4 & Hb). injection Hb as -> -> -> ->.
      apply required_iff in H1. destruct H1 as (j1 & G1 & N1). apply required_iff in H2. destruct H2 as (j2 & G2 & N2). apply required_iff in H3. destruct H3 as (j3 & G3 & N3). apply required_iff in H4. destruct H4 as (j4 & G4 & N4).
      exists bn, get, j1, j2, j3, j4. repeat split; try assumption; apply usize_iff; assumption.
    - intros (bn & get & j1 & j2 & j3 & j4 & Hf & G1 & N1 & G2 & N2 & G3 & N3 & G4 & N4). exists bn, get. split; [exact Hf|]. rewrite G1, G2, G3, G4. cbn [required].
      apply usize_iff in N1. apply usize_iff in N2. apply usize_iff in N3. apply usize_iff in N4. rewrite N1, N2, N3, N4. reflexivity.
  Qed.
  Lemma report_iff : forall id now j r, read_report of_int uuid uuid_read id now j = Some r <-> tells_report of_int uuid uuid_read id now j r.
  Proof.
    intros id now j [i n d c t h]. unfold read_report, tells_report. rewrite read_struct_iff; [|distinct|ext_names]. cbn [r_id r_name r_date r_coordinates r_triangles r_tetrahedrons]. split.
    - intros (b & get & Hf & Hb). apply obind_iff in Hb. destruct Hb as (x1 & H1 & Hb). apply obind_iff in Hb. destruct Hb as (x2 & H2 & Hb). apply obind_iff in Hb. destruct Hb as (x3 & H3 & Hb).
      apply obind_iff in Hb. destruct Hb as (x4 & H4 & Hb). apply obind_iff in Hb. destruct Hb as (x5 & H5 & Hb). apply obind_iff in Hb. destruct Hb as (x6 & H6 & Hb). injection Hb as -> -> -> -> -> ->.
      apply required_iff in H2. destruct H2 as (j2 & G2 & N2). apply string_iff in N2. subst j2. apply required_iff in H4. destruct H4 as (jc & G4 & N4).
      exists b, get, jc. split; [exact Hf|]. split; [exact (proj1 (defaulted_iff _ _ _ _ (uuid_iff uuid uuid_read) _ _ _) H1)|]. split; [exact G2|].
      split; [exact (proj1 (defaulted_iff _ _ _ _ string_iff _ _ _) H3)|]. split; [exact G4|]. split; [exact (proj1 (read_vec_iff _ _ _ (point_iff of_int) _ _) N4)|].
      split; [exact (proj1 (defaulted_iff _ _ _ _ (read_vec_iff _ _ _ triangle_iff) _ _ _) H5)|]. exact (proj1 (defaulted_iff _ _ _ _ (read_vec_iff _ _ _ tetrahedron_iff) _ _ _) H6).
    - intros (b & get & jc & Hf & H1 & G2 & H3 & G4 & N4 & H5 & H6). exists b, get. split; [exact Hf|]. rewrite G2, G4.
      apply (defaulted_iff _ _ _ _ (uuid_iff uuid uuid_read) b) in H1. rewrite H1. apply (defaulted_iff _ _ _ _ string_iff b) in H3. rewrite H3. cbn [required read_string obind].
      apply (read_vec_iff _ _ _ (point_iff of_int)) in N4. rewrite N4. apply (defaulted_iff _ _ _ _ (read_vec_iff _ _ _ triangle_iff) b) in H5. rewrite H5.
      apply (defaulted_iff _ _ _ _ (read_vec_iff _ _ _ tetrahedron_iff) b) in H6. rewrite H6. reflexivity.
  Qed.

  Ltac inside := let k := fresh in let Hk := fresh in intros k Hk; cbn in *; intuition.
  Ltac here := match goal with Hg : forall k, In k _ -> _ |- _ => apply Hg; cbn; tauto end.
  Lemma triangle_respects : respects (A:=A) read_triangle.
  Proof.
    apply struct_respects; [distinct|inside|]. intros b get get' Hg.
    do 3 (apply obind_same; [apply required_same; [apply usize_respects|here]|intros ?]). reflexivity.
  Qed.
  Lemma tetrahedron_respects : respects (A:=A) read_tetrahedron.
  Proof.
    apply struct_respects; [distinct|inside|]. intros b get get' Hg.
    do 4 (apply obind_same; [apply required_same; [apply usize_respects|here]|intros ?]). reflexivity.
  Qed.
  Lemma report_respects : forall id now j j', same_content j j' -> read_report of_int uuid uuid_read id now j = read_report of_int uuid uuid_read id now j'.
  Proof.
    intros id now. apply struct_respects; [distinct|inside|]. intros b get get' Hg.
    apply obind_same; [apply defaulted_same; [apply uuid_respects|here]|intros x1]. apply obind_same; [apply required_same; [apply string_respects|here]|intros x2].
    apply obind_same; [apply defaulted_same; [apply string_respects|here]|intros x3].
    apply obind_same; [apply required_same; [apply vec_respects, (point_respects of_int uuid uuid_read)|here]|intros x4].
    apply obind_same; [apply defaulted_same; [apply vec_respects, triangle_respects|here]|intros x5].
    apply obind_same; [apply defaulted_same; [apply vec_respects, tetrahedron_respects|here]|intros x6]. reflexivity.
  Qed.
End Output.
