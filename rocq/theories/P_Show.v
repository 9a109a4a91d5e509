(** P_Show.v — what printed texts tell (C132). *)

From Coq Require Import String Ascii List Arith Bool Lia Permutation.
From Verif Require Import Base Arith Geometry Elements Display SpecShow.
Import ListNotations.
Local Open Scope string_scope.

Lemma app_assoc_s : forall a b c : string, (a ++ b) ++ c = a ++ (b ++ c).
Proof. induction a as [|x a IH]; intros b c; cbn; [reflexivity | now rewrite IH]. Qed.

(** Up to the first mark, texts can be read in one way only. *)
Lemma unmarked_split : forall s1 s2 c1 c2 r1 r2,
  unmarked s1 -> unmarked s2 -> mark c1 -> mark c2 ->
  s1 ++ String c1 r1 = s2 ++ String c2 r2 -> s1 = s2 /\ c1 = c2 /\ r1 = r2.
Proof.
  induction s1 as [|a s1 IH]; intros s2 c1 c2 r1 r2 U1 U2 M1 M2 E; destruct s2 as [|b s2]; cbn in E.
  - injection E as -> ->. auto.
  - injection E as -> _. destruct U2 as [N _]. contradiction.
  - injection E as -> _. destruct U1 as [N _]. contradiction.
  - injection E as -> E. destruct U1 as [_ U1], U2 as [_ U2].
    destruct (IH _ _ _ _ _ U1 U2 M1 M2 E) as (-> & -> & ->). auto.
Qed.

Ltac marked := unfold mark; auto 6.

(** Lines one after the other. *)
Lemma each_read {X : Type} : forall (f : X -> string) (r : X -> X -> Prop) (ok : X -> Prop) (stop : string -> Prop),
  (forall x y a b, ok x -> ok y -> f x ++ a = f y ++ b -> r x y /\ a = b) ->
  (forall x a b, ok x -> stop b -> f x ++ a <> b) ->
  forall l m a b, Forall ok l -> Forall ok m -> stop a -> stop b ->
  each f l ++ a = each f m ++ b -> Forall2 r l m /\ a = b.
Proof.
  intros f r ok stop R N. induction l as [|x l IH]; intros m a b OL OM SA SB E; destruct m as [|y m]; cbn in E.
  - auto.
  - rewrite app_assoc_s in E. exfalso. exact (N _ _ _ (Forall_inv OM) SA (eq_sym E)).
  - rewrite app_assoc_s in E. exfalso. exact (N _ _ _ (Forall_inv OL) SB E).
  - rewrite !app_assoc_s in E. destruct (R x y _ _ (Forall_inv OL) (Forall_inv OM) E) as [Q E'].
    destruct (IH m a b (Forall_inv_tail OL) (Forall_inv_tail OM) SA SB E') as [F ->]. auto.
Qed.

Lemma each_cong {X : Type} : forall (f : X -> string) (r : X -> X -> Prop),
  (forall x y, r x y -> f x = f y) -> forall l m, Forall2 r l m -> each f l = each f m.
Proof. intros f r C l m F. induction F as [|x y l m Q F IH]; cbn; [reflexivity | now rewrite (C x y Q), IH]. Qed.

Section Show.
  Context {A : Arith}.
  Notation vertex := (vertex A).
  Notation edge := (edge A).
  Notation triangle := (triangle A).
  Notation triangulation := (triangulation A).
  Variable show : T A -> string.
  Variable ok : T A -> Prop.
  Hypothesis SP : spells show ok.

  Lemma vertex_read : forall v w a b, ok_vertex ok v -> ok_vertex ok w ->
    vertex_text show v ++ a = vertex_text show w ++ b -> alike v w /\ a = b.
  Proof.
    intros v w a b OV OW E. unfold vertex_text in E. destruct SP as [U I].
    destruct (vghost v) eqn:GV, (vghost w) eqn:GW.
    - injection E as E. split; [left; auto | exact E].
    - exfalso. destruct (OW GW) as [Ox Oy]. cbn in E. injection E as E.
      rewrite !app_assoc_s in E.
      change (String "g" (String "h" (String "o" (String "s" (String "t" (String ")" a)))))) with ("ghost" ++ String ")"%char a) in E.
      cbn [append] in E.
      change (String "g" (String "h" (String "o" (String "s" (String "t" (String ")" a)))))) with ("ghost" ++ String ")"%char a) in E.
      apply unmarked_split in E; try solve [marked | now apply U].
      + destruct E as (_ & E & _). discriminate E.
      + cbn. unfold mark. cbn. repeat split; intros [C | [C | [C | [C | C]]]]; discriminate C.
    - exfalso. destruct (OV GV) as [Ox Oy]. cbn in E. injection E as E.
      rewrite !app_assoc_s in E. cbn [append] in E.
      change (String "g" (String "h" (String "o" (String "s" (String "t" (String ")" b)))))) with ("ghost" ++ String ")"%char b) in E.
      apply unmarked_split in E; try solve [marked | now apply U].
      + destruct E as (_ & E & _). discriminate E.
      + cbn. unfold mark. cbn. repeat split; intros [C | [C | [C | [C | C]]]]; discriminate C.
    - destruct (OV GV) as [Ox Oy], (OW GW) as [Px Py]. cbn in E. injection E as E.
      rewrite !app_assoc_s in E. cbn [append] in E.
      apply unmarked_split in E; try solve [marked | now apply U].
      destruct E as (EX & _ & E). injection E as E. rewrite !app_assoc_s in E. cbn [append] in E.
      apply unmarked_split in E; try solve [marked | now apply U].
      destruct E as (EY & _ & E). split; [right | exact E]. auto 8.
  Qed.

  Lemma edge_read : forall e f a b, ok_edge ok e -> ok_edge ok f ->
    edge_text show e ++ a = edge_text show f ++ b -> alike_edge e f /\ a = b.
  Proof.
    intros e f a b [O1 O2] [P1 P2] E. unfold edge_text in E. cbn [append] in E. injection E as E.
    rewrite !app_assoc_s in E. apply vertex_read in E; auto. destruct E as [Q1 E].
    cbn [append] in E. injection E as E. rewrite !app_assoc_s in E. apply vertex_read in E; auto.
    destruct E as [Q2 E]. cbn [append] in E. injection E as E. split; [split; assumption | exact E].
  Qed.

  Lemma triangle_read : forall t u a b, ok_triangle ok t -> ok_triangle ok u ->
    triangle_text show t ++ a = triangle_text show u ++ b -> alike_triangle t u /\ a = b.
  Proof.
    intros t u a b (O1 & O2 & O3) (P1 & P2 & P3) E. unfold triangle_text in E. cbn [append] in E. injection E as E.
    rewrite !app_assoc_s in E. apply vertex_read in E; auto. destruct E as [Q1 E].
    cbn [append] in E. injection E as E. rewrite !app_assoc_s in E. apply vertex_read in E; auto.
    destruct E as [Q2 E]. cbn [append] in E. injection E as E. rewrite !app_assoc_s in E. apply vertex_read in E; auto.
    destruct E as [Q3 E]. cbn [append] in E. injection E as E. split; [repeat split; assumption | exact E].
  Qed.

  Lemma alike_text : forall v w, alike v w -> vertex_text show v = vertex_text show w.
  Proof.
    intros v w [[GV GW] | (GV & GW & EX & EY)]; unfold vertex_text; rewrite GV, GW; [reflexivity | now rewrite EX, EY].
  Qed.

  Lemma alike_edge_text : forall e f, alike_edge e f -> edge_text show e = edge_text show f.
  Proof. intros e f [Q1 Q2]. unfold edge_text. now rewrite (alike_text _ _ Q1), (alike_text _ _ Q2). Qed.

  Lemma alike_triangle_text : forall t u, alike_triangle t u -> triangle_text show t = triangle_text show u.
  Proof.
    intros t u (Q1 & Q2 & Q3). unfold triangle_text.
    now rewrite (alike_text _ _ Q1), (alike_text _ _ Q2), (alike_text _ _ Q3).
  Qed.

  Lemma app_nil_s : forall s : string, s ++ "" = s.
  Proof. induction s as [|c s IH]; cbn; [reflexivity | now rewrite IH]. Qed.

  Lemma vertex_text_iff : forall v w, ok_vertex ok v -> ok_vertex ok w ->
    (vertex_text show v = vertex_text show w <-> alike v w).
  Proof.
    intros v w OV OW. split; [intro E | apply alike_text].
    apply (vertex_read v w "" ""); auto. now rewrite !app_nil_s.
  Qed.
  Lemma edge_text_iff : forall e f, ok_edge ok e -> ok_edge ok f ->
    (edge_text show e = edge_text show f <-> alike_edge e f).
  Proof.
    intros v w OV OW. split; [intro E | apply alike_edge_text].
    apply (edge_read v w "" ""); auto. now rewrite !app_nil_s.
  Qed.
  Lemma triangle_text_iff : forall t u, ok_triangle ok t -> ok_triangle ok u ->
    (triangle_text show t = triangle_text show u <-> alike_triangle t u).
  Proof.
    intros v w OV OW. split; [intro E | apply alike_triangle_text].
    apply (triangle_read v w "" ""); auto. now rewrite !app_nil_s.
  Qed.

  Definition alike_entry (x y : edge * triangle) : Prop := alike_edge (fst x) (fst y) /\ alike_triangle (snd x) (snd y).
  Definition ok_entry (x : edge * triangle) : Prop := ok_edge ok (fst x) /\ ok_triangle ok (snd x).

  Lemma app_cancel : forall s a b : string, s ++ a = s ++ b -> a = b.
  Proof. induction s as [|c s IH]; cbn; intros a b E; [exact E | injection E as E; now apply IH]. Qed.

  Lemma triangulation_read : forall H K p q tr ur, ok_triangulation ok tr -> ok_triangulation ok ur ->
    triangulation_text H show p tr = triangulation_text K show q ur ->
    Forall2 alike_triangle (ho H (0 :: p) _ (tris tr)) (ho K (0 :: q) _ (tris ur)) /\
    Forall2 alike_entry (ho H (1 :: p) _ (adj tr)) (ho K (1 :: q) _ (adj ur)).
  Proof.
    intros H K p q tr ur [OT OA] [PT PA] E. unfold triangulation_text in E.
    apply app_cancel, app_cancel in E.
    assert (FT : forall L r (l : list triangle), (forall t, In t l -> ok_triangle ok t) -> Forall (ok_triangle ok) (ho L r _ l)).
    { intros L r l O. apply Forall_forall. intros t I. apply O. eapply Permutation_in; [apply Permutation_sym, (ho_perm L) | exact I]. }
    assert (FA : forall L r (l : list (edge * triangle)), (forall e t, In (e, t) l -> ok_edge ok e /\ ok_triangle ok t) -> Forall ok_entry (ho L r _ l)).
    { intros L r l O. apply Forall_forall. intros [e t] I. apply O. eapply Permutation_in; [apply Permutation_sym, (ho_perm L) | exact I]. }
    apply (each_read _ alike_triangle (ok_triangle ok) (fun s => exists s', s = String newline s')) in E.
    - destruct E as [F E]. split; [exact F|]. apply app_cancel, app_cancel, app_cancel in E.
      rewrite <- (app_nil_s (each _ (ho H _ _ _))), <- (app_nil_s (each _ (ho K _ _ _))) in E.
      apply (each_read _ alike_entry ok_entry (fun s => s = "")) in E; [now destruct E | | | now apply FA | now apply FA | reflexivity | reflexivity].
      + intros x y a b [O1 O2] [P1 P2] Q. rewrite !app_assoc_s in Q. apply edge_read in Q; auto. destruct Q as [Q1 Q].
        apply app_cancel in Q. rewrite ?app_assoc_s in Q. apply triangle_read in Q; auto. destruct Q as [Q2 Q].
        apply app_cancel in Q. split; [split|]; auto.
      + intros x a b _ -> Q. discriminate Q.
    - intros x y a b O P Q. rewrite !app_assoc_s in Q. apply triangle_read in Q; auto. destruct Q as [Q1 Q].
      apply app_cancel in Q. auto.
    - intros x a b _ [s' ->] Q. discriminate Q.
    - now apply FT.
    - now apply FT.
    - eexists; reflexivity.
    - eexists; reflexivity.
  Qed.

  Lemma Forall2_perm {X : Type} (r : X -> X -> Prop) : forall l l' m, Permutation l l' -> Forall2 r l m ->
    exists m', Permutation m' m /\ Forall2 r l' m'.
  Proof.
    intros l l' m P. revert m. induction P as [|x l l' P IH|x y l|l l' l'' P1 IH1 P2 IH2]; intros m F.
    - exists m. auto.
    - inversion F as [|? y ? m' Q F']; subst. destruct (IH m' F') as (k & Pk & Fk). exists (y :: k). auto.
    - inversion F as [|? a ? m' Q F']; subst. inversion F' as [|? b ? m'' Q' F'']; subst.
      exists (b :: a :: m''). split; [apply perm_swap | auto].
    - destruct (IH1 m F) as (k & Pk & Fk). destruct (IH2 k Fk) as (k' & Pk' & Fk').
      exists k'. split; [eapply perm_trans; eassumption | exact Fk'].
  Qed.

  Lemma ordered_members {X : Type} (r : X -> X -> Prop) : forall H K p q (l m : list X),
    Forall2 r (ho H p _ l) (ho K q _ m) -> same_members r l m.
  Proof.
    intros H K p q l m F. destruct (Forall2_perm r _ l _ (Permutation_sym (ho_perm H p X l)) F) as (k & P & F').
    exists k. split; [|exact F']. eapply perm_trans; [exact P | apply Permutation_sym, ho_perm].
  Qed.

  Lemma triangulation_told : forall H K p q tr ur, ok_triangulation ok tr -> ok_triangulation ok ur ->
    triangulation_text H show p tr = triangulation_text K show q ur -> alike_triangulation tr ur.
  Proof.
    intros H K p q tr ur O P E. apply triangulation_read in E; auto. destruct E as [F1 F2].
    split; eapply ordered_members; eassumption.
  Qed.
End Show.

(** Any rearrangement of a list is the order of some hash container. *)
Lemma rearrange {X : Type} : forall (l m : list X), Permutation l m ->
  exists g : forall Y : Type, list Y -> list Y, (forall Y k, Permutation (g Y k) k) /\ g X l = m.
Proof.
  intros l m P. induction P as [|x l m P (g & G & E)|x y l|l m k P1 (g1 & G1 & E1) P2 (g2 & G2 & E2)].
  - exists (fun _ k => k). auto.
  - exists (fun Y k => match k with [] => [] | y :: k => y :: g Y k end). split.
    + intros Y [|y k]; [constructor | apply perm_skip, G].
    + now rewrite E.
  - exists (fun Y k => match k with a :: b :: k => b :: a :: k | _ => k end). split; [|reflexivity].
    intros Y [|a [|b k]]; [constructor | repeat constructor | apply perm_swap].
  - exists (fun Y k => g2 Y (g1 Y k)). split; [|now rewrite E1].
    intros Y k'. eapply perm_trans; [apply G2 | apply G1].
Qed.

Definition ho_two (g0 g1 : forall Y : Type, list Y -> list Y)
  (G0 : forall Y k, Permutation (g0 Y k) k) (G1 : forall Y k, Permutation (g1 Y k) k) : HashOrder.
Proof.
  refine {| ho := fun p Y k => match p with 0 :: _ => g0 Y k | _ => g1 Y k end |}.
  intros [|[|n] p] Y k; apply Permutation_sym; auto.
Defined.

Lemma triangulation_retold {A : Arith} : forall (show : T A -> string) p q (tr ur : triangulation A),
  alike_triangulation tr ur -> exists H K, triangulation_text H show p tr = triangulation_text K show q ur.
Proof.
  intros show p q tr ur [(k0 & P0 & F0) (k1 & P1 & F1)].
  destruct (rearrange _ _ (Permutation_sym P0)) as (g0 & G0 & E0).
  destruct (rearrange _ _ (Permutation_sym P1)) as (g1 & G1 & E1).
  exists ho_id, (ho_two g0 g1 G0 G1). unfold triangulation_text.
  cbn [ho ho_id ho_two]. rewrite E0, E1.
  rewrite (each_cong (fun t => triangle_text show t ++ nl) alike_triangle) with (m := k0); [|intros x y Q; now rewrite (alike_triangle_text show x y Q) | exact F0].
  rewrite (each_cong (fun et => edge_text show (fst et) ++ " " ++ triangle_text show (snd et) ++ nl) (fun x y => alike_edge (fst x) (fst y) /\ alike_triangle (snd x) (snd y))) with (m := k1); [reflexivity | | exact F1].
  intros x y [Q1 Q2]. now rewrite (alike_edge_text show _ _ Q1), (alike_triangle_text show _ _ Q2).
Qed.

(** Lists of numbers, taken two or three at a time. *)
Fixpoint by_two {X : Type} (l : list X) : list (X * X) :=
  match l with
  | x :: y :: l => (x, y) :: by_two l
  | _ => []
  end.
Fixpoint by_three {X : Type} (l : list X) : list (X * X * X) :=
  match l with
  | x :: y :: z :: l => (x, y, z) :: by_three l
  | _ => []
  end.

Lemma two_ind {X : Type} (P : list X -> Prop) : P [] -> (forall x, P [x]) ->
  (forall x y l, P l -> P (x :: y :: l)) -> forall l, P l.
Proof.
  intros P0 P1 P2 l. assert (Q : P l /\ forall x, P (x :: l)); [|apply Q].
  induction l as [|a l [I1 I2]]; auto.
Qed.
Lemma three_ind {X : Type} (P : list X -> Prop) : P [] -> (forall x, P [x]) -> (forall x y, P [x; y]) ->
  (forall x y z l, P l -> P (x :: y :: z :: l)) -> forall l, P l.
Proof.
  intros P0 P1 P2 P3 l. assert (Q : P l /\ (forall x, P (x :: l)) /\ forall x y, P (x :: y :: l)); [|apply Q].
  induction l as [|a l (I1 & I2 & I3)]; auto.
Qed.

Lemma half_SS : forall n, (S (S n)) / 2 = S (n / 2).
Proof. intro n. replace (S (S n)) with (n + 1 * 2) by lia. rewrite Nat.div_add by lia. lia. Qed.
Lemma third_SSS : forall n, (S (S (S n))) / 3 = S (n / 3).
Proof. intro n. replace (S (S (S n))) with (n + 1 * 3) by lia. rewrite Nat.div_add by lia. lia. Qed.

Lemma each_res_shift : forall f g l, (forall i, f (S i) = g i) -> each_res f (map S l) = each_res g l.
Proof. intros f g l E. induction l as [|i l IH]; cbn; [reflexivity | now rewrite E, IH]. Qed.

Section Data.
  Context {X : Type}.
  Variable show : X -> string.

  Lemma pairs_text : forall l : list X,
    each_res (fun i =>
        let! x := unwrap (nth_error l (i * 2)) in
        let! y := unwrap (nth_error l (i * 2 + 1)) in
        Ok (show x ++ " " ++ show y ++ nl)) (seq 0 (length l / 2)) =
    Ok (each (fun '(x, y) => show x ++ " " ++ show y ++ nl) (by_two l)).
  Proof.
    induction l as [|x|x y l IH] using two_ind; [reflexivity | reflexivity |].
    cbn [length]. rewrite half_SS. cbn [seq each_res by_two each]. rewrite <- seq_shift.
    erewrite each_res_shift; [rewrite IH; reflexivity|]. intro i. reflexivity.
  Qed.

  Lemma triples_text : forall l : list X,
    each_res (fun i =>
        let! a := unwrap (nth_error l (i * 3)) in
        let! b := unwrap (nth_error l (i * 3 + 1)) in
        let! c := unwrap (nth_error l (i * 3 + 2)) in
        Ok (show a ++ " " ++ show b ++ " " ++ show c ++ nl)) (seq 0 (length l / 3)) =
    Ok (each (fun '(a, b, c) => show a ++ " " ++ show b ++ " " ++ show c ++ nl) (by_three l)).
  Proof.
    induction l as [|x|x y|x y z l IH] using three_ind; [reflexivity | reflexivity | reflexivity |].
    cbn [length]. rewrite third_SSS. cbn [seq each_res by_three each]. rewrite <- seq_shift.
    erewrite each_res_shift; [rewrite IH; reflexivity|]. intro i. reflexivity.
  Qed.

  Lemma two_groups : forall l m : list X, by_two l = by_two m <-> groups 2 l = groups 2 m.
  Proof.
    assert (G1 : forall x : X, groups 2 [x] = []) by reflexivity.
    assert (G2 : forall (x y : X) l, groups 2 (x :: y :: l) = x :: y :: groups 2 l).
    { intros x y l. unfold groups. cbn [length]. rewrite half_SS.
      replace (2 * S (length l / 2)) with (S (S (2 * (length l / 2)))) by lia. reflexivity. }
    induction l as [|x|x y l IH] using two_ind; intro m; destruct m as [|a [|b m]]; rewrite ?G1, ?G2; cbn [by_two];
      try (split; [reflexivity || discriminate | reflexivity || discriminate]).
    split; intro E; injection E as -> -> E; f_equal; [f_equal|]; now apply IH.
  Qed.

  Lemma three_groups : forall l m : list X, by_three l = by_three m <-> groups 3 l = groups 3 m.
  Proof.
    assert (G1 : forall x : X, groups 3 [x] = []) by reflexivity.
    assert (G2 : forall x y : X, groups 3 [x; y] = []) by reflexivity.
    assert (G3 : forall (x y z : X) l, groups 3 (x :: y :: z :: l) = x :: y :: z :: groups 3 l).
    { intros x y z l. unfold groups. cbn [length]. rewrite third_SSS.
      replace (3 * S (length l / 3)) with (S (S (S (3 * (length l / 3))))) by lia. reflexivity. }
    induction l as [|x|x y|x y z l IH] using three_ind; intro m; destruct m as [|a [|b [|c m]]]; rewrite ?G1, ?G2, ?G3; cbn [by_three];
      try (split; [reflexivity || discriminate | reflexivity || discriminate]).
    split; intro E; injection E as -> -> -> E; f_equal; [do 2 f_equal|]; now apply IH.
  Qed.

  Variable ok : X -> Prop.
  Hypothesis SP : spells show ok.

  Lemma pair_read : forall x y a b, (ok (fst x) /\ ok (snd x)) -> (ok (fst y) /\ ok (snd y)) ->
    (fun '(x, y) => show x ++ " " ++ show y ++ nl) x ++ a = (fun '(x, y) => show x ++ " " ++ show y ++ nl) y ++ b ->
    x = y /\ a = b.
  Proof.
    destruct SP as [U I].
    intros [x1 x2] [y1 y2] a b [O1 O2] [P1 P2] E. cbn [fst snd] in *. rewrite !app_assoc_s in E. cbn [append] in E.
    apply unmarked_split in E; try solve [marked | now apply U]. destruct E as (E1 & _ & E).
    rewrite ?app_assoc_s in E. cbn [append nl] in E.
    apply unmarked_split in E; try solve [marked | now apply U]. destruct E as (E2 & _ & E).
    apply I in E1; auto. apply I in E2; auto. subst. auto.
  Qed.

  Lemma triple_read : forall x y a b, (ok (fst (fst x)) /\ ok (snd (fst x)) /\ ok (snd x)) -> (ok (fst (fst y)) /\ ok (snd (fst y)) /\ ok (snd y)) ->
    (fun '(a, b, c) => show a ++ " " ++ show b ++ " " ++ show c ++ nl) x ++ a = (fun '(a, b, c) => show a ++ " " ++ show b ++ " " ++ show c ++ nl) y ++ b ->
    x = y /\ a = b.
  Proof.
    destruct SP as [U I].
    intros [[x1 x2] x3] [[y1 y2] y3] a b (O1 & O2 & O3) (P1 & P2 & P3) E. cbn [fst snd] in *. rewrite !app_assoc_s in E. cbn [append] in E.
    apply unmarked_split in E; try solve [marked | now apply U]. destruct E as (E1 & _ & E).
    rewrite ?app_assoc_s in E. cbn [append] in E.
    apply unmarked_split in E; try solve [marked | now apply U]. destruct E as (E2 & _ & E).
    rewrite ?app_assoc_s in E. cbn [append nl] in E.
    apply unmarked_split in E; try solve [marked | now apply U]. destruct E as (E3 & _ & E).
    apply I in E1; auto. apply I in E2; auto. apply I in E3; auto. subst. auto.
  Qed.

  Lemma by_two_ok : forall l, Forall ok l -> Forall (fun x => ok (fst x) /\ ok (snd x)) (by_two l).
  Proof.
    induction l as [|x|x y l IH] using two_ind; intro F; cbn [by_two]; auto.
    inversion F as [|? ? Ox F1]; subst. inversion F1 as [|? ? Oy F2]; subst. auto.
  Qed.
  Lemma by_three_ok : forall l, Forall ok l -> Forall (fun x => ok (fst (fst x)) /\ ok (snd (fst x)) /\ ok (snd x)) (by_three l).
  Proof.
    induction l as [|x|x y|x y z l IH] using three_ind; intro F; cbn [by_three]; auto.
    inversion F as [|? ? Ox F1]; subst. inversion F1 as [|? ? Oy F2]; subst. inversion F2 as [|? ? Oz F3]; subst. auto.
  Qed.
End Data.

Lemma Forall2_eq_list {X : Type} : forall l m : list X, Forall2 eq l m -> l = m.
Proof. intros l m F. induction F; congruence. Qed.

Lemma data_text_ok {A : Arith} : forall (show : T A -> string) show_index cs ts, data_text show show_index cs ts =
  Ok ("Coordinates" ++ nl ++ each (fun '(x, y) => show x ++ " " ++ show y ++ nl) (by_two cs) ++ nl ++ "Triangles" ++ nl ++
      each (fun '(a, b, c) => show_index a ++ " " ++ show_index b ++ " " ++ show_index c ++ nl) (by_three ts)).
Proof. intros. unfold data_text. rewrite pairs_text, triples_text. reflexivity. Qed.

Lemma data_told {A : Arith} : forall (show : T A -> string) show_index ok okn cs ts ds us,
  spells show ok -> spells show_index okn ->
  Forall ok cs -> Forall ok ds -> Forall okn ts -> Forall okn us ->
  (data_text show show_index cs ts = data_text show show_index ds us <->
   groups 2 cs = groups 2 ds /\ groups 3 ts = groups 3 us).
Proof.
  intros show show_index ok okn cs ts ds us S SI OC OD OT OU. rewrite !data_text_ok, <- two_groups, <- three_groups.
  split; [|intros [-> ->]; reflexivity].
  intro E. assert (E' : forall a b : string, Ok a = Ok b -> a = b) by (intros a b Q; now injection Q).
  apply E' in E. apply app_cancel, app_cancel in E.
  apply (each_read _ eq (fun x => ok (fst x) /\ ok (snd x)) (fun s => exists s', s = String newline s')) in E.
  - destruct E as [F E]. apply Forall2_eq_list in F. split; [exact F|].
    apply app_cancel, app_cancel, app_cancel in E.
    rewrite <- (app_nil_s (each _ (by_three ts))), <- (app_nil_s (each _ (by_three us))) in E.
    apply (each_read _ eq (fun x => okn (fst (fst x)) /\ okn (snd (fst x)) /\ okn (snd x)) (fun s => s = "")) in E;
      [destruct E as [G _]; now apply Forall2_eq_list in G | now apply triple_read | | now apply by_three_ok | now apply by_three_ok | reflexivity | reflexivity].
    intros [[x1 x2] x3] a b _ -> Q. rewrite !app_assoc_s in Q. destruct (show_index x1); discriminate Q.
  - now apply pair_read.
  - intros [x1 x2] a b [O1 O2] [s' ->] Q. cbn [fst snd] in *. rewrite !app_assoc_s in Q. cbn [append] in Q.
    change (String newline s') with ("" ++ String newline s') in Q.
    apply unmarked_split in Q; [destruct Q as (_ & Q & _); discriminate Q | now apply S | exact I | marked | marked].
  - now apply by_two_ok.
  - now apply by_two_ok.
  - eexists; reflexivity.
  - eexists; reflexivity.
Qed.

Lemma data_returns {A : Arith} : forall (show : T A -> string) show_index cs ts, exists s, data_text show show_index cs ts = Ok s.
Proof. intros. rewrite data_text_ok. eexists. reflexivity. Qed.

Lemma data_told_exactly {A : Arith} : forall (show : T A -> string) show_index ok okn cs ts ds us,
  spells show ok -> spells show_index okn ->
  Forall ok cs -> Forall ok ds -> Forall okn ts -> Forall okn us ->
  (exists k, length cs = 2 * k) -> (exists k, length ds = 2 * k) -> (exists k, length ts = 3 * k) -> (exists k, length us = 3 * k) ->
  data_text show show_index cs ts = data_text show show_index ds us -> cs = ds /\ ts = us.
Proof.
  intros show show_index ok okn cs ts ds us S SI OC OD OT OU [c LC] [d LD] [t LT] [u LU] E.
  apply (data_told show show_index ok okn) in E; auto. destruct E as [E1 E2]. unfold groups in *.
  rewrite LC, LD in E1. rewrite LT, LU in E2.
  rewrite (Nat.mul_comm 2 c), (Nat.mul_comm 2 d), !Nat.div_mul in E1 by lia. rewrite (Nat.mul_comm 3 t), (Nat.mul_comm 3 u), !Nat.div_mul in E2 by lia.
  rewrite <- LC, <- LD, !firstn_all in E1. rewrite <- LT, <- LU, !firstn_all in E2. auto.
Qed.

(** Concrete spellings for the examples: decimal digits, and three doubles. *)
From Coq Require Import ZArith DecimalString DecimalNat.
From Verif Require Import ArithF Samples.

Definition decimal (n : nat) : string := NilEmpty.string_of_uint (Nat.to_uint n).

Lemma decimal_spells : spells decimal (fun _ => True).
Proof.
  split.
  - intros n _. unfold decimal. induction (Nat.to_uint n) as [|d IH|d IH|d IH|d IH|d IH|d IH|d IH|d IH|d IH|d IH]; cbn; auto;
      (split; [|exact IH]; unfold mark; cbn; intros [C | [C | [C | [C | C]]]]; discriminate C).
  - intros x y _ _ E. unfold decimal in E. apply Unsigned.to_uint_inj.
    apply (f_equal NilEmpty.uint_of_string) in E. rewrite !NilEmpty.usu in E. now injection E.
Qed.

Definition few (x : T ArithF) : Prop := x = fpz 0 \/ x = fpz 4 \/ x = fpq (-3) 2.
Definition show_few (x : T ArithF) : string :=
  if same x (fpz 0) then "0" else if same x (fpz 4) then "4" else "-1.5".

Lemma few_spells : spells show_few few.
Proof.
  assert (E0 : show_few (fpz 0) = "0") by (vm_compute; reflexivity).
  assert (E4 : show_few (fpz 4) = "4") by (vm_compute; reflexivity).
  assert (E3 : show_few (fpq (-3) 2) = "-1.5") by (vm_compute; reflexivity).
  split.
  - intros x [-> | [-> | ->]]; rewrite ?E0, ?E4, ?E3; cbn; unfold mark; cbn; repeat split;
      intros [C | [C | [C | [C | C]]]]; discriminate C.
  - intros x y [-> | [-> | ->]] [-> | [-> | ->]]; rewrite ?E0, ?E4, ?E3; intro E; try reflexivity; discriminate E.
Qed.

Definition few_a : vertex ArithF := pt 0 4.
Definition few_b : vertex ArithF := V (A:=ArithF) (fpz 4) (fpq (-3) 2) false.
Definition few_t : triangle ArithF := Tri few_a few_b ghost_vertex.
Definition few_u : triangle ArithF := Tri few_b few_a ghost_vertex.
Definition few_mesh : triangulation ArithF := Trn [few_t; few_u] [((few_a, few_b), few_t); ((few_b, few_a), few_u)].

Lemma few_mesh_ok : ok_triangulation few few_mesh.
Proof.
  assert (P : ok_vertex few few_a) by (intros _; unfold few; auto).
  assert (Q : ok_vertex few few_b) by (intros _; unfold few; auto).
  assert (G : ok_vertex few (ghost_vertex (A:=ArithF))) by (intro E; discriminate E).
  assert (O1 : ok_triangle few few_t) by (split; [|split]; assumption).
  assert (O2 : ok_triangle few few_u) by (split; [|split]; assumption).
  split.
  - intros t [<- | [<- | []]]; assumption.
  - intros e t [E | [E | []]]; injection E as <- <-; (split; [split|]; assumption).
Qed.

Definition few_text : string :=
"Triangles
((0, 4) - (4, -1.5) - (ghost))
((4, -1.5) - (0, 4) - (ghost))

Adjacency
((0, 4) - (4, -1.5)) ((0, 4) - (4, -1.5) - (ghost))
((4, -1.5) - (0, 4)) ((4, -1.5) - (0, 4) - (ghost))
".

Lemma few_mesh_text : triangulation_text ho_id show_few [] few_mesh = few_text.
Proof. vm_compute. reflexivity. Qed.

Definition few_data_text : string :=
"Coordinates
0 4
4 -1.5

Triangles
0 12 1
".

Lemma few_data : data_text (A:=ArithF) show_few decimal [fpz 0; fpz 4; fpz 4; fpq (-3) 2] [0; 12; 1; 7] = Ok few_data_text.
Proof. vm_compute. reflexivity. Qed.

(** ** The order of the parts *)
Section Order.
  Context {A : Arith} (show : T A -> string) (show_index : nat -> string).
  Lemma vertex_order : exists l r, length l = 2 /\ forall v : vertex A, vghost v = false -> vertex_text show v = weave l [show (vx v); show (vy v)] r.
  Proof. exists ["("; ", "], ")". split; [reflexivity|]. intros v G. unfold vertex_text. rewrite G. cbn [weave append]. reflexivity. Qed.
  Lemma edge_order : exists l r, length l = 2 /\ forall e : edge A, edge_text show e = weave l [vertex_text show (fst e); vertex_text show (snd e)] r.
  Proof. exists ["("; " - "], ")". split; reflexivity. Qed.
  Lemma triangle_order : exists l r, length l = 3 /\ forall t : triangle A, triangle_text show t = weave l [vertex_text show (tv1 t); vertex_text show (tv2 t); vertex_text show (tv3 t)] r.
  Proof. exists ["("; " - "; " - "], ")". split; reflexivity. Qed.
  Lemma pair_order : exists l r, length l = 2 /\ forall x y, data_text show show_index [x; y] [] = Ok (weave l [show x; show y] r).
  Proof.
    exists [("Coordinates" ++ nl)%string; " "%string], (nl ++ nl ++ "Triangles" ++ nl)%string. split; [reflexivity|]. intros x y. unfold data_text. cbn [length Nat.div Nat.divmod fst seq each_res nth_error unwrap bind Nat.mul Nat.add weave].
    f_equal. rewrite !app_assoc_s. reflexivity.
  Qed.
  Lemma triple_order : exists l r, length l = 3 /\ forall i j k, data_text show show_index [] [i; j; k] = Ok (weave l [show_index i; show_index j; show_index k] r).
  Proof.
    exists [("Coordinates" ++ nl ++ nl ++ "Triangles" ++ nl)%string; " "%string; " "%string], nl. split; [reflexivity|]. intros i j k. unfold data_text. cbn [length Nat.div Nat.divmod fst seq each_res nth_error unwrap bind Nat.mul Nat.add weave].
    f_equal. rewrite !app_assoc_s. reflexivity.
  Qed.
End Order.
