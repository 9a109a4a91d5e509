(** P_Fuel.v — a run that ended keeps its result under any larger budget. *)

From Coq Require Import List Arith Bool Lia.
From Verif Require Import Base Arith Geometry Elements Polyline Procedures Refine Triangulator Interface P_Base.
Import ListNotations.

(** [a] ran out of budget or is the same outcome as [b]. *)
Definition rle {X} (a b : res X) : Prop := a = NoFuel \/ a = b.

Lemma rle_refl : forall X (a : res X), rle a a.
Proof. intros X a; right; reflexivity. Qed.

Lemma rle_ok : forall X (a b : res X) x, rle a b -> a = Ok x -> b = Ok x.
Proof. intros X a b x [Hn|He] Ha; congruence. Qed.
Lemma rle_panic : forall X (a b : res X), rle a b -> a = Panic -> b = Panic.
Proof. intros X a b [Hn|He] Ha; congruence. Qed.

Lemma bind_mono : forall X Y (e e' : res X) (k k' : X -> res Y),
  rle e e' -> (forall x, rle (k x) (k' x)) -> rle (bind e k) (bind e' k').
Proof.
  intros X Y e e' k k' [-> | ->] Hk; [left; reflexivity|].
  destruct e' as [x| |]; cbn; [apply Hk|right; reflexivity|right; reflexivity].
Qed.

Lemma filterM_mono : forall X (f f' : X -> res bool) l,
  (forall x, rle (f x) (f' x)) -> rle (filterM f l) (filterM f' l).
Proof.
  intros X f f' l Hf. induction l as [|a l IH]; cbn; [apply rle_refl|].
  apply bind_mono; [apply Hf|]. intros b. apply bind_mono; [exact IH|]. intros r; apply rle_refl.
Qed.

Lemma foldM_mono : forall X S (f f' : S -> X -> res S) l s,
  (forall s x, rle (f s x) (f' s x)) -> rle (foldM f s l) (foldM f' s l).
Proof.
  intros X S f f' l. induction l as [|a l IH]; intros s Hf; cbn; [apply rle_refl|].
  apply bind_mono; [apply Hf|]. intros s'. apply IH, Hf.
Qed.

Create HintDb mono.

Ltac mono :=
  repeat first
    [ progress intros
    | match goal with
      | |- rle ?x ?x => apply rle_refl
      | |- rle NoFuel _ => left; reflexivity
      | |- rle (bind _ _) (bind _ _) => apply bind_mono
      | |- rle (filterM _ _) (filterM _ _) => apply filterM_mono
      | |- rle (foldM _ _ _) (foldM _ _ _) => apply foldM_mono
      | |- rle (match ?x with _ => _ end) (match ?x with _ => _ end) => destruct x
      | |- rle (let '(_, _) := ?x in _) _ => destruct x
      end
    | solve [auto with mono]
    | match goal with Hle : _ <= _, IH : _ |- _ => solve [apply IH; auto; lia] end ].

(** Case split on two fuels related by [<=]. *)
Ltac fuel2 n Hle :=
  let IH := fresh "IH" in
  induction n as [|n IH]; intros n' Hle; [intros; left; reflexivity|];
  destruct n' as [|n']; [exfalso; lia|]; apply le_S_n in Hle.

Section Fuel.
  Context {A : Arith} (H : HashOrder).

  Lemma arrange_extend_mono : forall n n', n <= n' -> forall p ht th h t,
    rle (arrange_extend (A:=A) H n p ht th h t) (arrange_extend H n' p ht th h t).
  Proof. fuel2 n Hle. intros p ht th h t. cbn [arrange_extend]. mono. Qed.
  Hint Resolve arrange_extend_mono : mono.
  Lemma arrange_loop_mono : forall n n', n <= n' -> forall p ht th acc,
    rle (arrange_loop (A:=A) H n p ht th acc) (arrange_loop H n' p ht th acc).
  Proof. fuel2 n Hle. intros p ht th acc. cbn [arrange_loop]. mono. Qed.
  Hint Resolve arrange_loop_mono : mono.
  Lemma edge_arrange_mono : forall n n', n <= n' -> forall p es,
    rle (edge_arrange (A:=A) H n p es) (edge_arrange H n' p es).
  Proof. intros. unfold edge_arrange. mono. Qed.
  Hint Resolve edge_arrange_mono : mono.
  Lemma decompose_walk_mono : forall n n', n <= n' -> forall m t l acc,
    rle (decompose_walk (A:=A) n m t l acc) (decompose_walk n' m t l acc).
  Proof. fuel2 n Hle. intros m t l acc. cbn [decompose_walk]. mono. Qed.
  Hint Resolve decompose_walk_mono : mono.
  Lemma decompose_mono : forall n n', n <= n' -> forall p b e,
    rle (decompose (A:=A) H n p b e) (decompose H n' p b e).
  Proof. intros. unfold decompose. mono. Qed.
  Hint Resolve decompose_mono : mono.
  Lemma arrange_walk_mono : forall n n', n <= n' -> forall m h t acc,
    rle (arrange_walk (A:=A) n m h t acc) (arrange_walk n' m h t acc).
  Proof. fuel2 n Hle. intros m h t acc. cbn [arrange_walk]. mono. Qed.
  Hint Resolve arrange_walk_mono : mono.
  Lemma poly_arrange_mono : forall n n', n <= n' -> forall p es,
    rle (poly_arrange (A:=A) H n p es) (poly_arrange H n' p es).
  Proof. intros. unfold poly_arrange. mono. Qed.
  Hint Resolve poly_arrange_mono : mono.
  Lemma split_loop_mono : forall n n', n <= n' -> forall aux d,
    rle (split_loop (A:=A) n aux d) (split_loop n' aux d).
  Proof. fuel2 n Hle. intros aux d. cbn [split_loop]. mono. Qed.
  Hint Resolve split_loop_mono : mono.
  Lemma split_intersections_mono : forall n n', n <= n' -> forall l,
    rle (split_intersections (A:=A) n l) (split_intersections n' l).
  Proof. intros. unfold split_intersections. mono. Qed.
  Hint Resolve split_intersections_mono : mono.
  Lemma poly_continence_mono : forall n n', n <= n' -> forall p1 p2,
    rle (poly_continence (A:=A) n p1 p2) (poly_continence n' p1 p2).
  Proof. intros. unfold poly_continence. mono. Qed.
  Hint Resolve poly_continence_mono : mono.
  Lemma cancel_loop_mono : forall n n', n <= n' -> forall p1 p2 a b c,
    rle (cancel_loop (A:=A) n p1 p2 a b c) (cancel_loop n' p1 p2 a b c).
  Proof. fuel2 n Hle. intros p1 p2 a b c. cbn [cancel_loop]. mono. Qed.
  Hint Resolve cancel_loop_mono : mono.
  Lemma cancel_opposed_mono : forall n n', n <= n' -> forall p1 p2 s,
    rle (cancel_opposed (A:=A) n p1 p2 s) (cancel_opposed n' p1 p2 s).
  Proof. intros. unfold cancel_opposed. mono. Qed.
  Hint Resolve cancel_opposed_mono : mono.
  Lemma chain_loop_mono : forall n n', n <= n' -> forall p d c poss,
    rle (chain_loop (A:=A) H n p d c poss) (chain_loop H n' p d c poss).
  Proof. fuel2 n Hle. intros p d c poss. cbn [chain_loop]. mono. Qed.
  Hint Resolve chain_loop_mono : mono.
  Lemma build_loop_mono : forall n n', n <= n' -> forall p a b c,
    rle (build_loop (A:=A) H n p a b c) (build_loop H n' p a b c).
  Proof. fuel2 n Hle. intros p a b c. cbn [build_loop]. mono. Qed.
  Hint Resolve build_loop_mono : mono.
  Lemma poly_intersection_mono : forall n n', n <= n' -> forall p a b,
    rle (poly_intersection (A:=A) H n p a b) (poly_intersection H n' p a b).
  Proof. intros. unfold poly_intersection. mono. Qed.
  Hint Resolve poly_intersection_mono : mono.
  Lemma union_loop_mono : forall n n', n <= n' -> forall p a b,
    rle (union_loop (A:=A) H n p a b) (union_loop H n' p a b).
  Proof. fuel2 n Hle. intros p a b. cbn [union_loop]. mono. Qed.
  Hint Resolve union_loop_mono : mono.
  Lemma poly_union_mono : forall n n', n <= n' -> forall p a b,
    rle (poly_union (A:=A) H n p a b) (poly_union H n' p a b).
  Proof. intros. unfold poly_union. mono. Qed.
  Hint Resolve poly_union_mono : mono.
  Lemma poly_subtraction_mono : forall n n', n <= n' -> forall p a b,
    rle (poly_subtraction (A:=A) H n p a b) (poly_subtraction H n' p a b).
  Proof. intros. unfold poly_subtraction. mono. Qed.
  Hint Resolve poly_subtraction_mono : mono.
  Lemma triangles_hull_mono : forall n n', n <= n' -> forall p ts,
    rle (triangles_hull (A:=A) H n p ts) (triangles_hull H n' p ts).
  Proof. intros. unfold triangles_hull. mono. Qed.
  Hint Resolve triangles_hull_mono : mono.

  (** procedures *)
  Lemma inside_boundary_mono : forall n n', n <= n' -> forall b p2,
    rle (inside_boundary (A:=A) n b p2) (inside_boundary n' b p2).
  Proof. intros. unfold inside_boundary. mono. Qed.
  Hint Resolve inside_boundary_mono : mono.
  Lemma outside_holes_mono : forall n n', n <= n' -> forall p hs p2,
    rle (outside_holes (A:=A) H n p hs p2) (outside_holes H n' p hs p2).
  Proof. intros. unfold outside_holes. mono. Qed.
  Hint Resolve outside_holes_mono : mono.
  Lemma may_insert_mono : forall n n', n <= n' -> forall p t v b hs,
    rle (may_insert_triangle (A:=A) H n p t v b hs) (may_insert_triangle H n' p t v b hs).
  Proof. intros. unfold may_insert_triangle. mono. Qed.
  Hint Resolve may_insert_mono : mono.
  Lemma split_conflicts_mono : forall vs n n', n <= n' -> forall p t b hs,
    rle (split_conflicts (A:=A) H n p t vs b hs) (split_conflicts H n' p t vs b hs).
  Proof. induction vs as [|v vs IHvs]; intros n n' Hle p t b hs; cbn [split_conflicts]; mono. Qed.
  Hint Resolve split_conflicts_mono : mono.
  Lemma distribute_conflicts_mono : forall n n', n <= n' -> forall p t cm vs b hs,
    rle (distribute_conflicts (A:=A) H n p t cm vs b hs) (distribute_conflicts H n' p t cm vs b hs).
  Proof. intros. unfold distribute_conflicts. mono. Qed.
  Hint Resolve distribute_conflicts_mono : mono.
  Lemma cavity_loop_mono : forall n n', n <= n' -> forall p c b hs v pend s,
    rle (cavity_loop (A:=A) H n p c b hs v pend s) (cavity_loop H n' p c b hs v pend s).
  Proof. fuel2 n Hle. intros p c b hs v pend s. cbn [cavity_loop]. mono. Qed.
  Hint Resolve cavity_loop_mono : mono.
  Lemma solve_loop_mono : forall n n', n <= n' -> forall p c b hs s,
    rle (solve_loop (A:=A) H n p c b hs s) (solve_loop H n' p c b hs s).
  Proof. fuel2 n Hle. intros p c b hs s. cbn [solve_loop]. mono. Qed.
  Hint Resolve solve_loop_mono : mono.
  Lemma solve_conflicts_mono : forall n n', n <= n' -> forall p tr cm rem c b hs,
    rle (solve_conflicts (A:=A) H n p tr cm rem c b hs) (solve_conflicts H n' p tr cm rem c b hs).
  Proof. intros. unfold solve_conflicts. mono. Qed.
  Hint Resolve solve_conflicts_mono : mono.
  Lemma distribute_all_mono : forall ts n n', n <= n' -> forall p cm vs b hs,
    rle (distribute_all (A:=A) H n p ts cm vs b hs) (distribute_all H n' p ts cm vs b hs).
  Proof. induction ts as [|t ts IHts]; intros n n' Hle p cm vs b hs; cbn [distribute_all]; mono. Qed.
  Hint Resolve distribute_all_mono : mono.
  Lemma vertices_include_mono : forall n n', n <= n' -> forall p tr vs c b hs,
    rle (vertices_include (A:=A) H n p tr vs c b hs) (vertices_include H n' p tr vs c b hs).
  Proof. intros. unfold vertices_include. mono. Qed.
  Hint Resolve vertices_include_mono : mono.
  Lemma flood_distribute_mono : forall n n', n <= n' -> forall p tr vi pe cm vs b hs,
    rle (flood_distribute (A:=A) H n p tr vi pe cm vs b hs) (flood_distribute H n' p tr vi pe cm vs b hs).
  Proof. fuel2 n Hle. intros p tr vi pe cm vs b hs. cbn [flood_distribute]. mono. Qed.
  Hint Resolve flood_distribute_mono : mono.
  Lemma distribute_over_mono : forall n n', n <= n' -> forall p tr t vs b hs,
    rle (distribute_over_triangulation (A:=A) H n p tr t vs b hs)
        (distribute_over_triangulation H n' p tr t vs b hs).
  Proof. intros. unfold distribute_over_triangulation. mono. Qed.
  Hint Resolve distribute_over_mono : mono.
  Lemma flood_fill_mono : forall n n', n <= n' -> forall fr pe tr,
    rle (flood_fill (A:=A) n fr pe tr) (flood_fill n' fr pe tr).
  Proof. fuel2 n Hle. intros fr pe tr. cbn [flood_fill]. mono. Qed.
  Hint Resolve flood_fill_mono : mono.
  Lemma boundary_include_mono : forall n n', n <= n' -> forall p tr b c,
    rle (boundary_include (A:=A) H n p tr b c) (boundary_include H n' p tr b c).
  Proof. intros. unfold boundary_include. mono. Qed.
  Hint Resolve boundary_include_mono : mono.
  Lemma conflicts_segment_mono : forall n n', n <= n' -> forall s t,
    rle (conflicts_segment (A:=A) n s t) (conflicts_segment n' s t).
  Proof. intros. unfold conflicts_segment. mono. Qed.
  Hint Resolve conflicts_segment_mono : mono.
  Lemma segment_conflicts_mono : forall n n', n <= n' -> forall tr s c,
    rle (segment_conflicts (A:=A) n tr s c) (segment_conflicts n' tr s c).
  Proof. intros. unfold segment_conflicts. mono. Qed.
  Hint Resolve segment_conflicts_mono : mono.
  Lemma segment_include_mono : forall n n', n <= n' -> forall p tr s c,
    rle (segment_include (A:=A) H n p tr s c) (segment_include H n' p tr s c).
  Proof. intros. unfold segment_include. mono. Qed.
  Hint Resolve segment_include_mono : mono.
  Lemma insert_missing_mono : forall n n', n <= n' -> forall p ss c tr,
    rle (insert_missing (A:=A) H n p ss c tr) (insert_missing H n' p ss c tr).
  Proof. fuel2 n Hle. intros p ss c tr. cbn [insert_missing]. mono. Qed.
  Hint Resolve insert_missing_mono : mono.
  Lemma hole_include_mono : forall n n', n <= n' -> forall p tr h c,
    rle (hole_include (A:=A) H n p tr h c) (hole_include H n' p tr h c).
  Proof. intros. unfold hole_include. mono. Qed.
  Hint Resolve hole_include_mono : mono.

  (** refinement *)
  Lemma split_segment_mono : forall n n', n <= n' -> forall p tr s c b hs,
    rle (split_segment (A:=A) H n p tr s c b hs) (split_segment H n' p tr s c b hs).
  Proof. intros. unfold split_segment. mono. Qed.
  Hint Resolve split_segment_mono : mono.
  Lemma unencroach_loop_mono : forall n n', n <= n' -> forall p c b hs pe tr vs ne inc del,
    rle (unencroach_loop (A:=A) H n p c b hs pe tr vs ne inc del)
        (unencroach_loop H n' p c b hs pe tr vs ne inc del).
  Proof. fuel2 n Hle. intros p c b hs pe tr vs ne inc del. cbn [unencroach_loop]. mono. Qed.
  Hint Resolve unencroach_loop_mono : mono.
  Lemma unencroach_segment_mono : forall n n', n <= n' -> forall p tr e vs c b hs,
    rle (unencroach_segment (A:=A) H n p tr e vs c b hs) (unencroach_segment H n' p tr e vs c b hs).
  Proof. intros. unfold unencroach_segment. mono. Qed.
  Hint Resolve unencroach_segment_mono : mono.
  Lemma unencroach_all_mono : forall n n', n <= n' -> forall p c b hs em tr sm inc del,
    rle (unencroach_all (A:=A) H n p c b hs em tr sm inc del)
        (unencroach_all H n' p c b hs em tr sm inc del).
  Proof. fuel2 n Hle. intros p c b hs em tr sm inc del. cbn [unencroach_all]. mono. Qed.
  Hint Resolve unencroach_all_mono : mono.
  Lemma unencroach_mono : forall n n', n <= n' -> forall p tr c b hs,
    rle (unencroach (A:=A) H n p tr c b hs) (unencroach H n' p tr c b hs).
  Proof. intros. unfold unencroach. mono. Qed.
  Hint Resolve unencroach_mono : mono.
  Lemma try_circumcenter_mono : forall n n', n <= n' -> forall p tr t c b hs,
    rle (try_circumcenter (A:=A) H n p tr t c b hs) (try_circumcenter H n' p tr t c b hs).
  Proof. intros. unfold try_circumcenter. mono. Qed.
  Hint Resolve try_circumcenter_mono : mono.
  Lemma split_encroached_mono : forall n n', n <= n' -> forall prm b hs p e st,
    rle (split_encroached (A:=A) H n prm b hs p e st) (split_encroached H n' prm b hs p e st).
  Proof. intros n n' Hle prm b hs p e [[[[tr vs] c] sm] q]. unfold split_encroached. mono. Qed.
  Hint Resolve split_encroached_mono : mono.
  Lemma split_encroached_all_mono : forall es n n', n <= n' -> forall p prm b hs st,
    rle (split_encroached_all (A:=A) H n p prm b hs es st) (split_encroached_all H n' p prm b hs es st).
  Proof. induction es as [|e es IHes]; intros n n' Hle p prm b hs st; cbn [split_encroached_all]; mono. Qed.
  Hint Resolve split_encroached_all_mono : mono.
  Lemma split_loop_irregular_mono : forall n n', n <= n' -> forall p prm b hs tr c sm i l,
    rle (split_loop_irregular (A:=A) H n p prm b hs tr c sm i l)
        (split_loop_irregular H n' p prm b hs tr c sm i l).
  Proof. fuel2 n Hle. intros p prm b hs tr c sm i l. cbn [split_loop_irregular]. mono. Qed.
  Hint Resolve split_loop_irregular_mono : mono.
  Lemma split_irregular_mono : forall n n', n <= n' -> forall p prm tr c b hs,
    rle (split_irregular (A:=A) H n p prm tr c b hs) (split_irregular H n' p prm tr c b hs).
  Proof. intros. unfold split_irregular. mono. Qed.
  Hint Resolve split_irregular_mono : mono.

  (** triangulator *)
  Lemma segment_rejected_mono : forall n n', n <= n' -> forall t s,
    rle (segment_rejected (A:=A) n t s) (segment_rejected n' t s).
  Proof. intros. unfold segment_rejected. mono. Qed.
  Hint Resolve segment_rejected_mono : mono.
  Lemma absorb_loop_mono : forall n n', n <= n' -> forall p aux vs acc,
    rle (absorb_loop (A:=A) H n p aux vs acc) (absorb_loop H n' p aux vs acc).
  Proof. fuel2 n Hle. intros p aux vs acc. cbn [absorb_loop]. mono. Qed.
  Hint Resolve absorb_loop_mono : mono.
  Lemma insert_segments_mono : forall n n', n <= n' -> forall p t ss,
    rle (insert_segments (A:=A) H n p t ss) (insert_segments H n' p t ss).
  Proof. intros. unfold insert_segments. mono. Qed.
  Hint Resolve insert_segments_mono : mono.
  Lemma hole_conflicts_mono : forall n n', n <= n' -> forall t h,
    rle (hole_conflicts (A:=A) n t h) (hole_conflicts n' t h).
  Proof. intros. unfold hole_conflicts. mono. Qed.
  Hint Resolve hole_conflicts_mono : mono.
  Lemma hole_segment_conflicts_mono : forall n n', n <= n' -> forall t h,
    rle (hole_segment_conflicts (A:=A) n t h) (hole_segment_conflicts n' t h).
  Proof. intros. unfold hole_segment_conflicts. mono. Qed.
  Hint Resolve hole_segment_conflicts_mono : mono.
  Lemma insert_hole_mono : forall n n', n <= n' -> forall t h,
    rle (insert_hole (A:=A) n t h) (insert_hole n' t h).
  Proof. intros. unfold insert_hole. mono. Qed.
  Hint Resolve insert_hole_mono : mono.
  Lemma refine_mono : forall n n', n <= n' -> forall p t prm,
    rle (refine (A:=A) H n p t prm) (refine H n' p t prm).
  Proof. intros. unfold refine. mono. Qed.
  Hint Resolve refine_mono : mono.
  Lemma include_holes_mono : forall hs n n', n <= n' -> forall p tr c,
    rle (include_holes (A:=A) H n p hs tr c) (include_holes H n' p hs tr c).
  Proof. induction hs as [|h hs IHhs]; intros n n' Hle p tr c; cbn [include_holes]; mono. Qed.
  Hint Resolve include_holes_mono : mono.
  Lemma include_segments_mono : forall ss n n', n <= n' -> forall p tr c,
    rle (include_segments (A:=A) H n p ss tr c) (include_segments H n' p ss tr c).
  Proof. induction ss as [|s ss IHss]; intros n n' Hle p tr c; cbn [include_segments]; mono. Qed.
  Hint Resolve include_segments_mono : mono.
  Lemma triangulate_mono : forall n n', n <= n' -> forall p t,
    rle (triangulate (A:=A) H n p t) (triangulate H n' p t).
  Proof. intros. unfold triangulate. mono. Qed.
  Hint Resolve triangulate_mono : mono.

  (** front end *)
  Lemma parse_polyline_mono : forall n n', n <= n' -> forall a,
    rle (parse_polyline (A:=A) n a) (parse_polyline n' a).
  Proof. intros. unfold parse_polyline. mono. Qed.
  Hint Resolve parse_polyline_mono : mono.
  Lemma parse_action_mono : forall n n', n <= n' -> forall d a,
    rle (parse_action (A:=A) n d a) (parse_action n' d a).
  Proof. intros. unfold parse_action. mono. Qed.
  Hint Resolve parse_action_mono : mono.
  Lemma parse_actions_mono : forall acts n n', n <= n' -> forall d,
    rle (parse_actions (A:=A) n acts d) (parse_actions n' acts d).
  Proof. induction acts as [|a acts IHa]; intros n n' Hle d; cbn [parse_actions]; mono. Qed.
  Hint Resolve parse_actions_mono : mono.
  Lemma interpret_mono : forall n n', n <= n' -> forall i,
    rle (interpret (A:=A) n i) (interpret n' i).
  Proof. intros. unfold interpret. mono. Qed.
  Hint Resolve interpret_mono : mono.
  Lemma unite_one_mono : forall cs n n', n <= n' -> forall p b incs,
    rle (unite_one (A:=A) H n p b cs incs) (unite_one H n' p b cs incs).
  Proof. induction cs as [|c cs IHc]; intros n n' Hle p b incs; cbn [unite_one]; mono. Qed.
  Hint Resolve unite_one_mono : mono.
  Lemma unite_all_mono : forall k n n', n <= n' -> forall p b incs,
    rle (unite_all (A:=A) H n p k b incs) (unite_all H n' p k b incs).
  Proof. induction k as [|k IHk]; intros n n' Hle p b incs; cbn [unite_all]; mono. Qed.
  Hint Resolve unite_all_mono : mono.
  Lemma subtract_all_mono : forall rs n n', n <= n' -> forall p b un,
    rle (subtract_all (A:=A) H n p b rs un) (subtract_all H n' p b rs un).
  Proof. induction rs as [|r rs IHr]; intros n n' Hle p b un; cbn [subtract_all]; mono. Qed.
  Hint Resolve subtract_all_mono : mono.
  Lemma domain_boundary_mono : forall n n', n <= n' -> forall p i r,
    rle (domain_boundary (A:=A) H n p i r) (domain_boundary H n' p i r).
  Proof. intros. unfold domain_boundary. mono. Qed.
  Hint Resolve domain_boundary_mono : mono.
  Lemma merge_hole_mono : forall cs n n', n <= n' -> forall p r hs,
    rle (merge_hole (A:=A) H n p r cs hs) (merge_hole H n' p r cs hs).
  Proof. induction cs as [|c cs IHc]; intros n n' Hle p r hs; cbn [merge_hole]; mono. Qed.
  Hint Resolve merge_hole_mono : mono.
  Lemma holes_loop_mono : forall n n', n <= n' -> forall p b rs hs,
    rle (holes_loop (A:=A) H n p b rs hs) (holes_loop H n' p b rs hs).
  Proof. fuel2 n Hle. intros p b rs hs. cbn [holes_loop]. mono. Qed.
  Hint Resolve holes_loop_mono : mono.
  Lemma domain_holes_mono : forall n n', n <= n' -> forall p b rs,
    rle (domain_holes (A:=A) H n p b rs) (domain_holes H n' p b rs).
  Proof. intros. unfold domain_holes. mono. Qed.
  Hint Resolve domain_holes_mono : mono.
  Lemma insert_holes_mono : forall hs n n', n <= n' -> forall t,
    rle (insert_holes (A:=A) n hs t) (insert_holes n' hs t).
  Proof. induction hs as [|h hs IHhs]; intros n n' Hle t; cbn [insert_holes]; mono. Qed.
  Hint Resolve insert_holes_mono : mono.
  Lemma parse_mono : forall n n', n <= n' -> forall p i,
    rle (parse (A:=A) H n p i) (parse H n' p i).
  Proof. intros. unfold parse. mono. Qed.
  Hint Resolve parse_mono : mono.
  Lemma run_main_mono : forall n n', n <= n' -> forall p i,
    rle (run_main (A:=A) H n p i) (run_main H n' p i).
  Proof. intros. unfold run_main. mono. Qed.
End Fuel.
