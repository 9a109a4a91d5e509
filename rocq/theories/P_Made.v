(** P_Made.v — every mesh is made by including and removing triangles. *)

From Coq Require Import List ZArith Lia Bool Permutation.
From Verif Require Import Base Arith Geometry Elements Polyline Procedures Refine Triangulator Interface Spec SpecI
  P_Base P_Trn P_Trn2 P_Interface.
Import ListNotations.

Section Made.
  Context {A : Arith} (H : HashOrder).
  Notation vertex := (vertex A).
  Notation edge := (edge A).
  Notation triangle := (triangle A).
  Notation triangulation := (triangulation A).
  Notation polyline := (polyline A).
  Notation triangulator := (triangulator A).

  (** A property that including a triangle and removing one keep. *)
  Variable Q : triangulation -> Prop.
  Hypothesis Qi : forall t tr, Q tr -> Q (incl_tri t tr).
  Hypothesis Qr : forall t tr, Q tr -> Q (rem_tri t tr).

  Ltac step Hr := apply bind_ok in Hr; let x := fresh "x" in let E := fresh "E" in destruct Hr as (x & E & Hr); cbv beta in Hr.

  Lemma fold_Qi : forall (l : list triangle) tr, Q tr -> Q (fold_left (fun tr t => incl_tri t tr) l tr).
  Proof. induction l as [|t l IH]; intros tr HQ; [exact HQ|]. cbn [fold_left]. apply IH, Qi, HQ. Qed.
  Lemma fold_Qr : forall (l : list triangle) tr, Q tr -> Q (fold_left (fun tr t => rem_tri t tr) l tr).
  Proof. induction l as [|t l IH]; intros tr HQ; [exact HQ|]. cbn [fold_left]. apply IH, Qr, HQ. Qed.

  Lemma cavity_Q : forall fuel p cs bd hs v pending (s s' : solve_state (A:=A)), cavity_loop H fuel p cs bd hs v pending s = Ok s' -> Q (ss_tr s) -> Q (ss_tr s').
  Proof.
    induction fuel as [|fuel IH]; intros p cs bd hs v pending s s' Hr HQ; [discriminate|]. cbn [cavity_loop] in Hr. destruct pending as [|e pending]; [injection Hr as <-; exact HQ|].
    step Hr. step Hr. destruct (is_conflicting x v && negb (is_constrained cs e) && x0).
    - apply (IH _ _ _ _ _ _ _ _ Hr). cbn [ss_tr]. apply Qr, HQ.
    - step Hr. destruct x1 as [cm' rem']. apply (IH _ _ _ _ _ _ _ _ Hr). cbn [ss_tr]. apply Qi, HQ.
  Qed.
  Lemma solve_Q : forall fuel p cs bd hs (s s' : solve_state (A:=A)), solve_loop H fuel p cs bd hs s = Ok s' -> Q (ss_tr s) -> Q (ss_tr s').
  Proof.
    induction fuel as [|fuel IH]; intros p cs bd hs s s' Hr HQ; [discriminate|]. cbn [solve_loop] in Hr. destruct (ho H (1 :: p) _ (map fst (ss_cm s))) as [|t ts]; [injection Hr as <-; exact HQ|].
    step Hr. step Hr. step Hr. apply (IH _ _ _ _ _ _ Hr), (cavity_Q _ _ _ _ _ _ _ _ _ E1). cbn [ss_tr]. apply Qr, HQ.
  Qed.
  Lemma vertices_Q : forall fuel p (tr : triangulation) vs cs bd hs tr' inc del, vertices_include H fuel p tr vs cs bd hs = Ok (tr', inc, del) -> Q tr -> Q tr'.
  Proof.
    intros fuel p tr vs cs bd hs tr' inc del Hr HQ. unfold vertices_include in Hr. step Hr. destruct x as [cm rem]. step Hr. injection Hr as <- <- <-.
    apply (solve_Q _ _ _ _ _ _ _ E0). exact HQ.
  Qed.
  Lemma behind_Q : forall fr es (tr : triangulation) pending tr' pending', remove_behind fr es tr pending = (tr', pending') -> Q tr -> Q tr'.
  Proof.
    intros fr es. induction es as [|e es IH]; intros tr pending tr' pending' Hr HQ; cbn [remove_behind] in Hr; [injection Hr as <- <-; exact HQ|].
    destruct (adj_get e tr); apply (IH _ _ _ _ Hr); [apply Qr|]; exact HQ.
  Qed.
  Lemma flood_Q : forall fuel fr pending (tr tr' : triangulation), flood_fill fuel fr pending tr = Ok tr' -> Q tr -> Q tr'.
  Proof.
    induction fuel as [|fuel IH]; intros fr pending tr tr' Hr HQ; [discriminate|]. cbn [flood_fill] in Hr. destruct pending as [|e pending]; [injection Hr as <-; exact HQ|].
    destruct (adj_get e tr); apply (IH _ _ _ _ Hr); [apply Qr|]; exact HQ.
  Qed.
  Lemma ghosts_Q : forall (es : list edge) (tr : triangulation), Q tr -> Q (include_ghosts es tr).
  Proof. unfold include_ghosts. induction es as [|e es IH]; intros tr HQ; [exact HQ|]. cbn [fold_left]. apply IH, Qi, HQ. Qed.
  Lemma boundary_Q : forall fuel p (tr : triangulation) b cs tr', boundary_include H fuel p tr b cs = Ok tr' -> Q tr -> Q tr'.
  Proof.
    intros fuel p tr b cs tr' Hr HQ. unfold boundary_include in Hr. step Hr. step Hr. destruct x0 as [[tr1 inc] del].
    destruct (remove_behind _ _ tr1 []) as [tr2 pending] eqn:Eb. step Hr. injection Hr as <-.
    apply ghosts_Q, (flood_Q _ _ _ _ _ E1), (behind_Q _ _ _ _ _ _ Eb), (vertices_Q _ _ _ _ _ _ _ _ _ _ E0), HQ.
  Qed.
  Lemma segment_Q : forall fuel p (tr : triangulation) s cs tr', segment_include H fuel p tr s cs = Ok tr' -> Q tr -> Q tr'.
  Proof.
    intros fuel p tr s cs tr' Hr HQ. unfold segment_include in Hr. step Hr. step Hr. step Hr. step Hr. step Hr. destruct x3 as [[st2 inc] del]. injection Hr as <-.
    apply fold_Qi, fold_Qr, HQ.
  Qed.
  Lemma missing_Q : forall fuel p segs cs (tr tr' : triangulation), insert_missing H fuel p segs cs tr = Ok tr' -> Q tr -> Q tr'.
  Proof.
    induction fuel as [|fuel IH]; intros p segs cs tr tr' Hr HQ; [discriminate|]. cbn [insert_missing] in Hr. destruct (find _ _) as [e|]; [|injection Hr as <-; exact HQ].
    step Hr. apply (IH _ _ _ _ _ Hr), (segment_Q _ _ _ _ _ _ E), HQ.
  Qed.
  Lemma open_Q : forall fr es (tr : triangulation) pending tr' pending', open_hole fr es tr pending = (tr', pending') -> Q tr -> Q tr'.
  Proof.
    intros fr es. induction es as [|e es IH]; intros tr pending tr' pending' Hr HQ; cbn [open_hole] in Hr; [injection Hr as <- <-; exact HQ|].
    destruct (adj_get e tr); apply (IH _ _ _ _ Hr), Qi; [apply Qr|]; exact HQ.
  Qed.
  Lemma hole_Q : forall fuel p (tr : triangulation) h cs tr', hole_include H fuel p tr h cs = Ok tr' -> Q tr -> Q tr'.
  Proof.
    intros fuel p tr h cs tr' Hr HQ. unfold hole_include in Hr. step Hr. step Hr. destruct x0 as [[tr1 inc] del]. step Hr.
    destruct (open_hole _ _ _ _) as [tr3 pending] eqn:Eo.
    apply (flood_Q _ _ _ _ _ Hr), (open_Q _ _ _ _ _ _ Eo), (missing_Q _ _ _ _ _ _ E1), (vertices_Q _ _ _ _ _ _ _ _ _ _ E0), HQ.
  Qed.
  Lemma holes_Q : forall fuel hs p (tr : triangulation) cs tr' cs', include_holes H fuel p hs tr cs = Ok (tr', cs') -> Q tr -> Q tr'.
  Proof.
    intros fuel hs. induction hs as [|h hs IH]; intros p tr cs tr' cs' Hr HQ; cbn [include_holes] in Hr; [injection Hr as <- <-; exact HQ|].
    step Hr. step Hr. apply (IH _ _ _ _ _ Hr), (hole_Q _ _ _ _ _ _ E), HQ.
  Qed.
  Lemma segments_Q : forall fuel ss p (tr : triangulation) cs tr' cs', include_segments H fuel p ss tr cs = Ok (tr', cs') -> Q tr -> Q tr'.
  Proof.
    intros fuel ss. induction ss as [|s ss IH]; intros p tr cs tr' cs' Hr HQ; cbn [include_segments] in Hr; [injection Hr as <- <-; exact HQ|].
    step Hr. apply (IH _ _ _ _ _ Hr), (segment_Q _ _ _ _ _ _ E), HQ.
  Qed.
  Lemma triangulate_Q : Q trn_new -> forall fuel p (t t' : triangulator), triangulate H fuel p t = Ok t' -> Q (t_trn t').
  Proof.
    intros HQ fuel p t t' Hr. unfold triangulate in Hr. step Hr. step Hr. step Hr. step Hr. step Hr. destruct x3 as [tr2 c2]. step Hr. destruct x3 as [tr3 c3]. step Hr. destruct x3 as [[tr4 inc] del].
    injection Hr as <-. cbn [t_trn with_triangulation].
    apply (vertices_Q _ _ _ _ _ _ _ _ _ _ E5), (segments_Q _ _ _ _ _ _ _ E4), (holes_Q _ _ _ _ _ _ _ E3), (boundary_Q _ _ _ _ _ _ E1). unfold from_initial_segment. apply Qi, Qi, HQ.
  Qed.

  Lemma unencroach_loop_Q : forall fuel p cs bd hs pending (tr : triangulation) vs new inc del tr' vs' new' inc' del',
    unencroach_loop H fuel p cs bd hs pending tr vs new inc del = Ok (tr', vs', new', inc', del') -> Q tr -> Q tr'.
  Proof.
    induction fuel as [|fuel IH]; intros p cs bd hs pending tr vs new inc del tr' vs' new' inc' del' Hr HQ; [discriminate|]. cbn [unencroach_loop] in Hr. destruct pending as [|e pending]; [injection Hr as <- <- <- <- <-; exact HQ|].
    step Hr. destruct x as [[h1 h2] [[tr1 nt] ot]]. apply (IH _ _ _ _ _ _ _ _ _ _ _ _ _ _ _ Hr). unfold split_segment in E. step E. destruct x as [[tr2 i2] d2]. injection E as <- <- <- <- <-.
    apply (vertices_Q _ _ _ _ _ _ _ _ _ _ E0), HQ.
  Qed.
  Lemma unencroach_all_Q : forall fuel p cs bd hs em (tr : triangulation) sm inc del tr' sm' inc' del',
    unencroach_all H fuel p cs bd hs em tr sm inc del = Ok (tr', sm', inc', del') -> Q tr -> Q tr'.
  Proof.
    induction fuel as [|fuel IH]; intros p cs bd hs em tr sm inc del tr' sm' inc' del' Hr HQ; [discriminate|]. cbn [unencroach_all] in Hr. destruct (ho H (1 :: p) _ (map fst em)) as [|e es]; [injection Hr as <- <- <- <-; exact HQ|].
    step Hr. step Hr. destruct x0 as [[[[tr1 v1] n1] i1] d1]. apply (IH _ _ _ _ _ _ _ _ _ _ _ _ _ Hr). unfold unencroach_segment in E0. apply (unencroach_loop_Q _ _ _ _ _ _ _ _ _ _ _ _ _ _ _ _ E0), HQ.
  Qed.
  Lemma try_Q : forall fuel p (tr : triangulation) t cs bd hs tr' r, try_circumcenter H fuel p tr t cs bd hs = Ok (tr', r) -> Q tr -> Q tr'.
  Proof.
    intros fuel p tr t cs bd hs tr' r Hr HQ. unfold try_circumcenter in Hr. step Hr. step Hr. destruct x0 as [cm vs]. step Hr. step Hr.
    assert (HQ' : Q (ss_tr x0)) by (apply (solve_Q _ _ _ _ _ _ _ E1); exact HQ).
    destruct (hset edec _); injection Hr as <- <-; [exact HQ'|]. apply fold_Qi, fold_Qr, HQ'.
  Qed.
  Lemma encroached_Q : forall fuel prm bd hs es p (tr : triangulation) vs cs sm q tr' vs' cs' sm' q',
    split_encroached_all H fuel p prm bd hs es (tr, vs, cs, sm, q) = Ok (tr', vs', cs', sm', q') -> Q tr -> Q tr'.
  Proof.
    intros fuel prm bd hs es. induction es as [|e es IH]; intros p tr vs cs sm q tr' vs' cs' sm' q' Hr HQ; cbn [split_encroached_all] in Hr; [injection Hr as <- <- <- <- <-; exact HQ|].
    step Hr. destruct x as [[[[tr1 v1] c1] s1] q1]. apply (IH _ _ _ _ _ _ _ _ _ _ _ Hr). unfold split_encroached in E. step E. destruct x as [[[[tr2 v2] n2] i2] d2]. step E. injection E as <- <- <- <- <-.
    unfold unencroach_segment in E0. apply (unencroach_loop_Q _ _ _ _ _ _ _ _ _ _ _ _ _ _ _ _ E0), HQ.
  Qed.
  Lemma split_loop_Q : forall fuel p prm bd hs (tr : triangulation) cs sm irr lrg tr' cs' sm',
    split_loop_irregular H fuel p prm bd hs tr cs sm irr lrg = Ok (tr', cs', sm') -> Q tr -> Q tr'.
  Proof.
    induction fuel as [|fuel IH]; intros p prm bd hs tr cs sm irr lrg tr' cs' sm' Hr HQ; [discriminate|]. cbn [split_loop_irregular] in Hr.
    destruct (match ho H (1 :: p) _ irr with t :: _ => Some (t, hdel tdec t irr, lrg) | [] => match ho H (2 :: p) _ lrg with t :: _ => Some (t, irr, hdel tdec t lrg) | [] => None end end) as [[[t irr'] lrg']|]; [|injection Hr as <- <- <-; exact HQ].
    step Hr. destruct x as [tr1 [[inc del]|enc]]; pose proof (try_Q _ _ _ _ _ _ _ _ _ E HQ) as HQ1.
    - step Hr. destruct x as [i2 l2]. apply (IH _ _ _ _ _ _ _ _ _ _ _ _ Hr), HQ1.
    - step Hr. step Hr. destruct x0 as [[[[tr2 v2] c2] s2] [i2 l2]]. apply (IH _ _ _ _ _ _ _ _ _ _ _ _ Hr), (encroached_Q _ _ _ _ _ _ _ _ _ _ _ _ _ _ _ _ E1), HQ1.
  Qed.
  Lemma refine_Q : forall fuel p (t t' : triangulator) prm cs, refine H fuel p t prm = Ok (t', cs) -> Q (t_trn t) -> Q (t_trn t').
  Proof.
    intros fuel p t t' prm cs Hr HQ. unfold refine in Hr. step Hr. step Hr. destruct x0 as [[[tr1 sm] i1] d1]. step Hr. destruct x0 as [[tr2 c2] s2]. injection Hr as <- <-. cbn [t_trn with_triangulation].
    unfold split_irregular in E1. step E1. step E1. apply (split_loop_Q _ _ _ _ _ _ _ _ _ _ _ _ _ E1). unfold unencroach in E0. apply (unencroach_all_Q _ _ _ _ _ _ _ _ _ _ _ _ _ _ E0), HQ.
  Qed.
End Made.

(** ** Histories *)
Section History.
  Context {A : Arith} (H : HashOrder).

  Lemma history_end : forall (h : list (tri_op (A:=A))) o tr, run_history (h ++ [o]) tr = run_op (run_history h tr) o.
  Proof. intros h o tr. unfold run_history. rewrite fold_left_app. reflexivity. Qed.
  Lemma history_incl : forall (tr0 tr : triangulation A) t, (exists h, tr = run_history h tr0) -> exists h, incl_tri t tr = run_history h tr0.
  Proof. intros tr0 tr t [h ->]. exists (h ++ [OpInclude t]). rewrite history_end, run_op_eq. reflexivity. Qed.
  Lemma history_rem : forall (tr0 tr : triangulation A) t, (exists h, tr = run_history h tr0) -> exists h, rem_tri t tr = run_history h tr0.
  Proof. intros tr0 tr t [h ->]. exists (h ++ [OpRemove t]). rewrite history_end, run_op_eq. reflexivity. Qed.

  Lemma triangulate_made : forall fuel p (t t' : triangulator A), triangulate H fuel p t = Ok t' -> exists h, t_trn t' = run_history h trn_new.
  Proof.
    intros fuel p t t' Hr. apply (triangulate_Q H (fun tr => exists h, tr = run_history h trn_new)) in Hr; [exact Hr| | |].
    - intros x tr. apply history_incl.
    - intros x tr. apply history_rem.
    - exists []. reflexivity.
  Qed.
  Lemma refine_made : forall fuel p (t t' : triangulator A) prm cs, refine H fuel p t prm = Ok (t', cs) -> exists h, t_trn t' = run_history h (t_trn t).
  Proof.
    intros fuel p t t' prm cs Hr. apply (refine_Q H (fun tr => exists h, tr = run_history h (t_trn t))) in Hr; [exact Hr| | |].
    - intros x tr. apply history_incl.
    - intros x tr. apply history_rem.
    - exists []. reflexivity.
  Qed.
  Lemma run_made : forall fuel p (t t' t'' : triangulator A) q fuel' prm cs, triangulate H fuel p t = Ok t' -> refine H fuel' q t' prm = Ok (t'', cs) ->
    NoDup (tris (t_trn t'')) /\ (forall e x, adj_get e (t_trn t'') = Some x -> In x (tris (t_trn t'')) /\ side_of e x).
  Proof.
    intros fuel p t t' t'' q fuel' prm cs Ht Hr. destruct (triangulate_made _ _ _ _ Ht) as [h E]. destruct (refine_made _ _ _ _ _ _ Hr) as [h' E']. rewrite E', E.
    split; [apply NoDup_history, NoDup_history; constructor|]. intros e x Hx. apply (adj_sound_history h' _ (adj_sound_history h _ adj_sound_new)), Hx.
  Qed.

  Lemma names_NoDup : forall vec (ts : list (triangle A)) triples, Forall2 (names vec) ts triples -> NoDup ts -> NoDup triples.
  Proof.
    intros vec ts triples HF. induction HF as [|t [[i j] k] ts triples Ht HF IH]; intros HN; [constructor|]. inversion HN as [|? ? Hn HN']; subst. constructor; [|apply IH, HN'].
    intros Hin. apply Hn. clear -Ht HF Hin. induction HF as [|t' ijk ts triples Ht' HF IH]; [destruct Hin|]. destruct Hin as [->|Hin]; [left|right; apply IH, Hin].
    destruct t as [a b c], t' as [a' b' c']. destruct Ht as (E1 & E2 & E3). destruct Ht' as (E1' & E2' & E3'). cbn [tv1 tv2 tv3] in *. congruence.
  Qed.
  Lemma coords_NoDup : forall l : list (vertex A), NoDup l -> (forall v, In v l -> vghost v = false) -> NoDup (map (fun v => (vx v, vy v)) l).
  Proof.
    intros l HN. induction HN as [|v l Hn HN IH]; intros Hg; [constructor|]. cbn [map]. constructor; [|apply IH; intros w Hw; apply Hg; right; exact Hw].
    intros Hin. apply in_map_iff in Hin. destruct Hin as (w & E & Hw). apply Hn. replace v with w; [exact Hw|].
    pose proof (Hg v (or_introl eq_refl)) as G1. pose proof (Hg w (or_intror Hw)) as G2. destruct v as [x y g], w as [x' y' g']. cbn [vx vy vghost] in *. congruence.
  Qed.
  Lemma written_once : forall fuel p (inp : input A) coords triples, run_main H fuel p inp = Ok (Some (coords, triples)) -> NoDup coords /\ NoDup triples.
  Proof.
    intros fuel p inp coords triples Hr. unfold run_main in Hr. apply bind_ok in Hr. destruct Hr as ([[t prm]|] & _ & Hr); [|discriminate].
    apply bind_ok in Hr. destruct Hr as (t' & Ht & Hr). apply bind_ok in Hr. destruct Hr as ([t'' cs] & Hf & Hr). apply bind_ok in Hr. destruct Hr as (out & Ho & Hr). injection Hr as ->.
    destruct (run_made _ _ _ _ _ _ _ _ _ Ht Hf) as [HN _].
    destruct (output_spec H (4 :: p) (t_trn t'')) as (c & ts & vec & order & Eo & _ & Po & Ec & HF & _). rewrite Eo in Ho. injection Ho as <- <-. split.
    - rewrite Ec. apply coords_NoDup; [apply (Permutation_NoDup (Permutation_sym Po)), trn_lists_NoDup|].
      intros v Hv. apply (Permutation_in _ Po), trn_vertices_In in Hv. apply Hv.
    - apply (names_NoDup _ _ _ HF), NoDup_filter. apply (Permutation_NoDup (ho_perm H _ _ _)), HN.
  Qed.
End History.
