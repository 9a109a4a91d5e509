(** P_Fill2.v — a run of [triangulate] on a polygon. *)

From Coq Require Import Reals List ZArith Lra Lia Psatz Bool Permutation.
From Verif Require Import Base Arith Geometry Elements Polyline Procedures Triangulator ArithR Spec SpecR SpecD SpecP
  P_Base P_Trn P_Fuel P_Vertices P_Flood P_Cavity P_Contains P_Stages P_R1 P_R2 P_R5 P_D1 P_D2 P_D3 P_D4 P_D5 P_D6 P_D7 P_D8 P_RX P_Fill P_Checks.
Import ListNotations.
Local Open Scope R_scope.

(** ** The chain of a polygon *)
Lemma polygon_edges : forall l : list pnt, l <> [] -> into_edges (Poly l false) = Ok (polygon_sides l).
Proof.
  intros [|a l] Hn; [congruence|]. unfold into_edges, poly_pairs. cbn [pverts popened]. rewrite vertex_pairs_closed.
  change (polygon_sides (a :: l)) with (path_sides ((a :: l) ++ [a])). rewrite (path_sides_consecutive ((a :: l) ++ [a])). reflexivity.
Qed.
Lemma path_fst : forall (l : list pnt) z, map fst (path_sides (l ++ [z])) = l.
Proof.
  induction l as [|a l IH]; intros z; [reflexivity|]. destruct l as [|b l]; [reflexivity|].
  cbn [app]. change (path_sides (a :: b :: l ++ [z])) with ((a, b) :: path_sides ((b :: l) ++ [z])). cbn [map fst]. rewrite IH. reflexivity.
Qed.
Lemma polygon_fst : forall l : list pnt, map fst (polygon_sides l) = l.
Proof. intros [|a l]; [reflexivity|]. apply path_fst. Qed.
Lemma polygon_NoDup : forall l : list pnt, NoDup l -> NoDup (polygon_sides l).
Proof. intros l Hn. apply (NoDup_map_inv fst). rewrite polygon_fst. exact Hn. Qed.
Lemma polygon_starts : forall (l : list pnt) w, In w l -> exists e, In e (polygon_sides l) /\ fst e = w.
Proof. intros l w Hw. rewrite <- (polygon_fst l) in Hw. apply in_map_iff in Hw. destruct Hw as (e & E & He). exists e. auto. Qed.

(** ** The stages of a run on a polygon *)
Lemma path_snd : forall (l : list pnt) a, map snd (path_sides (a :: l)) = l.
Proof. induction l as [|b l IH]; intros a; [reflexivity|]. change (path_sides (a :: b :: l)) with ((a, b) :: path_sides (b :: l)). cbn [map snd]. rewrite IH. reflexivity. Qed.
Lemma polygon_ends : forall (l : list pnt) e, In e (polygon_sides l) -> In (fst e) l /\ In (snd e) l.
Proof.
  intros l e He. split; [rewrite <- (polygon_fst l); apply in_map, He|]. destruct l as [|a l]; [destruct He|].
  change (polygon_sides (a :: l)) with (path_sides (a :: (l ++ [a]))) in He. apply (in_map snd) in He. rewrite path_snd in He.
  apply in_app_or in He. destruct He as [He|[<-|[]]]; [right; exact He|left; reflexivity].
Qed.
Lemma polygon_stages : forall (H : HashOrder) fuel p (t t' : triangulator ArithR) l, only_polygon t l -> triangulate H fuel p t = Ok t' ->
  exists v1 v2 rest tr1 inc del fuel1 p1, l = v1 :: v2 :: rest /\
    vertices_include H fuel1 p1 (from_initial_segment v1 v2) l [] None [] = Ok (tr1, inc, del) /\
    adj_sound tr1 /\
    (adj_complete tr1 -> forall x, In x (tris (t_trn t')) <->
       (In x (tris tr1) /\ ~ swept (fun x => In x (tris tr1)) (map flip (polygon_sides l)) (map flip (polygon_sides l)) x) \/
       exists e, In e (polygon_sides l) /\ x = Tri (snd e) (fst e) ghost_vertex).
Proof.
  intros H fuel p t t' l [Eb Eh Es Ev] Hr. unfold triangulate in Hr. rewrite Eb, Eh, Es, Ev in Hr. cbn [pverts] in Hr.
  destruct l as [|v1 [|v2 rest]]; [discriminate|discriminate|]. cbn [nth_error unwrap bind] in Hr. cbn zeta in Hr. set (l := v1 :: v2 :: rest) in *.
  apply bind_ok in Hr. destruct Hr as (tr1' & Hb & Hr). apply bind_ok in Hr. destruct Hr as (bes & Hbe & Hr).
  rewrite !ho_nil in Hr. cbn [include_holes include_segments bind] in Hr.
  apply bind_ok in Hr. destruct Hr as ([[tr4 inc4] del4] & Hv & E). injection E as <-. cbn [t_trn with_triangulation].
  assert (E4 : tr4 = tr1').
  { pose proof (vertices_include_mono H fuel (Datatypes.S fuel) ltac:(lia) (6%nat :: p) tr1' [] (hset edec bes) (Some (Poly l false)) []) as M.
    pose proof (rle_ok _ _ _ _ M Hv) as Hv'. rewrite include_present in Hv'; [injection Hv' as -> _ _; reflexivity|lia|intros v []]. }
  subst tr4. destruct (boundary_include_spec H _ _ _ _ _ _ (initial_sound v1 v2) Hb) as (es & tr1 & inc & del & Hes & Hi & Hs & _ & Hiff).
  rewrite polygon_edges in Hes by discriminate. injection Hes as <-.
  exists v1, v2, rest, tr1, inc, del, fuel, (1%nat :: 1%nat :: p). auto.
Qed.

Lemma solid_from : forall es (tr1 : mesh) ts', (forall x, In x ts' <->
       (In x (tris tr1) /\ ~ swept (fun x => In x (tris tr1)) (map flip es) (map flip es) x) \/
       exists e, In e es /\ x = Tri (snd e) (fst e) ghost_vertex) ->
  forall u, In u ts' -> is_ghost u = false -> In u (tris tr1) /\ ~ swept (fun x => In x (tris tr1)) (map flip es) (map flip es) u.
Proof.
  intros es tr1 ts' Hiff u Hu G. apply Hiff in Hu. destruct Hu as [Hu|(e & He & ->)]; [exact Hu|].
  unfold is_ghost in G. cbn in G. rewrite !orb_true_r in G. discriminate.
Qed.

(** ** Filling *)
Section Run.
  Variables (l : list pnt) (tr1 : mesh) (ts' : list tri) (S : list pnt).
  Notation es := (polygon_sides l).
  Hypothesis HD : delaunay S tr1.
  Hypothesis HR : resolved S.
  Hypothesis Hnd : NoDup l.
  Hypothesis Hin : forall w, In w S -> In w l.
  Hypothesis Hiff : forall x, In x ts' <->
       (In x (tris tr1) /\ ~ swept (fun x => In x (tris tr1)) (map flip es) (map flip es) x) \/
       exists e, In e es /\ x = Tri (snd e) (fst e) gv.
  Hypothesis all_used : forall w, In w l -> In w S.
  Hypothesis Hleft : forall e, In e es -> exists u, In u (tris tr1) /\ side_of e u /\ ~ swept (fun x => In x (tris tr1)) (map flip es) (map flip es) u.

  Definition keep (x : tri) : bool :=
    (if in_dec tdec x ts' then true else false) && negb (if in_dec tdec x (map (fun e => Tri (snd e) (fst e) gv) es) then true else false).
  Lemma keep_spec : forall x, In x (tris tr1) -> (keep x = true <-> ~ swept (fun x => In x (tris tr1)) (map flip es) (map flip es) x).
  Proof.
    intros x Hx. unfold keep. rewrite andb_true_iff, negb_true_iff. destruct (in_dec tdec x ts') as [Hi|Hi].
    - destruct (in_dec tdec x (map (fun e => Tri (snd e) (fst e) gv) es)) as [Hg|Hg].
      + split; [intros [_ E]; discriminate|]. intros Hno. exfalso. apply in_map_iff in Hg. destruct Hg as (e & <- & He). apply Hno.
        apply (swept_start _ _ _ (flip e)); [apply in_map, He|exact Hx|]. destruct e as [a b]. cbn [flip fst snd]. constructor.
      + split; [|auto]. intros _. apply Hiff in Hi. destruct Hi as [[_ Hi]|(e & He & ->)]; [exact Hi|]. exfalso. apply Hg, in_map_iff. exists e. auto.
    - split; [intros [E _]; discriminate|]. intros Hno. exfalso. apply Hi, Hiff. left. auto.
  Qed.
  Lemma solid_kept : forall u, In u ts' -> is_ghost u = false -> In u (tris tr1) /\ keep u = true /\ vghost (tv3 u) = false.
  Proof.
    intros u Hu G. pose proof Hu as Hu'. apply Hiff in Hu. destruct Hu as [[Hu Hno]|(e & He & ->)].
    - split; [exact Hu|]. split; [apply keep_spec; assumption|]. unfold is_ghost in G. apply orb_false_iff in G. apply G.
    - unfold is_ghost in G. cbn in G. rewrite !orb_true_r in G. discriminate.
  Qed.
  Lemma kept_solid : forall u, In u (tris tr1) -> keep u = true -> vghost (tv3 u) = false -> In u ts' /\ is_ghost u = false.
  Proof.
    intros u Hu Hk G. split; [apply Hiff; left; split; [exact Hu|apply keep_spec; assumption]|].
    destruct (solid_shape S tr1 HD u Hu G) as (a & b & c & -> & Ha & Hb & Hc & _). unfold is_ghost. cbn [tv1 tv2 tv3].
    rewrite (rs_plain _ HR a Ha), (rs_plain _ HR b Hb), (rs_plain _ HR c Hc). reflexivity.
  Qed.
  Lemma cut1 : forall t t' x, In t (tris tr1) -> In t' (tris tr1) -> keep t = true -> side_of x t' -> side_of (flip x) t -> ~ In x (map flip es) -> keep t' = true.
  Proof.
    intros t t' x Ht Ht' Hk Sx Sf Hno. apply (keep_spec t' Ht'). apply (keep_spec t Ht) in Hk. intros Hsw. apply Hk. exact (swept_next _ _ _ x t' t Hsw Sx Hno Ht Sf).
  Qed.
  Lemma cut2 : forall e t, In e es -> In t (tris tr1) -> side_of (flip e) t -> keep t = false.
  Proof.
    intros e t He Ht Sf. destruct (keep t) eqn:E; [exfalso|reflexivity]. apply (keep_spec t Ht) in E. apply E. apply (swept_start _ _ _ (flip e)); [apply in_map, He|exact Ht|exact Sf].
  Qed.
  Lemma cut3 : forall e, In e es -> exists u, In u (tris tr1) /\ side_of e u /\ keep u = true.
  Proof.
    intros e He. destruct (Hleft e He) as (u & Hu & Su & Hno). exists u. split; [exact Hu|]. split; [exact Su|]. apply keep_spec; assumption.
  Qed.
  Lemma ends_used : forall e, In e es -> In (fst e) S /\ In (snd e) S.
  Proof. intros e He. destruct (polygon_ends l e He). auto. Qed.

  Hypothesis Harea : 0 < shoelace es \/ exists q, (0 < winding q es)%Z.
  Let Hes := polygon_NoDup l Hnd.
  Notation K := (kept tr1 keep).
  Lemma K_In : forall u, In u K <-> In u ts' /\ is_ghost u = false.
  Proof.
    intros u. unfold kept. rewrite solids_In. split; [intros (H1 & H2 & H3); apply kept_solid; assumption|].
    intros [H1 H2]. destruct (solid_kept u H1 H2) as (H3 & H4 & H5). auto.
  Qed.

  Lemma run_fills : forall tr' : mesh, tris tr' = ts' -> fills l tr'.
  Proof.
    intros tr' E. unfold solid_in.
    assert (KI : forall u, In u K <-> In u (tris tr') /\ is_ghost u = false) by (intros u; rewrite E; apply K_In).
    pose proof (kept_rim S tr1 es keep HD HR Hes cut1 cut2 cut3 ends_used Harea) as Hrim.
    split.
    - intros a b c Ht. apply KI in Ht. pose proof Ht as Ht0. apply solids_In in Ht0. destruct Ht0 as (Ht0 & G & _). destruct (solid_shape S tr1 HD _ Ht0 G) as (x & y & z & Ei & Ha & Hb & Hc & Hp).
      injection Ei as <- <- <-. repeat (split; [auto|]). intros o w Hw. apply (dl_circle _ _ HD a b c Ht0 G). apply all_used, Hw.
    - exact (kept_01 S tr1 es keep HD HR Hes cut1 cut2 cut3 ends_used Harea).
    - intros q Hq. destruct (kept_covers S tr1 es keep HD HR Hes cut1 cut2 cut3 ends_used Harea q Hq) as (a & b & c & Hk & Hi). exists a, b, c. split; [apply KI, Hk|exact Hi].
    - intros a b c q Ht Hi. apply KI in Ht. apply (kept_closed S tr1 es keep HD HR Hes cut1 cut2 cut3 ends_used Harea (fun w Hw => polygon_starts l w (Hin w Hw)) q a b c Ht Hi).
    - intros a b c q Ht Hi. apply KI in Ht. exact (kept_inside S tr1 es keep HD HR Hes cut1 cut2 cut3 ends_used Harea q a b c Ht Hi).
    - intros a b c a' b' c' q Ht Ht' Hi Hi'. apply KI in Ht, Ht'. apply solids_In in Ht, Ht'.
      apply (tiles_once S tr1 q a b c a' b' c' HD HR); tauto.
    - intros t e Ht Se. apply KI in Ht.
      assert (Hr : In e es <-> In e (rim (sides K))) by (split; [apply (Permutation_in _ (Permutation_sym Hrim))|apply (Permutation_in _ Hrim)]).
      rewrite Hr, rim_In. assert (Hs : In e (sides K)) by (apply sides_In; exists t; auto).
      assert (Hf : In (flip e) (sides K) <-> exists u, (In u (tris tr') /\ is_ghost u = false) /\ side_of (flip e) u).
      { rewrite sides_In. split; intros (u & Hu & Su); exists u; (split; [apply KI, Hu|exact Su]). }
      rewrite <- Hf. destruct (in_dec edec (flip e) (sides K)); tauto.
    - intros e He. apply (Permutation_in _ (Permutation_sym Hrim)), rim_In in He. destruct He as [He _]. apply sides_In in He.
      destruct He as (u & Hu & Su). exists u. split; [apply KI, Hu|exact Su].
    - intros t. rewrite E, Hiff. split.
      + intros [[[Ht Hno]|Hex] G]; [|exact Hex]. exfalso. assert (Gt : vghost (tv3 t) = true).
        { destruct (dl_shape _ _ HD t Ht) as [(x & y & z & -> & Hx & Hy & Hz & _)|(x & y & -> & _)]; [|reflexivity].
          unfold is_ghost in G. cbn [tv1 tv2 tv3] in *. rewrite (rs_plain _ HR x Hx), (rs_plain _ HR y Hy), (rs_plain _ HR z Hz) in G. discriminate. }
        apply (keep_spec t Ht) in Hno. rewrite (faces_out S tr1 es keep HD HR Hes cut1 cut2 cut3 ends_used Harea t Ht Gt) in Hno. discriminate.
      + intros (s & Hs & ->). split; [right; exists s; auto|]. unfold is_ghost. cbn. rewrite !orb_true_r. reflexivity.
    - exists K. split; [apply NoDup_filter, (dl_nodup _ _ HD)|]. split; [exact KI|]. exact (kept_area S tr1 es keep HD HR Hes cut1 cut2 cut3 ends_used Harea).
  Qed.
End Run.

Lemma polygon_filled : forall (H : HashOrder) fuel p (t t' : triangulator ArithR) l, only_polygon t l -> NoDup l -> resolved l ->
  0 < shoelace (polygon_sides l) -> triangulate H fuel p t = Ok t' ->
  (forall e, In e (polygon_sides l) -> exists u, solid_in (t_trn t') u /\ side_of e u) -> fills l (t_trn t').
Proof.
  intros H fuel p t t' l Ho Hnd HR Ha Hr Hs. destruct (polygon_stages H fuel p t t' l Ho Hr) as (v1 & v2 & rest & tr1 & inc & del & f1 & p1 & El & Hi & Hso & Hiff).
  assert (H12 : In v1 l /\ In v2 l) by (rewrite El; cbn [In]; auto). assert (Hne : v1 <> v2) by (rewrite El in Hnd; inversion Hnd as [|? ? Hx _]; intros ->; apply Hx; left; reflexivity).
  assert (H0 : delaunay [v1; v2] (from_initial_segment v1 v2)) by (apply initial_delaunay; auto; apply (rs_plain _ HR); tauto).
  destruct (insertion H f1 p1 [v1; v2] _ l tr1 inc del H0) as (ins & _ & Hins & HD).
  { apply (resolved_incl l); [exact HR|]. intros w Hw. apply in_app_or in Hw. destruct Hw as [Hw|[<-|[<-|[]]]]; tauto. }
  { exact Hi. }
  assert (HS : forall w, In w (ins ++ [v1; v2]) -> In w l) by (intros w Hw; apply in_app_or in Hw; destruct Hw as [Hw|[<-|[<-|[]]]]; [apply Hins, Hw|tauto|tauto]).
  apply (run_fills l tr1 (tris (t_trn t')) (ins ++ [v1; v2])); auto.
  - apply (resolved_incl l); assumption.
  - apply Hiff, (dl_complete _ _ HD).
  - intros w Hw. destruct (polygon_starts l w Hw) as (e & He & <-). destruct (Hs e He) as (u & [Hu G] & Su).
    destruct (solid_from _ _ _ (Hiff (dl_complete _ _ HD)) u Hu G) as [Hu1 _].
    destruct (dl_shape _ _ HD u Hu1) as [(x & y & z & -> & Hx & Hy & Hz & _)|(x & y & -> & Hx & Hy & _)]; [inversion Su; subst; assumption|].
    unfold is_ghost in G. cbn in G. rewrite !orb_true_r in G. discriminate.
  - intros e He. destruct (Hs e He) as (u & [Hu G] & Su). exists u. destruct (solid_from _ _ _ (Hiff (dl_complete _ _ HD)) u Hu G). auto.
Qed.
