(** P_Z17.v — the program on files, in binary64 (C143). *)

From Coq Require Import String Reals List ZArith Lia Bool Permutation Floats.SpecFloat.
From Verif Require Import Base Arith ArithR ArithF Geometry Elements Polyline Procedures Refine Triangulator Interface Json Main Spec SpecI SpecM SpecR SpecD SpecP SpecF SpecW SpecMain Samples
  P_Base P_Fuel P_RX P_W1 P_W2 P_W3 P_Main P_Refuted P_Z12 P_Z15 P_Z16 P_Refuted10.
Import ListNotations.

(** ** From a result to the file it is in *)
Section Files.
  Context {A : Arith} (H : HashOrder).
  Variables (of_int : Z -> T A) (finite : T A -> bool) (uuid : Type) (uuid_read : string -> option uuid) (uuid_show : uuid -> string).
  Context {F32 : Type} (cast : T A -> F32).
  Variables (text_read : string -> option (json (T A))) (text_show : json (T A) -> string) (writable : string -> bool) (display : bool).
  Hypothesis back : forall u, uuid_read (uuid_show u) = Some u.
  Hypothesis zero : finite (of_int 0%Z) = true.

  Lemma file_of_run : forall fuel p id now c (w : world F32) f j d coords triples, c_output c = Some f -> writable f = true -> (c_show c = true -> display = true) ->
    holds_value text_read w (c_input c) j -> tells_input of_int uuid uuid_read id now j d -> run_main H fuel p (d_input _ d) = Ok (Some (coords, triples)) ->
    Forall (finite_point finite) coords -> (forall out, run_program H of_int finite uuid uuid_read uuid_show fuel p id now j = Ok out -> text_read (text_show out) = Some out) ->
    exists w' out, main H of_int finite uuid uuid_read uuid_show cast text_read text_show writable display fuel p id now c w = Finished w' /\
      holds_value text_read w' f out /\ (forall id' now', read_report of_int uuid uuid_read id' now' out = Some (Rep uuid (d_id _ d) (d_name _ d) (d_date _ d) coords triples [])) /\
      (forall g, g <> f -> files w' g = files w g) /\ printed w' = printed w.
  Proof.
    intros fuel p id now c w f j d coords triples Eo Hw Hs Hj Hd Hr Hf texts.
    assert (Hp : run_program H of_int finite uuid uuid_read uuid_show fuel p id now j =
                 Ok (write_report of_int finite uuid uuid_show (Rep uuid (d_id _ d) (d_name _ d) (d_date _ d) coords triples []))).
    { apply program_iff. exists d, coords, triples. split; [exact Hd|]. split; [exact Hr|reflexivity]. }
    assert (K : exists w', main H of_int finite uuid uuid_read uuid_show cast text_read text_show writable display fuel p id now c w = Finished w').
    { apply main_finishes. eexists j, _. split; [exact Hj|]. split; [exact Hp|]. split; [|exact Hs]. intros g Eg. rewrite Eo in Eg. injection Eg as <-. exact Hw. }
    destruct K as (w' & Em). exists w'. eexists. split; [exact Em|].
    destruct (main_result _ _ _ _ _ _ _ _ _ _ _ _ _ _ _ _ _ _ Em) as (j' & out & tr & Hj' & Hr' & _ & Ha & _).
    pose proof (holds_one _ _ _ _ _ Hj Hj') as <-. rewrite Hp in Hr'. injection Hr' as <-. unfold result_at in Ha. rewrite Eo in Ha.
    split; [eexists; split; [exact Ha|]; apply texts; exact Hp|].
    split; [intros id' now'; apply report_back; [exact back|exact zero|exact Hf]|].
    destruct (main_frame _ _ _ _ _ _ _ _ _ _ _ _ _ _ _ _ _ _ (or_introl Em)) as (F1 & F2 & _).
    split; [intros g Hg; apply F1; rewrite Eo; congruence|]. apply F2. rewrite Eo. discriminate.
  Qed.
End Files.

Local Open Scope R_scope.

Lemma fine_finite : forall k (l : list (vertex ArithF)) (l' : list pnt) (order : list (vertex ArithF)), Forall2 (fine_reads k) l l' -> Permutation order l ->
  Forall (finite_point (A:=ArithF) sf_finite) (map (fun v => (vx v, vy v)) order).
Proof.
  intros k l l' order Hr Hp. apply Forall_forall. intros q Hq. apply in_map_iff in Hq. destruct Hq as (v & <- & Hv). apply (Permutation_in _ Hp) in Hv.
  assert (K : exists v', fine_reads k v v').
  { clear -Hr Hv. induction Hr as [|a b l l' Hab Hr IH]; [destruct Hv|]. destruct Hv as [->|Hv]; [exists b; exact Hab|exact (IH Hv)]. }
  destruct K as (v' & (Hx & Hy & _) & _). unfold finite_point. cbn [fst snd].
  split; [destruct (vx v)|destruct (vy v)]; try reflexivity; contradiction.
Qed.

(** ** Convex polygons *)
Lemma file_convex : forall k (l : list (vertex ArithF)) (l' : list pnt), fine_spacing k -> Forall2 (fine_reads k) l l' -> NoDup l' -> no_four_on_a_circle l' -> (3 <= length l')%nat ->
  (forall a b w, In (a, b) (polygon_sides l') -> In w l' -> w <> a -> w <> b -> 0 < area2 a b w) ->
  (forall a b w m, In (a, b) (polygon_sides l') -> In w l' -> half_point a b m -> d2 a b / 4 <= d2 m w) ->
  forall (H : HashOrder) uuid (uuid_read : string -> option uuid) uuid_show F32 (cast : T ArithF -> F32) text_read text_show writable display, (forall u, uuid_read (uuid_show u) = Some u) ->
  forall p id now c (w : world F32) f j (d : document (A:=ArithF) uuid) a, c_output c = Some f -> writable f = true -> (c_show c = true -> display = true) ->
  holds_value (A:=ArithF) text_read w (c_input c) j -> tells_input (A:=ArithF) fpz uuid uuid_read id now j d ->
  (forall fuel out, run_program (A:=ArithF) H fpz sf_finite uuid uuid_read uuid_show fuel p id now j = Ok out -> text_read (text_show out) = Some out) ->
  i_actions (d_input _ d) = [a] -> a_intent a = "include"%string -> a_geometry a = "polyline"%string -> map (fun q => mkv (fst q) (snd q)) (a_points a) = l ->
  (forall a b c, In a l -> In b l -> In c l -> orientation a b c = CCW -> ~ misses (RP (i_max_area (d_input _ d)) (i_quality (d_input _ d))) (Tri a b c)) ->
  exists n0 coords triples M order vec ts,
    (forall fuel, (n0 <= fuel)%nat -> exists w' out, main (A:=ArithF) H fpz sf_finite uuid uuid_read uuid_show cast text_read text_show writable display fuel p id now c w = Finished w' /\
       holds_value (A:=ArithF) text_read w' f out /\ (forall id' now', read_report (A:=ArithF) fpz uuid uuid_read id' now' out = Some (Rep uuid (d_id _ d) (d_name _ d) (d_date _ d) coords triples [])) /\
       (forall g, g <> f -> files w' g = files w g) /\ printed w' = printed w) /\ fills l' M /\
    coords = map (fun v => (vx v, vy v)) order /\ Permutation order l /\ Permutation vec l /\ Forall2 (names vec) ts triples /\ NoDup ts /\
    (forall x, In x ts -> exists y, solid_in M y /\ tri_reads x y) /\ (forall y, solid_in M y -> exists x, In x ts /\ tri_reads x y) /\ (length triples + 2 = length l)%nat.
Proof.
  intros k l l' Hk Hr Hn H4 H3 Hc Hf H uuid uuid_read uuid_show F32 cast text_read text_show writable display Hb p id now c w f j d a Eo Hw Hs Hj Hd Ht Ea Ei Eg Ep Hm.
  destruct (input_program k l l' Hk Hr Hn H4 H3 Hc Hf H p (d_input _ d) a Ea Ei Eg Ep Hm) as (n0 & coords & triples & M & order & vec & ts & R1 & R2 & R3 & R4 & R5).
  exists n0, coords, triples, M, order, vec, ts. split; [|split; [exact R2|split; [exact R3|split; [exact R4|exact R5]]]].
  intros fuel Hn0. apply (file_of_run (A:=ArithF) H fpz sf_finite uuid uuid_read uuid_show cast text_read text_show writable display Hb eq_refl fuel p id now c w f j d coords triples Eo Hw Hs Hj Hd (R1 fuel Hn0)); [|apply Ht].
  rewrite R3. exact (fine_finite k l l' order Hr R4).
Qed.

(** ** Polygons that need not be convex *)
Lemma file_clear : forall k (l : list (vertex ArithF)) (l' : list pnt), fine_spacing k -> Forall2 (fine_reads k) l l' -> NoDup l' -> no_four_on_a_circle l' -> (3 <= length l')%nat ->
  0 < shoelace (polygon_sides l') -> (forall a b w m, In (a, b) (polygon_sides l') -> In w l' -> w <> a -> w <> b -> half_point a b m -> d2 a b / 4 < d2 m w) ->
  forall (H : HashOrder) uuid (uuid_read : string -> option uuid) uuid_show F32 (cast : T ArithF -> F32) text_read text_show writable display, (forall u, uuid_read (uuid_show u) = Some u) ->
  forall p id now c (w : world F32) f j (d : document (A:=ArithF) uuid) a, c_output c = Some f -> writable f = true -> (c_show c = true -> display = true) ->
  holds_value (A:=ArithF) text_read w (c_input c) j -> tells_input (A:=ArithF) fpz uuid uuid_read id now j d ->
  (forall fuel out, run_program (A:=ArithF) H fpz sf_finite uuid uuid_read uuid_show fuel p id now j = Ok out -> text_read (text_show out) = Some out) ->
  i_actions (d_input _ d) = [a] -> a_intent a = "include"%string -> a_geometry a = "polyline"%string -> map (fun q => mkv (fst q) (snd q)) (a_points a) = l ->
  (forall a b c, In a l -> In b l -> In c l -> orientation a b c = CCW -> ~ misses (RP (i_max_area (d_input _ d)) (i_quality (d_input _ d))) (Tri a b c)) ->
  exists n1 t t', only_polygon t l /\ (forall fuel, (n1 <= fuel)%nat -> parse H fuel (1%nat :: p) (d_input _ d) = Ok (Some (t, RP (i_max_area (d_input _ d)) (i_quality (d_input _ d)))) /\ triangulate H fuel (2%nat :: p) t = Ok t') /\
  ((forall w, In w l -> exists u, In u (tris (t_trn t')) /\ is_ghost u = false /\ corner_of w u) ->
   exists n0 coords triples M order vec ts,
    (forall fuel, (n0 <= fuel)%nat -> exists w' out, main (A:=ArithF) H fpz sf_finite uuid uuid_read uuid_show cast text_read text_show writable display fuel p id now c w = Finished w' /\
       holds_value (A:=ArithF) text_read w' f out /\ (forall id' now', read_report (A:=ArithF) fpz uuid uuid_read id' now' out = Some (Rep uuid (d_id _ d) (d_name _ d) (d_date _ d) coords triples [])) /\
       (forall g, g <> f -> files w' g = files w g) /\ printed w' = printed w) /\ fills l' M /\
    coords = map (fun v => (vx v, vy v)) order /\ Permutation order l /\ Permutation vec l /\ Forall2 (names vec) ts triples /\ NoDup ts /\
    (forall x, In x ts -> exists y, solid_in M y /\ tri_reads x y) /\ (forall y, solid_in M y -> exists x, In x ts /\ tri_reads x y)).
Proof.
  intros k l l' Hk Hr Hn H4 H3 Ha0 HC H uuid uuid_read uuid_show F32 cast text_read text_show writable display Hb p id now c w f j d a Eo Hw Hs Hj Hd Ht Ea Ei Eg Ep Hm.
  destruct (clear_program k l l' Hk Hr Hn H4 H3 Ha0 HC H p (d_input _ d) a Ea Ei Eg Ep Hm) as (n1 & t & t' & O1 & O2 & O3).
  exists n1, t, t'. split; [exact O1|]. split; [exact O2|]. intros Hu. destruct (O3 Hu) as (n0 & coords & triples & M & order & vec & ts & R1 & R2 & R3 & R4 & R5).
  exists n0, coords, triples, M, order, vec, ts. split; [|split; [exact R2|split; [exact R3|split; [exact R4|exact R5]]]].
  intros fuel Hn0. apply (file_of_run (A:=ArithF) H fpz sf_finite uuid uuid_read uuid_show cast text_read text_show writable display Hb eq_refl fuel p id now c w f j d coords triples Eo Hw Hs Hj Hd (R1 fuel Hn0)); [|apply Ht].
  rewrite R3. exact (fine_finite k l l' order Hr R4).
Qed.

(** ** Cases: two texts, the input and what is written *)
Local Open Scope string_scope.
Local Open Scope list_scope.
Definition text_of {F} (j out : json F) (s : string) : option (json F) := if String.eqb s "in" then Some j else if String.eqb s "out" then Some out else None.

Lemma text_case : forall (H : HashOrder) p (inp : input ArithF) n0 coords triples, finite_input (A:=ArithF) sf_finite inp -> (forall fuel, (n0 <= fuel)%nat -> run_main H fuel p inp = Ok (Some (coords, triples))) ->
  exists (j out : json (T ArithF)) (d : document (A:=ArithF) string), d_input _ d = inp /\ holds_value (A:=ArithF) (text_of j out) (desk "in") "a.json" j /\ tells_input (A:=ArithF) fpz string some_id "new" "now" j d /\
    (forall fuel out', run_program (A:=ArithF) H fpz sf_finite string some_id (fun s => s) fuel p "new" "now" j = Ok out' -> text_of j out ((fun _ => "out") out') = Some out').
Proof.
  intros H p inp n0 coords triples Hf Hr. set (d := Doc (A:=ArithF) string "id" "case" "today" inp). exists (write_input (A:=ArithF) fpz sf_finite string (fun s => s) d).
  exists (write_report (A:=ArithF) fpz sf_finite string (fun s => s) (Rep (A:=ArithF) string "id" "case" "today" coords triples [])), d.
  assert (Hd : tells_input (A:=ArithF) fpz string some_id "new" "now" (write_input (A:=ArithF) fpz sf_finite string (fun s => s) d) d) by (apply input_iff; apply input_back; [reflexivity|reflexivity|exact Hf]).
  split; [reflexivity|]. split; [exists "in"; split; reflexivity|]. split; [exact Hd|].
  intros fuel out' Ho. apply program_iff in Ho. destruct Ho as (d' & c' & t' & Hd' & Hr' & ->). apply input_iff in Hd, Hd'. rewrite Hd in Hd'. injection Hd' as <-.
  pose proof (rle_ok _ _ _ _ (run_main_mono H fuel (n0 + fuel) ltac:(lia) p (d_input _ d)) Hr') as E. cbn [d d_input] in E. rewrite (Hr (n0 + fuel)%nat ltac:(lia)) in E. injection E as <- <-. reflexivity.
Qed.

Lemma case_file : exists (j out : json (T ArithF)) (d : document (A:=ArithF) string) a, d_input _ d = kite_job /\
  holds_value (A:=ArithF) (text_of j out) (desk "in") (c_input (Cli "a.json" (Some "b.json") true)) j /\ tells_input (A:=ArithF) fpz string some_id "new" "now" j d /\
  (forall fuel out', run_program (A:=ArithF) ho_id fpz sf_finite string some_id (fun s => s) fuel [] "new" "now" j = Ok out' -> text_of j out ((fun _ => "out") out') = Some out') /\
  i_actions (d_input _ d) = [a] /\ a_intent a = "include" /\ a_geometry a = "polyline" /\ map (fun q => mkv (fst q) (snd q)) (a_points a) = [pt 0 0; pt 4 0; pt 7 5; pt 1 3].
Proof.
  destruct case_kite_job as (_ & _ & _ & Q1 & Q2 & Q3 & Q4 & Q5 & Q6 & Q7 & Q8). destruct case_input as (a & A1 & A2 & A3 & A4 & A5 & A6).
  destruct (input_program 0 _ P_Polygon3.kite Q1 Q2 Q3 Q4 Q5 Q6 Q7 ho_id [] kite_job a A1 A2 A3 A4) as (n0 & c & t & _ & _ & _ & _ & R & _); [rewrite A5, A6; exact Q8|].
  destruct (text_case ho_id [] kite_job n0 c t) as (j & out & d & E & T1 & T2 & T3); [repeat split; repeat constructor; discriminate|exact R|].
  exists j, out, d, a. rewrite E. split; [reflexivity|]. repeat (split; [assumption|]). exact A4.
Qed.

Lemma notch_quiet : check_quiet (A:=ArithF) notchF = true. Proof. vm_compute. reflexivity. Qed.
Lemma case_file_notch : exists (j out : json (T ArithF)) (d : document (A:=ArithF) string) a, d_input _ d = notch_job /\
  holds_value (A:=ArithF) (text_of j out) (desk "in") (c_input (Cli "a.json" (Some "b.json") true)) j /\ tells_input (A:=ArithF) fpz string some_id "new" "now" j d /\
  (forall fuel out', run_program (A:=ArithF) ho_id fpz sf_finite string some_id (fun s => s) fuel [] "new" "now" j = Ok out' -> text_of j out ((fun _ => "out") out') = Some out') /\
  i_actions (d_input _ d) = [a] /\ a_intent a = "include" /\ a_geometry a = "polyline" /\ map (fun q => mkv (fst q) (snd q)) (a_points a) = notchF /\
  (forall n1 t t', (forall fuel, (n1 <= fuel)%nat -> parse ho_id fuel [1%nat] (d_input _ d) = Ok (Some (t, RP (i_max_area (d_input _ d)) (i_quality (d_input _ d)))) /\ triangulate ho_id fuel [2%nat] t = Ok t') ->
     forall w, In w notchF -> exists u, In u (tris (t_trn t')) /\ is_ghost u = false /\ corner_of w u).
Proof.
  destruct case_notch as (Q1 & Q2 & Q3 & Q4 & Q5 & Q6 & Q7 & _). destruct case_notch_job as (a & A1 & A2 & A3 & A4 & A5 & A6).
  assert (U : forall n1 t t', (forall fuel, (n1 <= fuel)%nat -> parse ho_id fuel [1%nat] notch_job = Ok (Some (t, RP (i_max_area notch_job) (i_quality notch_job))) /\ triangulate ho_id fuel [2%nat] t = Ok t') ->
     forall w, In w notchF -> exists u, In u (tris (t_trn t')) /\ is_ghost u = false /\ corner_of w u).
  { intros n1 t t' Hf. destruct (Hf (n1 + 60)%nat ltac:(lia)) as [P1 P2].
    rewrite (one_parse ho_id notch_job a notchF A1 A2 A3 A4 ltac:(cbn; lia) (check_quiet_ok _ notch_quiet) (n1 + 60) [1%nat] ltac:(cbn; lia)) in P1. injection P1 as <-.
    destruct (A6 (triangulator_new (Poly notchF false)) ltac:(constructor; reflexivity) eq_refl) as [(t2 & E & Hu) _].
    pose proof (rle_ok _ _ _ _ (triangulate_mono ho_id 60 (n1 + 60) ltac:(lia) [2%nat] _) E) as E'. rewrite P2 in E'. injection E' as <-. exact Hu. }
  destruct (clear_program 0 _ notch Q1 Q2 Q3 Q4 Q5 Q6 Q7 ho_id [] notch_job a A1 A2 A3 A4 A5) as (n1 & t & t' & _ & O2 & O3).
  destruct (O3 (U n1 t t' O2)) as (n0 & c & ts & _ & _ & _ & _ & R & _).
  destruct (text_case ho_id [] notch_job n0 c ts) as (j & out & d & E & T1 & T2 & T3); [repeat split; repeat constructor; discriminate|exact R|].
  exists j, out, d, a. rewrite E. split; [reflexivity|]. repeat (split; [assumption|]). exact U.
Qed.
