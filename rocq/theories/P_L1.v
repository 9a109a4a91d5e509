(** P_L1.v — the holes of a domain (for SpecL) and the result of parsing. *)

From Coq Require Import String List Bool Arith Lia Permutation.
From Verif Require Import Base Arith Geometry Elements Polyline Procedures Refine Triangulator Interface Spec SpecI SpecM SpecL
  P_Base P_Fuel P_Elements P_Triangulator P_Tri2 P_Poly P_Bool P_Interface SpecR ArithR P_R4.
Import ListNotations.
Local Open Scope list_scope.

Section Domain.
  Context {A : Arith} (H : HashOrder).
  Notation vertex := (vertex A).
  Notation edge := (edge A).
  Notation triangle := (triangle A).
  Notation polyline := (polyline A).
  Notation triangulator := (triangulator A).
  Notation action := (action A).

  Lemma merge_hole_spec : forall fuel (r : polyline) cands p holes holes' pushed,
    merge_hole H fuel p r cands holes = Ok (holes', pushed) ->
    (holes' = holes /\ pushed = []) \/
    (exists h u, In h cands /\ joins H h r u /\ holes' = hdel pdec h holes /\ pushed = [u]).
  Proof.
    intros fuel r cands. induction cands as [|h cands IH]; intros p holes holes' pushed Hm; cbn [merge_hole] in Hm.
    - injection Hm as <- <-. auto.
    - apply bind_ok in Hm. destruct Hm as (o & Ho & Hm). destruct o as [[u rest]|].
      + injection Hm as <- <-. right. exists h, u. split; [left; reflexivity|]. split; [|auto]. exists fuel, (1 :: p), rest. exact Ho.
      + destruct (IH _ _ _ _ Hm) as [?|(h' & u & Hin & ?)]; [auto|]. right. exists h', u. split; [right; exact Hin|assumption].
  Qed.

  Lemma continence_up : forall n n' (b r : polyline) o, n <= n' -> poly_continence n b r = Ok o -> poly_continence n' b r = Ok o.
  Proof. intros n n' b r o Hn Ho. exact (rle_ok _ _ _ _ (poly_continence_mono n n' Hn b r) Ho). Qed.

  Lemma holes_loop_spec : forall F b fuel p (rs holes hs : list polyline), fuel <= F ->
    holes_loop H fuel p b rs holes = Ok hs -> NoDup holes -> (forall h, In h holes -> lies_in F b h) ->
    NoDup hs /\
    (forall h, In h hs -> lies_in F b h /\ exists r, (In r rs \/ In r holes) /\ grows_into H r h) /\
    (forall r, In r rs \/ In r holes -> exists z, grows_into H r z /\ (In z hs \/ ~ lies_in F b z)).
  Proof.
    intros F b fuel. induction fuel as [|fuel IH]; intros p rs holes hs HF Hl Hn Hin; cbn [holes_loop] in Hl; [discriminate|].
    destruct rs as [|r rs].
    - injection Hl as <-. split; [exact Hn|]. split.
      + intros h Hh. split; [apply Hin, Hh|]. exists h. split; [right; exact Hh|constructor].
      + intros r [[]|Hr]. exists r. split; [constructor|left; exact Hr].
    - apply bind_ok in Hl. destruct Hl as (c & Hc & Hl). apply (continence_up _ F) in Hc; [|lia].
      destruct (continence_is c Inside Open) eqn:Hci; cbn [negb] in Hl.
      + apply bind_ok in Hl. destruct Hl as ([holes1 pushed] & Hm & Hl).
        apply continence_is_eq in Hci. subst c.
        apply merge_hole_spec in Hm. destruct Hm as [[-> ->]|(h & u & Hh & Hj & -> & ->)].
        * cbn [app] in Hl. destruct (IH _ _ _ _ ltac:(lia) Hl) as (I1 & I2 & I3).
          { apply hadd_NoDup, Hn. }
          { intros h Hh. apply hadd_In in Hh. destruct Hh as [->|Hh]; [exact Hc|apply Hin, Hh]. }
          split; [exact I1|]. split.
          -- intros h Hh. destruct (I2 h Hh) as (L & x & Hx & G). split; [exact L|]. exists x. split; [|exact G].
             destruct Hx as [Hx|Hx]; [left; right; exact Hx|]. apply hadd_In in Hx. destruct Hx as [->|Hx]; [left; left; reflexivity|right; exact Hx].
          -- intros x Hx. apply I3. destruct Hx as [[<-|Hx]|Hx]; [right; apply hadd_In; left; reflexivity|left; exact Hx|right; apply hadd_In; right; exact Hx].
        * apply ho_In in Hh. cbn [app] in Hl. destruct (IH _ _ _ _ ltac:(lia) Hl) as (I1 & I2 & I3).
          { apply hadd_NoDup, hdel_NoDup, Hn. }
          { intros x Hx. apply hadd_In in Hx. destruct Hx as [->|Hx]; [exact Hc|]. apply hdel_In in Hx. apply Hin, Hx. }
          split; [exact I1|]. split.
          -- intros x Hx. destruct (I2 x Hx) as (L & y & Hy & G). split; [exact L|].
             destruct Hy as [[<-|Hy]|Hy].
             ++ exists h. split; [right; exact Hh|]. eapply grows_left; eassumption.
             ++ exists y. split; [left; right; exact Hy|exact G].
             ++ exists y. split; [|exact G]. apply hadd_In in Hy. destruct Hy as [->|Hy]; [left; left; reflexivity|].
                apply hdel_In in Hy. right. apply Hy.
          -- intros x Hx. destruct Hx as [[<-|Hx]|Hx].
             ++ apply I3. right. apply hadd_In. left. reflexivity.
             ++ apply I3. left. right. exact Hx.
             ++ destruct (pdec h x) as [<-|Hne].
                ** destruct (I3 u ltac:(left; left; reflexivity)) as (z & G & Hz). exists z. split; [|exact Hz]. eapply grows_left; eassumption.
                ** apply I3. right. apply hadd_In. right. apply hdel_In. split; [exact Hx|congruence].
      + destruct (IH _ _ _ _ ltac:(lia) Hl Hn Hin) as (I1 & I2 & I3). split; [exact I1|]. split.
        * intros h Hh. destruct (I2 h Hh) as (L & x & Hx & G). split; [exact L|]. exists x. split; [|exact G]. destruct Hx; [left; right; assumption|right; assumption].
        * intros x Hx. destruct Hx as [[<-|Hx]|Hx]; [|apply I3; left; exact Hx|apply I3; right; exact Hx].
          exists r. split; [constructor|]. right. intros L. unfold lies_in in L. rewrite Hc in L. injection L as ->.
          apply continence_is_eq in Hci || (rewrite (proj2 (continence_is_eq _ _ _) eq_refl) in Hci; discriminate).
  Qed.

  Lemma holes_loop_apart : forall F b fuel p (rs holes hs : list polyline), fuel <= F ->
    holes_loop H fuel p b rs holes = Ok hs -> NoDup (rs ++ holes) -> apart H (rs ++ holes) ->
    forall h, In h hs <-> In h holes \/ In h rs /\ lies_in F b h.
  Proof.
    intros F b fuel. induction fuel as [|fuel IH]; intros p rs holes hs HF Hl Hn Ha; cbn [holes_loop] in Hl; [discriminate|].
    destruct rs as [|r rs].
    - injection Hl as <-. intros h. cbn. tauto.
    - apply bind_ok in Hl. destruct Hl as (c & Hc & Hl). apply (continence_up _ F) in Hc; [|lia].
      cbn [app] in Hn. apply NoDup_cons_iff in Hn. destruct Hn as [Hr Hn].
      destruct (continence_is c Inside Open) eqn:Hci; cbn [negb] in Hl.
      + apply bind_ok in Hl. destruct Hl as ([holes1 pushed] & Hm & Hl).
        apply continence_is_eq in Hci. subst c.
        apply merge_hole_spec in Hm. destruct Hm as [[-> ->]|(h & u & Hh & Hj & _)].
        * cbn [app] in Hl. intros h. assert (P : forall x, In x (rs ++ hadd pdec r holes) <-> In x (r :: rs ++ holes)).
          { intros x. rewrite in_app_iff, hadd_In. cbn. rewrite in_app_iff. split; [intros [?|[->|?]]; auto|intros [<-|[?|?]]; auto]. }
          rewrite (IH _ _ _ _ ltac:(lia) Hl).
          -- rewrite hadd_In. cbn [In]. split; [intros [[->|?]|?]; [right; split; [left; reflexivity|exact Hc]|tauto|tauto]|].
             intros [?|[[<-|?] ?]]; tauto.
          -- assert (Hr' : ~ In r holes) by (intros Q; apply Hr, in_or_app; right; exact Q).
             assert (E : exists l, Permutation (hadd pdec r holes) l /\ l = r :: holes).
             { exists (r :: holes). split; [|reflexivity]. apply NoDup_Permutation.
               - apply hadd_NoDup. clear - Hn. induction rs; [exact Hn|]. apply IHrs. inversion Hn; assumption.
               - constructor; [exact Hr'|]. clear - Hn. induction rs; [exact Hn|]. apply IHrs. inversion Hn; assumption.
               - intros x. rewrite hadd_In. cbn. split; [intros [->|?]; auto|intros [->|?]; auto]. }
             destruct E as (l & E & ->). apply (Permutation_NoDup (l := r :: rs ++ holes)); [|constructor; assumption].
             rewrite E. apply Permutation_middle.
          -- intros x y u Hx Hy. apply Ha; [apply P, Hx|apply P, Hy].
        * exfalso. apply ho_In in Hh. apply (Ha h r u); [right; apply in_or_app; right; exact Hh|left; reflexivity| |exact Hj].
          intros ->. apply Hr. apply in_or_app. right. exact Hh.
      + intros h. rewrite (IH _ _ _ _ ltac:(lia) Hl Hn); [|intros x y u Hx Hy; apply Ha; right; assumption].
        cbn [In]. split; [tauto|]. intros [?|[[<-|?] L]]; [tauto| |tauto].
        exfalso. unfold lies_in in L. rewrite Hc in L. injection L as ->.
        rewrite (proj2 (continence_is_eq _ _ _) eq_refl) in Hci. discriminate.
  Qed.

  Lemma domain_holes_spec : forall fuel p b (rs hs : list polyline), domain_holes H fuel p b rs = Ok hs -> hole_set H fuel b rs hs.
  Proof.
    intros fuel p b rs hs Hd. unfold domain_holes in Hd.
    destruct (holes_loop_spec fuel b fuel p (rev rs) [] hs (le_n _) Hd) as (I1 & I2 & I3); [constructor|intros h []|].
    split; [exact I1|]. split; [|split].
    - intros h Hh. destruct (I2 h Hh) as (L & x & [Hx|[]] & G). split; [exact L|]. exists x. split; [apply in_rev, Hx|exact G].
    - intros r Hr. apply I3. left. apply in_rev. rewrite rev_involutive. exact Hr.
    - intros Hn Ha h. rewrite (holes_loop_apart fuel b fuel p (rev rs) [] hs (le_n _) Hd).
      + cbn [In]. rewrite <- in_rev. tauto.
      + rewrite app_nil_r. apply NoDup_rev, Hn.
      + rewrite app_nil_r. intros x y u Hx Hy. apply Ha; apply in_rev; assumption.
  Qed.

  (** ** Closed polylines only *)
  Lemma poly3_proper : forall l : list vertex, 3 <= length l -> proper_closed (Poly l false).
  Proof. intros l Hl. unfold proper_closed, new_closed. cbn [pverts]. destruct (Nat.ltb_spec (length l) 3); [lia|reflexivity]. Qed.

  Lemma new_closed_proper : forall (l : list vertex) pl, new_closed l = Some pl -> proper_closed pl.
  Proof.
    intros l pl Hn. unfold new_closed in Hn. destruct (Nat.ltb_spec (length l) 3); [discriminate|]. injection Hn as <-.
    apply poly3_proper. assumption.
  Qed.

  Lemma body_proper : forall fuel (a : action) pl, body fuel a pl -> proper_closed pl.
  Proof.
    intros fuel a pl [[_ Hp]|[_ Hp]].
    - apply parse_polyline_some in Hp. destruct Hp as [Hl ->]. apply poly3_proper. rewrite map_length. exact Hl.
    - unfold parse_circle in Hp. destruct (a_scalars a) as [|r rest]; [discriminate|].
      destruct (a_points a) as [|c [|c' l]]; [discriminate| |discriminate].
      apply bind_ok in Hp. destruct Hp as (q & Hq & Hp). apply unwrap_ok in Hq. injection Hp as <-. exact (new_closed_proper _ _ Hq).
  Qed.

  Lemma union_proper : forall x y u : polyline, joins H x y u -> proper_closed u.
  Proof.
    intros x y u (fuel & p & rest & Hu). apply poly_union_spec in Hu.
    destruct Hu as (s1 & s2 & sp & ch & _ & _ & _ & _ & _ & Hl & -> & _). apply poly3_proper. rewrite map_length. exact Hl.
  Qed.

  Lemma subtraction_proper : forall fuel p (x y : polyline) pls rest, poly_subtraction H fuel p x y = Ok (pls, rest) ->
    forall pl, In pl pls -> proper_closed pl.
  Proof.
    intros fuel p x y pls rest Hs pl Hin. apply poly_subtraction_spec in Hs.
    destruct Hs as (s1 & s2 & sp & chs & _ & _ & _ & -> & _ & Hr & _). apply in_map_iff in Hin. destruct Hin as (c & <- & Hc).
    apply poly3_proper. rewrite map_length. apply (Hr c Hc).
  Qed.

  Lemma united_proper : forall l (b : polyline), united H l b -> (forall x, In x l -> proper_closed x) -> proper_closed b.
  Proof.
    intros l b Hu. destruct Hu as [b|l b c u rest fuel p Hu Hj]; intros Hl; [apply Hl; left; reflexivity|].
    apply (union_proper b c). exists fuel, p, rest. exact Hj.
  Qed.

  Lemma carved_proper : forall (b : polyline) rs b' kept, carved_out H b rs b' kept -> proper_closed b -> proper_closed b'.
  Proof.
    intros b rs b' kept Hc. induction Hc; intros Hb; [exact Hb|auto|]. apply IHHc.
    apply (subtraction_proper _ _ _ _ _ _ H0). left. reflexivity.
  Qed.
  Lemma carved_kept : forall (b : polyline) rs b' kept, carved_out H b rs b' kept -> forall r, In r kept -> In r rs.
  Proof. intros b rs b' kept Hc. induction Hc; intros x Hx; [exact Hx| |right; auto]. destruct Hx as [<-|Hx]; [left; reflexivity|right; auto]. Qed.

  Lemma grows_proper : forall x z : polyline, grows_into H x z -> proper_closed x -> proper_closed z.
  Proof. intros x z G. induction G; intros Hx; [exact Hx| |]; apply IHG; eapply union_proper; eassumption. Qed.

  Lemma forall2_right : forall X Y (R : X -> Y -> Prop) l l', Forall2 R l l' -> forall y, In y l' -> exists x, In x l /\ R x y.
  Proof. intros X Y R l l' F. induction F; intros z []; [subst; exists x; cbn; auto|]. destruct (IHF z H1) as (w & ? & ?). exists w. cbn. auto. Qed.

  (** ** Inserting the holes *)
  Lemma insert_holes_some : forall fuel (hs : list polyline) t t', insert_holes fuel hs t = Ok (Some t') ->
    proper (t_boundary t) -> (forall h, In h (t_holes t) -> proper h) -> (forall h, In h hs -> proper h) ->
    (forall h h', In h (t_holes t) -> In h' (t_holes t) -> h <> h' -> disjointly fuel h h') ->
    t_boundary t' = t_boundary t /\ t_trn t' = t_trn t /\ t_vertices t' = t_vertices t /\ t_segments t' = t_segments t /\
    same_set (t_holes t') (hs ++ t_holes t) /\
    (forall h h', In h (t_holes t') -> In h' (t_holes t') -> h <> h' -> disjointly fuel h h').
  Proof.
    intros fuel hs. induction hs as [|h hs IH]; intros t t' Hi Hb Hp Hps Hd; cbn [insert_holes] in Hi.
    - injection Hi as <-. repeat (split; [reflexivity|]). split; [intros x; reflexivity|exact Hd].
    - apply bind_ok in Hi. destruct Hi as ([t1 r] & Hh & Hi). pose proof (insert_hole_spec _ _ _ _ _ Hb Hp Hh) as Hs.
      destruct r as [|cv]; [|discriminate]. destruct Hs as ((A1 & A2 & A3) & S & E1 & E2 & E3 & E4).
      destruct (IH t1 t' Hi) as (I1 & I2 & I3 & I4 & I5 & I6).
      + rewrite E1. exact Hb.
      + intros x Hx. apply S in Hx. destruct Hx as [<-|Hx]; [apply Hps; left; reflexivity|apply Hp, Hx].
      + intros x Hx. apply Hps. right. exact Hx.
      + intros x y Hx Hy Hne. apply S in Hx, Hy. destruct Hx as [<-|Hx]; destruct Hy as [<-|Hy]; [congruence| | |apply Hd; assumption].
        * right. apply A2, Hy.
        * left. apply A2, Hx.
      + rewrite I1, I2, I3, I4, E1, E2, E3, E4. repeat (split; [reflexivity|]). split; [|exact I6].
        intros x. rewrite (I5 x), in_app_iff, (S x). cbn. rewrite in_app_iff. tauto.
  Qed.

  Lemma insert_holes_none : forall fuel (hs : list polyline) t, insert_holes fuel hs t = Ok None -> NoDup (hs ++ t_holes t) ->
    proper (t_boundary t) -> (forall h, In h (t_holes t) -> proper h) -> (forall h, In h hs -> proper h) -> t_segments t = [] ->
    (forall h, In h hs -> lies_in fuel (t_boundary t) h) ->
    exists h h', In h (hs ++ t_holes t) /\ In h' (hs ++ t_holes t) /\ h <> h' /\ poly_continence fuel h h' <> Ok (Some (Outside, Open)).
  Proof.
    intros fuel hs. induction hs as [|h hs IH]; intros t Hi Hn Hb Hp Hps Hsg Hl; cbn [insert_holes] in Hi; [discriminate|].
    apply bind_ok in Hi. destruct Hi as ([t1 r] & Hh & Hi). pose proof (insert_hole_spec _ _ _ _ _ Hb Hp Hh) as Hs.
    cbn [app] in Hn. apply NoDup_cons_iff in Hn. destruct Hn as [Hnh Hn].
    destruct r as [|cv].
    - destruct Hs as (_ & S & E1 & E2 & E3 & E4).
      destruct (IH t1 Hi) as (x & y & Hx & Hy & Hne & Hc).
      + unfold insert_hole in Hh. apply bind_ok in Hh. destruct Hh as (cv & _ & Hh). destruct cv; [|discriminate].
        apply bind_ok in Hh. destruct Hh as (cv & _ & Hh). destruct cv; [|discriminate]. injection Hh as <-. cbn [t_holes with_holes].
        assert (N2 : NoDup (t_holes t)) by (clear - Hn; induction hs; [exact Hn|inversion Hn; auto]).
        assert (P : Permutation (hadd pdec h (t_holes t)) (h :: t_holes t)).
        { apply NoDup_Permutation; [apply hadd_NoDup, N2|constructor; [intros Q; apply Hnh, in_or_app; right; exact Q|exact N2]|].
          intros x. rewrite hadd_In. cbn. split; [intros [->|?]; auto|intros [->|?]; auto]. }
        rewrite P. apply (Permutation_NoDup (l := h :: hs ++ t_holes t)); [apply Permutation_middle|constructor; assumption].
      + rewrite E1. exact Hb.
      + intros x Hx. apply S in Hx. destruct Hx as [<-|Hx]; [apply Hps; left; reflexivity|apply Hp, Hx].
      + intros x Hx. apply Hps. right. exact Hx.
      + rewrite E4. exact Hsg.
      + intros x Hx. rewrite E1. apply Hl. right. exact Hx.
      + assert (T : forall z, In z (hs ++ t_holes t1) -> In z ((h :: hs) ++ t_holes t)).
        { intros z. rewrite !in_app_iff, (S z). cbn. tauto. }
        exists x, y. auto.
    - destruct Hs as (_ & Hcv & _ & C1 & C2). destruct cv as [|v cv]; [congruence|].
      unfold insert_hole in Hh. apply bind_ok in Hh. destruct Hh as (cw & Hw & Hh). destruct cw as [|w cw].
      + apply bind_ok in Hh. destruct Hh as (cw & Hw2 & Hh). destruct cw as [|w cw]; [discriminate|].
        apply (hole_segment_conflicts_spec _ _ _ _) with (v := w) in Hw2. destruct Hw2 as [Hw2 _].
        destruct Hw2 as (s & Hs & _); [left; reflexivity|]. rewrite Hsg in Hs. destruct Hs.
      + apply (hole_conflicts_spec _ _ _ _) with (v := w) in Hw. destruct Hw as [Hw _].
        destruct Hw as [[Hw _]|(h' & Hh' & Hw & _)]; [left; reflexivity| |].
        * exfalso. apply Hw. apply Hl. left. reflexivity.
        * exists h', h. split; [right; apply in_or_app; right; exact Hh'|]. split; [left; reflexivity|]. split; [|exact Hw].
          intros ->. apply Hnh, in_or_app. right. exact Hh'.
  Qed.

  Lemma near_mono : forall (ss ss' : list edge), (forall a b, linked ss a b -> linked ss' a b) ->
    forall a b, linked_near ss a b -> linked_near ss' a b.
  Proof.
    intros ss ss' Hl a b Hn. induction Hn as [a|a b c Hab Hbc IH|a b c Hv Hbc IH].
    - constructor.
    - assert (L : linked ss' a b) by (apply Hl, linked_one, Hab). clear - L IH.
      induction L as [a|a x b Hax Hxb IHL]; [exact IH|]. eapply near_step; [exact Hax|]. apply IHL, IH.
    - eapply near_hop; eassumption.
  Qed.

  Lemma parse_spec : forall fuel p (inp : input A) r, parse H fuel p inp = Ok r ->
    match r with
    | Some (t, prm) =>
        prm = RP (i_max_area inp) (i_quality inp) /\
        exists fs b hs, Forall2 (means fuel) (i_actions inp) fs /\ domain_of H fuel fs b hs /\
          holds fuel t b hs (flat_map segments_of fs) (flat_map vertices_of fs)
    | None =>
        (exists a, In a (i_actions inp) /\ forall f, ~ means fuel a f) \/
        (exists fs, Forall2 (means fuel) (i_actions inp) fs /\
           domain_boundary H fuel (1 :: p) (flat_map included fs) (flat_map removed fs) = Ok None) \/
        (exists fs b hs, Forall2 (means fuel) (i_actions inp) fs /\ domain_of H fuel fs b hs /\
           unfit fuel b hs (flat_map segments_of fs) (flat_map vertices_of fs))
    end.
  Proof.
    intros fuel p inp r Hp. unfold parse in Hp. apply bind_ok in Hp. destruct Hp as (o & Ho & Hp).
    destruct o as [[d prm]|].
    2:{ injection Hp as <-. left. apply (interpret_exact fuel inp). exact Ho. }
    apply interpret_accepts in Ho. destruct Ho as (-> & fs & Hfs & Ei & Er & Es & Ev).
    apply bind_ok in Hp. destruct Hp as (ob & Hb & Hp). rewrite Ei, Er in Hb. destruct ob as [[b kept]|].
    2:{ injection Hp as <-. right. left. exists fs. split; assumption. }
    destruct (domain_boundary_spec H fuel (1 :: p) (flat_map included fs) (flat_map removed fs)) as [_ DB].
    destruct (DB b kept Hb) as (l & b0 & D1 & D2 & D3 & D4). clear DB.
    apply bind_ok in Hp. destruct Hp as (hs & Hh & Hp). apply domain_holes_spec in Hh.
    assert (Hdom : domain_of H fuel fs b hs) by (exists l, b0, kept; auto).
    assert (Hss : forall e, In e (d_segments d) <-> In e (flat_map segments_of fs)).
    { intros e. rewrite (Es e), in_flat_map. reflexivity. }
    assert (Hvs : forall v, In v (d_vertices d) <-> In v (flat_map vertices_of fs)).
    { intros v. rewrite (Ev v), in_flat_map. reflexivity. }
    assert (Pr : forall x, In x (flat_map included fs) \/ In x (flat_map removed fs) -> proper_closed x).
    { intros x Hx. assert (Q : exists f, In f fs /\ (In x (included f) \/ In x (removed f))).
      { destruct Hx as [Hx|Hx]; apply in_flat_map in Hx; destruct Hx as (f & Hf & Hx); exists f; auto. }
      destruct Q as (f & Hf & Q). destruct (forall2_right _ _ _ _ _ Hfs f Hf) as (a & _ & Hm).
      destruct Hm; cbn in Q; destruct Q as [Q|Q]; try destruct Q as [<-|[]]; try destruct Q; eapply body_proper; eassumption. }
    assert (Pb : proper_closed b).
    { apply (carved_proper _ _ _ _ D4). apply (united_proper _ _ D1). intros x Hx. apply Pr. left. apply D3, Hx. }
    assert (Ph : forall h, In h hs -> proper_closed h).
    { intros h Hin. destruct Hh as (_ & Hh & _). destruct (Hh h Hin) as (_ & r0 & Hr0 & G). apply (grows_proper _ _ G).
      apply Pr. right. apply (carved_kept _ _ _ _ D4), Hr0. }
    assert (Ph' : forall h, In h (ho H (3 :: p) _ hs) -> proper h).
    { intros h Hin. apply proper_closed_proper, Ph. apply ho_In in Hin. exact Hin. }
    apply bind_ok in Hp. destruct Hp as (o1 & Ho1 & Hp). destruct o1 as [t1|].
    2:{ injection Hp as <-. right. right. exists fs, b, hs. split; [exact Hfs|]. split; [exact Hdom|]. left.
        destruct Hh as (Nh & Lh & _).
        destruct (insert_holes_none fuel _ _ Ho1) as (x & y & Hx & Hy & Hne & Hc).
        - cbn. rewrite app_nil_r. apply (Permutation_NoDup (ho_perm H (3 :: p) _ hs)), Nh.
        - apply proper_closed_proper, Pb.
        - intros h [].
        - exact Ph'.
        - reflexivity.
        - intros h Hin. apply Lh. apply ho_In in Hin. exact Hin.
        - cbn [t_holes triangulator_new] in Hx, Hy. rewrite app_nil_r in Hx, Hy. apply ho_In in Hx, Hy. exists x, y. auto. }
    destruct (insert_holes_some fuel _ _ _ Ho1) as (I1 & I2 & I3 & I4 & I5 & I6);
      [apply proper_closed_proper, Pb|intros h []|exact Ph'|intros h h' []|].
    cbn [t_boundary t_trn t_vertices t_segments t_holes triangulator_new] in I1, I2, I3, I4, I5.
    assert (I5' : forall h, In h (t_holes t1) <-> In h hs).
    { intros h. rewrite (I5 h), app_nil_r. apply ho_In. }
    assert (SF : forall s, segment_admissible fuel t1 s <-> segment_fits fuel b hs s).
    { intros s. unfold segment_admissible, segment_fits. rewrite I1. unfold lies_in, as_poly.
      split; intros [Q1 Q2]; (split; [exact Q1|intros h Hin; apply Q2, I5', Hin]). }
    apply bind_ok in Hp. destruct Hp as ([t2 r2] & Hsg & Hp). pose proof (insert_segments_spec _ _ _ _ _ _ _ Hsg) as Q2.
    destruct r2 as [|bad].
    2:{ injection Hp as <-. right. right. exists fs, b, hs. split; [exact Hfs|]. split; [exact Hdom|]. right. left.
        destruct Q2 as (_ & Hbad & Q2). destruct bad as [|s bad]; [congruence|]. destruct (proj1 (Q2 s) (or_introl eq_refl)) as [Hs Hns].
        exists s. split; [apply Hss, Hs|]. rewrite <- SF. exact Hns. }
    destruct Q2 as ((E1 & E2 & E3) & Q2). pose proof (insert_segments_kept _ _ _ _ _ _ Hsg) as (K1 & K2).
    assert (VF : forall v, vertex_admissible t2 v <-> vertex_fits b hs v).
    { intros v. unfold vertex_admissible, vertex_fits. rewrite E1, E2, I1.
      split; intros [W1 W2]; (split; [exact W1|intros h Hin; apply W2, I5', Hin]). }
    apply bind_ok in Hp. destruct Hp as ([t3 r3] & Hvt & Hp). pose proof (insert_vertices_spec _ _ _ _ _ _ Hvt) as Q3.
    destruct r3 as [|bad].
    2:{ injection Hp as <-. right. right. exists fs, b, hs. split; [exact Hfs|]. split; [exact Hdom|]. right. right.
        destruct Q3 as (_ & Hbad & Q3). destruct bad as [|v bad]; [congruence|]. destruct (proj1 (Q3 v) (or_introl eq_refl)) as [Hv Hnv].
        exists v. split; [apply Hvs, Hv|]. rewrite <- VF. exact Hnv. }
    injection Hp as <-. destruct Q3 as ((F1 & F2 & F3) & Q3).
    pose proof (insert_vertices_kept _ _ _ _ _ Hvt) as (V1 & V2 & V3 & V4 & V5 & V6).
    split; [reflexivity|]. exists fs, b, hs. split; [exact Hfs|]. split; [exact Hdom|].
    split; [congruence|]. split; [congruence|]. split; [intros h; rewrite F2, E2; apply I5'|].
    split; [intros x y Hx Hy Hne; apply I6; [apply I5', Hx|apply I5', Hy|exact Hne]|]. split; [|split].
    - intros s Hs. apply Hss in Hs. split; [apply SF, Q2, Hs|]. apply (near_mono _ _ V4). apply K1. left. exact Hs.
    - intros v Hv. apply Hvs in Hv. split; [apply VF, Q3, Hv|apply V1, Hv].
    - intros v Hv. apply V5 in Hv. destruct Hv as [Hv|Hv]; [apply K2 in Hv; rewrite I3 in Hv; destruct Hv|apply Hvs, Hv].
  Qed.
End Domain.

Lemma teqb_rotated : forall (A : Arith) (t u : triangle A), teqb t u = true <->
  exists u', rotated u u' /\ veqb (tv1 t) (tv1 u') = true /\ veqb (tv2 t) (tv2 u') = true /\ veqb (tv3 t) (tv3 u') = true.
Proof.
  intros A [a b c] [x y z]. unfold teqb. cbn [tv1 tv2 tv3]. rewrite !orb_true_iff, !andb_true_iff. split.
  - intros [[[[H1 H2] H3]|[[H1 H2] H3]]|[[H1 H2] H3]].
    + exists (Tri x y z). split; [constructor|auto].
    + exists (Tri y z x). split; [constructor|auto].
    + exists (Tri z x y). split; [constructor|auto].
  - intros (u' & Hu & H1 & H2 & H3). inversion Hu; subst; cbn [tv1 tv2 tv3] in *; auto.
Qed.

Lemma edge_length_dist : forall e : edge ArithR.ArithR, (edge_length e : Rdefinitions.R) = SpecR.dist (fst e) (snd e).
Proof. intros e. exact (P_R4.distance_dist (fst e) (snd e)). Qed.
