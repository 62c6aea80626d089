(** Properties of the gestures and commands of a view: C55. *)
From Coq Require Import List Arith ZArith Lia Bool ZifyBool.
From Verif Require Import Base ListLib DeltaModel DeltaSpec TreeModel TreeSpec MetricProofs CursorModel RopeModel RopeSpec RopeProofs SelectionModel SelectionProofs PropertiesSelection WordModel PropertiesWord
  EditOpsModel EditOpsSpec BreaksModel BreaksSpec LinewrapModel LinewrapMerged LinewrapInv LinewrapLines LinewrapSpec LinewrapHist PropertiesLinewrap MovementModel MovementSpec MovementProofs PropertiesMovement
  ShadowModel ViewModel ViewSpec ViewProofs.
Import ListNotations.
Local Notation concat := List.concat.
Local Notation region := SelectionModel.region.
Local Notation lo := PropertiesSelection.lo.
Local Open Scope nat_scope.

(** ** The surroundings are those of a view *)
Section Lines.
Context {F : Type} (fzero : F) (fadd : F -> F -> F) (fge fgt : F -> F -> bool) (fis0 : F -> bool) (of_nat : nat -> F).
Context (wid : @wrapw F -> list nat -> F) (opps : list nat -> nat -> list (nat * bool)) (max_pot : nat).
Context (WL : width_laws fzero fadd fge fgt fis0) (okt : list nat -> Prop) (po : list nat -> list (nat * bool)) (OL : opps_laws okt opps po) (Hmp : 0 < max_pot).
Definition view_env (text : rope) (ln : @lines F) (gb : nat -> bool) : env :=
  Env text gb (view_lines ln text) (logical_line_range ln text) (starts text (ln_breaks ln)).
(** After any history of wrapping (C43). *)
Theorem C55_view_env_partial text ln gb : reach fzero fadd fge fgt fis0 of_nat wid opps max_pot okt text ln -> grapheme_bounds (rcontent text) gb -> env_ok (view_env text ln gb).
Proof.
  intros Rl G. destruct (reach_inv fzero fadd fge fgt fis0 of_nat wid opps max_pot WL okt po OL Hmp text ln Rl) as (_ & Sh & _).
  split; cbn [view_env e_text e_gb e_lo e_range e_st es]; auto.
  - exact (sh_text _ _ Sh).
  - now apply (C52_view_lines_partial fzero fadd fge fgt fis0 of_nat wid opps max_pot WL okt po OL Hmp).
  - intros l _. unfold es. cbn [e_text view_env]. destruct (C43_line_range_partial fzero fadd fge fgt fis0 of_nat wid opps max_pot WL okt po OL Hmp text ln l Rl) as (a & b & E & H1 & H2 & H3 & H4).
    exists a, b. split; auto. fold (row_start (rcontent text) (starts text (ln_breaks ln)) l) in *. set (o := row_start _ _ l) in *. set (s := rcontent text) in *.
    assert (N : forall z, a < z -> (forall i, a <= i -> S i <= z -> i = z - 1 -> nth_error s i <> Some 10) -> ~ starts_line s z).
    { intros z Hz Hi [_ [?|Q]]; [lia|]. apply (Hi (z - 1)) in Q; auto; lia. }
    assert (Sa : starts_line s a). { destruct H4 as [(P1 & P2 & _)|[-> ->]]; (split; [lia|]); unfold lstart in H1; tauto. }
    split; auto. split; [lia|]. split. { intros z Hz. apply N; [lia|]. intros i Hi1 Hi2 _. apply H3. lia. }
    destruct H4 as [(P1 & P2 & P3 & P4)|[-> ->]].
    + destruct (Nat.eq_dec o b) as [Eo|Eo].
      * right. destruct P3 as [P3|P3]; [exfalso; apply (H3 (b - 1)); auto; lia|]. split; auto. intros z Hz [Hl _]. fold s in P2. lia.
      * assert (Nz : forall z, o < z < b -> ~ starts_line s z) by (intros z Hz; apply N; [lia|]; intros i Hi1 Hi2 ->; apply P4; lia).
        destruct (nth_error s (b - 1)) as [y|] eqn:Ey; [|exfalso; apply nth_error_None in Ey; lia]. destruct (Nat.eq_dec y 10) as [->|Hy].
        -- left. split; [lia|]. split; auto. split; [lia|now right].
        -- right. destruct P3 as [P3|P3]; [congruence|]. split; auto. intros z Hz Hs. destruct (Nat.lt_ge_cases z b); [now apply (Nz z)|]. pose proof Hs as [Hl [?|Q]]; [lia|]. assert (z = b) by lia. subst z. congruence.
    + right. split; [|auto]. intros z Hz [Hl _]. lia.
Qed.
End Lines.
Print Assumptions C55_view_env_partial.

(** ** Soundness *)
(** Whatever was done, the selection has a region, its regions are in order and apart, their ends
    are between characters of the present text, and the window has a height. *)
Theorem C55_sound_partial e v : vreach e v -> sound (es e) (vw_sel v) /\ 1 <= vw_height v.
Proof. intros R. apply reach_VI in R as (_ & V1 & V2 & _). auto. Qed.
Print Assumptions C55_sound_partial.
(** No command panics, but those listed in [sane]; and those that move the caret bring it into the
    window, which moves no more than it must. *)
Theorem C55_commands_partial e v ev : vreach e v -> sane e v ev -> exists v', do_in e v ev = Some v' /\ (scrolls v ev -> in_view e v v').
Proof. intros R Hs. apply reach_VI in R as (OK & V). destruct (event_ok e OK v ev V Hs) as (v' & E & _ & W). eauto. Qed.
Print Assumptions C55_commands_partial.
(** Nor does an edit of the text, made here or elsewhere: the regions are carried along (C29). *)
Theorem C55_edit e v d dr e' : vreach e v -> env_ok e' -> wf_delta d -> keeps_chars (es e) d -> apply d (es e) = Some (es e') ->
  exists v', after_edit_selection (e_lo e') v d dr = Some v' /\ vreach e' v' /\ in_view e' v v' /\ sel_apply_delta (vw_sel v) d true dr = Some (vw_sel v').
Proof.
  intros R OK' Wd Hk Ea. pose proof (reach_VI _ _ R) as (OK & V). destruct (edit_ok e e' v d dr V OK' Hk Ea) as (v' & E & _ & _ & I & Es). exists v'. split; auto. split; [eapply vr_edit; eauto|auto].
Qed.
Print Assumptions C55_edit.

(** ** Gestures *)
Section Gestures.
Context (e : env) (v : view) (R : vreach e v) (GS : forall o, In o (e_st e) -> e_gb e o = true).
Notation s := (es e).
Notation place := (place s (e_st e) (e_gb e)).
Let OK : env_ok e := proj1 (reach_VI e v R).
Let V : VI e v := proj2 (reach_VI e v R).

(** A click selects exactly what is there: a place, a word or a line. *)
Theorem C55_click line col g : exists v' q a b, do_in e v (EGesture line col (Select g false)) = Some v' /\ place line col q /\ unit_of s g q a b /\ vw_sel v' = [region_new a b].
Proof.
  destruct (place_ok e OK line col) as (q & E & Bq & P). destruct (select_ok e OK v q g false V Bq) as (v' & E' & _ & [(_ & ? & _)|(_ & _ & a & b & U & _ & _ & H & _)]); [discriminate|].
  exists v', q, a, b. unfold do_in. cbn [do_edit]. unfold do_gesture. rewrite E. auto.
Qed.
(** A click to add keeps the selection and adds what is there; where there is a region already, it is
    taken away, unless it is the only one. *)
Theorem C55_multi_click line col g : exists v' q, do_in e v (EGesture line col (Select g true)) = Some v' /\ place line col q /\
  (g = GPoint /\ toggles (vw_sel v) (vw_sel v') q \/
   (g = GPoint -> forall sel', ~ toggles (vw_sel v) sel' q) /\ exists a b, unit_of s g q a b /\ adds (vw_sel v) (vw_sel v') a b).
Proof.
  destruct (place_ok e OK line col) as (q & E & Bq & P). destruct (select_ok e OK v q g true V Bq) as (v' & E' & _ & H).
  exists v', q. unfold do_in. cbn [do_edit]. unfold do_gesture. rewrite E. split; auto. split; auto. destruct H as [(-> & _ & T & _)|(N & _ & a & b & U & _ & _ & _ & H)]; [left; auto|right].
  split; [intros Hg; now apply N|]. exists a, b. auto.
Qed.
(** A click to extend keeps all regions but the last, which now goes from where it began to what is
    there. *)
Theorem C55_extend line col g : exists v' q rs x a b, do_in e v (EGesture line col (SelectExtend g)) = Some v' /\ place line col q /\ vw_sel v = rs ++ [x] /\
  unit_of s g q a b /\ unites rs (vw_sel v') (reaches (r_start x) (r_start x) q a b).
Proof.
  destruct (place_ok e OK line col) as (q & E & Bq & P). destruct (extend_ok e OK v q g V Bq) as (v' & rs & x & a & b & E' & _ & _ & H1 & H2 & _ & H3 & _).
  exists v', q, rs, x, a, b. unfold do_in. cbn [do_edit]. unfold do_gesture. rewrite E. auto 8.
Qed.
End Gestures.
Print Assumptions C55_click.
Print Assumptions C55_multi_click.
Print Assumptions C55_extend.

Lemma drag_run e (GS : forall o, In o (e_st e) -> e_gb e o = true) ps : forall v d line col, env_ok e -> VI e v -> vw_drag v = Some d -> exists v' q a b, do_all e v (drags (ps ++ [(line, col)])) = Some v' /\
  place (es e) (e_st e) (e_gb e) line col q /\ unit_of (es e) (dg_gran d) q a b /\ unites (dg_base d) (vw_sel v') (reaches (dg_min d) (dg_max d) q a b).
Proof.
  assert (One : forall v d line col, env_ok e -> VI e v -> vw_drag v = Some d -> exists v' q a b, do_in e v (EGesture line col GDrag) = Some v' /\ VI e v' /\ vw_drag v' = Some d /\
    place (es e) (e_st e) (e_gb e) line col q /\ unit_of (es e) (dg_gran d) q a b /\ unites (dg_base d) (vw_sel v') (reaches (dg_min d) (dg_max d) q a b)).
  { intros v d line col OK V Ed. destruct (place_ok e OK line col) as (q & E & Bq & P). destruct (drag_ok e OK v d q V Ed Bq) as (v' & a & b & E' & I & _ & U & _ & H & D).
    exists v', q, a, b. unfold do_in. cbn [do_edit]. unfold do_gesture. rewrite E. auto 8. }
  induction ps as [|[l c] ps IH]; intros v d line col OK V Ed; cbn [app drags map fst snd do_all].
  - destruct (One v d line col OK V Ed) as (v' & q & a & b & -> & I & D & P & U & H). cbn [bind]. exists v', q, a, b. auto.
  - destruct (One v d l c OK V Ed) as (v1 & _ & _ & _ & -> & I & D & _). cbn [bind]. now apply IH.
Qed.
Section Drags.
Context (e : env) (v : view) (R : vreach e v) (GS : forall o, In o (e_st e) -> e_gb e o = true).
Notation s := (es e).
Notation place := (place s (e_st e) (e_gb e)).
Let OK : env_ok e := proj1 (reach_VI e v R).
Let V : VI e v := proj2 (reach_VI e v R).
(** A click and a drag select from what was clicked to what is under the mouse, in the unit of the
    click, whatever the way. *)
Theorem C55_drag line col g ps line' col' : exists v' p a b q a' b', do_all e v (EGesture line col (Select g false) :: drags (ps ++ [(line', col')])) = Some v' /\
  place line col p /\ unit_of s g p a b /\ place line' col' q /\ unit_of s g q a' b' /\ vw_sel v' = [reaches a b q a' b'].
Proof.
  destruct (place_ok e OK line col) as (p & E & Bq & P). destruct (select_ok e OK v p g false V Bq) as (v1 & E' & I & [(_ & ? & _)|(_ & _ & a & b & U & _ & D & _)]); [discriminate|].
  destruct (drag_run e GS ps v1 _ line' col' OK I D) as (v' & q & a' & b' & E2 & P2 & U2 & H). exists v', p, a, b, q, a', b'.
  cbn [do_all]. unfold do_in at 1. cbn [do_edit]. unfold do_gesture. rewrite E. cbn [bind]. rewrite E'. cbn [bind]. split; auto. split; auto. split; auto. split; auto. split; auto. now apply H.
Qed.
(** With the key to add, what was selected stays. *)
Theorem C55_multi_drag line col g ps line' col' : exists v' p, place line col p /\
  ((g = GPoint /\ exists sel', toggles (vw_sel v) sel' p) \/
   exists a b q a' b', do_all e v (EGesture line col (Select g true) :: drags (ps ++ [(line', col')])) = Some v' /\
     unit_of s g p a b /\ place line' col' q /\ unit_of s g q a' b' /\ unites (vw_sel v) (vw_sel v') (reaches a b q a' b')).
Proof.
  destruct (place_ok e OK line col) as (p & E & Bq & P). destruct (select_ok e OK v p g true V Bq) as (v1 & E' & I & [(-> & _ & T & _)|(_ & _ & a & b & U & _ & D & _)]); [exists v, p; eauto 6|].
  destruct (drag_run e GS ps v1 _ line' col' OK I D) as (v' & q & a' & b' & E2 & P2 & U2 & H). exists v', p. split; auto. right. exists a, b, q, a', b'.
  cbn [do_all]. unfold do_in at 1. cbn [do_edit]. unfold do_gesture. rewrite E. cbn [bind]. rewrite E'. cbn [bind]. auto.
Qed.
(** After a click to extend, dragging is extending. *)
Theorem C55_extend_drag line col g ps line' col' : exists v' rs x q a b, do_all e v (EGesture line col (SelectExtend g) :: drags (ps ++ [(line', col')])) = Some v' /\
  vw_sel v = rs ++ [x] /\ place line' col' q /\ unit_of s g q a b /\ unites rs (vw_sel v') (reaches (r_start x) (r_start x) q a b).
Proof.
  destruct (place_ok e OK line col) as (p & E & Bq & P). destruct (extend_ok e OK v p g V Bq) as (v1 & rs & x & a0 & b0 & E' & I & _ & H1 & _ & _ & _ & D).
  destruct (drag_run e GS ps v1 _ line' col' OK I D) as (v' & q & a & b & E2 & P2 & U2 & H). exists v', rs, x, q, a, b.
  cbn [do_all]. unfold do_in at 1. cbn [do_edit]. unfold do_gesture. rewrite E. cbn [bind]. rewrite E'. cbn [bind]. auto 8.
Qed.
(** A movement ends a drag. *)
Theorem C55_drag_ends m (modify : bool) v' line col : sane e v (if modify then EModify m else EMove m) -> do_in e v (if modify then EModify m else EMove m) = Some v' ->
  do_in e v' (EGesture line col GDrag) = Some v'.
Proof.
  intros Hs E. assert (D : vw_drag v' = None).
  { destruct modify; [destruct (do_move_ok e OK v m true V Hs) as (v2 & E2 & _ & _ & _ & D)|destruct (do_move_ok e OK v m false V Hs) as (v2 & E2 & _ & _ & _ & D)]; unfold do_in in E; cbn [do_edit] in E; congruence. }
  unfold do_in. cbn [do_edit]. unfold do_gesture. destruct (place_ok e OK line col) as (q & -> & _). cbn [bind]. unfold do_drag. now rewrite D.
Qed.
End Drags.
Print Assumptions C55_drag.
Print Assumptions C55_multi_drag.
Print Assumptions C55_extend_drag.
Print Assumptions C55_drag_ends.

(** ** Commands *)
Section Commands.
Context (e : env) (v : view) (R : vreach e v).
Notation s := (es e).
Let OK : env_ok e := proj1 (reach_VI e v R).
Let V : VI e v := proj2 (reach_VI e v R).
(** The whole text is selected, and the window stays. *)
Theorem C55_select_all : exists v', do_in e v ESelectAll = Some v' /\ vw_sel v' = [region_new 0 (length s)] /\ vw_first v' = vw_first v /\ vw_height v' = vw_height v.
Proof. destruct (all_ok e OK v V) as (v' & E & _ & H1 & _ & H2 & H3). exists v'. auto. Qed.
(** To the start of a visual line; to the end of the text if there are not so many. *)
Theorem C55_goto_line line : (forall o, In o (e_st e) -> e_gb e o = true) -> exists v', do_in e v (EGotoLine line) = Some v' /\ vw_sel v' = [caret (row_start s (e_st e) line)].
Proof.
  intros GS. destruct (goto_ok e OK v line V) as (v' & q & E & _ & _ & Eq & Es & _). exists v'. split; auto. rewrite Es. do 2 f_equal. destruct (place_ok e OK line 0) as (q' & E' & _ & P).
  rewrite Eq in E'. injection E' as <-. pose proof (an_visual _ _ _ (eo_lines e OK)) as Vi. destruct (P GS) as [[L ->]|(L & G & O & H & _)]; [now rewrite R_past|]. destruct O as (_ & O & _). lia.
Qed.
(** One caret, where that of the first region was. *)
Theorem C55_collapse : exists v' x rs, do_in e v ECollapse = Some v' /\ vw_sel v = x :: rs /\ vw_sel v' = [Region (r_end x) (r_end x) (r_horiz x) Downstream].
Proof. destruct (collapse_ok e OK v V) as (v' & x & rs & E & _ & _ & H1 & H2 & _). exists v', x, rs. auto. Qed.
(** A movement moves every region: see C52. *)
Theorem C55_move_partial m (modify : bool) : sane e v (if modify then EModify m else EMove m) ->
  exists v', do_in e v (if modify then EModify m else EMove m) = Some v' /\ selection_movement (e_gb e) (e_text e) (e_lo e) m (vw_sel v) (vw_height v) modify = Some (vw_sel v').
Proof.
  intros Hs. destruct modify; [destruct (do_move_ok e OK v m true V Hs) as (v2 & E2 & _ & _ & H & _)|destruct (do_move_ok e OK v m false V Hs) as (v2 & E2 & _ & _ & H & _)]; eauto.
Qed.
(** Every region stays, and a caret is added for each: on the next visual line above or below that
    has its column (see C52). *)
Theorem C55_add_partial (up : bool) : (forall o, In o (e_st e) -> e_gb e o = true) ->
  (forall x, In x (vw_sel v) -> ordinary s (e_st e) (if up then MUpExactPosition else MDownExactPosition) x false) ->
  exists v' ys, do_in e v (if up then EAddAbove else EAddBelow) = Some v' /\
    Forall2 (fun x y => exists q hz, exact s (e_st e) (e_gb e) x up false q hz /\ y = Region q q hz Downstream) (vw_sel v) ys /\
    disjoint_in_order (vw_sel v') /\ forall p, (selected (vw_sel v') p <-> selected (vw_sel v) p) /\ (touched (vw_sel v') p <-> touched (vw_sel v) p \/ touched ys p).
Proof.
  intros GS Ho. pose proof (an_visual _ _ _ (eo_lines e OK)) as Vi. destruct (e_wf e OK) as [h W].
  assert (He : forall x, In x (vw_sel v) -> ~ empty_end s (e_st e) (if up then MUpExactPosition else MDownExactPosition) x false).
  { intros x Hx Q. specialize (Ho x Hx). destruct up; cbn in Ho, Q; destruct Q as (c & Ec & Hc & En & Ea & _); destruct (Ho (last_row (e_st e)) c) as (Q & _);
      try (rewrite Ea; apply on_row_end; auto); try (unfold keeps_col; rewrite Ec; reflexivity); specialize (Q eq_refl); rewrite En in Q; lia. }
  destruct (add_by_ok e OK v _ V He) as (v' & ys & E & I & _ & M & H). exists v', ys.
  split; [unfold do_in; destruct up; exact E|].
  assert (F2 : Forall2 (fun x y => exists q hz, exact s (e_st e) (e_gb e) x up false q hz /\ y = Region q q hz Downstream) (vw_sel v) ys).
  { destruct V as ((_ & _ & Fp) & _). clear E I H He. revert ys M Ho Fp. induction (vw_sel v) as [|x rs IH]; intros [|y ys] M Ho Fp; try discriminate; constructor.
    - cbn [map] in M. injection M as M _. destruct (Fp x (or_introl eq_refl)) as (P1 & P2 & _).
      destruct (C52_move_partial (e_text e) h W (e_st e) (e_lo e) (eo_lines e OK) (e_gb e) (eo_gb e OK) _ (vw_height v) x false GS ltac:(split; auto) (Ho x (or_introl eq_refl))) as (q & hz & Mv & E).
      exists q, hz. rewrite E in M. split; [destruct up; exact Mv|congruence].
    - cbn [map] in M. injection M as _ M. apply IH; auto; intros z Hz; [apply Ho|apply Fp]; now right. }
  split; auto. split; [destruct I as ((_ & O & _) & _); exact O|]. intros p. split; [|exact (H KTouch p)]. rewrite (H KCov p : selected _ p <-> selected _ p \/ selected ys p). split; auto. intros [Q|(y & Hy & Q)]; auto. exfalso.
  assert (r_start y = r_end y). { clear - F2 Hy. induction F2 as [|x z rs zs (q & hz & _ & ->) F2 IH]; [easy|]. destruct Hy as [<-|Hy]; auto. }
  unfold lo, hi in Q. lia.
Qed.
(** Regions that end where a line begins are cut into their lines, without the line breaks. Missing:
    regions that end within a line, see [C55_into_lines_refuted]. *)
Theorem C55_into_lines_partial : (forall x, In x (vw_sel v) -> lo x < hi x -> starts_line s (hi x)) -> exists v', do_in e v EIntoLines = Some v' /\
  disjoint_in_order (vw_sel v') /\ forall p,
  (selected (vw_sel v') p <-> selected (vw_sel v) p /\ nth_error s p <> Some 10) /\
  (touched (vw_sel v') p <-> exists x, In x (vw_sel v) /\ (lo x = p /\ p = hi x \/ lo x <= p < hi x)) /\
  (inside (vw_sel v') p <-> inside (vw_sel v) p /\ nth_error s p <> Some 10 /\ nth_error s (p - 1) <> Some 10).
Proof.
  intros Hl. destruct (into_lines_ok e OK v V) as (v' & E & I & _ & _ & _ & H).
  { intros x Hx L. destruct (Hl x Hx L) as [Q1 [Q2|Q2]]; [unfold rmin, rmax, lo, hi in *; lia|]. now apply nl_bd. }
  exists v'. split; auto. split; [destruct I as ((_ & O & _) & _); exact O|]. specialize (H Hl). intros p. split; [|split].
  - etransitivity; [exact (H KCov p)|]. unfold line_points. cbn [has pieces]. split.
    + intros (x & Hx & Q). destruct (Nat.eqb_spec (rmin x) (rmax x)); [lia|]. destruct Q as [Q1 Q2]. split; auto. exists x. auto.
    + intros [(x & Hx & Q) N]. exists x. split; auto. change (rmin x) with (lo x). change (rmax x) with (hi x). destruct (Nat.eqb_spec (lo x) (hi x)); auto.
  - etransitivity; [exact (H KTouch p)|]. unfold line_points. cbn [has pieces]. split; intros (x & Hx & Q); exists x; (split; [exact Hx|]); change (rmin x) with (lo x) in *; change (rmax x) with (hi x) in *; destruct (Nat.eqb_spec (lo x) (hi x)); lia.
  - etransitivity; [exact (H KIn p)|]. unfold line_points. cbn [has pieces]. split.
    + intros (x & Hx & Q). destruct (Nat.eqb_spec (rmin x) (rmax x)); [lia|]. destruct Q as [Q1 Q2]. split; auto. exists x. auto.
    + intros [(x & Hx & Q) N]. exists x. split; auto. change (rmin x) with (lo x). change (rmax x) with (hi x). destruct (Nat.eqb_spec (lo x) (hi x)); auto.
Qed.
End Commands.
Print Assumptions C55_select_all.
Print Assumptions C55_goto_line.
Print Assumptions C55_collapse.
Print Assumptions C55_move_partial.
Print Assumptions C55_add_partial.
Print Assumptions C55_into_lines_partial.

(** ** Concrete cases *)
(** Commands that ask for nothing. *)
Definition calm (ev : view_event) : bool :=
  match ev with EMove _ | EModify _ | EAddAbove | EAddBelow | EScroll _ _ | EIntoLines => false | _ => true end.
Lemma run_reach e evs : forall v v', vreach e v -> forallb calm evs = true -> do_all e v evs = Some v' -> vreach e v'.
Proof.
  induction evs as [|ev evs IH]; intros v v' R C E; cbn [do_all forallb] in *; [now injection E as <-|]. apply andb_true_iff in C as [C1 C2].
  destruct (do_in e v ev) as [v1|] eqn:E1; [|discriminate]. cbn [bind] in E. apply (IH v1); auto. eapply vr_event; eauto. destruct ev; cbn in *; auto; discriminate.
Qed.
(** A view, not wrapped, after some commands; and the selection after each of some ways to go on. *)
Definition case (tx : list nat) (gb : nat -> bool) (evs : list view_event) (ways : list (list view_event)) : option (list region * list (option (list region))) :=
  let? t := rope_from tx in
  let e := view_env t (set_wrap_width (F := nat) ln_default t WNone) gb in
  let? v := do_all e view_new evs in
  Some (vw_sel v, map (fun w => option_map vw_sel (do_all e v w)) ways).
Lemma case_at tx evs ways sel out : forallb (fun b => b <? 128) tx = true -> forallb calm evs = true -> case tx (every tx) evs ways = Some (sel, out) ->
  exists text ln v, let e := view_env text ln (every tx) in creach text ln /\ rcontent text = tx /\ vreach e v /\ vw_sel v = sel /\ map (fun w => option_map vw_sel (do_all e v w)) ways = out.
Proof.
  intros Ha Hc E. unfold case in E. destruct (rope_from tx) as [t|] eqn:Et; [|discriminate]. cbn [bind] in E. destruct (rope_of tx t Ha Et) as (W & A & C). cbv zeta in E.
  set (ln := set_wrap_width ln_default t WNone) in *. assert (Rl : creach t ln) by (apply reach_start; auto).
  assert (OK : env_ok (view_env t ln (every tx))).
  { apply (C55_view_env_partial 0 Nat.add cge cgt (Nat.eqb 0) (fun x => x) cwid copps (100 * 100) concrete_widths ascii cpo concrete_opps ltac:(lia)); auto. rewrite C. apply every_ok. now apply ascii_dec. }
  destruct (do_all _ view_new evs) as [v|] eqn:Ev; [|discriminate]. cbn [bind] in E. injection E as E1 E2.
  exists t, ln, v. split; auto. split; auto. split; [eapply run_reach; eauto; now apply vr_new|]. auto.
Qed.
Lemma sel_of (o : option view) sel : option_map vw_sel o = Some sel -> exists v, o = Some v /\ vw_sel v = sel.
Proof. destruct o as [v|]; [|discriminate]. intros E. injection E as E. eauto. Qed.
Lemma none_of {A B} (f : A -> B) (o : option A) : option_map f o = None -> o = None.
Proof. now destruct o. Qed.
Lemma one_of e v ev : do_all e v [ev] = do_in e v ev.
Proof. cbn. now destruct (do_in e v ev). Qed.
Ltac at_case tx evs ways :=
  let E := fresh "E" in
  destruct (case tx (every tx) evs ways) as [[sel out]|] eqn:E; [|vm_compute in E; discriminate];
  let K := fresh in assert (K := E); vm_compute in K; injection K as <- <-;
  apply case_at in E as (text & ln & v & Rl & C & R & Es & E); [|reflexivity|reflexivity]; cbn [map] in E; rewrite ?one_of in E; exists (view_env text ln (every tx)), v.
(** ** Where the code does otherwise *)
(** A region that ends within a line loses its last byte, and one on the last line is made longer:
    of "ab" in the first line of "abc def", "a" is left; "de" in its last line becomes "def". *)
Theorem C55_into_lines_refuted :
  (exists e v v', vreach e v /\ es e = [97; 98; 99; 10; 100; 101; 102] /\ vw_sel v = [region_new 0 2] /\ do_in e v EIntoLines = Some v' /\ selected (vw_sel v) 1 /\ ~ selected (vw_sel v') 1) /\
  (exists e v v', vreach e v /\ es e = [97; 98; 99; 10; 100; 101; 102] /\ vw_sel v = [region_new 4 6] /\ do_in e v EIntoLines = Some v' /\ ~ selected (vw_sel v) 6 /\ selected (vw_sel v') 6).
Proof.
  split.
  - at_case [97; 98; 99; 10; 100; 101; 102] [EGesture 0 0 (Select GPoint false); EGesture 0 2 GDrag] [[EIntoLines]]. injection E as E.
    apply sel_of in E as (v' & E & Es'). exists v'. split; auto. split; auto. split; auto. split; auto. rewrite Es, Es'. split; [exists (region_new 0 2); split; [now left|cbn; lia]|]. intros (x & [<-|[]] & Q). cbn in Q. lia.
  - at_case [97; 98; 99; 10; 100; 101; 102] [EGesture 1 0 (Select GPoint false); EGesture 1 2 GDrag] [[EIntoLines]]. injection E as E.
    apply sel_of in E as (v' & E & Es'). exists v'. split; auto. split; auto. split; auto. split; auto. rewrite Es, Es'. split; [|exists (region_new 4 7); split; [now left|cbn; lia]]. intros (x & [<-|[]] & Q). cbn in Q. lia.
Qed.
Print Assumptions C55_into_lines_refuted.
(** A window without height is taken, and the next movement panics; one that ends before it begins
    panics at once. *)
Theorem C55_scroll_refuted : exists e v, vreach e v /\ es e = [97; 98] /\ do_in e v (EScroll 3 2) = None /\
  exists v', do_in e v (EScroll 0 0) = Some v' /\ do_in e v' (EMove MRight) = None.
Proof.
  at_case [97; 98] (@nil view_event) [[EScroll 0 0; EMove MRight]]. assert (E3 : option_map vw_sel (do_all (view_env text ln (every [97; 98])) v [EScroll 0 0; EMove MRight]) = None) by congruence.
  apply none_of in E3. split; auto. split; auto. split; [reflexivity|]. eexists. split; [reflexivity|]. cbn [do_all] in E3. change (do_in ?e v (EScroll 0 0)) with (set_scroll v 0 0) in E3.
  unfold set_scroll, check in E3. cbn [Nat.leb Z.to_nat bind] in E3. destruct (do_in _ _ (EMove MRight)) eqn:E4; [discriminate|reflexivity].
Qed.
Print Assumptions C55_scroll_refuted.
(** Where two regions meet, a click takes away only one of them: there is still a region there. *)
Theorem C55_toggle_refuted : exists e v v', vreach e v /\ es e = [97; 98; 99] /\ vw_sel v = [region_new 0 1; region_new 3 1] /\
  do_in e v (EGesture 0 1 (Select GPoint true)) = Some v' /\ touched (vw_sel v') 1.
Proof.
  at_case [97; 98; 99] [EGesture 0 0 (Select GPoint false); EGesture 0 1 GDrag; EGesture 0 3 (Select GPoint true); EGesture 0 1 GDrag] [[EGesture 0 1 (Select GPoint true)]].
  injection E as E. apply sel_of in E as (v' & E & Es'). exists v'. split; auto. split; auto. split; auto. split; auto. rewrite Es'. exists (region_new 3 1). split; [now left|cbn; lia].
Qed.
Print Assumptions C55_toggle_refuted.
(** The old [click] does nothing, unless it is to extend. *)
Theorem C55_click_refuted : exists e v, vreach e v /\ es e = [97; 98] /\ forall count, do_in e v (EClick 0 1 false count) = Some v /\ vw_sel v = [caret 0].
Proof.
  at_case [97; 98] (@nil view_event) (@nil (list view_event)). split; auto. split; auto. intros count. split; auto. pose proof (proj1 (reach_VI _ _ R)) as OK.
  unfold do_in. cbn [do_edit]. unfold do_gesture. destruct (place_ok _ OK 0 1) as (q & -> & _). reflexivity.
Qed.
Print Assumptions C55_click_refuted.
(** A panic: of "e" with an accent, one of its two bytes is left, and the line of the place between
    them is asked for. *)
Definition m_text : list nat := [195; 169; 98; 10].
Definition m_gb (o : nat) : bool := existsb (Nat.eqb o) [0; 2; 3; 4].
Definition m_po (p : list nat) : list (nat * bool) := [(length p, true)].
Definition m_opps (s : list nat) (a : nat) : list (nat * bool) := if a =? 0 then [(4, true)] else [].
Lemma m_laws : opps_laws (fun s => s = m_text) m_opps m_po.
Proof.
  assert (P : forall a e, para m_text a e -> a = 0 /\ e = 4).
  { intros a e (H1 & H2 & H3 & _). assert (e <= 4) by (cbn in H2; lia). destruct H1 as [->|[Ha Q]].
    - split; auto. destruct H3 as [H3|H3]; [|exact H3]. destruct e as [|[|[|[|[|e]]]]]; cbn in H3; try discriminate; lia.
    - destruct a as [|[|[|[|a]]]]; cbn in Q; try discriminate; lia. }
  split.
  - intros s a e -> H. destruct (P a e H) as [-> ->]. reflexivity.
  - intros s ->. reflexivity.
  - intros s a e -> H. destruct (P a e H) as [-> ->]. cbn. lia.
  - intros s a e x h -> H Q. destruct (P a e H) as [-> ->]. destruct Q as [Q|[]]. injection Q as <- _. reflexivity.
  - intros s a e h -> H _ Q. destruct (P a e H) as [-> ->]. destruct Q as [Q|[]]. now injection Q as <-.
Qed.
Lemma m_graphemes : grapheme_bounds m_text m_gb.
Proof.
  assert (U : utf8 m_text) by (exists [[195; 169]; [98]; [10]]; split; [repeat constructor|reflexivity]).
  split; [reflexivity|]. split.
  - intros o [L Q]. cbn in L. destruct o as [|[|[|[|[|o]]]]]; cbn in Q; auto; destruct Q; try discriminate; lia.
  - intros o H. apply boundary_iff; auto. unfold m_gb in H. apply existsb_exists in H as (x & Hx & E). apply Nat.eqb_eq in E. subst x. cbn in Hx. destruct Hx as [<-|[<-|[<-|[<-|[]]]]]; reflexivity.
Qed.
Theorem C55_into_lines_panic_refuted : exists e v, vreach e v /\ es e = m_text /\ vw_sel v = [region_new 0 2] /\ do_in e v EIntoLines = None.
Proof.
  destruct (case m_text m_gb [EGesture 0 0 (Select GPoint false); EGesture 0 2 GDrag] [[EIntoLines]]) as [[sel out]|] eqn:E; [|vm_compute in E; discriminate].
  assert (K := E). vm_compute in K. injection K as <- <-. unfold case in E. assert (U : utf8 m_text) by (exists [[195; 169]; [98]; [10]]; split; [repeat constructor|reflexivity]).
  destruct (rope_from_ok m_text U) as (t & h & Et & W & C). rewrite Et in E. cbn [bind] in E. cbv zeta in E. set (ln := set_wrap_width ln_default t WNone) in *.
  assert (OK : env_ok (view_env t ln m_gb)).
  { apply (C55_view_env_partial 0 Nat.add cge cgt (Nat.eqb 0) (fun x => x) cwid m_opps (100 * 100) concrete_widths (fun s => s = m_text) m_po m_laws ltac:(lia)); [apply reach_start; eauto|]. rewrite C. apply m_graphemes. }
  destruct (do_all _ view_new _) as [v|] eqn:Ev; [|discriminate]. cbn [bind map] in E. rewrite one_of in E.
  assert (E1 : vw_sel v = [region_new 0 2]) by (unfold region_new; congruence). assert (E2 : option_map vw_sel (do_in (view_env t ln m_gb) v EIntoLines) = None) by congruence. apply none_of in E2.
  exists (view_env t ln m_gb), v. split; [eapply run_reach; [now apply vr_new| |exact Ev]; reflexivity|]. auto.
Qed.
Print Assumptions C55_into_lines_panic_refuted.

(** A wrapped text (that of C43) after a click, an added word, an added line, a drag and a click to
    extend. *)
Definition hy_events : list view_event :=
  [EGesture 1 1 (Select GPoint false); EGesture 3 2 (Select GWord true); EGesture 0 2 (Select GLine true); EGesture 0 4 GDrag; EGesture 4 0 (SelectExtend GPoint)].
Definition wrapped_case (tx : list nat) (w : nat) (evs : list view_event) : option (list nat * list region) :=
  let? t := rope_from tx in
  let? (_, ln) := crewrap (set_wrap_width ln_default t (WBytes w)) t (0, 10) in
  let? v := do_all (view_env t ln (every tx)) view_new evs in
  Some (starts t (ln_breaks ln), vw_sel v).
Lemma wrapped_at tx w evs st sel : forallb (fun b => b <? 128) tx = true -> wrapped_case tx w evs = Some (st, sel) -> exists t ln v, creach t ln /\ rcontent t = tx /\ starts t (ln_breaks ln) = st /\
  do_all (view_env t ln (every tx)) view_new evs = Some v /\ vw_sel v = sel.
Proof.
  intros Ha E. unfold wrapped_case in E.
  destruct (rope_from tx) as [t|] eqn:Et; [|discriminate]. cbn [bind] in E. destruct (crewrap (set_wrap_width ln_default t (WBytes w)) t (0, 10)) as [[z ln]|] eqn:E1; [|discriminate]. cbn [bind] in E.
  destruct (do_all (view_env t ln (every tx)) view_new evs) as [v|] eqn:Ev; [|discriminate]. cbn [bind] in E.
  assert (Es : starts t (ln_breaks ln) = st) by congruence. assert (Ev' : vw_sel v = sel) by congruence.
  destruct (rope_of tx t Ha Et) as (W & A & C). assert (R0 : creach t (set_wrap_width ln_default t (WBytes w))) by (apply reach_start; auto).
  exists t, ln, v. split; [eapply reach_chunk; [exact R0| |exact E1]; cbn; lia|]. auto.
Qed.
Example C55_hyps : exists text ln v, let e := view_env text ln (every (rcontent text)) in
  creach text ln /\ e_st e = [0; 8; 13; 17; 28] /\ vreach e v /\ (forall o, In o (e_st e) -> e_gb e o = true) /\
  do_all e view_new hy_events = Some v /\ vw_sel v = [region_new 0 13; region_new 17 28].
Proof.
  destruct (wrapped_case c_text 9 hy_events) as [[st sel]|] eqn:E; [|vm_compute in E; discriminate]. assert (K := E). vm_compute in K. injection K as <- <-.
  apply wrapped_at in E as (t & ln & v & R & C & Es & Ev & Ev'); [|reflexivity].
  exists t, ln, v. rewrite C. cbn zeta. split; [exact R|]. split; [exact Es|]. split.
  - eapply (run_reach _ hy_events view_new); [apply vr_new|reflexivity|exact Ev].
    apply (C55_view_env_partial 0 Nat.add cge cgt (Nat.eqb 0) (fun x => x) cwid copps (100 * 100) concrete_widths ascii cpo concrete_opps ltac:(lia)); auto. rewrite C. apply every_ok. now apply ascii_dec.
  - split; [cbn [view_env e_st e_gb]; rewrite Es; intros o Ho; cbn in Ho; destruct Ho as [<-|[<-|[<-|[<-|[<-|[]]]]]]; reflexivity|]. split; [exact Ev|exact Ev'].
Qed.
(** A region that ends where a line begins, beside a caret; and an edit that keeps it. *)
Example C55_lines_hyps : exists e v, vreach e v /\ es e = [97; 98; 99; 10; 100; 101; 102] /\ vw_sel v = [region_new 0 4; caret 6] /\
  (forall x, In x (vw_sel v) -> lo x < hi x -> starts_line (es e) (hi x)) /\ sane e v EIntoLines /\ sane e v (EMove MDown) /\ sane e v (EScroll 1 5).
Proof.
  at_case [97; 98; 99; 10; 100; 101; 102] [EGesture 0 0 (Select GLine false); EGesture 1 2 (Select GPoint true)] (@nil (list view_event)).
  assert (H : forall x, In x (vw_sel v) -> lo x < hi x -> starts_line (es (view_env text ln (every [97; 98; 99; 10; 100; 101; 102]))) (hi x)).
  { rewrite Es. intros x [<-|[<-|[]]] L; cbn in L; [|lia]. unfold es. cbn [e_text view_env]. rewrite C. split; [cbn; lia|right; reflexivity]. }
  split; auto. split; auto. split; auto. split; auto. split; [|cbn; split; [tauto|lia]]. intros x Hx L. pose proof (H x Hx L) as [_ [Q|Q]]; [unfold lo, hi in *; lia|].
  apply (nl_bd _ (proj1 (reach_VI _ _ R))). exact Q.
Qed.
Example C55_edit_hyps : exists e v d e', vreach e v /\ vw_sel v = [caret 2] /\ env_ok e' /\ wf_delta d /\ keeps_chars (es e) d /\ apply d (es e) = Some (es e') /\ es e' = [97; 120; 121; 98].
Proof.
  assert (K : exists e v, vreach e v /\ vw_sel v = [caret 2] /\ es e = [97; 98]) by (at_case [97; 98] [EGesture 0 2 (Select GPoint false)] (@nil (list view_event)); auto).
  assert (K' : exists e' v', vreach e' v' /\ es e' = [97; 120; 121; 98]) by (at_case [97; 120; 121; 98] (@nil view_event) (@nil (list view_event)); auto).
  destruct K as (e & v & R & Es & Et), K' as (e' & v' & R' & Et'). exists e, v, (Delta [Copy 0 1; Insert [120; 121]; Copy 1 2] 2), e'. split; auto. split; auto. split; [apply (reach_VI _ _ R')|]. split; [unfold wf_delta; cbn; repeat split; try lia; repeat constructor; discriminate|].
  rewrite Et, Et'. split; [|auto]. assert (B : forall o, o <= 2 -> char_boundary [97; 98] o) by (intros o Ho; apply (every_ok [97; 98]); [now apply ascii_dec|]; apply Nat.leb_le, Ho).
  repeat constructor; auto; try (apply B; lia). apply ascii_utf8. now apply ascii_dec.
Qed.
