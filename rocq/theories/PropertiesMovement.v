(** Properties of movement: C52. *)
From Coq Require Import List Arith Lia Bool ZifyBool.
From Verif Require Import Base ListLib TreeModel TreeSpec TreeProofs MetricProofs CursorModel CursorProofs CursorBoundary
  RopeModel RopeSpec RopeProofs RopeMetric RopeCursor SelectionModel SelectionProofs PropertiesSelection WordModel PropertiesWord EditOpsModel EditOpsSpec EditOpsProofs EditOpsLines
  BreaksModel BreaksSpec BreaksProofs LinewrapModel LinewrapMerged LinewrapInv LinewrapLines LinewrapSpec LinewrapHist PropertiesLinewrap MovementModel MovementSpec MovementProofs.
Import ListNotations.
Local Notation concat := List.concat.
Local Notation region := SelectionModel.region.

(** The edges of a region are between characters. *)
Definition whole (s : list nat) (x : region) : Prop := char_boundary s (r_start x) /\ char_boundary s (r_end x).

Section C52.
(** A text, its visual lines as answered by [lo], its grapheme boundaries. *)
Context (text : rope) (h : nat) (W : rope_wf h text).
Context (st : list nat) (lo : line_off) (A : answers (rcontent text) st lo) (gb : nat -> bool) (G : grapheme_bounds (rcontent text) gb).
Notation s := (rcontent text).

(** A movement takes the end of a region where it is to go; the start follows, or stays if the
    selection is being extended. Assumed: no visual line begins inside a grapheme. Missing: the
    cases that are not [ordinary], which are refuted below. *)
Theorem C52_move_partial m height x modify : (forall o, In o st -> gb o = true) -> whole s x -> ordinary s st m x modify ->
  exists q hz, moves s st gb m height x modify q hz /\
    region_movement gb text lo m x height modify = Some (Region (if modify then r_start x else q) q hz Downstream).
Proof.
  intros GS Hx Ho. destruct (move_ok text h W st lo A gb G GS m height x modify Hx Ho) as (q & hz & E & M). exists q, hz. split; auto.
  unfold region_movement. rewrite E. reflexivity.
Qed.
(** No movement panics but one (see [C52_panic_refuted]), wherever the visual lines begin; the new
    end is between characters. *)
Theorem C52_safe_partial m height x modify : whole s x -> ~ empty_end s st m x modify ->
  exists y, region_movement gb text lo m x height modify = Some y /\ whole s y /\ (modify = true -> r_start y = r_start x) /\ (modify = false -> r_start y = r_end y).
Proof.
  intros Hx Ho. destruct (move_safe text h W st lo A gb G m height x modify Hx Ho) as (q & hz & E & B). unfold region_movement. rewrite E. cbn [bind].
  eexists. split; [reflexivity|]. cbn. split; [|split; intros ->; reflexivity]. split; cbn; auto. destruct modify; auto. apply Hx.
Qed.
(** Every region of a selection is moved, and the new selection is the union of the results. *)
Theorem C52_selection_partial m height modify rs : (forall o, In o st -> gb o = true) -> (forall x, In x rs -> whole s x /\ ordinary s st m x modify) ->
  exists ys out, selection_movement gb text lo m rs height modify = Some out /\ disjoint_in_order out /\
    Forall2 (fun x y => exists q hz, moves s st gb m height x modify q hz /\ y = Region (if modify then r_start x else q) q hz Downstream) rs ys /\
    forall p, (selected out p <-> selected ys p) /\ (touched out p <-> touched ys p) /\ (inside out p <-> inside ys p).
Proof.
  intros GS H.
  assert (Hm : forall x, In x rs -> exists y, region_movement gb text lo m x height modify = Some y).
  { intros x Hx. destruct (H x Hx) as [H1 H2]. destruct (C52_move_partial m height x modify GS H1 H2) as (q & hz & _ & E). eauto. }
  destruct (movement_loop_ok text lo gb m height modify rs Hm [] Logic.I) as (ys & out & E1 & E2 & E3 & E4). exists ys, out. split; auto. split; [now apply sok_order|]. split.
  - clear E2 E3 E4 Hm. revert ys E1 H. induction rs as [|x rs IH]; intros [|y ys] E1 H; try discriminate; constructor.
    + cbn [map] in E1. injection E1 as E1 _. destruct (H x (or_introl eq_refl)) as [H1 H2]. destruct (C52_move_partial m height x modify GS H1 H2) as (q & hz & M & E). exists q, hz. split; auto. congruence.
    + cbn [map] in E1. injection E1 as _ E1. apply IH; auto. intros z Hz. apply H. now right.
  - assert (N : forall k p, pts k out p <-> pts k ys p) by (intros k p; rewrite E4; split; [intros [Q|Q]; [now apply pts_nil in Q|auto]|auto]).
    intros p. split; [|split]; [apply (N KCov p)|apply (N KTouch p)|apply (N KIn p)].
Qed.

(** Right and then left, from a grapheme boundary, is back where it started. *)
Theorem C52_right_left p height : gb p = true -> p < length s ->
  exists q, region_movement gb text lo MRight (caret p) height false = Some (caret q) /\ p < q /\
    region_movement gb text lo MLeft (caret q) height false = Some (caret p).
Proof.
  intros Gp Hp. unfold region_movement. cbn [movement_target]. unfold is_caret. cbn [caret r_start r_end r_horiz]. rewrite Nat.eqb_refl. cbn [orb].
  pose proof (ng text h W gb G p ltac:(lia)) as Hn. destruct (next_grapheme_offset gb text p) as [q|]; [|lia]. destruct Hn as (N1 & N2 & N3). cbn [bind]. exists q. split; [reflexivity|]. split; auto.
  rewrite Nat.eqb_refl. cbn [orb]. destruct (pg text gb G q ltac:(lia)) as (p' & -> & P1 & P2 & P3). cbn [bind].
  assert (p' = p). { destruct (Nat.lt_trichotomy p' p) as [L|[L|L]]; auto; exfalso; [apply (P3 p); auto; lia|apply (N3 p'); auto; lia]. } subst p'. reflexivity.
Qed.
(** Down by a line and up again, from a grapheme boundary that is not on the last line, is back where
    it started, however short the line below is: the column is remembered. *)
Theorem C52_down_up l p height : (forall o, In o st -> gb o = true) -> gb p = true -> on_row s st l p -> l < last_row st ->
  exists x y, region_movement gb text lo MDown (caret p) height false = Some x /\ r_start x = r_end x /\ on_row s st (l + 1) (r_end x) /\
    region_movement gb text lo MUp x height false = Some y /\ r_start y = p /\ r_end y = p.
Proof.
  intros GS Gp O Hl. pose proof (an_visual _ _ _ A) as V. assert (Wp : whole s (caret p)) by (split; apply G; auto).
  destruct (C52_move_partial MDown height (caret p) false GS Wp Logic.I) as (q & hz & M & ->). cbn [moves] in M. destruct M as (l1 & col & O1 & K & -> & M).
  unfold active in O1. cbn [caret hi r_start r_end] in O1. unfold hi in O1. cbn [r_start r_end caret] in O1. rewrite Nat.max_id in O1. pose proof (on_row_unique s st V _ _ _ O O1). subst l1.
  destruct M as [[M _]|[_ [[M _]|(_ & Gq & Oq & Lq & Mq)]]]; [lia|lia|]. set (x := Region q q (Some col) Downstream). assert (Wx : whole s x) by (split; apply G; auto).
  destruct (C52_move_partial MUp height x false GS Wx Logic.I) as (q' & hz & M & E). exists x. eexists. split; [reflexivity|]. split; auto. split; auto. rewrite E. split; [reflexivity|]. cbn [r_start r_end].
  cbn [moves] in M. destruct M as (l1 & col' & O2 & K' & -> & M). unfold active in O2. change (PropertiesSelection.lo x) with (Nat.min q q) in O2. rewrite Nat.min_id in O2. pose proof (on_row_unique s st V _ _ _ Oq O2). subst l1.
  unfold keeps_col in K'. cbn [r_horiz x] in K'. subst col'. destruct M as [[M _]|[_ [[M _]|(_ & Gq' & Oq' & Lq' & Mq')]]]; [lia|lia|]. rewrite Nat.add_sub in *.
  unfold keeps_col, active, hi in K. cbn [r_horiz caret r_start r_end] in K. rewrite Nat.max_id in K. destruct O as (_ & O & O'). assert (q' = p); [|auto].
  apply Nat.le_antisymm; [lia|]. apply Mq'; auto; lia.
Qed.
End C52.
Print Assumptions C52_move_partial.
Print Assumptions C52_safe_partial.
Print Assumptions C52_selection_partial.
Print Assumptions C52_right_left.
Print Assumptions C52_down_up.

(** view.rs 1290-1298, the [LineOffset] of a view: its visual lines. *)
Definition view_lines {F} (ln : @lines F) (text : rope) : line_off := LineOff (offset_of_visual_line ln text) (visual_line_of_offset ln text).

Section Lines.
Context {F : Type} (fzero : F) (fadd : F -> F -> F) (fge fgt : F -> F -> bool) (fis0 : F -> bool) (of_nat : nat -> F).
Context (wid : @wrapw F -> list nat -> F) (opps : list nat -> nat -> list (nat * bool)) (max_pot : nat).
Context (WL : width_laws fzero fadd fge fgt fis0) (okt : list nat -> Prop) (po : list nat -> list (nat * bool)) (OL : opps_laws okt opps po) (Hmp : 0 < max_pot).
(** What movement asks of the lines holds of a view's lines after any history of wrapping (see C43). *)
Theorem C52_view_lines_partial text ln : reach fzero fadd fge fgt fis0 of_nat wid opps max_pot okt text ln ->
  answers (rcontent text) (starts text (ln_breaks ln)) (view_lines ln text).
Proof.
  intros R. destruct (C43_queries_partial fzero fadd fge fgt fis0 of_nat wid opps max_pot WL okt po OL Hmp text ln R) as (V & Q1 & Q2).
  assert (Hu : utf8 (rcontent text)).
  { destruct (reach_inv fzero fadd fge fgt fis0 of_nat wid opps max_pot WL okt po OL Hmp text ln R) as (_ & Sh & _). destruct (sh_text _ _ Sh) as (ht & Wt). eapply rope_utf8; eauto. }
  split; auto. intros p Hp. assert (Hc : is_char_boundary (rcontent text) p = true) by (apply boundary_iff; auto).
  eexists. split; [apply Q1; auto|]. apply row_of_on; auto. now apply cb_le in Hc.
Qed.
End Lines.
Print Assumptions C52_view_lines_partial.

(** ** Concrete cases, in ASCII: every byte is a grapheme *)
Definition every (s : list nat) (o : nat) : bool := o <=? length s.
Lemma every_ok s : ascii s -> grapheme_bounds s (every s).
Proof.
  intros Ha. assert (B : forall o, o <= length s -> char_boundary s o) by (intros o Ho; apply boundary_iff; [now apply ascii_utf8|now apply ascii_boundary]).
  split; [apply Nat.leb_refl|]. split; [|intros o Ho; apply B, Nat.leb_le, Ho]. intros o Ho. apply Nat.leb_le, Ho.
Qed.
(** A text in a view that is not wrapped, and the results of some movements there. *)
Fixpoint moved (gb : nat -> bool) (text : rope) (lo : line_off) (ms : list movement) (x : region) : list (option region) :=
  match ms with
  | [] => []
  | m :: ms => let y := region_movement gb text lo m x 10 false in y :: match y with Some y => moved gb text lo ms y | None => [] end
  end.
Definition go (tx : list nat) (ms : list movement) (p : nat) : option (list nat * list (option region)) :=
  let? t := rope_from tx in
  let ln := set_wrap_width (F := nat) ln_default t WNone in
  Some (starts t (ln_breaks ln), moved (every tx) t (view_lines ln t) ms (caret p)).
Lemma go_at tx ms p st ys : forallb (fun b => b <? 128) tx = true -> go tx ms p = Some (st, ys) ->
  exists text ln, creach text ln /\ rcontent text = tx /\ starts text (ln_breaks ln) = st /\ moved (every tx) text (view_lines ln text) ms (caret p) = ys.
Proof.
  intros Ha E. unfold go in E. destruct (rope_from tx) as [t|] eqn:Et; [|discriminate]. cbn [bind] in E. destruct (rope_of tx t Ha Et) as (W & A & C). injection E as E1 E2.
  exists t, (set_wrap_width ln_default t WNone). split; [apply reach_start; auto|]. auto.
Qed.
Ltac now_row := unfold on_row, has_col, on_row, row_start, last_row in *; cbn in *; lia.
Ltac at_run tx ms p :=
  destruct (go tx ms p) as [[st ys]|] eqn:E; [|vm_compute in E; discriminate];
  let K := fresh in assert (K := E); vm_compute in K; injection K as <- <-;
  apply go_at in E as (text & ln & R & C & S & E); [|reflexivity]; cbn [moved] in E;
  exists text, ln; cbn zeta; rewrite C, ?S.

(** From the start of a line, the start of the paragraph is that of the line before. *)
Theorem C52_paragraph_start_refuted : exists text ln, creach text ln /\ rcontent text = [97; 10; 98] /\ starts_line (rcontent text) 2 /\
  region_movement (every (rcontent text)) text (view_lines ln text) MStartOfParagraph (caret 2) 10 false = Some (caret 0).
Proof. at_run [97; 10; 98] [MStartOfParagraph] 2. injection E as E. repeat split; auto. cbn. lia. Qed.
Print Assumptions C52_paragraph_start_refuted.
(** On a last line that is not empty, there is nothing to kill to the end of the paragraph. *)
Theorem C52_paragraph_kill_refuted : exists text ln, creach text ln /\ rcontent text = [97; 98] /\
  region_movement (every (rcontent text)) text (view_lines ln text) MEndOfParagraphKill (caret 0) 10 false = Some (caret 0).
Proof. at_run [97; 98] [MEndOfParagraphKill] 0. injection E as E. auto. Qed.
Print Assumptions C52_paragraph_kill_refuted.
(** The last line has the column 3, and is not found. *)
Theorem C52_exact_down_refuted : exists text ln, let s := rcontent text in let st := starts text (ln_breaks ln) in
  creach text ln /\ s = [97; 98; 99; 10; 97; 98; 99] /\ on_row s st 0 3 /\ has_col s st 1 3 /\
  exists x, region_movement (every s) text (view_lines ln text) MDownExactPosition (caret 3) 10 false = Some x /\ r_end x = 3.
Proof.
  at_run [97; 98; 99; 10; 97; 98; 99] [MDownExactPosition] 3. injection E as E. repeat split; auto; try (cbn; lia). eauto.
Qed.
Print Assumptions C52_exact_down_refuted.
(** A remembered column that is one past the end of its line is not cut down to the line: from
    column 2 of the second line the caret goes to column 3 of the third. *)
Theorem C52_exact_column_refuted : exists text ln, let s := rcontent text in let st := starts text (ln_breaks ln) in
  creach text ln /\ s = [97; 98; 99; 10; 97; 98; 10; 97; 98; 99; 10] /\
  exists x y, region_movement (every s) text (view_lines ln text) MDown (caret 3) 10 false = Some x /\ r_end x = 6 /\ on_row s st 1 6 /\
    region_movement (every s) text (view_lines ln text) MDownExactPosition x 10 false = Some y /\ r_end y = 10 /\
    ~ (exists hz, exact s st (every s) x false false (r_end y) hz).
Proof.
  at_run [97; 98; 99; 10; 97; 98; 10; 97; 98; 99; 10] [MDown; MDownExactPosition] 3. injection E as E E'. split; auto. split; auto.
  rewrite E in E'. injection E' as E'. eexists _, _. split; [exact E|]. split; [reflexivity|]. split; [now_row|]. split; [exact E'|]. split; [reflexivity|].
  intros (hz & l & col & c & O & K & H1 & H2 & H3 & l' & P & _ & L). cbn in K. subst col. change (active _ _ _) with 6 in O.
  assert (l = 1) by (destruct O as (O1 & O2 & O3); destruct l as [|[|[|[|l]]]]; now_row). subst l.
  assert (c = 2) by (destruct H1 as (_ & A1 & A2); unfold row_start, last_row in A1, A2; cbn in A1, A2; assert (2 <= c) by (apply H3; now_row); lia). subst c.
  assert (l' = 2).
  { destruct L as [(L1 & L2 & L3)|[_ L]]; [|exfalso; apply (L 2); now_row]. destruct (Nat.eq_dec l' 2); auto. exfalso. apply (L3 2); [lia|]. now_row. }
  subst l'. destruct P as [[P _]|(_ & _ & _ & P & _)]; now_row.
Qed.
Print Assumptions C52_exact_column_refuted.
(** A panic: down onto the empty last line, then up to the exact position. *)
Theorem C52_panic_refuted : exists text ln, let s := rcontent text in creach text ln /\ s = [97; 98; 10] /\
  exists x, region_movement (every s) text (view_lines ln text) MDown (caret 2) 10 false = Some x /\ whole s x /\
  region_movement (every s) text (view_lines ln text) MUpExactPosition x 10 false = None.
Proof.
  at_run [97; 98; 10] [MDown; MUpExactPosition] 2. injection E as E E'. split; auto. split; auto. rewrite E in E'. injection E' as E'. eexists. split; [exact E|]. split; [|exact E'].
  split; apply (every_ok [97; 98; 10] ltac:(apply ascii_dec; reflexivity)); reflexivity.
Qed.
Print Assumptions C52_panic_refuted.
(** A text of two lines, wrapped into five: carets on the first, second and fourth visual lines. *)
Example C52_hyps : exists text ln h, let s := rcontent text in let st := starts text (ln_breaks ln) in
  creach text ln /\ rope_wf h text /\ st = [0; 8; 13; 17; 28] /\ answers s st (view_lines ln text) /\ grapheme_bounds s (every s) /\ (forall o, In o st -> every s o = true) /\
  on_row s st 1 10 /\ 1 < last_row st /\
  forall m p modify, In p [3; 10; 20] -> (m = MEndOfParagraphKill -> p = 3) -> whole s (caret p) /\ ordinary s st m (caret p) modify /\ ~ empty_end s st m (caret p) modify.
Proof.
  destruct C43_hyps as (text & ln & _ & _ & _ & R & C & _ & _ & S & _). destruct (reach_inv 0 Nat.add cge cgt (Nat.eqb 0) (fun x => x) cwid copps (100 * 100) concrete_widths ascii cpo concrete_opps ltac:(lia) text ln R) as (Ha & Sh & _).
  destruct (sh_text _ _ Sh) as (h & W). exists text, ln, h. cbn zeta. pose proof (C52_view_lines_partial 0 Nat.add cge cgt (Nat.eqb 0) (fun x => x) cwid copps (100 * 100) concrete_widths ascii cpo concrete_opps ltac:(lia) text ln R) as A.
  pose proof (every_ok _ Ha) as G. split; auto. split; auto. split; auto. split; auto. split; auto. rewrite S.
  split; [intros o Ho; rewrite C; cbn in Ho; destruct Ho as [<-|[<-|[<-|[<-|[<-|[]]]]]]; reflexivity|]. split; [rewrite C; now_row|]. split; [now_row|].
  intros m p modify Hp Hm. split; [split; apply G; rewrite C; cbn in Hp; destruct Hp as [<-|[<-|[<-|[]]]]; reflexivity|].
  assert (Ac : forall up, active (caret p) up modify = p) by (intros []; destruct modify; cbn; unfold lo, hi; cbn; lia).
  split; [|destruct m; cbn; try tauto; intros (c & Hc & _); discriminate].
  destruct m; cbn [ordinary caret r_end]; auto; rewrite C.
  - intros l col. cbn zeta. rewrite Ac. unfold keeps_col. cbn [caret r_horiz]. intros O ->. cbn in Hp. assert (l = match p with 3 => 0 | 10 => 1 | _ => 3 end).
    { destruct O as (O1 & O2 & O3). destruct Hp as [<-|[<-|[<-|[]]]]; destruct l as [|[|[|[|[|l]]]]]; now_row. }
    destruct Hp as [<-|[<-|[<-|[]]]]; subst l; (split; [now_row|]); (split; [now_row|]); intros H; discriminate.
  - intros l col. cbn zeta. rewrite Ac. unfold keeps_col. cbn [caret r_horiz]. intros O ->. cbn in Hp. assert (l = match p with 3 => 0 | 10 => 1 | _ => 3 end).
    { destruct O as (O1 & O2 & O3). destruct Hp as [<-|[<-|[<-|[]]]]; destruct l as [|[|[|[|[|l]]]]]; now_row. }
    destruct Hp as [<-|[<-|[<-|[]]]]; subst l; (split; [now_row|]); (split; [now_row|]); intros _ _ c Hc H1 H2 H3; specialize (H3 2); now_row.
  - intros [_ [H|H]]; cbn in Hp; destruct Hp as [<-|[<-|[<-|[]]]]; cbn in H; congruence.
  - intros H. rewrite (Hm eq_refl) in H. exfalso. apply (H 13); [lia|]. split; [cbn; lia|right; reflexivity].
Qed.
