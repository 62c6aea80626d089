(** Properties of line wrapping: C43. *)
From Coq Require Import List Arith Lia Bool ZifyBool.
From Verif Require Import Base ListLib TreeModel TreeSpec TreeProofs MetricProofs CursorModel CursorProofs CursorBoundary
  RopeModel RopeSpec RopeProofs RopeMetric RopeCursor BreaksModel BreaksSpec BreaksProofs
  LinewrapModel LinewrapMerged LinewrapLines LinewrapSpec LinewrapWrap LinewrapTask LinewrapWork LinewrapInv LinewrapRun LinewrapEdit LinewrapHist.
Import ListNotations.
Local Notation concat := List.concat.

Section C43.
(** The widths, of which [width_laws] are assumed; the width of a word; the break opportunities, of
    which [opps_laws] are assumed for the texts of [okt]; and how many words are measured at once. *)
Context {F : Type} (fzero : F) (fadd : F -> F -> F) (fge fgt : F -> F -> bool) (fis0 : F -> bool) (of_nat : nat -> F).
Context (wid : @wrapw F -> list nat -> F) (opps : list nat -> nat -> list (nat * bool)) (max_pot : nat).
Context (WL : width_laws fzero fadd fge fgt fis0) (okt : list nat -> Prop) (po : list nat -> list (nat * bool)) (OL : opps_laws okt opps po) (Hmp : 0 < max_pot).
Notation lines := (@lines F).
Notation rewrap_chunk := (rewrap_chunk fzero fadd fge fgt fis0 of_nat wid opps max_pot).
Notation after_edit := (after_edit fzero fadd fge fgt fis0 of_nat wid opps max_pot).
(** The histories: a width is set, edits and chunks of wrapping follow in any order, the width may be
    set again. In [reach] an edit while wrapping is on finds the outstanding work in ascending order
    (see [C43_order_partial] for when it is, and [C43_edit_refuted] for why). *)
Notation reach := (reach fzero fadd fge fgt fis0 of_nat wid opps max_pot okt).
(** Where the visual lines begin. *)
Notation starts ln text := (starts text (ln_breaks (F:=F) ln)).
Notation chunks := (chunks fzero fadd fge fgt fis0 of_nat wid opps max_pot).
Notation max_of := (max_of of_nat).
Notation inv_of := (reach_inv fzero fadd fge fgt fis0 of_nat wid opps max_pot WL okt po OL Hmp).

(** The visual lines begin at the start of the text, at each line of the text, and at places between
    characters, in ascending order; and the queries answer by them. *)
Theorem C43_queries_partial text ln : reach text ln ->
  visual (rcontent text) (starts ln text) /\
  (forall o, is_char_boundary (rcontent text) o = true -> visual_line_of_offset ln text o = Some (row_of (starts ln text) o)) /\
  (forall l, offset_of_visual_line ln text l = Some (nth l (starts ln text) (length (rcontent text)))).
Proof.
  intros R. pose proof (inv_of _ _ R) as Hi. pose proof Hi as (_ & Sh & _). split; [now apply starts_visual|]. split.
  - intros o Ho. eapply visual_line_ok; eauto.
  - intros l. eapply visual_offset_ok; eauto.
Qed.

(** A chunk of wrapping does not panic; the lines it does not report are as they were. *)
Theorem C43_chunk_partial text ln visible : reach text ln -> fst visible <= snd visible ->
  exists r ln', rewrap_chunk ln text visible = Some (r, ln') /\ reach text ln' /\ ln_wrap ln' = ln_wrap ln /\
    match r with
    | None => is_converged ln = true /\ ln' = ln
    | Some v => lines_kept (starts ln text) (length (rcontent text)) (starts ln' text) (length (rcontent text))
                  (in_start v) (in_old v) (in_new v) (length (rcontent text)) 0
    end.
Proof.
  intros R Hv. pose proof (inv_of _ _ R) as Hi.
  destruct (chunk_ok fzero fadd fge fgt fis0 of_nat wid opps max_pot WL okt po OL Hmp ln text visible Hi Hv) as (r & ln' & E & Hi' & Ew & Hc).
  exists r, ln'. split; auto. split; [eapply reach_chunk; eauto|]. split; auto. destruct r as [v|].
  - apply kept_starts; [apply Hi|apply Hi'|]. eapply chunk_kept; eauto.
  - destruct Hc as [(A & B & _)|(A & B)]; auto. exfalso. unfold LinewrapModel.rewrap_chunk in E. rewrite A in E.
    destruct (do_wrap_task _ _ _ _ _ _ _ _ _ _ _ _ _) as [[? ?]|]; discriminate.
Qed.

(** From any state, wrapping is finished after a number of chunks, whatever is visible meanwhile. *)
Theorem C43_converges_partial text ln : reach text ln -> exists k, forall vs, Forall (fun v => fst v <= snd v) vs -> k <= length vs ->
  exists ln', chunks ln text vs = Some ln' /\ reach text ln' /\ ln_wrap ln' = ln_wrap ln /\ is_converged ln' = true.
Proof.
  intros R. exists (size (ln_work ln)). intros vs Hv Hk. pose proof (inv_of _ _ R) as Hi.
  destruct (converges fzero fadd fge fgt fis0 of_nat wid opps max_pot WL okt po OL Hmp text vs ln Hi Hv) as (ln' & E & _ & Ew & Hc).
  exists ln'. split; auto. split; [|auto]. clear - R Hv E. revert ln R E. induction vs as [|v vs IH]; intros ln R E; cbn [LinewrapHist.chunks] in E; [now injection E as <-|].
  apply Forall_cons_iff in Hv as [Hv1 Hv]. destruct (rewrap_chunk ln text v) as [[r ln1]|] eqn:Ec; [|discriminate]. cbn [bind] in E. apply (IH Hv ln1); auto. eapply reach_chunk; eauto.
Qed.

(** When it is finished, each line of the text is shown in rows that fit the width, or hold one word
    that does not fit, and no row could have taken the next word; and there are no other lines. *)
Theorem C43_rows_partial text ln max : reach text ln -> is_converged ln = true -> max_of (ln_wrap ln) = Some max ->
  wrapped fzero fadd fge fgt fis0 max (wid (ln_wrap ln)) po (rcontent text) (starts ln text) /\ no_more (rcontent text) (starts ln text).
Proof.
  intros R Cv Em. pose proof (inv_of _ _ R) as Hi. split; [eapply converged_wrapped; eauto|eapply converged_no_more; eauto].
Qed.
(** While it is not: what is said not to need wrapping has been wrapped. *)
Theorem C43_needs_wrap_partial text ln max x y a e : reach text ln -> max_of (ln_wrap ln) = Some max -> interval_needs_wrap ln (x, y) = false ->
  para (rcontent text) a e -> x <= a -> e <= y ->
  wrapped_line fzero fadd fge fgt fis0 max (wid (ln_wrap ln)) po (rcontent text) (starts ln text) a e.
Proof. intros R. apply (needs_wrap_ok fzero fadd fge fgt fis0 of_nat wid opps max_pot WL okt po OL Hmp). now apply inv_of. Qed.
(** The line of the text to which visual line [l] belongs: from [a] to [b]. *)
Theorem C43_line_range_partial text ln l : reach text ln -> exists a b, logical_line_range ln text l = Some (a, b) /\
  let o := nth l (starts ln text) (length (rcontent text)) in
  lstart (rcontent text) a /\ a <= o <= b /\ (forall i, a <= i < o -> nth_error (rcontent text) i <> Some 10) /\
  (para (rcontent text) a b \/ a = b /\ b = length (rcontent text)).
Proof. intros R. apply (line_range_ok fzero fadd fge fgt fis0 of_nat wid max_pot okt po Hmp). now apply inv_of. Qed.
(** Without wrapping the visual lines are the lines of the text. *)
Theorem C43_unwrapped text ln o : reach text ln -> ln_wrap ln = WNone -> (In o (starts ln text) <-> lstart (rcontent text) o).
Proof.
  intros R Ew. pose proof (inv_of _ _ R) as (_ & Sh & Hw). rewrite Ew in Hw. cbn [LinewrapInv.max_of] in Hw. unfold lstart. split.
  - intros Hi. apply (in_starts max_pot Hmp) in Hi as [->|[_ [B|B]]]; auto. now apply Hw in B.
  - intros [->|Hb]; [now left|]. apply (in_starts_brk max_pot Hmp); auto; [apply Hb|]. now left.
Qed.
(** The lines do not depend on the way: after any two histories that come to the same text and the
    same width they are the same once wrapping is finished. *)
Theorem C43_same_lines_partial text ln text' ln' : reach text ln -> reach text' ln' -> is_converged ln = true -> is_converged ln' = true ->
  rcontent text = rcontent text' -> ln_wrap ln = ln_wrap ln' -> starts ln text = starts ln' text'.
Proof. intros R R' Cv Cv' Et Ew. apply (wrapped_same fzero fadd fge fgt fis0 of_nat wid max_pot okt po Hmp); auto; apply inv_of; auto. Qed.

(** The iterator over the visual lines, from line [k]: each with its extent and number. *)
Theorem C43_iterator_partial text ln k : reach text ln -> is_converged ln = true -> k < length (starts ln text) ->
  exists v ls, iter_lines text (ln_breaks ln) k = Some v /\ (forall fuel, length (rcontent text) + 2 < fuel -> vs_all text (ln_breaks ln) fuel v = Some ls) /\
    length ls = length (starts ln text) - k /\
    forall i x, nth_error ls i = Some x -> vl_start x = nth (k + i) (starts ln text) (length (rcontent text)) /\
      vl_end x = nth (k + i + 1) (starts ln text) (length (rcontent text)) /\ vl_num x = shown (rcontent text) (vl_start x).
Proof. intros R Cv Hk. apply (iter_ok fzero fadd fge fgt fis0 of_nat wid opps max_pot WL okt po OL Hmp); auto; apply inv_of; auto. Qed.

(** An edit that replaces [b, e) by [ins] does not panic; if wrapping had been finished before, the
    lines that it does not report are as they were. *)
Theorem C43_edit_partial old ln text ins b e visible : reach old ln -> (exists h, rope_wf h text) -> okt (rcontent text) ->
  rcontent text = firstn b (rcontent old) ++ ins ++ skipn e (rcontent old) -> b <= e -> e <= length (rcontent old) ->
  is_char_boundary (rcontent old) e = true -> utf8 ins -> fst visible <= snd visible -> ln_wrap ln = WNone \/ in_order 0 (ln_work ln) ->
  exists r ln', after_edit ln text old (b, e) (length ins) visible = Some (r, ln') /\ reach text ln' /\ ln_wrap ln' = ln_wrap ln /\
    forall v, r = Some v -> is_converged ln = true ->
      lines_kept (starts ln old) (length (rcontent old)) (starts ln' text) (length (rcontent text)) (in_start v) (in_old v) (in_new v) b e.
Proof.
  intros R Ht Hk Es Hbe Hen Ce Ui Hv Hw. pose proof (inv_of _ _ R) as Hi.
  destruct (after_edit_ok fzero fadd fge fgt fis0 of_nat wid opps max_pot WL okt po OL Hmp ln old text ins b e visible Hi Ht Hk Es Hbe Hen Ce Ui Hv Hw) as (r & ln' & E & Hi' & Ew & Hkp).
  exists r, ln'. split; auto. split; [eapply reach_edit; eauto|]. split; auto. intros v Er Cv. apply kept_starts; [apply Hi|apply Hi'|auto].
Qed.

(** The outstanding work is in ascending order after the width is set, stays so while chunks are
    wrapped, and is so after an edit that found wrapping finished. *)
Theorem C43_order_partial :
  (forall ln text w, in_order 0 (ln_work (set_wrap_width (F:=F) ln text w))) /\
  (forall ln text visible r ln', rewrap_chunk ln text visible = Some (r, ln') -> in_order 0 (ln_work ln) -> in_order 0 (ln_work ln')) /\
  (forall ln text old i newlen visible r ln', after_edit ln text old i newlen visible = Some (r, ln') ->
     ln_wrap ln <> WNone -> is_converged ln = true -> in_order 0 (ln_work ln')).
Proof. split; [apply order_width|]. split; [intros; eapply order_chunk|intros; eapply order_edit]; eauto. Qed.
End C43.
Print Assumptions C43_queries_partial.
Print Assumptions C43_chunk_partial.
Print Assumptions C43_converges_partial.
Print Assumptions C43_rows_partial.
Print Assumptions C43_needs_wrap_partial.
Print Assumptions C43_line_range_partial.
Print Assumptions C43_unwrapped.
Print Assumptions C43_same_lines_partial.
Print Assumptions C43_iterator_partial.
Print Assumptions C43_edit_partial.
Print Assumptions C43_order_partial.

(** ** A concrete case: widths in bytes, breaks after spaces and newlines, texts in ASCII *)
Fixpoint blanks (s : list nat) (pos : nat) : list (nat * bool) :=
  match s with
  | [] => []
  | c :: r =>
      if c =? 10 then (pos + 1, true) :: blanks r (pos + 1)
      else match r with
           | [] => [(pos + 1, false)]
           | _ => if c =? 32 then (pos + 1, false) :: blanks r (pos + 1) else blanks r (pos + 1)
           end
  end.
Definition copps (s : list nat) (p : nat) : list (nat * bool) := blanks (skipn p s) p.
Definition cpo (p : list nat) : list (nat * bool) := blanks p 0.
Definition ascii (s : list nat) : Prop := Forall (fun b => b < 128) s.
Definition cwid (_ : @wrapw nat) (x : list nat) : nat := length x.
Definition cge (a b : nat) := b <=? a.
Definition cgt (a b : nat) := b <? a.

Lemma blanks_shift s : forall k pos, blanks s (k + pos) = map (fun x => (k + fst x, snd x)) (blanks s pos).
Proof.
  induction s as [|c s IH]; intros k pos; auto. cbn [blanks].
  assert (E : blanks s (k + pos + 1) = map (fun x => (k + fst x, snd x)) (blanks s (pos + 1))) by (replace (k + pos + 1) with (k + (pos + 1)) by lia; apply IH).
  destruct (c =? 10); [cbn [map fst snd]; rewrite E; f_equal; f_equal; lia|]. destruct s as [|d s]; [cbn [map fst snd]; do 2 f_equal; lia|].
  destruct (c =? 32); [cbn [map fst snd]; rewrite E; f_equal; f_equal; lia|auto].
Qed.
Lemma blanks_app p q : forall pos, nth_error p (length p - 1) = Some 10 -> blanks (p ++ q) pos = blanks p pos ++ blanks q (pos + length p).
Proof.
  induction p as [|c p IH]; intros pos H; [discriminate|]. cbn [app blanks length]. destruct p as [|d p].
  - cbn in H. injection H as ->. cbn. reflexivity.
  - replace (pos + S (length (d :: p))) with (pos + 1 + length (d :: p)) by lia. rewrite IH.
    + change ((d :: p) ++ q) with (d :: p ++ q). destruct (c =? 10); [reflexivity|]. destruct (c =? 32); reflexivity.
    + cbn [length] in *. replace (S (S (length p)) - 1) with (S (length p)) in H by lia. cbn [nth_error] in H. now rewrite Nat.sub_succ, Nat.sub_0_r.
Qed.
Lemma blanks_rise s : forall pos, rises pos (pos + length s) (blanks s pos).
Proof.
  induction s as [|c s IH]; intros pos; [cbn; lia|]. cbn [blanks length]. specialize (IH (pos + 1)). replace (pos + S (length s)) with (pos + 1 + length s) by lia.
  assert (W : forall l lo lo' hi, rises lo hi l -> lo' < lo -> l <> [] -> rises lo' hi l) by (intros [|[x h] l] lo lo' hi Hr Hl Hn; [contradiction|]; cbn in *; intuition lia).
  assert (N : forall d s pos, blanks (d :: s) pos <> []).
  { clear. intros d s. revert d. induction s as [|d' s IH]; intros d pos; cbn [blanks]; [destruct (d =? 10); discriminate|]. destruct (d =? 10); [discriminate|]. destruct (d =? 32); [discriminate|]. apply (IH d'). }
  destruct (c =? 10); [cbn [rises]; split; [lia|auto]|]. destruct s as [|d s]; [cbn [rises length]; lia|].
  destruct (c =? 32); [cbn [rises]; split; [cbn [length]; lia|auto]|]. apply (W _ (pos + 1)); auto. lia.
Qed.
Lemma blanks_hard s : forall pos h, nth_error s (length s - 1) = Some 10 -> In (pos + length s, h) (blanks s pos) -> h = true.
Proof.
  induction s as [|c s IH]; intros pos h E Hi; [destruct Hi|]. destruct s as [|d s].
  - cbn in E. injection E as ->. cbn in Hi. destruct Hi as [Hi|[]]. congruence.
  - assert (E' : nth_error (d :: s) (length (d :: s) - 1) = Some 10) by (cbn [length] in *; replace (S (S (length s)) - 1) with (S (length s)) in E by lia; cbn [nth_error] in E; now rewrite Nat.sub_succ, Nat.sub_0_r).
    specialize (IH (pos + 1) h E'). replace (pos + 1 + length (d :: s)) with (pos + length (c :: d :: s)) in IH by (cbn [length]; lia). remember (d :: s) as s' eqn:Es. cbn [blanks] in Hi.
    destruct (c =? 10). { destruct Hi as [Hi|Hi]; [|auto]. injection Hi as Hx <-. reflexivity. }
    assert (Ln : 0 < length s') by (rewrite Es; cbn; lia). destruct s' as [|d0 s0]; [discriminate|]. destruct (c =? 32); [|auto]. destruct Hi as [Hi|Hi]; [|auto]. injection Hi as Hx <-. exfalso. cbn [length] in Hx. lia.
Qed.
Lemma blanks_in s : forall pos x h, In (x, h) (blanks s pos) -> pos <= x <= pos + length s.
Proof.
  assert (G : forall l lo hi x h, rises lo hi l -> In (x, h) l -> lo <= x <= hi).
  { induction l as [|[y k] l IH]; intros lo hi x h Hr Hi; [destruct Hi|]. cbn in Hr. destruct Hr as [Hr1 Hr2]. destruct Hi as [Hi|Hi]; [injection Hi as -> ->; lia|]. specialize (IH _ _ _ _ Hr2 Hi). lia. }
  intros pos x h Hi. eapply G; [apply blanks_rise|exact Hi].
Qed.
Lemma ascii_boundary s o : ascii s -> o <= length s -> is_char_boundary s o = true.
Proof.
  intros Ha Ho. unfold is_char_boundary. destruct (o =? 0); auto. destruct (nth_error s o) as [x|] eqn:E.
  - unfold is_start. unfold ascii in Ha. rewrite Forall_forall in Ha. apply nth_error_In, Ha in E. now replace (x <? 128) with true by lia.
  - apply nth_error_None in E. lia.
Qed.
Lemma concrete_opps : opps_laws ascii copps cpo.
Proof.
  assert (L : forall s a e, para s a e -> length (slice s a e) = e - a). { intros s a e (_ & He & _). unfold slice. rewrite firstn_length, skipn_length. lia. }
  assert (T : forall s a e, para s a e -> nth_error s (e - 1) = Some 10 -> nth_error (slice s a e) (length (slice s a e) - 1) = Some 10).
  { intros s a e Hp H. rewrite L by auto. destruct Hp as (_ & He & _). unfold slice. rewrite nth_error_firstn, nth_error_skipn. replace (e - a - 1 <? e - a) with true by lia. now replace (a + (e - a - 1)) with (e - 1) by lia. }
  split.
  - intros s a e _ Hp. unfold copps, cpo. rewrite <- blanks_shift, Nat.add_0_r. pose proof Hp as (_ & He & Hend & _).
    assert (Es : skipn a s = slice s a e ++ skipn e s). { unfold slice. rewrite <- (firstn_skipn (e - a) (skipn a s)) at 1. f_equal. rewrite skipn_skipn. f_equal. lia. }
    rewrite Es. destruct Hend as [H|Hl]; [|subst e].
    + rewrite blanks_app by (apply T; auto). f_equal. f_equal. rewrite L by auto. lia.
    + rewrite skipn_all, !app_nil_r. reflexivity.
  - intros s _. unfold copps. now rewrite skipn_all.
  - intros s a e _ Hp. unfold cpo. pose proof (blanks_rise (slice s a e) 0) as H. now rewrite L in H.
  - intros s a e x h Ha Hp Hi. pose proof Hp as (_ & He & _). apply ascii_boundary; auto. unfold cpo in Hi. apply blanks_in in Hi. rewrite L in Hi by auto. lia.
  - intros s a e h _ Hp H Hi. unfold cpo in Hi. apply (blanks_hard (slice s a e) 0 h); [now apply T|]. now rewrite L.
Qed.
Lemma concrete_widths : width_laws 0 Nat.add cge cgt (Nat.eqb 0).
Proof. unfold cge, cgt. split; intros; auto; lia. Qed.
Notation creach := (reach 0 Nat.add cge cgt (Nat.eqb 0) (fun x => x) cwid copps (100 * 100) ascii).
Notation crewrap := (rewrap_chunk 0 Nat.add cge cgt (Nat.eqb 0) (fun x => x) cwid copps (100 * 100)).
Notation cedit := (after_edit 0 Nat.add cge cgt (Nat.eqb 0) (fun x => x) cwid copps (100 * 100)).


Lemma ascii_utf8 s : ascii s -> utf8 s.
Proof.
  intros H. exists (map (fun b => [b]) s). split; [|clear H; induction s as [|b s IH]; [reflexivity|]; cbn; now f_equal].
  apply Forall_forall. intros c Hc. apply in_map_iff in Hc as (b & <- & Hb). unfold ascii in H. rewrite Forall_forall in H. specialize (H b Hb). cbn. lia.
Qed.
Lemma ascii_dec s : forallb (fun b => b <? 128) s = true -> ascii s.
Proof. intros H. apply Forall_forall. intros b Hb. apply (proj1 (forallb_forall _ _) H) in Hb. lia. Qed.
Lemma rope_of s r : forallb (fun b => b <? 128) s = true -> rope_from s = Some r -> (exists h, rope_wf h r) /\ ascii (rcontent r) /\ rcontent r = s.
Proof. intros Ha E. apply ascii_dec in Ha. destruct (rope_from_ok s (ascii_utf8 s Ha)) as (r' & h & E' & W & C). rewrite E in E'. injection E' as <-. rewrite C. eauto. Qed.

(** ** A wrapped text *)
Definition c_text : list nat := [97; 97; 97; 32; 97; 97; 97; 32; 97; 97; 97; 32; 10; 97; 97; 97; 32; 98; 98; 98; 98; 98; 98; 98; 98; 98; 98; 32; 99].
Definition c_text' : list nat := firstn 5 c_text ++ [32; 98] ++ skipn 6 c_text.
Definition c_run : bool :=
  match (let? t := rope_from c_text in
         let? t' := rope_from c_text' in
         let? (v, ln) := crewrap (set_wrap_width ln_default t (WBytes 9)) t (0, 10) in
         let? (v', ln') := cedit ln t' t (5, 6) 2 (0, 10) in
         Some (is_converged ln, starts t (ln_breaks ln), v', starts t' (ln_breaks ln'))) with
  | Some (true, [0; 8; 13; 17; 28], Some (Inval 0 2 2), [0; 9; 14; 18; 29]) => true
  | _ => false
  end.
(** The first line is wrapped after 8 bytes, the second before and after the word of ten letters; an
    edit in the first line replaces two visual lines by two, and three are kept. *)
Example C43_hyps : exists text ln text' ln' v,
  creach text ln /\ rcontent text = c_text /\ is_converged ln = true /\ max_of (fun x => x) (ln_wrap ln) = Some 9 /\ starts text (ln_breaks ln) = [0; 8; 13; 17; 28] /\
  (exists h, rope_wf h text') /\ ascii (rcontent text') /\ rcontent text' = firstn 5 (rcontent text) ++ [32; 98] ++ skipn 6 (rcontent text) /\
  is_char_boundary (rcontent text) 6 = true /\ utf8 [32; 98] /\ in_order 0 (ln_work ln) /\
  cedit ln text' text (5, 6) 2 (0, 10) = Some (Some v, ln') /\ v = Inval 0 2 2 /\ creach text' ln' /\ starts text' (ln_breaks ln') = [0; 9; 14; 18; 29].
Proof.
  assert (H : c_run = true) by (vm_compute; reflexivity). unfold c_run in H.
  destruct (rope_from c_text) as [t|] eqn:Et; [|discriminate]. destruct (rope_from c_text') as [t'|] eqn:Et'; [|discriminate]. cbn [bind] in H.
  destruct (crewrap (set_wrap_width ln_default t (WBytes 9)) t (0, 10)) as [[v ln]|] eqn:E1; [|discriminate]. cbn [bind] in H.
  destruct (cedit ln t' t (5, 6) 2 (0, 10)) as [[v' ln']|] eqn:E2; [|discriminate]. cbn [bind] in H.
  destruct (rope_of c_text t eq_refl Et) as (W & A & C). destruct (rope_of c_text' t' eq_refl Et') as (W' & A' & C').
  destruct (is_converged ln) eqn:Cv; [|discriminate].
  assert (Es : starts t (ln_breaks ln) = [0; 8; 13; 17; 28] /\ v' = Some (Inval 0 2 2) /\ starts t' (ln_breaks ln') = [0; 9; 14; 18; 29]).
  { repeat match type of H with (match ?x with _ => _ end) = true => destruct x; try discriminate end. repeat split. }
  destruct Es as (Es & -> & Es').
  assert (R0 : creach t (set_wrap_width ln_default t (WBytes 9))) by (apply reach_start; auto).
  assert (R1 : creach t ln) by (eapply reach_chunk; [exact R0| |exact E1]; cbn; lia).
  assert (O1 : in_order 0 (ln_work ln)) by (eapply (order_chunk 0 Nat.add cge cgt (Nat.eqb 0) (fun x => x) cwid copps (100 * 100)); [lia|exact E1|apply order_width]).
  assert (Ec : rcontent t' = firstn 5 (rcontent t) ++ [32; 98] ++ skipn 6 (rcontent t)) by (rewrite C, C'; reflexivity).
  exists t, ln, t', ln', (Inval 0 2 2). split; auto. split; auto. split; auto. split.
  { destruct (C43_chunk_partial 0 Nat.add cge cgt (Nat.eqb 0) (fun x => x) cwid copps (100 * 100) concrete_widths ascii cpo concrete_opps ltac:(lia) t _ (0, 10) R0 ltac:(cbn; lia)) as (r & l2 & E & _ & Ew & _).
    rewrite E1 in E. injection E as <- <-. now rewrite Ew. }
  split; auto. split; auto. split; auto. split; auto. split; [rewrite C; reflexivity|]. split; [apply ascii_utf8, ascii_dec; reflexivity|]. split; auto. split; auto. split; auto. split; auto.
  eapply (reach_edit _ _ _ _ _ _ _ _ _ _ t ln t' [32; 98] 5 6 (0, 10)); eauto; try (rewrite C); try reflexivity; cbn; try lia. apply ascii_utf8, ascii_dec; reflexivity.
Qed.

(** ** Where it goes wrong *)
(** An edit while wrapping is not finished may add work before what is outstanding; the next edit
    then joins intervals that do not touch, and wrapping is asked to begin in the middle of a line:
    the assertion at linewrap.rs 366 fails (in a build with debug assertions). *)
Definition d_text : list nat := [97; 98; 10] ++ repeat 10 1030.
Definition d_text1 : list nat := firstn 300 d_text ++ [97] ++ skipn 300 d_text.
Definition d_text2 : list nat := firstn 1 d_text1 ++ [] ++ skipn 301 d_text1.
Definition d_run : bool :=
  match (let? t := rope_from d_text in
         let? t1 := rope_from d_text1 in
         let? t2 := rope_from d_text2 in
         let? (_, l1) := crewrap (set_wrap_width ln_default t (WBytes 5)) t (2, 10) in
         let? (_, l2) := crewrap l1 t (510, 520) in
         let? (_, l3) := cedit l2 t1 t (300, 300) 1 (1025, 1026) in
         Some (match cedit l3 t2 t1 (1, 301) 0 (730, 731) with None => true | Some _ => false end)) with
  | Some true => true
  | _ => false
  end.
Theorem C43_edit_refuted : exists old ln text b e visible,
  creach old ln /\ (exists h, rope_wf h text) /\ ascii (rcontent text) /\
  rcontent text = firstn b (rcontent old) ++ [] ++ skipn e (rcontent old) /\ b <= e /\ e <= length (rcontent old) /\
  is_char_boundary (rcontent old) e = true /\ fst visible <= snd visible /\
  cedit ln text old (b, e) 0 visible = None.
Proof.
  assert (H : d_run = true) by (vm_compute; reflexivity). unfold d_run in H.
  destruct (rope_from d_text) as [t|] eqn:Et; [|discriminate]. destruct (rope_from d_text1) as [t1|] eqn:Et1; [|discriminate]. destruct (rope_from d_text2) as [t2|] eqn:Et2; [|discriminate]. cbn [bind] in H.
  destruct (crewrap (set_wrap_width ln_default t (WBytes 5)) t (2, 10)) as [[v1 l1]|] eqn:E1; [|discriminate]. cbn [bind] in H.
  destruct (crewrap l1 t (510, 520)) as [[v2 l2]|] eqn:E2; [|discriminate]. cbn [bind] in H.
  destruct (cedit l2 t1 t (300, 300) 1 (1025, 1026)) as [[v3 l3]|] eqn:E3; [|discriminate]. cbn [bind] in H.
  destruct (cedit l3 t2 t1 (1, 301) 0 (730, 731)) as [[v4 l4]|] eqn:E4; [discriminate|].
  destruct (rope_of d_text t ltac:(vm_compute; reflexivity) Et) as (W & A & C). destruct (rope_of d_text1 t1 ltac:(vm_compute; reflexivity) Et1) as (W1 & A1 & C1). destruct (rope_of d_text2 t2 ltac:(vm_compute; reflexivity) Et2) as (W2 & A2 & C2).
  assert (R0 : creach t (set_wrap_width ln_default t (WBytes 5))) by (apply reach_start; auto).
  assert (R1 : creach t l1) by (eapply reach_chunk; [exact R0| |exact E1]; cbn; lia).
  assert (R2 : creach t l2) by (eapply reach_chunk; [exact R1| |exact E2]; cbn; lia).
  assert (O1 : in_order 0 (ln_work l1)) by (eapply (order_chunk 0 Nat.add cge cgt (Nat.eqb 0) (fun x => x) cwid copps (100 * 100)); [lia|exact E1|apply order_width]).
  assert (O2 : in_order 0 (ln_work l2)) by (eapply (order_chunk 0 Nat.add cge cgt (Nat.eqb 0) (fun x => x) cwid copps (100 * 100)); [lia|exact E2|exact O1]).
  assert (L : length d_text = 1033) by (vm_compute; reflexivity). assert (L1 : length d_text1 = 1034) by (vm_compute; reflexivity).
  assert (R3 : creach t1 l3).
  { eapply (reach_edit _ _ _ _ _ _ _ _ _ _ t l2 t1 [97] 300 300 (1025, 1026)); eauto; rewrite ?C, ?C1, ?L; try lia; try (vm_compute; reflexivity); [apply ascii_utf8, ascii_dec; reflexivity|cbn [fst snd]; lia]. }
  exists t1, l3, t2, 1, 301, (730, 731). rewrite C1, C2, L1. split; auto. split; auto. split; [rewrite <- C2; auto|]. split; [reflexivity|]. split; [lia|]. split; [lia|]. split; [vm_compute; reflexivity|].
  split; [cbn [fst snd]; lia|exact E4].
Qed.
Print Assumptions C43_edit_refuted.

(** An edit while wrapping is not finished may report too few lines: here the whole text had still
    to be wrapped when a letter was added to the last line. Visual line 1 is said to be the new
    line 2, but has become longer. *)
Definition f_text : list nat := [97; 32; 98; 10; 99].
Definition f_text1 : list nat := firstn 5 f_text ++ [100] ++ skipn 5 f_text.
Definition f_run : bool :=
  match (let? t := rope_from f_text in
         let? t1 := rope_from f_text1 in
         let l0 := set_wrap_width ln_default t (WBytes 1) in
         let? (v, l1) := cedit l0 t1 t (5, 5) 1 (0, 10) in
         Some (starts t (ln_breaks l0), v, starts t1 (ln_breaks l1))) with
  | Some ([0; 4], Some (Inval 0 1 2), [0; 2; 4]) => true
  | _ => false
  end.
Theorem C43_report_refuted : exists old ln text ln' v,
  creach old ln /\ rcontent old = f_text /\ rcontent text = f_text1 /\ creach text ln' /\ in_order 0 (ln_work ln) /\
  cedit ln text old (5, 5) 1 (0, 10) = Some (Some v, ln') /\
  ~ lines_kept (starts old (ln_breaks ln)) (length (rcontent old)) (starts text (ln_breaks ln')) (length (rcontent text)) (in_start v) (in_old v) (in_new v) 5 5.
Proof.
  assert (H : f_run = true) by (vm_compute; reflexivity). unfold f_run in H.
  destruct (rope_from f_text) as [t|] eqn:Et; [|discriminate]. destruct (rope_from f_text1) as [t1|] eqn:Et1; [|discriminate]. cbn [bind] in H.
  destruct (cedit (set_wrap_width ln_default t (WBytes 1)) t1 t (5, 5) 1 (0, 10)) as [[v l1]|] eqn:E1; [|discriminate]. cbn [bind] in H.
  assert (Es : starts t (ln_breaks (set_wrap_width (F:=nat) ln_default t (WBytes 1))) = [0; 4] /\ v = Some (Inval 0 1 2) /\ starts t1 (ln_breaks l1) = [0; 2; 4]).
  { repeat match type of H with (match ?x with _ => _ end) = true => destruct x; try discriminate end. repeat split. }
  destruct Es as (Es & -> & Es').
  destruct (rope_of f_text t eq_refl Et) as (W & A & C). destruct (rope_of f_text1 t1 eq_refl Et1) as (W1 & A1 & C1).
  assert (R0 : creach t (set_wrap_width ln_default t (WBytes 1))) by (apply reach_start; auto).
  exists t, (set_wrap_width ln_default t (WBytes 1)), t1, l1, (Inval 0 1 2). split; auto. split; auto. split; auto. split.
  { eapply (reach_edit _ _ _ _ _ _ _ _ _ _ t _ t1 [100] 5 5 (0, 10)); eauto; rewrite ?C, ?C1; try reflexivity; try (cbn; lia); [apply ascii_utf8, ascii_dec; reflexivity|right; apply order_width]. }
  split; [apply order_width|]. split; [exact E1|]. rewrite Es, Es', C, C1. cbn [in_start in_old in_new]. intros (_ & _ & _ & K). destruct (K 1 ltac:(lia)) as [_ K2]. cbn in K2. lia.
Qed.
Print Assumptions C43_report_refuted.
