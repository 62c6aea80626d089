(** What is true of the soft breaks and the outstanding work at every moment. *)
From Coq Require Import List Arith Lia Bool ZifyBool.
From Verif Require Import Base ListLib TreeModel TreeSpec TreeProofs MetricProofs CursorModel CursorProofs CursorBoundary
  RopeModel RopeSpec RopeProofs RopeMetric RopeCursor BreaksModel BreaksSpec BreaksProofs
  LinewrapModel LinewrapMerged LinewrapLines LinewrapSpec LinewrapWrap LinewrapTask LinewrapWork.
Import ListNotations.
Local Notation concat := List.concat.

Lemma at_break_slice (l : list bool) a e o : e <= length l -> at_break (slice l a e) o <-> at_break l (a + o) /\ 0 < o <= e - a.
Proof.
  intros He. unfold slice. rewrite at_break_firstn, at_break_skipn. intuition lia.
Qed.
Lemma slice_app3 {A} (l new : list A) a e x y : a <= e -> e <= length l -> length new = e - a -> y <= length l ->
  (y <= a \/ e <= x -> slice (firstn a l ++ new ++ skipn e l) x y = slice l x y) /\
  (a <= x -> y <= e -> slice (firstn a l ++ new ++ skipn e l) x y = slice new (x - a) (y - a)).
Proof.
  intros H1 H2 H3 H4.
  assert (G : forall i, nth_error (firstn a l ++ new ++ skipn e l) i = if (a <=? i) && (i <? e) then nth_error new (i - a) else nth_error l i).
  { intros i. destruct (Nat.leb_spec a i) as [C|C]; cbn [andb].
    - rewrite nth_error_app2 by (rewrite firstn_length; lia). rewrite firstn_length, Nat.min_l by lia. destruct (Nat.ltb_spec i e) as [D|D].
      + now rewrite nth_error_app1 by lia.
      + rewrite nth_error_app2 by lia. rewrite nth_error_skipn. f_equal. lia.
    - rewrite nth_error_app1 by (rewrite firstn_length; lia). rewrite nth_error_firstn. now replace (i <? a) with true by lia. }
  split; intros.
  - apply nth_error_ext. intros i. unfold slice. rewrite !nth_error_firstn, !nth_error_skipn. destruct (Nat.ltb_spec i (y - x)) as [C|C]; auto.
    rewrite G. replace ((a <=? x + i) && (x + i <? e)) with false by lia. reflexivity.
  - apply nth_error_ext. intros i. unfold slice. rewrite !nth_error_firstn, !nth_error_skipn. replace (y - a - (x - a)) with (y - x) by lia.
    destruct (Nat.ltb_spec i (y - x)) as [C|C]; auto. rewrite G. replace ((a <=? x + i) && (x + i <? e)) with true by lia. f_equal. lia.
Qed.

(** ** Whole lines of the text *)
Lemma para_unique s a e e' : para s a e -> para s a e' -> e = e'.
Proof.
  assert (G : forall e e', para s a e -> para s a e' -> ~ e < e').
  { intros x y (_ & X1 & X2 & X3) (_ & Y1 & Y2 & Y3) Hl. destruct X2 as [X2|X2]; [|lia]. apply (Y3 (x - 1)); auto; lia. }
  intros A B. pose proof (G _ _ A B). pose proof (G _ _ B A). lia.
Qed.
Lemma para_inside s a e q : para s a e -> a < q < e -> ~ line_break s q.
Proof. intros (_ & Hb & _ & Hi) Hq (_ & E). apply (Hi (q - 1)); auto; lia. Qed.
(** Two of them are the same or apart. *)
Lemma para_apart s a e x y : para s a e -> para s x y -> a = x /\ e = y \/ e <= x \/ y <= a.
Proof.
  intros A B. destruct (Nat.eq_dec a x) as [->|Hn]; [left; split; auto; eapply para_unique; eauto|]. right.
  destruct A as (A0 & A1 & A2 & A3), B as (B0 & B1 & B2 & B3). destruct (Nat.lt_ge_cases a x) as [Hl|Hl].
  - left. destruct (Nat.le_gt_cases e x); auto. exfalso. destruct B0 as [->|[B0 B0']]; [lia|]. apply (A3 (x - 1)); auto; lia.
  - right. destruct (Nat.le_gt_cases y a); auto. exfalso. destruct A0 as [->|[A0 A0']]; [lia|]. apply (B3 (a - 1)); auto; lia.
Qed.
Lemma para_at s x : x < length s -> exists a e, para s a e /\ a <= x < e.
Proof.
  intros Hx.
  assert (G : forall k, k <= x -> exists a, a <= k /\ lstart s a /\ forall y, a < y <= k -> ~ lstart s y).
  { induction k as [|k IH]; intros Hk. { exists 0. split; auto. split; [now left|]. lia. }
    destruct (IH ltac:(lia)) as (a & Ha & Ls & Hn). destruct (nth_error s k) as [b|] eqn:E; [|apply nth_error_None in E; lia].
    destruct (Nat.eq_dec b 10) as [->|Hb].
    - exists (S k). split; auto. split; [right; split; [lia|]; now rewrite Nat.sub_succ, Nat.sub_0_r|]. lia.
    - exists a. split; [lia|]. split; auto. intros y Hy [Y|[Y1 Y2]]; [lia|]. destruct (Nat.eq_dec y (S k)) as [->|]; [|apply (Hn y); [lia|right; auto]].
      rewrite Nat.sub_succ, Nat.sub_0_r in Y2. congruence. }
  destruct (G x (le_n _)) as (a & Ha & Ls & Hn). destruct (para_exists s a Ls ltac:(lia)) as (e & Hp). exists a, e. split; auto. split; auto.
  pose proof Hp as (_ & Hb & He & _). destruct (Nat.lt_ge_cases x e); auto. exfalso. destruct He as [He|He]; [|lia]. apply (Hn e); [lia|]. right. split; [lia|auto].
Qed.

(** A line begins here, or it is the end. *)
Definition aligned (s : list nat) (e : nat) : Prop := line_break s e \/ e = length s.
Lemma aligned_le s e : aligned s e -> e <= length s.
Proof. intros [[H1 H2]| ->]; auto. assert (e - 1 < length s) by (apply nth_error_Some; congruence). lia. Qed.
Lemma aligned_lstart s e : aligned s e -> e < length s -> lstart s e.
Proof. intros [H|H] Hl; [now right|lia]. Qed.

Lemma next_task_ok s work v : Forall (ends_ok (lstart s) (aligned s)) work -> work <> [] -> lstart s v ->
  exists t, get_next_task work v = Some t /\ ends_ok (lstart s) (aligned s) t /\ exists u, In u work /\ fst u <= fst t /\ snd t = snd u.
Proof.
  intros Hf Hw Hv. unfold get_next_task. rewrite Forall_forall in Hf. destruct (find (fun t => v <? snd t) work) as [t|] eqn:E.
  - apply find_some in E as [E1 E2]. destruct (Hf t E1) as (A & B & C). eexists. split; [reflexivity|]. unfold ends_ok. cbn [fst snd]. split; [split; [lia|split; auto]|].
    + destruct (Nat.max_dec (fst t) v) as [-> | ->]; auto.
    + exists t. cbn [fst snd]. split; auto. lia.
  - destruct work as [|t rest]; [contradiction|]. eexists. split; [reflexivity|].
    assert (Hi : In (last rest t) (t :: rest)). { clear. revert t. induction rest as [|u rest IH]; intros t; [now left|]. rewrite last_cons. right. apply IH. }
    split; [auto|]. exists (last rest t). auto.
Qed.
Lemma line_start_lstart s k o : line_start s k o -> lstart s o.
Proof. intros (_ & _ & [->|H]); [now left|]. destruct (Nat.eq_dec o 0) as [->|]; [now left|]. right. split; [lia|auto]. Qed.
Lemma lstart_cut text ht o : rope_wf ht text -> lstart (rcontent text) o -> scut (rcontent text) o.
Proof.
  intros W [->|[H1 H2]]; [reflexivity|]. unfold scut. replace o with (S (o - 1)) by lia. apply cb_after_nl; auto. apply (rope_utf8 ht text W).
Qed.
Lemma aligned_cut text ht o : rope_wf ht text -> aligned (rcontent text) o -> scut (rcontent text) o.
Proof. intros W [H| ->]; [apply (lstart_cut text ht); auto; now right|]. apply cb_len. Qed.

Section Inv.
Context {F : Type} (fzero : F) (fadd : F -> F -> F) (fge fgt : F -> F -> bool) (fis0 : F -> bool) (of_nat : nat -> F).
Context (wid : @wrapw F -> list nat -> F) (opps : list nat -> nat -> list (nat * bool)) (max_pot : nat).
Context (WL : width_laws fzero fadd fge fgt fis0) (okt : list nat -> Prop) (po : list nat -> list (nat * bool)) (OL : opps_laws okt opps po) (Hmp : 0 < max_pot).
Notation wrapw := (@wrapw F).
Notation lines := (@lines F).
Notation word := (@word F).
Notation rows_ok := (@rows_ok F fzero fadd fge fgt fis0).

Section Bits.
Context (w : wrapw) (max : F).
Notation gbits := (gbits fzero fadd fge fgt fis0 wid w max po).
Notation pwords := (pwords wid w po).

(** The rows of a line, and its soft breaks: where they end. *)
Lemma gbits_rows s a e : okt s -> para s a e -> exists rows, concat rows = pwords (slice s a e) /\ rows <> [] /\ rows_ok max rows /\
  length (gbits (slice s a e)) = e - a /\ forall o, at_break (gbits (slice s a e)) o <-> 0 < o /\ In o (row_ends rows).
Proof.
  intros Hk Hp. pose proof (ol_rise _ _ _ OL _ _ _ Hk Hp) as Hr. pose proof Hp as (_ & Hb & _).
  assert (G : forall p l lo hi, rises lo hi l -> wrise lo hi (words_from (wid w) p lo l)).
  { intros p l. induction l as [|[x h] l IH]; intros lo hi; cbn [rises words_from wrise]; auto. change (wd_end (x, wid w (slice p lo x), h)) with x. intros (A & C). auto. }
  pose proof (G (slice s a e) _ _ _ Hr) as Hw. fold (pwords (slice s a e)) in Hw.
  assert (Hn : pwords (slice s a e) <> []) by (intros E; rewrite E in Hw; cbn in Hw; lia).
  destruct (calls_rows fzero fadd fge fgt fis0 max WL _ 0 _ _ (le_n _) Hw Hn) as (rows & R1 & R2 & R3 & R4 & R5).
  exists rows. split; auto. split; auto. split; auto. split; [unfold LinewrapTask.gbits; rewrite R4; lia|]. exact R5.
Qed.
Lemma row_ends_word rows lo hi o : rows_ok max rows -> wrise lo hi (concat rows) -> In o (row_ends rows) -> lo < o < hi /\ exists x, In x (concat rows) /\ wd_end x = o.
Proof.
  intros Hr Hw Hi. destruct rows as [|r0 rows0]; [destruct Hi|]. unfold row_ends in Hi. remember (r0 :: rows0) as rows eqn:Er.
  apply in_map_iff in Hi as (r & Eo & Hin). apply in_split in Hin as (r1 & r2 & E2).
  assert (Hne : rows <> []) by (rewrite Er; discriminate). pose proof (app_removelast_last [] Hne) as El. rewrite E2 in El.
  assert (Hall : Forall (fun r => r <> []) rows). { clear -Hr. induction rows as [|x rows IH]; constructor; cbn [LinewrapSpec.rows_ok] in Hr; [tauto|]. apply IH; tauto. }
  rewrite El in Hall. apply Forall_app in Hall as [Ha1 Ha2]. apply Forall_app in Ha1 as [_ Ha1]. apply Forall_cons_iff in Ha1 as [Hr0 _]. apply Forall_cons_iff in Ha2 as [Hl _].
  rewrite El in Hw. rewrite <- app_assoc, concat_app, <- app_comm_cons in Hw. cbn [List.concat] in Hw. rewrite concat_app in Hw. cbn [List.concat] in Hw. rewrite app_nil_r in Hw.
  destruct (rev r) as [|x rr] eqn:Err. { apply (f_equal (@rev _)) in Err. rewrite rev_involutive in Err. contradiction. }
  assert (Er' : r = rev rr ++ [x]) by (rewrite <- (rev_involutive r), Err; reflexivity).
  split.
  - apply wrise_app in Hw as (m1 & W1 & Hw). apply wrise_app in Hw as (m2 & W2 & Hw). rewrite Er' in W2. apply wrise_app in W2 as (m3 & W2 & W3). cbn [wrise] in W3. destruct W3 as (W3 & W4).
    pose proof (wrise_le _ _ _ W1). pose proof (wrise_le _ _ _ W2). apply wrise_app in Hw as (m4 & W5 & W6). pose proof (wrise_le _ _ _ W5).
    destruct (last rows []) as [|y ry]; [contradiction|]. cbn [wrise] in W6. destruct W6 as (W6 & W7). lia.
  - exists x. split; auto. rewrite El, <- app_assoc, concat_app, <- app_comm_cons. cbn [List.concat]. apply in_or_app. right. apply in_or_app. left. rewrite Er'. apply in_or_app. right. now left.
Qed.
Lemma words_in p l : forall lo x, In x (words_from (wid w) p lo l) -> In (wd_end x, wd_hard x) l.
Proof. induction l as [|[y h] l IH]; intros lo x Hx; [destruct Hx|]. cbn [words_from In] in Hx. destruct Hx as [<-|Hx]; [now left|]. right. eauto. Qed.
Lemma gbits_break s a e o : okt s -> para s a e -> at_break (gbits (slice s a e)) o -> 0 < o < e - a /\ is_char_boundary s (a + o) = true.
Proof.
  intros Hk Hp Hb. destruct (gbits_rows s a e Hk Hp) as (rows & R1 & R2 & R3 & R4 & R5). destruct (proj1 (R5 o) Hb) as [Ho Hi].
  pose proof (ol_rise _ _ _ OL _ _ _ Hk Hp) as Hr.
  assert (G : forall p l lo hi, rises lo hi l -> wrise lo hi (words_from (wid w) p lo l)).
  { intros p l. induction l as [|[x h] l IH]; intros lo hi; cbn [rises words_from wrise]; auto. change (wd_end (x, wid w (slice p lo x), h)) with x. intros (A & C). auto. }
  pose proof (G (slice s a e) _ _ _ Hr) as Hw. fold (pwords (slice s a e)) in Hw. rewrite <- R1 in Hw.
  destruct (row_ends_word rows 0 (e - a) o R3 Hw Hi) as (H1 & x & Hx & Ex). split; auto. rewrite R1 in Hx. apply words_in in Hx. rewrite Ex in Hx.
  now apply (ol_char _ _ _ OL s a e o (wd_hard x)).
Qed.

Notation paras := (paras fzero fadd fge fgt fis0 wid w max po).
Lemma paras_in text a f l : okt (rcontent text) -> paras text a f l -> a <= f /\ length l = f - a /\ forall x y, para (rcontent text) x y -> a <= x -> x < f ->
  y <= f /\ slice l (x - a) (y - a) = gbits (slice (rcontent text) x y).
Proof.
  intros Hk Hp. induction Hp as [a|a e f l Hp Hps (I1 & I2 & I3)].
  - split; auto. split; [cbn; lia|]. lia.
  - pose proof Hp as (_ & Hb & _). destruct (gbits_rows _ a e Hk Hp) as (_ & _ & _ & _ & Lg & _). split; [lia|]. split; [rewrite app_length; lia|].
    intros x y Hxy Hx Hf. destruct (para_apart _ _ _ _ _ Hp Hxy) as [[<- <-]|[H1|H1]].
    + split; [lia|]. rewrite Nat.sub_diag. unfold slice at 1. rewrite Nat.sub_0_r. cbn [skipn]. rewrite firstn_app, Lg, firstn_all2 by lia. rewrite Nat.sub_diag. cbn [firstn]. apply app_nil_r.
    + destruct (I3 x y Hxy H1 Hf) as [J1 J2]. split; auto. rewrite <- J2. unfold slice. replace (y - a - (x - a)) with (y - x) by lia. replace (y - e - (x - e)) with (y - x) by lia.
      unfold slice in Lg. f_equal. rewrite skipn_app. rewrite (skipn_all2 (n:=x - a)) by lia. cbn [app]. f_equal. lia.
    + destruct Hxy as (_ & Hxy & _). lia.
Qed.
End Bits.

(** ** The invariant *)
Definition max_of (w : wrapw) : option F := match w with WNone => None | WBytes b => Some (of_nat b) | WWidth x => Some x end.
Record shape (text : rope) (soft : breaks) : Prop := {
  sh_text : exists ht, rope_wf ht text;
  sh_soft : exists hs, wf br_ops blc bV rank hs soft;
  sh_len : length (content blc soft) = length (rcontent text);
  sh_dj : forall o, line_break (rcontent text) o -> ~ at_break (content blc soft) o;
  sh_bc : forall o, at_break (content blc soft) o -> scut (rcontent text) o;
}.
(** The lines that are not to be wrapped again have the breaks they should have. *)
Definition done (w : wrapw) (max : F) (s : list nat) (bits : list bool) (work : list iv) : Prop :=
  forall a e, para s a e -> (exists x, a <= x < e /\ cov work x) \/ slice bits a e = gbits fzero fadd fge fgt fis0 wid w max po (slice s a e).
Definition inv (ln : lines) (text : rope) : Prop :=
  okt (rcontent text) /\ shape text (ln_breaks ln) /\
  match max_of (ln_wrap ln) with
  | None => forall o, ~ at_break (content blc (ln_breaks ln)) o
  | Some max => Forall (ends_ok (lstart (rcontent text)) (aligned (rcontent text))) (ln_work ln) /\
      done (ln_wrap ln) max (rcontent text) (content blc (ln_breaks ln)) (ln_work ln)
  end.

(** ** Wrapping a chunk *)
Theorem do_wrap_ok batch ln text visible max : inv ln text -> max_of (ln_wrap ln) = Some max -> ln_work ln <> [] -> fst visible <= snd visible ->
  exists sm ln' t a e new, do_wrap_task fzero fadd fge fgt fis0 of_nat wid opps max_pot batch ln text visible = Some (sm, ln') /\ inv ln' text /\ ln_wrap ln' = ln_wrap ln /\
    lstart (rcontent text) a /\ aligned (rcontent text) e /\ a < e /\ In t (ln_work ln) /\ fst t <= a /\ e <= snd t /\
    ln_work ln' = update_tasks_after_wrap (ln_work ln) (a, e) /\
    content blc (ln_breaks ln') = firstn a (content blc (ln_breaks ln)) ++ new ++ skipn e (content blc (ln_breaks ln)) /\ length new = e - a /\
    sm_start sm = vrank text (ln_breaks ln) a /\ vrank text (ln_breaks ln) a <= vrank text (ln_breaks ln) e /\
    sm_inval sm = vrank text (ln_breaks ln) e - vrank text (ln_breaks ln) a + 1 /\
    sm_new sm = newlines (firstn e (rcontent text)) - newlines (firstn a (rcontent text)) + rank new + 1 /\ sm_soft sm = rank new /\
    newlines (firstn a (rcontent text)) <= newlines (firstn e (rcontent text)) /\ rank (firstn a (content blc (ln_breaks ln))) <= rank (firstn e (content blc (ln_breaks ln))).
Proof.
  intros (Hk & Sh & Hi) Em Hw Hv. rewrite Em in Hi. destruct Hi as [Ht Hd]. destruct Sh as [(ht & Wt) (hs & Ws) El Dj Bc].
  set (soft := ln_breaks ln) in *. set (s := rcontent text) in *. set (bits := content blc soft) in *.
  unfold do_wrap_task. fold soft.
  destruct (mb_new_ok text soft ht hs Wt Ws El) as (m & -> & St & Hm). cbn [bind].
  destruct (offset_of_line_merged text soft ht hs Wt Ws El Dj Bc m (fst visible) St Hm) as (x & m1 & o1 & -> & Vx & St1). cbn [bind].
  assert (Cx : scut s x). { apply (brk_cut text soft ht Wt El Bc). destruct Vx as [(_ & ->)|[(_ & Hb & _)|(_ & ->)]]; auto. }
  rewrite (line_of text soft ht Wt El x Cx). cbn [bind].
  destruct (offset_of_line_ok ht text (newlines (firstn x s)) (tfuel text) Wt) as (lo & Elo & Ls).
  { fold s. rewrite <- (firstn_skipn x s) at 2. unfold newlines. rewrite count_occ_app. lia. }
  { unfold tfuel. rewrite (height_root _ _ _ _ text ht Wt). lia. }
  change (rcontent text) with s. rewrite Elo. cbn [bind]. apply line_start_lstart in Ls. fold s in Ls.
  destruct (next_task_ok s (ln_work ln) lo Ht Hw Ls) as (t & -> & (T1 & T2 & T3) & (u0 & U1 & U2 & U3)). cbn [bind].
  pose proof (aligned_le _ _ T3) as Tn.
  destruct (set_offset_ok text soft ht hs Wt Ws El Dj Bc m1 o1 (fst t) St1 ltac:(fold s; lia)) as (m2 & o2 & -> & St2 & Lb & Hm2). cbn [bind].
  assert (Eo2 : o2 = fst t). { destruct Lb as (L1 & L2 & L3). destruct (Nat.eq_dec o2 (fst t)); auto. exfalso. destruct T2 as [T2|T2]; [lia|]. apply (L3 (fst t)); [lia|]. left. exact T2. }
  subst o2. assert (Eoff : mb_offset m2 = fst t) by (now destruct St2). rewrite Eoff, Nat.eqb_refl. cbn [check].
  assert (Emx : match ln_wrap ln with WNone => None | WBytes b => Some (of_nat b) | WWidth x => Some x end = Some max) by exact Em. rewrite Emx. cbn [bind].
  replace (fst visible <=? snd visible) with true by lia. cbn [check].
  destruct (mb_next_ok text soft ht hs Wt Ws El m2 (fst t) St2) as (old & m3 & o3 & -> & St3 & N3 & Hr3). cbn [bind].
  destruct (para_exists s (fst t) T2 ltac:(fold s in Tn; lia)) as (e1 & Hp).
  assert (He1 : e1 <= snd t).
  { destruct (Nat.le_gt_cases e1 (snd t)); auto. exfalso. destruct Hp as (_ & P1 & P2 & P3). destruct T3 as [[T3 T3']|T3]; [|lia]. apply (P3 (snd t - 1)); auto; lia. }
  destruct (pwords_rise wid opps max_pot (ln_wrap ln) okt po OL Hmp text soft El Hk (fst t) e1 Hp) as (Pr & Pn).
  pose proof Hp as (_ & Hb1 & _).
  set (P := map (wshift (fst t)) (pwords wid (ln_wrap ln) po (slice s (fst t) e1))).
  destruct (task_loop_ok fzero fadd fge fgt fis0 wid opps max_pot (ln_wrap ln) max WL okt po OL Hmp text soft ht hs Wt Ws El Hk (snd t) (Nat.max batch (snd visible - fst visible))
    (S (n_len text)) (cx_new opps text (fst t)) m3 old bb_new 0 (fst t) (fst t) e1 P) as (b' & f & l & -> & Hb' & Hps & Hal & Hft & Cb).
  - exact Hp.
  - lia.
  - clear -Pr Hb1. assert (G : forall (Q : list word) lo hi, wrise lo hi Q -> wrise (fst t + lo) (fst t + hi) (map (wshift (fst t)) Q)).
    { induction Q as [|y Q IHQ]; intros u hi; cbn [wrise map]; [lia|]. intros (A & C). change (wd_end (wshift (fst t) y)) with (fst t + wd_end y). split; [lia|auto]. }
    specialize (G _ _ _ Pr). rewrite Nat.add_0_r in G. replace (fst t + (e1 - fst t)) with e1 in G by lia. exact G.
  - intros X. apply map_eq_nil in X. contradiction.
  - exact (rest_para wid opps max_pot (ln_wrap ln) okt po OL Hmp text soft El Hk _ _ Hp).
  - destruct (pwords_hard wid opps max_pot (ln_wrap ln) okt po OL Hmp text soft El Hk _ _ Hp) as [X|X]; auto. left. clear -X. unfold P, lasth in *. rewrite <- map_rev. fold s in X. destruct (rev (pwords wid (ln_wrap ln) po (slice s (fst t) e1))); auto.
  - apply (cx_new_ok wid opps max_pot (ln_wrap ln) okt po OL Hmp text soft El Hk (fst t)); auto. fold s; lia.
  - exists o3. split; auto. destruct N3 as [N3 N3']. split.
    + intros y Hy Hty. destruct (N3 ltac:(fold s; lia)) as (Q1 & Q2 & Q3). destruct (Nat.le_gt_cases o3 y); auto. exfalso. apply (Q3 y); auto.
    + destruct old; tauto.
  - exact (proj1 bb_new_ok).
  - rewrite (tlen text ht Wt). lia.
  - lia.
  - exact T3.
  - exact Tn.
  - cbn [bind]. destruct (bb_build_ok b' Hb') as (nw & hn & -> & Wn & Cn). cbn [bind].
    assert (Hpar : paras fzero fadd fge fgt fis0 wid (ln_wrap ln) max po text (fst t) f (content blc nw)).
    { rewrite Cn, Cb, (proj2 bb_new_ok). cbn [app].
      replace (cbits (calls fzero fadd fge fgt fis0 max (fst t) P)) with (gbits fzero fadd fge fgt fis0 wid (ln_wrap ln) max po (slice s (fst t) e1)); [now constructor|].
      unfold gbits. f_equal. unfold LinewrapWrap.calls, P. rewrite map_length.
      pose proof (gc_shift fzero fadd fge fgt fis0 max (fst t) (S (length (pwords wid (ln_wrap ln) po (slice s (fst t) e1)))) 0 (pwords wid (ln_wrap ln) po (slice s (fst t) e1))) as G.
      rewrite Nat.add_0_r in G. symmetry. exact G. }
    destruct (paras_in (ln_wrap ln) max text (fst t) f _ Hk Hpar) as (Q1 & Q2 & Q3). fold s in Q3.
    assert (Hl : n_len nw = f - fst t) by (rewrite (len_root _ _ _ _ nw hn Wn); exact Q2).
    rewrite Hl. replace (fst t + (f - fst t)) with f by lia.
    change (aligned s f) in Hal. pose proof (aligned_le _ _ Hal) as Hfn.
    assert (Hf1 : e1 <= f) by (pose proof (paras_len fzero fadd fge fgt fis0 wid opps max_pot (ln_wrap ln) max WL okt po OL Hmp text soft El Hk _ _ _ Hps); lia).
    rewrite !(br_count_ok text soft hs Ws El) by (fold s; lia). cbn [bind].
    pose proof (lstart_cut text ht _ Wt T2) as Ca. pose proof (aligned_cut text ht _ Wt Hal) as Cf.
    rewrite !(line_of text soft ht Wt El) by auto. cbn [bind]. fold s bits.
    assert (Mr : rank (firstn (fst t) bits) <= rank (firstn f bits)).
    { replace (firstn f bits) with (firstn (fst t) bits ++ slice bits (fst t) f); [rewrite rank_app; lia|]. unfold slice. rewrite <- (firstn_skipn (fst t) (firstn f bits)), firstn_firstn, Nat.min_l by lia. f_equal. now rewrite skipn_firstn_comm. }
    assert (Mn : newlines (firstn (fst t) s) <= newlines (firstn f s)).
    { replace (firstn f s) with (firstn (fst t) s ++ slice s (fst t) f); [unfold newlines; rewrite count_occ_app; lia|]. unfold slice. rewrite <- (firstn_skipn (fst t) (firstn f s)), firstn_firstn, Nat.min_l by lia. f_equal. now rewrite skipn_firstn_comm. }
    replace (rank (firstn (fst t) bits) <=? rank (firstn f bits)) with true by lia. cbn [check].
    replace (newlines (firstn (fst t) s) <=? 1 + newlines (firstn f s)) with true by lia. cbn [check].
    destruct (edit_tree_ok br_ops blc bV bcut rank br_leaf_spec hs soft (fst t) f hn nw Ws Wn ltac:(lia) ltac:(fold bits; lia) Logic.I Logic.I) as (soft' & hs' & -> & Ws' & Cs'). cbn [bind]. fold bits in Cs'.
    assert (Enm : measure br_metric nw = rank (content blc nw)) by (unfold measure; rewrite (wf_len _ _ _ _ hn nw Wn), (wf_info _ _ _ _ hn nw Wn); apply (ms_measure _ _ _ _ _ _ _ _ br_metric_spec); exact Logic.I).
    assert (U : fst t <= f /\ lstart s f \/ f = length s) by (destruct Hal; [left; split; [lia|now right]|auto]).
    set (ws := update_tasks_after_wrap (ln_work ln) (fst t, f)).
    assert (Hup : Forall (ends_ok (lstart s) (aligned s)) ws /\ (forall x, cov ws x <-> cov (ln_work ln) x /\ ~ fst t <= x < f)).
    { apply update_ok; auto; cbn [fst snd].
      - intros u Hu Hlt. rewrite Forall_forall in Ht. destruct (Ht u Hu) as (_ & _ & Hue). apply aligned_le in Hue. apply aligned_lstart; auto. lia.
      - intros u Hu Hlt. destruct T2 as [T2|T2]; [lia|now left]. }
    destruct Hup as [Hup1 Hup2].
    assert (Bk : forall o, at_break (firstn (fst t) bits ++ content blc nw ++ skipn f bits) o -> at_break bits o \/
      exists x0 y0, para s x0 y0 /\ x0 < o < y0 /\ True /\ is_char_boundary s o = true).
    { intros o Ho. rewrite !at_break_app, at_break_firstn, at_break_skipn, firstn_length, Nat.min_l, Q2 in Ho by lia.
      destruct Ho as [[_ Ho]|[Ho1 [Ho2|[Ho2 [Ho3 Ho4]]]]]; auto; [|left; replace (f + (o - fst t - (f - fst t))) with o in Ho4 by lia; exact Ho4]. right.
      pose proof (at_break_le _ _ Ho2) as Hle. rewrite Q2 in Hle. destruct (para_at s (o - 1) ltac:(lia)) as (x0 & y0 & Hxy & Hin).
      assert (Hx0 : fst t <= x0). { destruct (Nat.le_gt_cases (fst t) x0); auto. exfalso. destruct T2 as [T2|T2]; [lia|]. apply (para_inside s x0 y0 (fst t) Hxy ltac:(lia)). exact T2. }
      destruct (Q3 x0 y0 Hxy Hx0 ltac:(lia)) as (Y1 & Y2).
      assert (Hb2 : at_break (gbits fzero fadd fge fgt fis0 wid (ln_wrap ln) max po (slice s x0 y0)) (o - x0)).
      { rewrite <- Y2. apply at_break_slice; [lia|]. replace (x0 - fst t + (o - x0)) with (o - fst t) by lia. split; auto. lia. }
      destruct (gbits_break _ _ s x0 y0 (o - x0) Hk Hxy Hb2) as (Z1 & Z2). replace (x0 + (o - x0)) with o in Z2 by lia.
      exists x0, y0. split; auto. split; [lia|]. auto. }
    eexists _, _, u0, (fst t), f, (content blc nw). split; [reflexivity|]. cbn [ln_breaks ln_wrap ln_work sm_start sm_inval sm_new sm_soft].
    assert (Len : length (content blc soft') = length s) by (rewrite Cs', !app_length, firstn_length, skipn_length, Q2; lia).
    split; [|split; auto; split; auto; split; auto; split; [lia|]; split; auto; split; auto; split; [lia|]; split; auto; split; auto; split; auto; rewrite Enm; unfold vrank; fold s bits; split; [auto|]; split; [lia|]; split; [lia|]; split; [lia|]; auto].
    split; auto. split.
    + cbn [ln_breaks]. split; [eauto|eauto|exact Len| |].
      * intros o Ho Hbk. rewrite Cs' in Hbk. destruct (Bk o Hbk) as [X|(x0 & y0 & Hxy & X1 & X2 & X3)]; [now apply (Dj o)|].
        apply (para_inside s x0 y0 o Hxy ltac:(lia)). exact Ho.
      * intros o Hbk. rewrite Cs' in Hbk. destruct (Bk o Hbk) as [X|(x0 & y0 & Hxy & X1 & X2 & X3)]; [now apply Bc|]. exact X3.
    + cbn [ln_breaks ln_wrap ln_work]. rewrite Em. split; auto. fold ws. intros a e Hae. fold s in Hae |- *.
      rewrite Cs'. pose proof Hae as (_ & Hae2 & _). destruct (slice_app3 bits (content blc nw) (fst t) f a e ltac:(lia) ltac:(lia) Q2 ltac:(lia)) as [S1 S2].
      destruct (Nat.le_gt_cases e (fst t)) as [C1|C1]; [|destruct (Nat.le_gt_cases f a) as [C2|C2]].
      * rewrite S1 by auto. destruct (Hd a e Hae) as [(y & Hy & Hc)|Hr]; auto. left. exists y. split; auto. apply Hup2. split; auto. lia.
      * rewrite S1 by auto. destruct (Hd a e Hae) as [(y & Hy & Hc)|Hr]; auto. left. exists y. split; auto. apply Hup2. split; auto. lia.
      * assert (Ha : fst t <= a). { destruct (Nat.le_gt_cases (fst t) a); auto. exfalso. destruct T2 as [T2|T2]; [lia|]. apply (para_inside s a e (fst t) Hae ltac:(lia)). exact T2. }
        destruct (Q3 a e Hae Ha C2) as [Y1 Y2]. right. rewrite S2 by lia. exact Y2.
Qed.
End Inv.
