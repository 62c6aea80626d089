(** The wrapping of a task: whole lines of the text get the breaks of their own. *)
From Coq Require Import List Arith Lia Bool ZifyBool.
From Verif Require Import Base ListLib TreeModel TreeSpec TreeProofs MetricProofs CursorModel CursorProofs CursorBoundary
  RopeModel RopeSpec RopeProofs RopeMetric RopeCursor BreaksModel BreaksSpec BreaksProofs LinewrapModel LinewrapMerged LinewrapLines LinewrapSpec LinewrapWrap.
Import ListNotations.
Local Notation concat := List.concat.

Lemma slice_slice {A} (l : list A) a e x y : a + y <= e -> slice (slice l a e) x y = slice l (a + x) (a + y).
Proof.
  intros H. unfold slice. rewrite skipn_firstn_comm, skipn_skipn, firstn_firstn. replace (Nat.min (y - x) (e - a - x)) with (a + y - (a + x)) by lia. reflexivity.
Qed.
Lemma para_exists s a : lstart s a -> a < length s -> exists e, para s a e.
Proof.
  intros Ha Hl.
  assert (G : forall k, a + k <= length s -> 0 < k -> (exists e, para s a e) \/ forall i, a <= i -> i < a + k -> nth_error s i <> Some 10).
  { induction k as [|k IH]; intros Hk H0; [lia|]. destruct (Nat.eq_dec k 0) as [->|Hk0].
    - destruct (nth_error s a) as [c|] eqn:E; [|right; intros i H1 H2; assert (i = a) as -> by lia; congruence]. destruct (Nat.eq_dec c 10) as [->|Hc].
      + left. exists (S a). split; auto. split; [lia|]. split; [left; now rewrite Nat.sub_succ, Nat.sub_0_r|]. intros; lia.
      + right. intros i H1 H2. assert (i = a) as -> by lia. congruence.
    - destruct (IH ltac:(lia) ltac:(lia)) as [|Hn]; auto. destruct (nth_error s (a + k)) as [c|] eqn:E; [|right; intros i H1 H2; destruct (Nat.eq_dec i (a + k)) as [->|]; [congruence|apply Hn; lia]].
      destruct (Nat.eq_dec c 10) as [->|Hc].
      + left. exists (S (a + k)). split; auto. split; [lia|]. split; [left; now rewrite Nat.sub_succ, Nat.sub_0_r|]. intros; apply Hn; lia.
      + right. intros i H1 H2. destruct (Nat.eq_dec i (a + k)) as [->|]; [congruence|]. apply Hn; lia. }
  destruct (G (length s - a) ltac:(lia) ltac:(lia)) as [|Hn]; auto. exists (length s). split; auto. split; [lia|]. split; auto. intros i H1 H2. apply Hn; lia.
Qed.

Section Task.
Context {F : Type} (fzero : F) (fadd : F -> F -> F) (fge fgt : F -> F -> bool) (fis0 : F -> bool).
Context (wid : @wrapw F -> list nat -> F) (opps : list nat -> nat -> list (nat * bool)) (max_pot : nat) (w : @wrapw F) (max : F).
Context (WL : width_laws fzero fadd fge fgt fis0) (okt : list nat -> Prop) (po : list nat -> list (nat * bool)) (OL : opps_laws okt opps po) (Hmp : 0 < max_pot).
Context (text : rope) (soft : breaks) (ht hs : nat) (Wt : rope_wf ht text) (Ws : wf br_ops blc bV rank hs soft).
Notation s := (rcontent text).
Notation bits := (content blc soft).
Notation n := (length s).
Notation H := (line_break s).
Notation B := (at_break bits).
Notation brk := (LinewrapMerged.brk text soft).
Notation stands := (LinewrapMerged.stands text soft).
Notation word := (@word F).
Context (El : length bits = n) (Hok : okt s).
Notation ol := (@ol F fadd fge fgt fis0 max).
Notation calls := (@calls F fzero fadd fge fgt fis0 max).
Notation ctx := (@ctx F).

(** ** The words that are still to come *)
Definition stream (cx : ctx) : list word := cx_pots cx ++ words_from (wid w) s (cx_lb cx) (cx_rest cx).
Definition cx_ok (cx : ctx) (pos : nat) : Prop := wrise pos (cx_lb cx) (cx_pots cx) /\ rises (cx_lb cx) n (cx_rest cx).

Lemma words_rise hi l : forall lo, rises lo hi l -> wrise lo hi (words_from (wid w) s lo l).
Proof. induction l as [|[x h] l IH]; intros lo; cbn [rises words_from wrise]; auto. change (wd_end (x, wid w (slice s lo x), h)) with x. intros (A & C). auto. Qed.
Lemma stream_rise cx pos : cx_ok cx pos -> wrise pos n (stream cx).
Proof. intros (A & C). unfold stream. apply wrise_app. exists (cx_lb cx). split; auto. now apply words_rise. Qed.

Lemma refill_loop_ok k : forall pos rest, rises pos n rest -> exists cx, refill_loop wid text w k pos rest = Some cx /\ cx_ok cx pos /\
  stream cx = words_from (wid w) s pos rest /\ (0 < k -> pos < n -> cx_pots cx <> []).
Proof.
  induction k as [|k IH]; intros pos rest Hr; cbn [refill_loop].
  - eexists. split; [reflexivity|]. split; [split; [reflexivity|auto]|]. split; [reflexivity|]. lia.
  - rewrite (tlen text ht Wt). destruct (Nat.ltb_spec pos n) as [Hl|Hl].
    + destruct rest as [|[x h] rest]; [cbn in Hr; lia|]. cbn [rises] in Hr. destruct Hr as (Hx & Hr). replace (pos <=? x) with true by lia. cbn [check].
      destruct (IH x rest Hr) as (cx & -> & (C1 & C2) & Es & _). cbn [bind]. eexists. split; [reflexivity|]. split.
      * split; auto. cbn [cx_lb cx_pots wrise]. unfold wd_end at 1 2 3. cbn [fst]. split; auto. pose proof (wrise_le _ _ _ C1). lia.
      * split; [|discriminate]. unfold stream in *. cbn [cx_pots cx_lb cx_rest app]. now rewrite Es.
    + eexists. split; [reflexivity|]. split; [split; [reflexivity|auto]|]. split; [reflexivity|]. lia.
Qed.

Lemma wrap_loop_ok fuel : forall lw pos cx, cx_ok cx pos -> length (stream cx) < fuel -> exists r cx',
  wrap_loop fadd fge fgt fis0 wid max_pot text w max fuel lw pos cx = Some (r, cx') /\ ol lw pos (stream cx) = (r, stream cx') /\
  forall q, r = Some q -> cx_ok cx' q.
Proof.
  induction fuel as [|f IH]; intros lw pos cx Hc Hf; [lia|]. cbn [wrap_loop]. rewrite (tlen text ht Wt).
  pose proof (stream_rise _ _ Hc) as Hr. destruct (Nat.ltb_spec pos n) as [Hl|Hl].
  2: { exists None, cx. split; auto. destruct (stream cx) as [|x P] eqn:Es; [split; [reflexivity|discriminate]|]. cbn [wrise] in Hr. pose proof (wrise_le _ _ _ (proj2 Hr)). lia. }
  assert (G : exists cx1, (match cx_pots cx with [] => refill wid max_pot text w cx | _ :: _ => Some cx end) = Some cx1 /\ cx_ok cx1 pos /\ stream cx1 = stream cx /\ cx_pots cx1 <> []).
  { destruct (cx_pots cx) as [|p0 ps] eqn:Ep; [|exists cx; split; auto; split; auto; split; auto; rewrite Ep; discriminate].
    destruct Hc as (C1 & C2). rewrite Ep in C1. cbn [wrise] in C1. unfold refill. subst pos. destruct (refill_loop_ok max_pot _ _ C2) as (cx1 & -> & A & Es & Hp).
    exists cx1. split; auto. split; auto. split; [rewrite Es; unfold stream; now rewrite Ep|]. now apply Hp. }
  destruct G as (cx1 & -> & Hc1 & Es & Hp). cbn [bind]. rewrite <- Es in Hf, Hr |- *. clear cx Hc Es.
  destruct cx1 as [lb rest [|[[b wd] h] pots]]; [cbn in Hp; contradiction|]. cbn [cx_pots cx_lb cx_rest].
  pose proof Hc1 as ((A1 & A2) & A3). cbn [cx_pots cx_lb cx_rest] in A1, A2, A3. change (wd_end (b, wd, h)) with b in *.
  match goal with |- context [ol lw pos ?X] => change X with ((b, wd, h) :: stream (Ctx lb rest pots)); change X with ((b, wd, h) :: stream (Ctx lb rest pots)) in Hf end.
  assert (Hadv : cx_ok (Ctx lb rest pots) b) by (split; auto).
  pose proof (stream_rise _ _ Hadv) as Hrb.
  cbn [ol]. destruct h; cbn [negb].
  - destruct (negb (fis0 lw) && fgt (fadd wd lw) max).
    + eexists _, _. split; [reflexivity|]. split; [reflexivity|]. intros q [= <-]. exact Hc1.
    + eexists _, _. split; [reflexivity|]. split; [reflexivity|]. intros q [= <-]. exact Hadv.
  - destruct (fis0 lw && fge wd max).
    + destruct (Nat.eqb_spec b n) as [->|Hb].
      * eexists _, _. split; [reflexivity|]. split; [|discriminate]. destruct (stream (Ctx lb rest pots)) as [|x P] eqn:Ex; rewrite ?Ex in Hrb; cbn [wrise] in Hrb; [rewrite <- Ex; reflexivity|lia].
      * eexists _, _. split; [reflexivity|]. split; [|intros q [= <-]; exact Hadv]. destruct (stream (Ctx lb rest pots)) as [|x P] eqn:Ex; rewrite ?Ex in Hrb; cbn [wrise] in Hrb; [lia|reflexivity].
    + destruct (fgt (fadd lw wd) max).
      * eexists _, _. split; [reflexivity|]. split; [reflexivity|]. intros q [= <-]. exact Hc1.
      * destruct (IH (fadd lw wd) b (Ctx lb rest pots) Hadv) as (r & cx' & Q); [cbn [length] in Hf; lia|]. exists r, cx'. exact Q.
Qed.
Lemma words_len (wd : list nat -> F) p l : forall lo, length (words_from wd p lo l) = length l.
Proof. induction l as [|[x h] l IH]; intros lo; cbn; auto. Qed.
Lemma one_line_ok pos cx : cx_ok cx pos -> exists r cx',
  wrap_one_line fzero fadd fge fgt fis0 wid max_pot text w max cx pos = Some (r, cx') /\ ol fzero pos (stream cx) = (r, stream cx') /\
  forall q, r = Some q -> cx_ok cx' q.
Proof. intros Hc. unfold wrap_one_line. apply wrap_loop_ok; auto. unfold stream. rewrite app_length, words_len. lia. Qed.

(** ** The words of one line, and of the rest *)
Definition pwords (p : list nat) : list word := words_from (wid w) p 0 (po p).
Definition rest_from (a : nat) : list word := words_from (wid w) s a (opps s a).
Definition gbits (p : list nat) : list bool := cbits (calls 0 (pwords p)).
Definition hend (e : nat) : Prop := nth_error s (e - 1) = Some 10 \/ e = n.

Lemma slice_len {A} (l : list A) a e : e <= length l -> length (slice l a e) = e - a.
Proof. intros. unfold slice. rewrite firstn_length, skipn_length. lia. Qed.
Lemma words_shift a e l : e <= n -> forall lo, rises lo (e - a) l -> a <= e ->
  words_from (wid w) s (a + lo) (map (fun x => (a + fst x, snd x)) l) = map (wshift a) (words_from (wid w) (slice s a e) lo l).
Proof.
  intros He. induction l as [|[x h] l IH]; intros lo Hr Ha; [reflexivity|]. cbn [rises] in Hr. destruct Hr as (Hx & Hr). cbn [map words_from fst snd].
  rewrite IH by auto. f_equal. unfold wshift, wd_end, wd_width, wd_hard. cbn [fst snd]. rewrite slice_slice by lia. reflexivity.
Qed.
Lemma words_app l2 l1 : forall lo, words_from (wid w) s lo (l1 ++ l2) = words_from (wid w) s lo l1 ++ words_from (wid w) s (last (map fst l1) lo) l2.
Proof. induction l1 as [|[x h] l1 IH]; intros lo; [reflexivity|]. cbn [app map words_from fst]. rewrite IH, last_cons. reflexivity. Qed.
Lemma rises_last l : forall lo hi, rises lo hi l -> last (map fst l) lo = hi.
Proof. induction l as [|[x h] l IH]; intros lo hi; cbn [rises map fst]; auto. intros (A & C). rewrite last_cons. auto. Qed.
Lemma rises_shift a l : forall lo hi, rises lo hi l -> rises (a + lo) (a + hi) (map (fun x => (a + fst x, snd x)) l).
Proof. induction l as [|[x h] l IH]; intros lo hi; cbn [rises map fst snd]; [lia|]. intros (A & C). split; [lia|auto]. Qed.
Lemma rises_app l2 l1 : forall lo mid hi, rises lo mid l1 -> rises mid hi l2 -> rises lo hi (l1 ++ l2).
Proof.
  induction l1 as [|[x h] l1 IH]; intros lo mid hi; cbn [rises app]; [intros ->; auto|]. intros (A & C) D. split; [|eauto].
  assert (mid <= hi). { clear -D. revert mid D. induction l2 as [|[y g] l2 IH]; intros mid; cbn [rises]; [lia|]. intros (A & C). specialize (IH _ C). lia. }
  lia.
Qed.
Lemma rest_para a e : para s a e -> rest_from a = map (wshift a) (pwords (slice s a e)) ++ rest_from e.
Proof.
  intros Hp. unfold rest_from at 1. rewrite (ol_line _ _ _ OL _ _ _ Hok Hp), words_app.
  pose proof (ol_rise _ _ _ OL _ _ _ Hok Hp) as Hr. pose proof Hp as (_ & Hb & _).
  rewrite <- (Nat.add_0_r a) at 1. rewrite (words_shift a e) by (auto; lia). f_equal.
  pose proof (rises_shift a _ _ _ Hr) as Hr2. rewrite Nat.add_0_r in Hr2. rewrite (rises_last _ _ _ Hr2). now replace (a + (e - a)) with e by lia.
Qed.
Lemma rest_end : rest_from n = [].
Proof. unfold rest_from. now rewrite (ol_end _ _ _ OL _ Hok). Qed.
Lemma pwords_rise a e : para s a e -> wrise 0 (e - a) (pwords (slice s a e)) /\ pwords (slice s a e) <> [].
Proof.
  intros Hp. pose proof (ol_rise _ _ _ OL _ _ _ Hok Hp) as Hr. pose proof Hp as (_ & Hb & _).
  assert (G : forall p l lo hi, rises lo hi l -> wrise lo hi (words_from (wid w) p lo l)).
  { intros p l. induction l as [|[x h] l IH]; intros lo hi; cbn [rises words_from wrise]; auto. change (wd_end (x, wid w (slice p lo x), h)) with x. intros (A & C). auto. }
  split; [now apply G|]. unfold pwords. destruct (po (slice s a e)) as [|[x h] l]; [cbn in Hr; lia|discriminate].
Qed.
Lemma words_last p l : forall lo hi h, rises lo hi l -> l <> [] -> (forall g, In (hi, g) l -> g = h) -> lasth (words_from (wid w) p lo l) = h.
Proof.
  induction l as [|[x g] l IH]; intros lo hi h Hr Hl Hh; [contradiction|]. cbn [rises] in Hr. destruct Hr as (Hx & Hr). cbn [words_from].
  destruct l as [|y l].
  - cbn [rises] in Hr. subst x. cbn. apply Hh. now left.
  - refine (eq_trans (lasth_cons _ _ _) _); [destruct y; discriminate|]. apply (IH x hi); auto; [discriminate|]. intros g' Hg. apply Hh. now right.
Qed.
Lemma pwords_hard a e : para s a e -> lasth (pwords (slice s a e)) = true \/ e = n.
Proof.
  intros Hp. pose proof Hp as (_ & Hb & [Hn|Hn] & _); auto. left. unfold pwords. pose proof (ol_rise _ _ _ OL _ _ _ Hok Hp) as Hr.
  apply (words_last _ _ 0 (e - a)); auto.
  - destruct (po (slice s a e)); [cbn in Hr; lia|discriminate].
  - intros g Hg. apply (ol_hard _ _ _ OL _ _ _ g Hok Hp Hn Hg).
Qed.
Lemma opps_rise k : forall a, n - a <= k -> lstart s a -> a <= n -> rises a n (opps s a).
Proof.
  induction k as [|k IH]; intros a Hk Hs Ha; (destruct (Nat.eq_dec a n) as [->|Hn]; [rewrite (ol_end _ _ _ OL _ Hok); reflexivity|]); [lia|].
  destruct (para_exists s a Hs ltac:(lia)) as (e & Hp). rewrite (ol_line _ _ _ OL _ _ _ Hok Hp). pose proof Hp as (_ & Hb & He & _).
  pose proof (rises_shift a _ _ _ (ol_rise _ _ _ OL _ _ _ Hok Hp)) as Hr. rewrite Nat.add_0_r in Hr. replace (a + (e - a)) with e in Hr by lia.
  destruct (Nat.eq_dec e n) as [->|Hen].
  - eapply rises_app; eauto. now rewrite (ol_end _ _ _ OL _ Hok).
  - eapply rises_app; eauto. apply IH; try lia. right. destruct He; [split; [lia|auto]|lia].
Qed.
Lemma cx_new_ok a : lstart s a -> a <= n -> cx_ok (cx_new opps text a) a /\ stream (cx_new opps text a) = rest_from a.
Proof. intros Hs Ha. split; [|reflexivity]. split; [reflexivity|]. cbn. now apply (opps_rise (n - a)). Qed.

(** Whole lines of the text from [a] to [f], and their breaks. *)
Inductive paras : nat -> nat -> list bool -> Prop :=
| ps_nil a : paras a a []
| ps_cons a e f l : para s a e -> paras e f l -> paras a f (gbits (slice s a e) ++ l).

Lemma gbits_len a e : para s a e -> length (gbits (slice s a e)) = e - a.
Proof.
  intros Hp. destruct (pwords_rise _ _ Hp) as (Hr & Hn). destruct (calls_rows fzero fadd fge fgt fis0 max WL _ 0 _ _ (le_n _) Hr Hn) as (rows & _ & _ & _ & E & _).
  unfold gbits. rewrite E. lia.
Qed.
Lemma paras_len a f l : paras a f l -> a <= f /\ length l = f - a /\ (a <= n -> f <= n).
Proof. induction 1 as [a|a e f l Hp _ (A & C & D)]; [cbn; lia|]. rewrite app_length, (gbits_len _ _ Hp). pose proof Hp as (_ & Hb & _). lia. Qed.

(** ** The old breaks alongside *)
Definition along (m : merged) (old : option nat) (pos : nat) : Prop :=
  exists o, stands m o /\ (forall y, brk y -> pos < y -> o <= y) /\ match old with None => o = n | Some x => x = o end.

Lemma old_skip_ok fuel : forall m old pos new_next, along m old pos -> pos < new_next <= n ->
  (forall o, stands m o -> n - o + 1 < fuel) -> exists old' m', old_skip text soft fuel m old new_next = Some (old', m') /\ along m' old' new_next /\
  exists o, stands m' o /\ new_next <= o /\ forall y, brk y -> new_next <= y -> o <= y.
Proof.
  induction fuel as [|f IH]; intros m old pos nn (o & St & Hb & Ho) Hn Hf; [specialize (Hf o St); lia|]. cbn [old_skip].
  pose proof St as (_ & _ & _ & Hon & _).
  destruct old as [x|].
  - subst x. destruct (Nat.leb_spec nn o) as [Hl|Hl].
    + eexists _, _. split; [reflexivity|]. split; [exists o; split; auto; split; auto; intros y Hy Hl2; apply Hb; auto; lia|]. exists o. split; auto. split; auto. intros y Hy Hl2. apply Hb; auto. lia.
    + destruct (mb_next_ok text soft ht hs Wt Ws El m o St) as (r & m' & o' & -> & St' & (N1 & N2) & Hr). cbn [bind].
      destruct (N1 ltac:(lia)) as (N3 & N4 & N5).
      apply (IH m' r (Nat.max o pos) nn); [|lia|].
      * exists o'. split; auto. split.
        -- intros y Hy Hl2. destruct (Nat.le_gt_cases o' y); auto. exfalso. apply (N5 y); auto. lia.
        -- destruct r; tauto.
      * intros z Sz. assert (z = o') as -> by (destruct Sz as (<- & _), St' as (<- & _); reflexivity). specialize (Hf o St). lia.
  - subst o. eexists _, _. split; [reflexivity|]. split; [exists n; split; auto; split; auto; intros y Hy Hl2; apply Hb; auto; lia|]. exists n. split; auto. split; [lia|].
    intros y Hy Hl2. apply Hb; auto. lia.
Qed.

Definition aligned_end (e : nat) : Prop := H e \/ e = n.
Lemma H_lstart e : H e <-> 0 < e /\ nth_error s (e - 1) = Some 10.
Proof. reflexivity. Qed.
Lemma inside_para a e q : para s a e -> a < q < e -> ~ H q /\ q <> n.
Proof. intros (_ & Hb & _ & Hi) Hq. split; [|lia]. intros (_ & E). apply (Hi (q - 1)); auto; lia. Qed.

(** ** The loop of the task *)
Theorem task_loop_ok task_end batch fuel : forall cx m old b lw pos a e P, para s a e -> a <= pos < e -> wrise pos e P -> P <> [] ->
  stream cx = P ++ rest_from e -> (lasth P = true \/ e = n) -> cx_ok cx pos -> along m old pos -> b_inv b -> n - pos < fuel ->
  pos < task_end -> aligned_end task_end -> task_end <= n ->
  exists b' f l, wrap_task_loop fzero fadd fge fgt fis0 wid max_pot text w max soft fuel cx m old b lw pos task_end batch = Some b' /\ b_inv b' /\
    paras e f l /\ aligned_end f /\ f <= task_end /\ bb_content b' = bb_content b ++ cbits (calls pos P) ++ l.
Proof.
  induction fuel as [|fu IH]; intros cx m old b lw pos a e P Hp Hpos Hr HP Es Hh Hc Ha Hbi Hf Hte Hal Hten; [lia|].
  cbn [wrap_task_loop]. destruct (one_line_ok pos cx Hc) as (r & cx' & -> & Eo & Hcx'). cbn [bind].
  pose proof Hp as (Hs & Hb & He & Hi).
  assert (HQ : lasth P = true \/ rest_from e = []) by (destruct Hh as [|E]; auto; right; rewrite E; apply rest_end).
  rewrite Es, (ol_app _ _ _ _ _ _ _ HQ HP) in Eo. rewrite (calls_step fzero fadd fge fgt fis0 max WL pos e P Hr HP).
  destruct (ol fzero pos P) as [r0 P1] eqn:E0. injection Eo as -> Es'.
  pose proof (ol_fresh fzero fadd fge fgt fis0 max WL _ _ _ _ _ Hr HP E0) as Q.
  assert (Hee : e <= task_end). { destruct (Nat.le_gt_cases e task_end); auto. exfalso. destruct (inside_para _ _ task_end Hp ltac:(lia)) as [X1 X2]. destruct Hal; auto. }
  destruct r as [q|].
  - destruct Q as (pre & A1 & A2 & A3 & A4 & A5 & A6 & _).
    destruct (old_skip_ok (S (S n)) m old pos q Ha ltac:(lia)) as (old' & m' & E1 & Ha' & (o & St & Ho1 & Ho2)).
    { intros z (_ & _ & _ & Hz & _). lia. }
    rewrite (tlen text ht Wt), E1. cbn [bind]. replace (pos <=? q) with true by lia. cbn [check].
    assert (Eoff : mb_offset m' = o) by (now destruct St). rewrite Eoff.
    destruct P1 as [|w1 P1].
    + cbn [wrise] in A5. subst q.
      assert (Hhard : (o =? e) && mb_is_hard m' = true).
      { destruct He as [He|He].
        - assert (Eoe : o = e) by (assert (o <= e) by (apply Ho2; [left; split; [lia|auto]|lia]); lia). rewrite Eoe in St |- *. rewrite Nat.eqb_refl. cbn [andb].
          destruct (Nat.eq_dec e n) as [En|En]; [rewrite En in St; now apply (is_hard_end text soft El)|]. apply (is_hard_ok text soft El _ e St); [lia|]. right. split; [lia|auto].
        - assert (Eon : o = n) by (destruct St as (_ & _ & _ & Hz & _); lia). rewrite Eon in St |- *. rewrite He, Nat.eqb_refl. cbn [andb]. now apply (is_hard_end text soft El). }
      rewrite Hhard. destruct (add_no_break_ok b (e - pos) Hbi) as (b1 & -> & Hb1 & Cb1). cbn [bind].
      assert (Ecb : cbits [(false, e - pos)] = repeat false (e - pos)) by (unfold cbits; cbn; now rewrite app_nil_r). rewrite Ecb.
      assert (Ale : aligned_end e) by (destruct He; [left; split; [lia|auto]|now right]).
      destruct ((e =? task_end) || ((batch <? lw + 1) && true)) eqn:Stop.
      * exists b1, e, []. split; auto. split; auto. split; [constructor|]. split; auto. split; auto. now rewrite app_nil_r.
      * assert (e < task_end) by lia. assert (e < n) by lia. destruct He as [He|]; [|lia].
        destruct (para_exists s e) as (e2 & Hp2); [right; split; [lia|auto]|auto|].
        destruct (pwords_rise _ _ Hp2) as (Hr2 & Hn2). pose proof Hp2 as (_ & Hb2 & _).
        destruct (IH cx' m' old' b1 (lw + 1) e e e2 (map (wshift e) (pwords (slice s e e2)))) as (b' & f & l & -> & Hb' & Hps & Hal' & Hft & Cb').
        -- exact Hp2.
        -- lia.
        -- clear -Hr2 Hb2. assert (G : forall (P : list word) lo hi, wrise lo hi P -> wrise (e + lo) (e + hi) (map (wshift e) P)).
           { induction P as [|x P IHP]; intros lo hi; cbn [wrise map]; [lia|]. intros (A & C). change (wd_end (wshift e x)) with (e + wd_end x). split; [lia|auto]. }
           specialize (G _ _ _ Hr2). rewrite Nat.add_0_r in G. now replace (e + (e2 - e)) with e2 in G by lia.
        -- intros X. apply map_eq_nil in X. contradiction.
        -- rewrite <- (rest_para _ _ Hp2). symmetry. exact Es'.
        -- destruct (pwords_hard _ _ Hp2) as [X|X]; auto. left. clear -X. unfold lasth in *. rewrite <- map_rev. destruct (rev (pwords (slice s e e2))); auto.
        -- now apply Hcx'.
        -- exact Ha'.
        -- exact Hb1.
        -- lia.
        -- lia.
        -- exact Hal.
        -- exact Hten.
        -- exists b', f, (gbits (slice s e e2) ++ l). split; auto. split; auto. split; [now constructor|]. split; auto. split; auto.
           rewrite Cb', Cb1, <- !app_assoc. do 3 f_equal. unfold gbits. f_equal. unfold LinewrapWrap.calls. rewrite map_length.
           pose proof (gc_shift fzero fadd fge fgt fis0 max e (S (length (pwords (slice s e e2)))) 0 (pwords (slice s e e2))) as G. now rewrite Nat.add_0_r in G.
    + pose proof A5 as (A5a & A5b). pose proof (wrise_le _ _ _ A5b).
      destruct (inside_para _ _ q Hp ltac:(lia)) as (NH & Nn).
      assert (Hhard : (o =? q) && mb_is_hard m' = false).
      { destruct (Nat.eqb_spec o q) as [->|]; auto. cbn [andb]. destruct (mb_is_hard m') eqn:X; auto. exfalso. apply (is_hard_ok text soft El _ q St) in X; [|lia]. destruct X; [lia|auto]. }
      rewrite Hhard. destruct (add_break_ok b (q - pos) Hbi ltac:(lia)) as (b1 & -> & Hb1 & Cb1). cbn [bind].
      assert (q <> task_end). { intros X. subst q. destruct Hal; auto. }
      replace ((q =? task_end) || ((batch <? lw + 1) && false)) with false by (rewrite andb_false_r; lia).
      destruct (IH cx' m' old' b1 (lw + 1) q a e (w1 :: P1)) as (b' & f & l & -> & Hb' & Hps & Hal' & Hft & Cb').
      * exact Hp.
      * lia.
      * exact A5.
      * discriminate.
      * symmetry. exact Es'.
      * destruct Hh as [X|X]; auto. left. rewrite A1 in X. clear -X. unfold lasth in *. rewrite rev_app_distr in X. destruct (rev (w1 :: P1)) eqn:E; auto.
        apply (f_equal (@rev _)) in E. rewrite rev_involutive in E. discriminate.
      * now apply Hcx'.
      * exact Ha'.
      * exact Hb1.
      * lia.
      * lia.
      * exact Hal.
      * exact Hten.
      * exists b', f, l. split; auto. split; auto. split; auto. split; auto. split; auto. rewrite Cb', Cb1. unfold cbits. cbn [flat_map]. now rewrite <- !app_assoc.
  - destruct Q as (_ & Q). destruct Hh as [X|X]; [congruence|]. rewrite (tlen text ht Wt). replace (pos <=? n) with true by lia. cbn [check].
    destruct (add_no_break_ok b (n - pos) Hbi) as (b1 & -> & Hb1 & Cb1). exists b1, e, []. split; auto. split; auto. split; [constructor|]. split; [now right|]. split; auto.
    rewrite app_nil_r, Cb1. f_equal. unfold cbits. cbn. rewrite app_nil_r, X. reflexivity.
Qed.
End Task.
