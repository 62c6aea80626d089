(** Proofs about word boundaries. *)
From Coq Require Import List Arith Lia Bool ZifyBool.
From Verif Require Import Base ListLib MultisetProofs TreeModel TreeSpec TreeProofs MetricProofs CursorModel CursorProofs CursorBoundary
  RopeModel RopeSpec RopeProofs RopeMetric RopeIterModel RopeCursor RopeIterProofs FindModel FindProofs WordModel.
Import ListNotations.
Local Notation concat := List.concat.
Local Notation idl := (fun s : list nat => s).
Local Notation gp := get_word_property.
Local Notation clen cs := (length (concat cs)).

Lemma char_pos c : uchar c -> 0 < length c.
Proof. intros H. destruct (char_shape c H) as (b & t & -> & _). cbn. lia. Qed.
Lemma clen_app (a b : list (list nat)) : clen (a ++ b) = clen a + clen b.
Proof. now rewrite concat_app, app_length. Qed.
Lemma clen_1 (c : list nat) : clen [c] = length c.
Proof. cbn. now rewrite app_nil_r. Qed.

Section Rope.
Context (r : rope) (h : nat) (W : rope_wf h r).
Notation s := (rcontent r).
Local Notation settable := (settable r).

(** A cursor between the characters [a] and [b]. *)
Definition between (c : rcursor) (a b : list (list nat)) : Prop :=
  Forall uchar (a ++ b) /\ s = concat (a ++ b) /\ c_pos c = clen a /\ rvalid r c.
Lemma between_cut c a b : between c a b -> scut s (c_pos c) /\ chars_of (skipn (c_pos c) s) b /\ chars_of (firstn (c_pos c) s) a.
Proof.
  intros (F & E & P & V). apply Forall_app in F as [Fa Fb]. rewrite concat_app in E. rewrite E, P. split; [apply scut_app; exists b; now split|].
  rewrite skipn_app_exact, firstn_app_exact by auto. split; split; auto.
Qed.
Lemma between_set c a b : Forall uchar (a ++ b) -> s = concat (a ++ b) -> settable c -> exists c', c_set rope_ops r c (clen a) = Some c' /\ between c' a b.
Proof.
  intros F E Hs. destruct (rset_ok r h W c (clen a) Hs) as (c' & E' & P & V); [rewrite E, clen_app; lia|]. exists c'. split; auto. repeat split; auto.
Qed.
Lemma between_settable c a b : between c a b -> settable c.
Proof. intros (_ & _ & _ & V). now apply valid_settable. Qed.

Lemma next_cp c a ch b : between c a (ch :: b) -> exists c', next_codepoint r c = Some (Some ch, c') /\ between c' (a ++ [ch]) b.
Proof.
  intros H. destruct (between_cut _ _ _ H) as (C & Cb & _). destruct H as (F & E & P & V). destruct (next_codepoint_ok r h W c (ch :: b) V C Cb) as (c' & E' & V' & P').
  exists c'. split; auto. unfold between. rewrite <- !app_assoc. cbn [app]. split; auto. split; auto. split; auto. rewrite P', P, clen_app, clen_1. reflexivity.
Qed.
Lemma next_end c a : between c a [] -> exists c', next_codepoint r c = Some (None, c') /\ settable c' /\ c_leaf c' = None /\ c_pos c' = c_pos c.
Proof.
  intros H. destruct (between_cut _ _ _ H) as (C & Cb & _). destruct (next_codepoint_ok r h W c [] ) as (c' & E' & S'); auto; [apply H|].
  exists c'. split; auto. split; auto. destruct H as (F & E & P & V). rewrite app_nil_r in E. destruct V as (l & pre & post & V).
  destruct (valid_leaf r h W _ _ _ _ V) as (Eg & _). unfold next_codepoint in E'. rewrite Eg in E'. cbn [bind] in E'.
  unfold c_next in E'. pose proof V as ((p & R & El & _) & _). rewrite El in E'.
  rewrite (wf_len rope_ops idl leafV compute_info h r W) in E'. change (content idl r) with s in E'. rewrite (proj2 (Nat.leb_le _ _)) in E' by (rewrite E; lia).
  cbn [bind] in E'. destruct (first_char _ _); [|discriminate]. cbn [bind] in E'. injection E' as _ <-. auto.
Qed.
Lemma next_dead c : c_leaf c = None -> next_codepoint r c = Some (None, c).
Proof. intros E. unfold next_codepoint, c_get_leaf. now rewrite E. Qed.

Lemma peek_next c x c' : next_codepoint r c = Some (x, c') -> peek_next_codepoint r c = Some x.
Proof.
  unfold next_codepoint, peek_next_codepoint. destruct (c_get_leaf c) as [[[l o]|]|]; cbn [bind]; try discriminate; [|intros E; injection E as <- _; auto].
  destruct (c_next _ _ _ _) as [[y c1]|]; [|discriminate]. cbn [bind]. destruct (first_char l o); [|discriminate]. cbn [bind]. intros E; injection E as <- _. auto.
Qed.
Lemma cprev_valid c : rvalid r c -> exists x c', c_prev rope_ops r base_metric c = Some (x, c') /\
  match x with
  | Some p => c_pos c' = p /\ p < c_pos c /\ scut s p /\ (forall y, p < y < c_pos c -> ~ scut s y) /\ rvalid r c'
  | None => settable c' /\ c_leaf c' = None /\ forall x, x < c_pos c -> ~ scut s x
  end.
Proof.
  intros V. destruct (prev_ok rope_ops _ _ _ _ _ rope_leaf_spec rope_text_spec _ _ _ base_bound r h W c V) as (x & c' & E & Hx).
  exists x, c'. split; auto. destruct x as [p|].
  - destruct Hx as (H0 & H1 & H2 & H3 & H4). split; auto. split; auto. split; auto. split; auto. intros y Hy. apply H3. lia.
  - destruct Hx as (H1 & H2 & H3). split; [right; auto|]. auto.
Qed.
Lemma prev_cp c a ch b : between c (a ++ [ch]) b -> exists c', prev_codepoint r c = Some (Some ch, c') /\ between c' a (ch :: b).
Proof.
  intros H. destruct (between_cut _ _ _ H) as (C & Cb & Ca). destruct H as (F & E & P & V). rewrite <- app_assoc in F, E. cbn [app] in F, E.
  assert (Fch : uchar ch) by (rewrite Forall_app in F; destruct F as [_ F]; inversion F; auto). pose proof (char_pos ch Fch).
  rewrite clen_app, clen_1 in P. unfold prev_codepoint. destruct (cprev_valid c V) as (x & c1 & -> & Hx). cbn [bind].
  assert (C0 : scut s (clen a)).
  { rewrite E, concat_app. apply scut_app. exists (ch :: b). split; auto. now apply Forall_app in F. }
  destruct x as [p|]; [|exfalso; destruct Hx as (_ & _ & Hx); apply (Hx (clen a)); [lia|auto]]. destruct Hx as (P1 & Hlt & Cp & Hno & V1).
  assert (p = clen a) as ->.
  { destruct (Nat.lt_trichotomy p (clen a)) as [Hl|[|Hl]]; auto; exfalso.
    - apply (Hno (clen a)); [lia|auto].
    - eapply (scut_in_char r (clen a) ch b p); [rewrite E, clen_app; lia| |lia|auto]. rewrite E, concat_app, skipn_app_exact by auto. split; auto. now apply Forall_app in F. }
  assert (B1 : between c1 a (ch :: b)) by (split; auto). destruct (next_cp c1 a ch b B1) as (c2 & E2 & _). rewrite (peek_next _ _ _ E2). cbn [bind]. eauto.
Qed.
Lemma prev_start c b : between c [] b -> exists c', prev_codepoint r c = Some (None, c') /\ settable c' /\ c_leaf c' = None /\ c_pos c' = c_pos c.
Proof.
  intros (F & E & P & V). cbn in P. unfold prev_codepoint. destruct (cprev_valid c V) as (x & c1 & E1 & Hx). rewrite E1. cbn [bind].
  destruct x as [p|]; [lia|]. destruct Hx as (S1 & L1 & _). unfold peek_next_codepoint, c_get_leaf. rewrite L1. cbn [bind]. exists c1. split; auto. split; auto. split; auto.
  unfold c_prev in E1. rewrite P in E1 |- *. destruct (c_leaf c); cbn [Nat.eqb] in E1; injection E1 as <-; auto.
Qed.
Lemma prev_dead c : c_leaf c = None -> exists c', prev_codepoint r c = Some (None, c') /\ c_leaf c' = None /\ c_pos c' = c_pos c /\ (settable c -> settable c').
Proof.
  intros L. unfold prev_codepoint, c_prev. rewrite L. cbn [bind]. unfold peek_next_codepoint, c_get_leaf. cbn. eexists. split; [reflexivity|]. split; auto. split; auto.
  intros [(l & pre & post & (p & R & El & _))|[_ Hk]]; [congruence|]. right. split; auto.
Qed.

(** ** The loops *)
Definition Ends (p n : list nat) : Prop := is_end (classify_boundary (gp p) (gp n)) = true.
Definition Starts (p n : list nat) : Prop := is_start (classify_boundary (gp p) (gp n)) = true.

Lemma next_loop fuel : forall c a p b, between c (a ++ [p]) b -> length b <= fuel ->
  exists c' b1 b2, next_boundary_loop r fuel c (gp p) (c_pos c) = Some (clen (a ++ p :: b1), c') /\ settable c' /\ b = b1 ++ b2 /\
    (b2 = [] \/ exists x n b3 y, b2 = n :: b3 /\ p :: b1 = y ++ [x] /\ Ends x n) /\
    forall y x n z, p :: b1 = y ++ x :: n :: z -> ~ Ends x n.
Proof.
  induction fuel as [|fuel IH]; intros c a p b H Hf; cbn [next_boundary_loop]; pose proof H as (_ & _ & P & _); rewrite P.
  - destruct b; [|cbn in Hf; lia]. destruct (next_end c _ H) as (c' & -> & S' & _). cbn [bind]. exists c', [], []. split; auto. split; auto. split; auto. split; [now left|].
    intros [|y0 [|y1 y]] x n z E; discriminate.
  - destruct b as [|n b].
    + destruct (next_end c _ H) as (c' & -> & S' & _). cbn [bind]. exists c', [], []. split; auto. split; auto. split; auto. split; [now left|].
      intros [|y0 [|y1 y]] x n z E; discriminate.
    + destruct (next_cp c _ n b H) as (c1 & -> & H1). cbn [bind]. destruct (is_end _) eqn:Ee.
      * exists c1, [], (n :: b). split; auto. split; [eapply between_settable; eauto|]. split; auto. split; [right; exists p, n, b, []; auto|].
        intros [|y0 [|y1 y]] x n' z E; discriminate.
      * cbn [length] in Hf. destruct (IH c1 (a ++ [p]) n b H1 ltac:(lia)) as (c2 & b1 & b2 & -> & S2 & -> & Hs & Hn). exists c2, (n :: b1), b2.
        split; [now rewrite <- app_assoc|]. split; auto. split; auto. split.
        -- destruct Hs as [->|(x & n' & b3 & y & -> & Ey & Hx)]; [now left|right]. exists x, n', b3, (p :: y). split; auto. split; auto. cbn. congruence.
        -- intros [|y0 y] x n' z E; cbn in E; [injection E as <- <- _; unfold Ends; congruence|injection E as <- E; eapply Hn; eauto].
Qed.
Lemma prev_loop fuel : forall c a p b, between c a (p :: b) -> length a <= fuel ->
  exists c' a1 a2, prev_boundary_loop r fuel c (gp p) (c_pos c) = Some (clen a1, c') /\ settable c' /\ a = a1 ++ a2 /\
    (a1 = [] \/ exists x n a3 y, a1 = a3 ++ [x] /\ a2 ++ [p] = n :: y /\ Starts x n) /\
    forall y x n z, a2 ++ [p] = y ++ x :: n :: z -> ~ Starts x n.
Proof.
  induction fuel as [|fuel IH]; intros c a p b H Hf; cbn [prev_boundary_loop]; pose proof H as (_ & _ & P & _); rewrite P.
  - destruct a; [|cbn in Hf; lia]. destruct (prev_start c _ H) as (c' & -> & S' & _). cbn [bind]. exists c', [], []. split; auto. split; auto. split; auto. split; [now left|].
    intros [|y0 [|y1 y]] x n z E; discriminate.
  - destruct a as [|x a _] using rev_ind.
    + destruct (prev_start c _ H) as (c' & -> & S' & _). cbn [bind]. exists c', [], []. split; auto. split; auto. split; auto. split; [now left|].
      intros [|y0 [|y1 y]] x n z E; discriminate.
    + destruct (prev_cp c a x (p :: b) H) as (c1 & -> & H1). cbn [bind]. destruct (is_start _) eqn:Ee.
      * exists c1, (a ++ [x]), []. split; auto. split; [eapply between_settable; eauto|]. split; [now rewrite app_nil_r|]. split; [right; exists x, p, a, []; auto|].
        intros [|y0 [|y1 y]] x' n' z E; discriminate.
      * rewrite app_length in Hf. cbn [length] in Hf. destruct (IH c1 a x (p :: b) H1 ltac:(lia)) as (c2 & a1 & a2 & -> & S2 & -> & Hs & Hn). exists c2, a1, (a2 ++ [x]).
        split; auto. split; auto. split; [now rewrite app_assoc|]. split.
        -- destruct Hs as [->|(x' & n' & a3 & y & -> & Ey & Hx)]; [now left|right]. exists x', n', a3, (y ++ [p]). split; auto. split; auto. now rewrite Ey.
        -- intros y x' n' z E. destruct z as [|w z _] using rev_ind.
           ++ rewrite <- app_assoc in E. change (y ++ [x'; n']) with (y ++ [x'] ++ [n']) in E. rewrite !app_assoc in E. apply app_inj_tail in E as [E <-]. apply app_inj_tail in E as [_ <-]. unfold Starts. congruence.
           ++ change (y ++ x' :: n' :: z ++ [w]) with (y ++ (x' :: n' :: z) ++ [w]) in E. rewrite app_assoc in E. apply app_inj_tail in E as [E _]. eapply Hn; eauto.
Qed.

(** ** Selecting a word *)
Definition stop_back (initial : nat) (ib : word_boundary) (x : nat) (p n : list nat) : bool :=
  if x =? initial then is_start ib else if negb (is_boundary ib) then is_boundary (classify_boundary (gp p) (gp n)) else is_start (classify_boundary (gp p) (gp n)).
Definition stop_forward (initial : nat) (ib : word_boundary) (x : nat) (p n : list nat) : bool :=
  if x =? initial then is_end ib else if negb (is_boundary ib) then is_boundary (classify_boundary (gp p) (gp n)) else is_end (classify_boundary (gp p) (gp n)).

(** Going back from after the characters [a], the next being [n]; the cursor is before the last
    of [a]. *)
Lemma back_loop fuel initial ib : forall c a n b, Forall uchar (a ++ n :: b) -> s = concat (a ++ n :: b) ->
  match rev a with [] => settable c | p :: a' => between c (rev a') (p :: n :: b) end -> length a <= fuel ->
  exists c' a1 a2, select_back r fuel c initial ib (clen a) (option_map gp (hd_error (rev a))) (Some (gp n)) = Some (clen a1, c') /\ settable c' /\ a = a1 ++ a2 /\
    (a1 = [] \/ exists x n' a3 y, a1 = a3 ++ [x] /\ a2 ++ [n] = n' :: y /\ stop_back initial ib (clen a1) x n' = true) /\
    forall y x n' z, y <> [] \/ True -> a2 ++ [n] = y ++ x :: n' :: z -> stop_back initial ib (clen (a1 ++ y ++ [x])) x n' = false.
Proof.
  induction fuel as [|fuel IH]; intros c a n b F E Hc Hf; (destruct a as [|p a _] using rev_ind;
    [cbn [rev hd_error option_map select_back] in *; exists c, [], []; split; [reflexivity|]; split; auto; split; auto; split; [now left|]; intros [|y0 [|y1 y]] x n' z _ E'; discriminate|]).
  - rewrite app_length in Hf. cbn in Hf. lia.
  - rewrite rev_unit in Hc |- *. rewrite rev_involutive in Hc. cbn [hd_error option_map select_back].
    change (if clen (a ++ [p]) =? initial then is_start ib else if negb (is_boundary ib) then is_boundary (classify_boundary (gp p) (gp n)) else is_start (classify_boundary (gp p) (gp n)))
      with (stop_back initial ib (clen (a ++ [p])) p n).
    destruct (stop_back initial ib (clen (a ++ [p])) p n) eqn:Es.
    + exists c, (a ++ [p]), []. split; auto. split; [eapply between_settable; eauto|]. split; [now rewrite app_nil_r|]. split; [right; exists p, n, a, []; auto|].
      intros [|y0 [|y1 y]] x' n' z _ E'; discriminate.
    + pose proof Hc as (_ & _ & Pc & _). rewrite Pc.
      assert (Hp : exists c1 x, prev_codepoint r c = Some (x, c1) /\ x = hd_error (rev a) /\ match rev a with [] => settable c1 | p' :: a' => between c1 (rev a') (p' :: p :: n :: b) end).
      { destruct a as [|q a _] using rev_ind.
        - destruct (prev_start c _ Hc) as (c1 & -> & S1 & _). exists c1, None. auto.
        - rewrite rev_unit. cbn [hd_error]. rewrite rev_involutive. destruct (prev_cp c a q _ Hc) as (c1 & -> & B1). eauto. }
      destruct Hp as (c1 & x & -> & -> & H1). cbn [bind]. rewrite app_length in Hf. cbn [length] in Hf. rewrite <- app_assoc in F, E. cbn [app] in F, E.
      destruct (IH c1 a p (n :: b) F E H1 ltac:(lia)) as (c2 & a1 & a2 & E2 & S2 & -> & Hs & Hn). unfold props in *. rewrite E2. exists c2, a1, (a2 ++ [p]). split; auto. split; auto.
      split; [now rewrite app_assoc|]. split.
      * destruct Hs as [->|(x' & n' & a3 & y & -> & Ey & Hx)]; [now left|right]. exists x', n', a3, (y ++ [n]). split; auto. split; auto. now rewrite Ey.
      * intros y x' n' z _ E'. destruct z as [|w z _] using rev_ind.
        -- rewrite <- app_assoc in E'. change (y ++ [x'; n']) with (y ++ [x'] ++ [n']) in E'. rewrite !app_assoc in E'. apply app_inj_tail in E' as [E' <-]. pose proof E' as E3. apply app_inj_tail in E' as [_ <-].
           rewrite <- E3. rewrite app_assoc. exact Es.
        -- change (y ++ x' :: n' :: z ++ [w]) with (y ++ (x' :: n' :: z) ++ [w]) in E'. rewrite app_assoc in E'. apply app_inj_tail in E' as [E' _]. eapply Hn; eauto.
Qed.
(** Going on from before the characters [b], the last being [p]; the cursor is after the first
    of [b]. *)
Lemma forward_loop fuel initial ib : forall c a p b, Forall uchar (a ++ p :: b) -> s = concat (a ++ p :: b) ->
  match b with [] => settable c | n :: b' => between c (a ++ [p; n]) b' end -> length b <= fuel ->
  exists c' b1 b2, select_forward r fuel c initial ib (clen (a ++ [p])) (Some (gp p)) (option_map gp (hd_error b)) = Some (clen (a ++ p :: b1), c') /\ settable c' /\ b = b1 ++ b2 /\
    (b2 = [] \/ exists x n b3 y, b2 = n :: b3 /\ p :: b1 = y ++ [x] /\ stop_forward initial ib (clen (a ++ p :: b1)) x n = true) /\
    forall y x n z, p :: b1 = y ++ x :: n :: z -> stop_forward initial ib (clen (a ++ y ++ [x])) x n = false.
Proof.
  induction fuel as [|fuel IH]; intros c a p b F E Hc Hf; (destruct b as [|n b];
    [cbn [hd_error option_map select_forward] in *; exists c, [], []; split; [reflexivity|]; split; auto; split; auto; split; [now left|]; intros [|y0 [|y1 y]] x n z E'; discriminate|]).
  - cbn in Hf. lia.
  - cbn [hd_error option_map select_forward].
    change (if clen (a ++ [p]) =? initial then is_end ib else if negb (is_boundary ib) then is_boundary (classify_boundary (gp p) (gp n)) else is_end (classify_boundary (gp p) (gp n)))
      with (stop_forward initial ib (clen (a ++ [p])) p n).
    destruct (stop_forward initial ib (clen (a ++ [p])) p n) eqn:Es.
    + exists c, [], (n :: b). split; auto. split; [eapply between_settable; eauto|]. split; auto. split; [right; exists p, n, b, []; auto|].
      intros [|y0 [|y1 y]] x' n' z E'; discriminate.
    + pose proof Hc as (_ & _ & Pc & _). rewrite Pc.
      assert (Hp : exists c1 x, next_codepoint r c = Some (x, c1) /\ x = hd_error b /\ match b with [] => settable c1 | m :: b' => between c1 ((a ++ [p]) ++ [n; m]) b' end).
      { destruct b as [|m b].
        - destruct (next_end c _ Hc) as (c1 & -> & S1 & _). exists c1, None. auto.
        - destruct (next_cp c _ m b Hc) as (c1 & -> & B1). exists c1, (Some m). split; auto. split; auto. rewrite <- !app_assoc in *. exact B1. }
      destruct Hp as (c1 & x & -> & -> & H1). cbn [bind]. cbn [length] in Hf.
      replace (a ++ [p; n]) with ((a ++ [p]) ++ [n]) by now rewrite <- app_assoc.
      destruct (IH c1 (a ++ [p]) n b) as (c2 & b1 & b2 & E2 & S2 & -> & Hs & Hn); auto; try (now rewrite <- app_assoc); try lia.
      unfold props in *. rewrite E2. exists c2, (n :: b1), b2. rewrite <- app_assoc in Hs |- *. cbn [app] in Hs |- *. split; auto. split; auto. split; auto. split.
      * destruct Hs as [->|(x' & n' & b3 & y & -> & Ey & Hx)]; [now left|right]. exists x', n', b3, (p :: y). split; auto. split; auto. cbn. congruence.
      * intros [|y0 y] x' n' z E'; cbn in E'; [injection E' as <- <- _; exact Es|]. injection E' as <- E'. cbn [app].
        specialize (Hn y x' n' z E'). rewrite <- app_assoc in Hn. exact Hn.
Qed.
End Rope.
