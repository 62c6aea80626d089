(** Backspace, numbers, capitals, transposing and pasting. *)
From Coq Require Import List Arith Lia Bool ZifyBool.
From Verif Require Import Base ListLib MultisetProofs DeltaModel DeltaSpec DeltaProofs DeltaProofs2 PropertiesDelta TreeModel TreeSpec TreeProofs MetricProofs CursorModel CursorProofs CursorBoundary
  RopeModel RopeSpec RopeProofs RopeMetric RopeIterModel RopeCursor RopeIterProofs FindModel FindProofs SelectionModel SelectionProofs PropertiesSelection WordModel WordProofs PropertiesWord EditOpsModel EditOpsSpec EditOpsProofs EditOpsLines EditOpsMore EditOpsTabs.
Import ListNotations.
Local Notation concat := List.concat.
Local Notation region := SelectionModel.region.
Local Notation edit := (nat * nat * list nat)%type.
Local Notation clen cs := (length (concat cs)).

(** The scan of backspace over the characters before the caret, the nearest first. *)
Fixpoint bscan (P : emoji_props) (st : bstate) (cs : list (list nat)) (n vs : nat) : nat :=
  match cs with
  | [] => n
  | c :: cs' => if finished st then n else let '(st', n', vs') := bstep P st c n vs in bscan P st' cs' n' vs'
  end.
Definition binv (st : bstate) (n : nat) : Prop := match st with BStart => n = 0 | BEvenRIS => 2 <= n | _ => 1 <= n end.
Lemma bstep_inv P st c n vs : binv st n -> let '(st', n', _) := bstep P st c n vs in binv st' n' /\ 1 <= n'.
Proof.
  intros H. destruct st; cbn [bstep binv] in *;
    repeat match goal with |- context [if ?b then _ else _] => destruct b end; cbn [binv]; lia.
Qed.
Lemma bscan_pos P cs : forall st n vs, binv st n -> 1 <= n \/ cs <> [] -> 1 <= bscan P st cs n vs.
Proof.
  induction cs as [|c cs IH]; intros st n vs H Hn; cbn [bscan]; [destruct Hn; [auto|congruence]|].
  destruct (finished st) eqn:E; [destruct st; try discriminate; exact H|]. pose proof (bstep_inv P st c n vs H) as Hi. destruct (bstep P st c n vs) as [[st' n'] vs']. apply IH; tauto.
Qed.

Section Rope.
Context (r : rope) (h : nat) (W : rope_wf h r).
Notation s := (rcontent r).
Local Notation bd := (char_boundary s).
Local Notation run := (@run_edits nat).
Local Notation len_eq := (len_r r h W).
Local Notation fu := (tree_fuel r).

Section Backspace.
Context (P : emoji_props).
Lemma prev_off a ch b : Forall uchar ((a ++ [ch]) ++ b) -> s = concat ((a ++ [ch]) ++ b) -> prev_codepoint_offset r (clen (a ++ [ch])) = Some (Some (clen a)).
Proof.
  intros F E. assert (L : clen (a ++ [ch]) <= length s) by (rewrite E, (concat_app (a ++ [ch])), app_length; lia). destruct (prev_cp_ok r h W _ L) as (x & -> & Hx). f_equal.
  assert (Fc : uchar ch). { rewrite <- app_assoc in F. apply Forall_app in F as [_ F]. inversion F; auto. } pose proof (char_pos ch Fc) as Hp. rewrite clen_app, clen_1 in *.
  assert (B : scut s (clen a)). { rewrite E, <- app_assoc. apply cb_start. rewrite <- app_assoc in F. now apply Forall_app in F as [_ F]. }
  destruct x as [p|]; [|lia]. destruct Hx as (H1 & H2 & H3). f_equal. destruct (Nat.lt_trichotomy p (clen a)) as [Hl|[|Hl]]; auto; exfalso.
  - apply (H3 (clen a)); auto. lia.
  - eapply (FindProofs.scut_in_char r (clen a) ch b p); [rewrite E, !clen_app; lia| |lia|auto].
    rewrite E, <- app_assoc, concat_app, skipn_app_exact by auto. split; auto. rewrite <- app_assoc in F. now apply Forall_app in F as [_ F].
Qed.
Lemma bloop_ok a : forall b fuel st n vs, Forall uchar (a ++ b) -> s = concat (a ++ b) -> length a <= fuel -> bloop r P fuel st (clen a) n vs = Some (bscan P st (rev a) n vs).
Proof.
  induction a as [|ch a IH] using rev_ind; intros b fuel st n vs F E Hf.
  { destruct fuel; cbn; destruct (finished st); reflexivity. }
  rewrite rev_app_distr. cbn [rev app bscan]. rewrite app_length in Hf. cbn [length] in Hf. destruct fuel as [|fuel]; [lia|]. cbn [bloop].
  assert (Fc : uchar ch). { pose proof F as F'. rewrite <- app_assoc in F'. apply Forall_app in F' as [_ F']. inversion F'; auto. } pose proof (char_pos ch Fc) as Hp.
  replace (clen (a ++ [ch]) =? 0) with false by (rewrite clen_app, clen_1; lia). rewrite orb_false_r. destruct (finished st); auto.
  assert (L : clen (a ++ [ch]) <= length s) by (rewrite E, (concat_app (a ++ [ch])), app_length; lia). destruct (rnew_ok h r _ W L) as (c & -> & Pc & V). cbn [bind].
  destruct (prev_cp r h W c a ch b) as (c' & -> & _). { split; auto. } cbn [bind]. rewrite (prev_off a ch b F E). cbn [bind].
  destruct (bstep P st ch n vs) as [[st' n'] vs']. apply (IH (ch :: b)); [|rewrite E|lia]; now rewrite <- app_assoc in *.
Qed.
Lemma bback_ok n : forall a b, Forall uchar (a ++ b) -> s = concat (a ++ b) -> bback r n (clen a) = Some (clen (firstn (length a - n) a)).
Proof.
  induction n as [|n IH]; intros a b F E; cbn [bback]; [now rewrite Nat.sub_0_r, firstn_all|].
  destruct a as [|ch a _] using rev_ind.
  { assert (H0 : prev_codepoint_offset r 0 = Some None). { destruct (prev_cp_ok r h W 0 ltac:(lia)) as (x & -> & Hx). destruct x; auto. lia. }
    cbn [concat length]. rewrite H0. cbn [bind]. change 0 with (clen (@nil (list nat))) at 1. rewrite (IH [] b F E). reflexivity. }
  rewrite (prev_off a ch b F E). cbn [bind]. rewrite (IH a (ch :: b)) by (now rewrite <- app_assoc in *). f_equal. rewrite app_length. cbn [length].
  replace (length a + 1 - S n) with (length a - n) by lia. rewrite firstn_app. replace (length a - n - length a) with 0 by lia. cbn [firstn]. now rewrite app_nil_r.
Qed.
Lemma all_spaces_ok offs : (forall i, In i offs -> i < length s) -> all_spaces r offs = Some (forallb (fun i => match nth_error s i with Some y => y =? 32 | None => false end) offs).
Proof.
  induction offs as [|i offs IH]; intros H; [reflexivity|]. cbn [all_spaces forallb]. rewrite (byte_at_ok r h W i) by (apply H; now left).
  assert (L : i < length s) by (apply H; now left). apply nth_error_Some in L. destruct (nth_error s i) as [y|]; [|congruence]. cbn [bind]. destruct (y =? 32); cbn [andb]; auto. apply IH. intros. apply H. now right.
Qed.
(** The spaces back to the last tab stop. *)
Definition to_tab_stop (t p st : nat) : Prop :=
  exists c, column s p c /\ st + (if c mod t =? 0 then t else c mod t) = p /\ forall i, st <= i < p -> nth_error s i = Some 32.
Lemma backspace_ok cfg p x a b : 0 < tab_size cfg -> r_start x = p -> r_end x = p -> Forall uchar (a ++ b) -> s = concat (a ++ b) -> p = clen a ->
  (translate_tabs cfg = true /\ use_tab_stops cfg = true /\ exists st, to_tab_stop (tab_size cfg) p st /\ offset_for_delete_backwards r P x cfg = Some st) \/
  (~ (translate_tabs cfg = true /\ use_tab_stops cfg = true /\ exists st, to_tab_stop (tab_size cfg) p st)) /\
   offset_for_delete_backwards r P x cfg = Some (clen (firstn (length a - bscan P BStart (rev a) 0 0) a)).
Proof.
  intros T E1 E2 F E Ep. unfold offset_for_delete_backwards, is_caret. rewrite E1, E2, Nat.eqb_refl. cbn [negb].
  assert (Bp : bd p). { exists a, b. auto. } pose proof (bd_le r h W _ Bp) as Lp.
  destruct (to_line_col r h W p Bp) as (o & -> & (So & Lo & No) & _). cbn [bind]. replace (tab_size cfg =? 0) with false by lia.
  set (t := tab_size cfg) in *. set (c := p - o) in *. set (size := if c mod t =? 0 then t else c mod t).
  assert (Cc : column s p c). { unfold c. split; [lia|]. replace (p - (p - o)) with o by lia. split; auto. }
  assert (Uc : forall c', column s p c' -> c' = c).
  { intros c' (K1 & K2 & K3). destruct Cc as (J1 & J2 & J3). destruct (Nat.lt_trichotomy c c') as [Hl|[|Hl]]; auto; exfalso; [apply (K3 (p - c)); auto; lia|apply (J3 (p - c')); auto; lia]. }
  assert (Hs : 0 < size). { unfold size. destruct (Nat.eqb_spec (c mod t) 0); lia. }
  assert (Nb : bloop r P p BStart p 0 0 = Some (bscan P BStart (rev a) 0 0)).
  { rewrite Ep. apply (bloop_ok a b); auto. clear - F. apply Forall_app in F as [F _]. induction F as [|ch a H F IH]; auto. cbn [concat length]. rewrite app_length. pose proof (char_pos ch H). lia. }
  assert (Bk : bback r (bscan P BStart (rev a) 0 0) p = Some (clen (firstn (length a - bscan P BStart (rev a) 0 0) a))) by (rewrite Ep at 1; now apply (bback_ok _ a b)).
  destruct (Nat.ltb_spec 0 p) as [Hp|Hp].
  2:{ cbn [bind andb]. right. split; [intros (_ & _ & st & c' & Hc' & Hst & _); apply Uc in Hc'; subst c'; fold size in Hst; lia|]. rewrite Nb. exact Bk. }
  rewrite all_spaces_ok by (intros i Hi; apply in_seq in Hi; lia). cbn [bind].
  set (fb := forallb _ _). destruct fb eqn:Efb; unfold fb in Efb; clear fb.
  - rewrite forallb_forall in Efb.
    assert (Sp : forall i, p - size <= i < p -> nth_error s i = Some 32). { intros i Hi. specialize (Efb i ltac:(apply in_seq; lia)). destruct (nth_error s i); [|discriminate]. f_equal. lia. }
    assert (Ls : size <= p).
    { unfold size in *. destruct (Nat.eqb_spec (c mod t) 0) as [E0|E0]; [|pose proof (Nat.mod_le c t ltac:(lia)); lia].
      destruct (Nat.eq_dec c 0) as [C0|C0].
      - exfalso. assert (p = o) by lia. subst o. destruct So as [_ [->|N]]; [lia|]. rewrite Sp in N by lia. discriminate.
      - apply Nat.mod_divides in E0 as [k E0]; [|lia]. assert (k <> 0) by (intros ->; lia). assert (t * 1 <= t * k) by (apply Nat.mul_le_mono_l; lia). lia. }
    assert (Ts : to_tab_stop t p (p - size)). { exists c. split; auto. fold size. split; [lia|auto]. }
    cbn [andb]. destruct (translate_tabs cfg), (use_tab_stops cfg); cbn [andb].
    + left. split; auto. split; auto. exists (p - size). auto.
    + right. split; [intros (_ & ? & _); discriminate|]. rewrite Nb. exact Bk.
    + right. split; [intros (? & _); discriminate|]. rewrite Nb. exact Bk.
    + right. split; [intros (? & _); discriminate|]. rewrite Nb. exact Bk.
  - cbn [andb]. right. split; [|rewrite Nb; exact Bk]. intros (_ & _ & st & c' & Hc' & Hst & Hsp). apply Uc in Hc'. subst c'. fold size in Hst.
    assert (forallb (fun i => match nth_error s i with Some y => y =? 32 | None => false end) (seq (p - size) (p - (p - size))) = true); [|congruence].
    apply forallb_forall. intros i Hi. apply in_seq in Hi. rewrite Hsp by lia. reflexivity.
Qed.
Lemma space_bd i p : bd p -> i <= p -> (i < p -> nth_error s i = Some 32) -> bd i.
Proof.
  intros B L N. destruct (Nat.eq_dec i p) as [->|]; auto. apply (bd_iff r h W). unfold scut, is_char_boundary. destruct (i =? 0); auto. rewrite N by lia. reflexivity.
Qed.
Lemma backspace_caret cfg x : 0 < tab_size cfg -> lo x = hi x -> bd (hi x) ->
  exists st, offset_for_delete_backwards r P x cfg = Some st /\ st <= hi x /\ (0 < hi x -> st < hi x) /\ bd st.
Proof.
  intros T Ec B. pose proof B as (a & b & F & E & Ep). assert (E1 : r_start x = hi x /\ r_end x = hi x) by (unfold lo, hi in *; lia). destruct E1 as [E1 E2].
  destruct (backspace_ok cfg (hi x) x a b T E1 E2 F E Ep) as [(_ & _ & st & (c & Hc & Hst & Hsp) & Eo)|[_ Eo]].
  - exists st. split; auto. assert (st <= hi x) by lia. split; auto. split; [|apply (space_bd st (hi x)); auto; intros; apply Hsp; lia].
    intros _. destruct (Nat.eqb_spec (c mod tab_size cfg) 0); lia.
  - eexists. split; [exact Eo|]. set (n := bscan P BStart (rev a) 0 0). assert (Eq : a = firstn (length a - n) a ++ skipn (length a - n) a) by (symmetry; apply firstn_skipn).
    assert (Hc : clen a = clen (firstn (length a - n) a) + clen (skipn (length a - n) a)) by (rewrite Eq at 1; apply clen_app).
    split; [lia|]. split.
    + intros Hp. assert (Ha : a <> []) by (intros ->; cbn in Ep; lia).
      assert (1 <= n). { apply bscan_pos; [reflexivity|]. right. intros C. apply Ha. rewrite <- (rev_involutive a), C. reflexivity. }
      assert (Hne : skipn (length a - n) a <> []). { intros C. apply (f_equal (@length _)) in C. rewrite skipn_length in C. cbn in C. destruct a; [congruence|cbn [length] in C; lia]. }
      destruct (skipn (length a - n) a) as [|ch rest] eqn:Es; [congruence|]. cbn [concat length] in Hc. rewrite app_length in Hc. assert (Fc : uchar ch).
      { apply Forall_app in F as [F _]. rewrite Eq in F. apply Forall_app in F as [_ F]. inversion F; auto. } pose proof (char_pos ch Fc). lia.
    + exists (firstn (length a - n) a), (skipn (length a - n) a ++ b). rewrite app_assoc, firstn_skipn. auto.
Qed.
Lemma backspace_any cfg x : 0 < tab_size cfg -> bd (lo x) -> bd (hi x) ->
  exists st, offset_for_delete_backwards r P x cfg = Some st /\ st <= hi x /\ (0 < hi x -> st < hi x) /\ bd st /\ (lo x < hi x -> st = lo x).
Proof.
  intros T B1 B2. pose proof (lo_hi x). destruct (Nat.eq_dec (lo x) (hi x)) as [E|E].
  - destruct (backspace_caret cfg x T E B2) as (st & H1 & H2 & H3 & H4). exists st. split; auto. split; auto. split; auto. split; auto. lia.
  - exists (lo x). unfold offset_for_delete_backwards. rewrite is_caret_ok, <- lo_min, <- hi_max. replace (lo x =? hi x) with false by lia. cbn [negb]. split; auto. split; [lia|]. split; [lia|]. auto.
Qed.
Lemma backward_run cfg rs qs : Forall2 (fun x q => offset_for_delete_backwards r P x cfg = Some q) rs qs -> forall b,
  backward_loop r P cfg rs b = run b (filter (fun e => fst (fst e) <? snd (fst e)) (map (fun p => (snd p, hi (fst p), [])) (combine rs qs))).
Proof.
  induction 1 as [|x q rs qs E F IH]; intros b; [reflexivity|]. cbn [backward_loop combine map filter fst snd]. rewrite E. cbn [bind]. rewrite <- hi_max.
  destruct (Nat.leb_spec (hi x) q).
  - replace (q <? hi x) with false by lia. cbn [bind]. apply IH.
  - replace (q <? hi x) with true by lia. rewrite run_edits_cons. unfold db_replace. destruct (db_delete b q (hi x)); cbn [bind]; auto.
Qed.
Lemma edited_nonempty eds : (forall e, In e eds -> fst (fst e) < snd (fst e) \/ snd e = []) -> forall k, sorted_edits k eds (length s) ->
  sorted_edits k (filter (fun e => fst (fst e) <? snd (fst e)) eds) (length s) /\ edited k (filter (fun e => fst (fst e) <? snd (fst e)) eds) s = edited k eds s.
Proof.
  induction eds as [|[[x y] t] eds IH]; intros H k Hs; [auto|]. destruct Hs as (S1 & S2 & S3). cbn [filter fst snd]. destruct (IH (fun e He => H e (or_intror He)) y S3) as [I1 I2].
  destruct (Nat.ltb_spec x y).
  - cbn [sorted_edits edited]. rewrite I2. auto.
  - assert (x = y) by lia. subst y. destruct (H _ (or_introl eq_refl)) as [C|C]; cbn in C; [lia|]. subst t. cbn [edited app].
    assert (Hx : x <= length s). { pose proof (last_end_le eds x _ S3). lia. }
    assert (Hk : sorted_edits k eds (length s)). { destruct eds as [|[[u v] w] eds]; cbn in *; [lia|]. destruct S3 as (? & ? & ?). repeat split; auto. lia. }
    destruct (IH (fun e He => H e (or_intror He)) k Hk) as [J1 J2]. split; auto. rewrite J2. symmetry. now apply edited_skip.
Qed.
Lemma delete_backward_ok cfg rs qs : (forall x, In x rs -> bd (lo x) /\ bd (hi x)) -> Forall2 (fun x q => offset_for_delete_backwards r P x cfg = Some q) rs qs -> 0 < tab_size cfg ->
  (forall i a b q, nth_error rs i = Some a -> nth_error rs (S i) = Some b -> nth_error qs (S i) = Some q -> hi a <= q) ->
  exists d, delete_backward r P rs cfg = Some d /\ makes d s (edited 0 (map (fun p => (snd p, hi (fst p), [])) (combine rs qs)) s).
Proof.
  intros B F T Ha. set (eds := map (fun p => (snd p, hi (fst p), [])) (combine rs qs)).
  assert (Ok : Forall (ed_ok r) eds).
  { unfold eds. clear Ha eds. induction F as [|x q rs qs E F IH]; [constructor|]. cbn [combine map fst snd]. constructor; [|apply IH; intros; apply B; now right]. destruct (B x (or_introl eq_refl)) as [B1 B2].
    destruct (backspace_any cfg x T B1 B2) as (st & E' & _ & _ & Bs & _). rewrite E in E'. injection E' as <-. split; auto. }
  assert (Srt : sorted_edits 0 eds (length s)).
  { unfold eds. assert (Gen : forall k, k <= length s -> match rs, qs with x :: _, q :: _ => k <= q | _, _ => True end -> sorted_edits k (map (fun p => (snd p, hi (fst p), @nil nat)) (combine rs qs)) (length s)).
    { clear eds Ok. induction F as [|x q rs qs E F IH]; intros k Hk H; [exact Hk|]. cbn [combine map fst snd sorted_edits]. destruct (B x (or_introl eq_refl)) as [B1 B2].
      destruct (backspace_any cfg x T B1 B2) as (st & E' & L & _). rewrite E in E'. injection E' as <-. split; auto. split; auto. apply IH.
      - intros. apply B. now right.
      - intros i. apply (Ha (S i)).
      - now apply (bd_le r h W).
      - destruct rs as [|y rs], qs as [|q2 qs]; auto. apply (Ha 0 x y q2); auto. }
    apply Gen; [lia|]. destruct rs, qs; auto; lia. }
  destruct (edited_nonempty eds) with (k := 0) as [S1 S2]; auto. { intros e He. right. unfold eds in He. apply in_map_iff in He as (p & <- & _). reflexivity. }
  assert (Ok2 : Forall (ed_ok r) (filter (fun e => fst (fst e) <? snd (fst e)) eds)). { rewrite Forall_forall in *. intros e He. apply filter_In in He as [He _]. auto. }
  destruct (edits_make r h W _ S1 Ok2) as (b & E & M). exists (db_build b). unfold delete_backward. rewrite (backward_run cfg rs qs F). fold eds. rewrite E. split; auto. now rewrite <- S2.
Qed.
End Backspace.
End Rope.
