(** Numbers, capitals, transposing and pasting. *)
From Coq Require Import List Arith Lia Bool ZifyBool.
From Verif Require Import Base ListLib MultisetProofs DeltaModel DeltaSpec DeltaProofs DeltaProofs2 PropertiesDelta TreeModel TreeSpec TreeProofs MetricProofs CursorModel CursorProofs CursorBoundary
  RopeModel RopeSpec RopeProofs RopeMetric RopeIterModel RopeCursor RopeIterProofs FindModel FindProofs SelectionModel SelectionProofs PropertiesSelection WordModel WordProofs PropertiesWord EditOpsModel EditOpsSpec EditOpsProofs EditOpsLines EditOpsMore EditOpsTabs.
Import ListNotations.
Local Notation concat := List.concat.
Local Notation region := SelectionModel.region.
Local Notation edit := (nat * nat * list nat)%type.
Local Notation clen cs := (length (concat cs)).

(** The word at a position (as in C44). *)
Definition word_at (t : list nat) (pos st en : nat) : Prop :=
  st <= pos <= en /\ left_stop t pos st /\ (forall y, st < y <= pos -> ~ left_stop t pos y) /\
  right_stop t pos en /\ (forall y, pos <= y < en -> ~ right_stop t pos y).
(** The number at a position: the word, with a minus sign before it. *)
Definition number_at (t : list nat) (pos m en : nat) : Prop :=
  exists st, word_at t pos st en /\
    ((0 < st /\ nth_error t (st - 1) = Some 45 /\ m = st - 1) \/ (~ (0 < st /\ nth_error t (st - 1) = Some 45) /\ m = st)).
Definition number_edits (t : list nat) (change : list nat -> option (list nat)) (x : region) (es : list edit) : Prop :=
  exists m en, number_at t (r_end x) m en /\ es = match change (slice t m en) with Some n => [(m, en, n)] | None => [] end.

Section Rope.
Context (r : rope) (h : nat) (W : rope_wf h r).
Notation s := (rcontent r).
Local Notation bd := (char_boundary s).
Local Notation run := (@run_edits nat).
Local Notation len_eq := (len_r r h W).
Local Notation fu := (tree_fuel r).

Lemma region_bd x : bd (lo x) -> bd (hi x) -> bd (r_start x) /\ bd (r_end x).
Proof.
  unfold lo, hi. intros H1 H2. destruct (Nat.le_ge_cases (r_start x) (r_end x)) as [L|L].
  - rewrite Nat.min_l in H1 by auto. rewrite Nat.max_r in H2 by auto. auto.
  - rewrite Nat.min_r in H1 by auto. rewrite Nat.max_l in H2 by auto. auto.
Qed.
Lemma word_ok pos : bd pos -> exists c st en c', c_new r pos = Some c /\ select_word r (n_len r) c = Some (st, en, c') /\ word_at s pos st en /\
  en <= length s /\ bd st /\ bd en /\ c_pos c' = en /\ rvalid r c'.
Proof.
  intros B. destruct (rnew_ok h r pos W (bd_le r h W _ B)) as (c & E & Pc & V).
  destruct (C44_select_word r h W c (n_len r) V ltac:(now rewrite Pc) ltac:(rewrite len_eq; lia)) as (st & en & c' & E2 & H1 & H2 & H3 & H4 & H5 & H6 & H7 & H8 & _ & H9 & H10).
  rewrite Pc in *. exists c, st, en, c'. split; auto. split; auto. split; [repeat (split; auto); lia|]. auto 8.
Qed.
Lemma word_unique t pos st en st' en' : word_at t pos st en -> word_at t pos st' en' -> st = st' /\ en = en'.
Proof.
  intros (A1 & A2 & A3 & A4 & A5) (B1 & B2 & B3 & B4 & B5). split.
  - destruct (Nat.lt_trichotomy st st') as [H|[H|H]]; auto; exfalso; [apply (A3 st'); auto; lia|apply (B3 st); auto; lia].
  - destruct (Nat.lt_trichotomy en en') as [H|[H|H]]; auto; exfalso; [apply (B5 en); auto; lia|apply (A5 en'); auto; lia].
Qed.
Lemma number_unique t pos m en m' en' : number_at t pos m en -> number_at t pos m' en' -> m = m' /\ en = en'.
Proof. intros (st & W1 & H1) (st' & W2 & H2). destruct (word_unique _ _ _ _ _ _ W1 W2) as [<- <-]. split; auto. destruct H1 as [(? & ? & ->)|[N ->]], H2 as [(? & ? & ->)|[N' ->]]; auto; exfalso; auto. Qed.
Lemma number_region change x : bd (lo x) -> bd (hi x) -> exists m en es, number_at s (r_end x) m en /\ m <= en /\ en <= length s /\
  es = match change (slice s m en) with Some n => [(m, en, n)] | None => [] end /\ Forall (ed_ok r) es /\
  forall rs b, number_loop r change (x :: rs) b = let? b1 := run b es in number_loop r change rs b1.
Proof.
  intros B1 B2. destruct (region_bd x B1 B2) as [_ Be]. destruct (word_ok (r_end x) Be) as (c & st & en & c' & E1 & E2 & Wd & Le & Bst & Ben & _). pose proof Wd as (Hse & _).
  set (mn := match nth_error s (st - 1) with Some y => y =? 45 | None => false end). set (m := if (0 <? st) && mn then st - 1 else st).
  assert (Nm : number_at s (r_end x) m en).
  { exists st. split; auto. unfold m, mn. destruct (Nat.ltb_spec 0 st) as [Hs|Hs]; cbn [andb].
    - destruct (nth_error s (st - 1)) as [y|] eqn:En; [|right; split; auto; intros [_ ?]; discriminate]. destruct (Nat.eqb_spec y 45) as [->|Ny]; [left; auto|right; split; auto; intros [_ E]; congruence].
    - right. split; auto. intros [? _]. lia. }
  assert (Lm : m <= st) by (unfold m; destruct (_ && _); lia).
  assert (Bm : bd m).
  { unfold m, mn. destruct (Nat.ltb_spec 0 st) as [Hs|Hs]; cbn [andb]; auto. destruct (nth_error s (st - 1)) as [y|] eqn:En; auto. destruct (Nat.eqb_spec y 45) as [->|Ny]; auto.
    apply (bd_iff r h W). unfold scut, is_char_boundary. destruct (st - 1 =? 0); auto. rewrite En. reflexivity. }
  exists m, en, (match change (slice s m en) with Some n => [(m, en, n)] | None => [] end). split; auto. split; [lia|]. split; auto. split; auto. split.
  { destruct (change (slice s m en)); constructor; [split; auto|constructor]. }
  intros rs b. cbn [number_loop]. rewrite E1. cbn [bind]. rewrite E2. cbn [bind].
  assert (Em : (if 0 <? st then let? y := byte_at r (st - 1) in Some (if y =? 45 then st - 1 else st) else Some st) = Some m).
  { unfold m, mn. destruct (Nat.ltb_spec 0 st) as [Hs|Hs]; cbn [andb]; auto. rewrite (byte_at_ok r h W) by lia. assert (L : st - 1 < length s) by lia. apply nth_error_Some in L. destruct (nth_error s (st - 1)); [|congruence]. reflexivity. }
  rewrite Em. cbn [bind]. rewrite (slice_to_cow_ok r h W m en ltac:(lia)) by (now apply (bd_iff r h W)). cbn [bind]. destruct (change (slice s m en)) as [n|]; [|reflexivity].
  rewrite run_edits_cons. destruct (db_replace b m en n); cbn [bind]; auto.
Qed.
Definition numbers_apart (rs : list region) : Prop :=
  forall i j a b m e m' e', i < j -> nth_error rs i = Some a -> nth_error rs j = Some b -> number_at s (r_end a) m e -> number_at s (r_end b) m' e' -> e <= m'.
Lemma number_loop_ok change rs : (forall x, In x rs -> bd (lo x) /\ bd (hi x)) -> numbers_apart rs ->
  exists ess, Forall2 (number_edits s change) rs ess /\ Forall (ed_ok r) (concat ess) /\ (forall b, number_loop r change rs b = run b (concat ess)) /\
  forall k, k <= length s -> (forall a m e, In a rs -> number_at s (r_end a) m e -> k <= m) -> sorted_edits k (concat ess) (length s).
Proof.
  induction rs as [|x rs IH]; intros B Ha.
  { exists []. split; [constructor|]. split; [constructor|]. split; [reflexivity|]. intros k Hk _. exact Hk. }
  destruct (B x (or_introl eq_refl)) as [B1 B2]. destruct (number_region change x B1 B2) as (m & en & es & Nx & Lm & Le & Ees & Fes & R1).
  destruct (IH (fun z Hz => B z (or_intror Hz))) as (ess & F & Ok & R2 & Srt). { intros i j a b m1 e1 m2 e2 Hij Hi Hj. apply (Ha (S i) (S j)); auto. lia. }
  exists (es :: ess). split; [constructor; auto; exists m, en; auto|]. cbn [concat]. split; [apply Forall_app; auto|]. split.
  - intros b. rewrite R1, (run_app es). destruct (run b es); cbn [bind]; auto.
  - intros k Hk Hs. pose proof (Hs x m en (or_introl eq_refl) Nx) as Lk. rewrite Ees. destruct (change (slice s m en)) as [n|]; cbn [app sorted_edits].
    + split; auto. split; auto. apply Srt; auto. intros a m' e' Hia Na. apply In_nth_error in Hia as [j Hj]. apply (Ha 0 (S j) x a m en m' e'); auto. lia.
    + apply Srt; auto. intros a m' e' Hia. apply Hs. now right.
Qed.
Lemma change_number_ok change rs : (forall x, In x rs -> bd (lo x) /\ bd (hi x)) -> numbers_apart rs ->
  exists d ess, change_number r rs change = Some d /\ Forall2 (number_edits s change) rs ess /\ makes d s (edited 0 (concat ess) s).
Proof.
  intros B Ha. destruct (number_loop_ok change rs B Ha) as (ess & F & Ok & R & S). destruct (edits_make r h W (concat ess)) as (b & E & M); auto; [apply S; intros; lia|].
  exists (db_build b), ess. unfold change_number. rewrite R, E. auto.
Qed.

(** ** Capitals: one word *)
Lemma capitalize_one upper lower x st en c t : bd (lo x) -> bd (hi x) -> word_at s (lo x) st en -> hi x < en -> slice s st en = c :: t -> c < 128 ->
  exists d, capitalize_text r [x] upper lower = Some (d, [caret (hi x)]) /\ makes d s (edited 0 [(st, en, upper [c] ++ lower t)] s).
Proof.
  intros B1 B2 Wd Hen Es Hc. destruct (word_ok (lo x) B1) as (cu & st' & en' & c' & E1 & E2 & Wd' & Le & Bst & Ben & Pc & V). destruct (word_unique _ _ _ _ _ _ Wd Wd') as [<- <-]. pose proof (lo_hi x) as Hl.
  unfold capitalize_text. cbn [capitalize_loop]. cbn [add_region app]. rewrite <- lo_min, <- hi_max. change (region_new (hi x) (hi x)) with (caret (hi x)). 
  assert (Ea : add_region [] (caret (hi x)) = Some [caret (hi x)]) by reflexivity. rewrite Ea. cbn [bind]. rewrite E1. cbn [bind].
  assert (Ew : capitalize_words r (n_len r) upper lower (hi x) cu (dbuilder_new (n_len r)) = run (dbuilder_new (n_len r)) [(st, en, upper [c] ++ lower t)]).
  { assert (En : forall f, capitalize_words r f upper lower (hi x) cu (dbuilder_new (n_len r)) = run (dbuilder_new (n_len r)) [(st, en, upper [c] ++ lower t)]); auto.
    intros f. destruct Wd as (Hse & _).
    assert (Es1 : str_slice (c :: t) 0 1 = Some [c] /\ str_slice (c :: t) 1 (length (c :: t)) = Some t).
    { destruct (slice_chars r h W st en Bst Ben ltac:(lia)) as (m & Fm & Em). rewrite Es in Em. destruct m as [|ch m]; [discriminate|]. inversion Fm as [|? ? Hch Fm']; subst. cbn [concat] in Em.
      destruct (char_shape ch Hch) as (b0 & t0 & -> & _ & _ & El & _). injection Em as <- Et. assert (t0 = []). { unfold len_utf8_from_first_byte in El. replace (c <? 128) with true in El by lia. destruct t0; [auto|cbn in El; lia]. } subst t0. cbn [app] in Et. subst t.
      assert (C1 : is_char_boundary (c :: concat m) 1 = true) by (apply (cb_start [[c]] m); auto).
      assert (C2 : is_char_boundary (c :: concat m) (length (c :: concat m)) = true) by apply cb_len.
      unfold str_slice. rewrite C1, C2. change (is_char_boundary (c :: concat m) 0) with true. split; [reflexivity|]. cbn [length andb Nat.leb]. f_equal. unfold slice. cbn [skipn]. replace (S (length (concat m)) - 1) with (length (concat m)) by lia. apply firstn_all. }
    destruct Es1 as [Es1 Es2].
    destruct (C44_next_boundary r h W c' (n_len r) V ltac:(now rewrite Pc) ltac:(rewrite len_eq; lia)) as (nb & c2 & En & _).
    assert (Lse : st < en). { destruct (Nat.lt_ge_cases st en); auto. exfalso. pose proof (f_equal (@length nat) Es) as L. rewrite EditOpsProofs.slice_length in L by lia. cbn [length] in L. lia. }
    destruct f; cbn [capitalize_words]; rewrite E2; cbn [bind]; replace (st <? en) with true by lia;
      rewrite (slice_to_cow_ok r h W st en ltac:(lia)) by (now apply (bd_iff r h W)); cbn [bind]; rewrite Es, Es1, Es2; cbn [bind]; rewrite run_edits_cons;
      (destruct (db_replace _ st en _); cbn [bind]; auto); rewrite En; cbn [bind]; destruct nb; auto; replace (hi x <? en) with true by lia; reflexivity. }
  rewrite Ew. destruct (edits_make r h W [(st, en, upper [c] ++ lower t)]) as (b & E & M).
  - cbn. destruct Wd as (? & _). repeat split; lia.
  - constructor; [split; auto|constructor].
  - exists (db_build b). rewrite E. cbn [bind capitalize_loop]. auto.
Qed.

(** ** Transposing *)
Section Graphemes.
Context (gb : nat -> bool) (G : grapheme_bounds s gb).
Lemma next_g o : o < length s -> exists p, next_grapheme_offset gb r o = Some p /\ o < p <= length s /\ gb p = true /\ forall q, o < q < p -> gb q = false.
Proof.
  intros Ho. unfold next_grapheme_offset. rewrite len_eq. assert (Gen : forall n o, o + n = length s -> 0 < n -> exists p, next_grapheme_loop gb n o = Some p /\ o < p <= length s /\ gb p = true /\ forall q, o < q < p -> gb q = false).
  { induction n as [|n IH]; intros k Hk Hn; [lia|]. cbn [next_grapheme_loop]. destruct (gb (S k)) eqn:E; [exists (S k); split; auto; split; [lia|]; split; auto; intros; lia|].
    assert (S k <> length s) by (intros C; rewrite C in E; destruct G as (G1 & _); congruence). destruct (IH (S k) ltac:(lia) ltac:(lia)) as (p & E' & H1 & H2 & H3). exists p. split; auto. split; [lia|]. split; auto.
    intros q Hq. destruct (Nat.eq_dec q (S k)) as [->|]; auto. apply H3. lia. }
  apply Gen; lia.
Qed.
Lemma swap_graphemes u x y v p : s = u ++ x ++ y ++ v -> p = length (u ++ x) -> x <> [] -> y <> [] ->
  gb (length u) = true -> gb p = true -> gb (length (u ++ x ++ y)) = true -> (forall q, length u < q < length (u ++ x ++ y) -> q <> p -> gb q = false) ->
  (v = [] \/ ~ starts_line s (length (u ++ x ++ y))) ->
  exists d, transpose gb r [caret p] = Some d /\ makes d s (u ++ y ++ x ++ v).
Proof.
  intros Es Ep Nx Ny G1 G2 G3 Gn Hv. assert (Lx : 0 < length x) by (destruct x; [congruence|cbn; lia]). assert (Ly : 0 < length y) by (destruct y; [congruence|cbn; lia]).
  set (e := length (u ++ x ++ y)) in *. set (o := length u) in *. assert (Hop : o < p < e) by (unfold o, e; rewrite Ep, !app_length; lia).
  assert (Le : e <= length s) by (unfold e; rewrite Es, !app_length; lia).
  assert (Pg : prev_grapheme_offset gb p = Some o).
  { destruct (prev_g r gb G p ltac:(lia)) as (q & -> & Q1 & Q2 & Q3). f_equal. destruct (Nat.lt_trichotomy q o) as [H|[|H]]; auto; exfalso; [rewrite (Q3 o) in G1 by lia; discriminate|rewrite (Gn q) in Q2 by lia; discriminate]. }
  assert (Ng : next_grapheme_offset gb r p = Some e).
  { destruct (next_g p ltac:(lia)) as (q & -> & Q1 & Q2 & Q3). f_equal. destruct (Nat.lt_trichotomy q e) as [H|[|H]]; auto; exfalso; [rewrite (Gn q) in Q2 by lia; discriminate|rewrite (Q3 e) in G3 by lia; discriminate]. }
  assert (Bo : bd o) by (apply G; auto). assert (Bp : bd p) by (apply G; auto). assert (Be : bd e) by (apply G; auto).
  assert (Ecar : is_caret (caret p) = true) by (unfold is_caret; cbn; apply Nat.eqb_refl). assert (Elast : last_selection_region [caret p] = None) by (unfold last_selection_region; unfold is_caret; cbn; now rewrite Nat.eqb_refl).
  unfold transpose. rewrite Elast. cbn [bind].
  assert (R : transpose_loop gb r [caret p] 0 None (dbuilder_new (n_len r)) = run (dbuilder_new (n_len r)) [(o, e, y ++ x)]).
  { cbn [transpose_loop]. rewrite Ecar. change (r_end (caret p)) with p. rewrite Pg, Ng. replace (0 <=? o) with true by lia. rewrite (line_of r h W e Be). cbn [bind].
    destruct (line_at_exists r h W e Le) as (ls & -> & (L1 & L2 & L3)). cbn [bind]. rewrite len_eq.
    assert (Hc : ((e =? p) || (e =? ls)) && negb (e =? length s) = false).
    { replace (e =? p) with false by lia. cbn [orb]. destruct (Nat.eqb_spec e ls) as [Els|]; auto. destruct Hv as [Hv|Hv].
      - replace (e =? length s) with true; auto. symmetry. apply Nat.eqb_eq. rewrite Es, Hv, app_nil_r. reflexivity.
      - exfalso. apply Hv. rewrite Els. exact L1. }
    rewrite Hc. rewrite (slice_to_cow_ok r h W o p ltac:(lia)), (slice_to_cow_ok r h W p e ltac:(lia)) by (now apply (bd_iff r h W)). cbn [bind].
    assert (S1 : slice s o p = x). { unfold slice, o. rewrite Es, Ep, skipn_app_exact by auto. rewrite app_length. replace (length u + length x - length u) with (length x) by lia. now rewrite firstn_app_exact by auto. }
    assert (S2 : slice s p e = y). { unfold slice, e. rewrite Es, Ep. replace (u ++ x ++ y ++ v) with ((u ++ x) ++ y ++ v) by now rewrite <- app_assoc. rewrite skipn_app_exact by auto. rewrite !app_length. replace (length u + (length x + length y) - (length u + length x)) with (length y) by lia. now rewrite firstn_app_exact by auto. }
    rewrite S1, S2. rewrite run_edits_cons. destruct (db_replace _ o e (y ++ x)); reflexivity. }
  rewrite R. destruct (edits_make r h W [(o, e, y ++ x)]) as (b & E & M).
  - cbn. repeat split; lia.
  - constructor; [split; auto|constructor].
  - exists (db_build b). rewrite E. split; auto. cbn [edited] in M. unfold slice in M. cbn [skipn] in M. rewrite Nat.sub_0_r in M.
    assert (S1 : firstn o s = u) by (rewrite Es; unfold o; now rewrite firstn_app_exact by auto).
    assert (S2 : skipn e s = v). { rewrite Es. unfold e. replace (u ++ x ++ y ++ v) with ((u ++ x ++ y) ++ v) by now rewrite <- !app_assoc. now rewrite skipn_app_exact by auto. }
    rewrite S1, S2 in M. now rewrite <- !app_assoc in M.
Qed.
(** Selections change places: each takes the text of the one before it, the first that of the last. *)
Lemma transpose_run rs : forall k last prev b, sel_from r k rs -> (forall x, In x rs -> lo x < hi x) ->
  transpose_loop gb r rs last (Some prev) b = run b (map (fun p => (lo (fst p), hi (fst p), snd p)) (combine rs (snd prev :: map (text_of s) rs))).
Proof.
  induction rs as [|x rs IH]; intros k last [[pa pb] pt] b H Hn; [reflexivity|]. apply sel_from_cons in H as (H1 & H2 & H3 & H4). cbn [transpose_loop]. rewrite is_caret_ok, <- lo_min, <- hi_max.
  pose proof (Hn x (or_introl eq_refl)) as Lx. replace (lo x =? hi x) with false by lia. unfold region_text. rewrite <- lo_min, <- hi_max. rewrite (slice_to_cow_ok r h W) by (try apply lo_hi; now apply (bd_iff r h W)). cbn [bind].
  cbn [snd map combine fst]. rewrite run_edits_cons. destruct (db_replace b (lo x) (hi x) pt); cbn [bind]; auto.
  rewrite (IH (hi x) last (lo x, hi x, slice s (lo x) (hi x)) d H4) by (intros; apply Hn; now right). reflexivity.
Qed.
Lemma sorted_combine rs : forall ts k, k <= length s -> sel_from r k rs -> length ts = length rs ->
  sorted_edits k (map (fun p => (lo (fst p), hi (fst p), snd p)) (combine rs ts)) (length s) /\ Forall (ed_ok r) (map (fun p : region * list nat => (lo (fst p), hi (fst p), snd p)) (combine rs ts)).
Proof.
  induction rs as [|x rs IH]; intros ts k Hk H El; [cbn; auto|]. destruct ts as [|t ts]; [discriminate|]. apply sel_from_cons in H as (H1 & H2 & H3 & H4).
  destruct (IH ts (hi x) (bd_le r h W _ H3) H4 ltac:(now injection El)) as [I1 I2]. pose proof (lo_hi x). cbn [combine map fst snd sorted_edits]. split; auto. constructor; auto. split; auto.
Qed.
Lemma transpose_regions rs x : selects s (rs ++ [x]) -> (forall y, In y (rs ++ [x]) -> lo y < hi y) ->
  exists d, transpose gb r (rs ++ [x]) = Some d /\ makes d s (edited 0 (map (fun p => (lo (fst p), hi (fst p), snd p)) (combine (rs ++ [x]) (text_of s x :: map (text_of s) rs))) s).
Proof.
  intros H Hn. pose proof (Hn x ltac:(apply in_or_app; right; now left)) as Lx.
  assert (El : last_selection_region (rs ++ [x]) = Some x).
  { unfold last_selection_region. rewrite rev_app_distr. assert (Ec : is_caret x = false) by (rewrite is_caret_ok, <- lo_min, <- hi_max; lia). change (rev [x] ++ rev rs) with (x :: rev rs). cbn [List.find].
 rewrite Ec. reflexivity. }
  unfold transpose. rewrite El. unfold region_text at 1. rewrite <- lo_min, <- hi_max. destruct (proj2 H x ltac:(apply in_or_app; right; now left)) as [B1 B2].
  rewrite (slice_to_cow_ok r h W) by (try apply lo_hi; now apply (bd_iff r h W)). cbn [bind]. rewrite (transpose_run _ 0) by (auto; now apply selects_from). cbn [snd].
  assert (Ec : combine (rs ++ [x]) (slice s (lo x) (hi x) :: map (text_of s) (rs ++ [x])) = combine (rs ++ [x]) (text_of s x :: map (text_of s) rs)).
  { rewrite map_app. cbn [map]. change (slice s (lo x) (hi x)) with (text_of s x). generalize (text_of s x) at 1 3 as t0. intros t0. clear.
    assert (Gen : forall (l : list region) (u v : list (list nat)), length u = length l -> combine l (u ++ v) = combine l u).
    { induction l as [|a l IH]; intros [|b u] v E; cbn; auto; try discriminate. f_equal. apply IH. now injection E. }
    change (t0 :: map (text_of s) rs ++ [text_of s x]) with ((t0 :: map (text_of s) rs) ++ [text_of s x]). apply Gen. cbn [length]. rewrite map_length, app_length. cbn. lia. }
  rewrite Ec. destruct (sorted_combine (rs ++ [x]) (text_of s x :: map (text_of s) rs) 0 ltac:(lia) (selects_from r _ H)) as [S1 S2]. { cbn [length]. rewrite map_length, app_length. cbn. lia. }
  destruct (edits_make r h W _ S1 S2) as (b & E & M). exists (db_build b). rewrite E. auto.
Qed.
End Graphemes.

(** ** Pasting *)
Lemma text_lines_count t ls : text_lines t ls -> t <> [] -> length ls = count_lines t.
Proof.
  induction 1 as [|l N I|l u ls N N' H IH|l u ls N H IH]; intros Hne; [congruence| | |].
  - unfold count_lines. assert (E0 : count_occ Nat.eq_dec l NL = 0) by now apply count_occ_not_In. rewrite E0. destruct (rev l) as [|c q] eqn:Er; cbn; auto. destruct (c =? NL); reflexivity.
  - assert (E0 : count_occ Nat.eq_dec l NL = 0) by now apply count_occ_not_In. unfold count_lines in *. rewrite !count_occ_app, E0. destruct u as [|c u].
    + inversion H; subst; [|congruence|destruct l0; discriminate|destruct l0; discriminate]. rewrite rev_app_distr. reflexivity.
    + specialize (IH ltac:(discriminate)). cbn [length]. rewrite IH. rewrite !rev_app_distr.
      assert (Er : rev (c :: u) <> []) by (intros C; apply (f_equal (@length nat)) in C; rewrite rev_length in C; discriminate).
      destruct (rev (c :: u)) as [|a q] eqn:Ea; [congruence|]. cbn [app]. change (count_occ Nat.eq_dec [10] NL) with 1. cbn [Nat.add].
      destruct (Nat.eqb_spec a NL) as [->|]; [|lia].
      assert (0 < count_occ Nat.eq_dec (c :: u) NL). { apply count_occ_In. apply in_rev. rewrite Ea. now left. } lia.
  - assert (E0 : count_occ Nat.eq_dec l NL = 0) by now apply count_occ_not_In. unfold count_lines in *. rewrite !count_occ_app, E0. destruct u as [|c u].
    + inversion H; subst; [|congruence|destruct l0; discriminate|destruct l0; discriminate]. rewrite rev_app_distr. reflexivity.
    + specialize (IH ltac:(discriminate)). cbn [length]. rewrite IH. rewrite !rev_app_distr.
      assert (Er : rev (c :: u) <> []) by (intros C; apply (f_equal (@length nat)) in C; rewrite rev_length in C; discriminate).
      destruct (rev (c :: u)) as [|a q] eqn:Ea; [congruence|]. cbn [app]. change (count_occ Nat.eq_dec [13; 10] NL) with 1. cbn [Nat.add].
      destruct (Nat.eqb_spec a NL) as [->|]; [|lia].
      assert (0 < count_occ Nat.eq_dec (c :: u) NL). { apply count_occ_In. apply in_rev. rewrite Ea. now left. } lia.
Qed.
Lemma zip_run rs : forall ls b, zip_paste rs ls b = run b (map (fun p => (lo (fst p), hi (fst p), snd p)) (combine rs ls)).
Proof.
  induction rs as [|x rs IH]; intros [|l ls] b; try reflexivity. cbn [zip_paste combine map fst snd]. rewrite run_edits_cons, <- lo_min, <- hi_max. destruct (db_replace _ _ _ _); cbn [bind]; auto.
Qed.
Lemma paste_ok lines rs chars : selects s rs -> text_lines chars (lines chars) -> 
  exists d, do_paste r lines rs chars = Some d /\
    makes d s (if (length rs =? 1) || negb (length rs =? count_lines chars) then edited 0 (map (fun x => (lo x, hi x, chars)) rs) s
               else edited 0 (map (fun p => (lo (fst p), hi (fst p), snd p)) (combine rs (lines chars))) s) /\
    ((length rs =? 1) || negb (length rs =? count_lines chars) = false -> length (lines chars) = length rs).
Proof.
  intros H Hl. unfold do_paste. destruct ((length rs =? 1) || negb (length rs =? count_lines chars)) eqn:C.
  - destruct (insert_ok r h W rs chars H) as (d & E & M). exists d. rewrite E. split; auto. split; auto. discriminate.
  - assert (Lr : length (lines chars) = length rs).
    { apply orb_false_iff in C as [C1 C2]. rewrite (text_lines_count chars); auto; [lia|]. intros ->. cbn in C2. lia. }
    destruct (sorted_combine rs (lines chars) 0 ltac:(lia) (selects_from r rs H) Lr) as [S1 S2]. destruct (edits_make r h W _ S1 S2) as (b & E & M). exists (db_build b). rewrite zip_run, E. auto.
Qed.
End Rope.
