(** C63: a backspace takes an emoji whole; the emoji tables and the search in them. *)
From Coq Require Import List Arith NArith ZArith Bool Lia ZifyBool ZifyN ZifyNat Sorted.
From Verif Require Import Base ListLib DeltaModel DeltaSpec TreeModel RopeModel RopeSpec RopeProofs RopeMetric RopeIterModel SelectionModel SelectionProofs PropertiesSelection
  EditOpsModel EditOpsSpec EditOpsProofs EditOpsLines EditOpsMore EditOpsTabs EditOpsBack EditOpsUnits PropertiesEditOps
  LineBreakModel LineBreakSpec LineBreakRules LineBreakChars LineBreakCodes EmojiTables EmojiModel EmojiSpec EmojiProofs.
Import ListNotations.
Local Notation concat := List.concat.
Local Notation joined := EmojiSpec.joined.
Local Notation selector := EmojiSpec.selector.
Local Notation indicator := EmojiSpec.indicator.
Local Notation picture := EmojiSpec.picture.
Local Notation text_of := LineBreakSpec.text_of.
Local Notation E := (map encode).

(** ** The tables *)
(** The search answers for every ascending table, and answers rightly. *)
Theorem C63_search : forall l c, l <> [] -> Sorted N.lt l -> exists b, is_in_table l c = Some b /\ (b = true <-> In c l).
Proof. exact table_ok. Qed.
Print Assumptions C63_search.
(** The two tables are such tables: no character makes the test for emoji, or for characters that take a
    skin tone, panic or go wrong. *)
Theorem C63_tests : forall c,
  (exists b, emoji c = Some b /\ (b = true <-> is_emoji_char c)) /\ (exists b, emoji_modifier_base c = Some b /\ (b = true <-> takes_tone c)).
Proof. intros c. split; [apply (table_ok _ c emoji_some emoji_sorted)|apply (table_ok _ c base_some base_sorted)]. Qed.
Print Assumptions C63_tests.
(** The tables go together: whatever takes a skin tone is an emoji and neither a skin tone nor half a flag;
    skin tones and halves of flags are emoji; and no emoji is one of the characters sequences are made with. *)
Theorem C63_tables : forall c, (takes_tone c -> picture c) /\ (tone c -> is_emoji_char c) /\ (indicator c -> is_emoji_char c) /\
  (is_emoji_char c -> ~ selector c /\ c <> JOINER /\ c <> 0x20E3 /\ ~ 0xE0020 <= c <= 0xE007F)%N.
Proof.
  intros c. split; [exact (base_emoji c)|]. split; [exact (tone_emoji c)|]. split; [exact (indicator_emoji c)|]. intros He.
  destruct (never_all c (emoji_never c He)) as (_ & _ & N2 & N3 & N4 & N5 & N6). unfold variation_selector in N2. unfold enclosing_keycap in N3. unfold tag_spec_char in N4. unfold emoji_cancel_tag in N5. unfold zwj in N6.
  unfold selector, EmojiSpec.selector, JOINER. repeat split; lia.
Qed.
Print Assumptions C63_tables.
Definition subset (l m : list N) : bool := forallb (member m) l.
Lemma subset_ok l m : subset l m = true -> forall c, In c l -> In c m.
Proof. unfold subset. rewrite forallb_forall. intros F c H. apply member_ok. now apply F. Qed.
Lemma eb_bases : subset (codes (class_no EB)) EMOJI_MODIFIER_BASE_TABLE = true.
Proof. vm_compute. reflexivity. Qed.
(** They go with the classes of line breaking: the same skin tones, halves of flags and joiner; and what line
    breaking takes for the base of an emoji takes a skin tone. *)
Theorem C63_classes : forall c, scalar c ->
  (emoji_modifier c = true <-> class_of c = EM) /\ (regional_indicator c = true <-> class_of c = RI) /\ (zwj c = true <-> class_of c = ZWJ) /\
  (class_of c = EB -> takes_tone c).
Proof.
  intros c Hs. split; [|split; [|split]].
  - rewrite (listed_ok EM [(0x1F3FB, 0x1F3FF)%N] c Hs) by (apply (nth_error_In listed 17); reflexivity). unfold within, emoji_modifier. cbn [In]. split; [intros H; exists 0x1F3FB%N, 0x1F3FF%N; split; [auto|lia]|].
    intros (a & b & [Hab|[]] & H). inversion Hab; subst. lia.
  - rewrite (listed_ok RI [(0x1F1E6, 0x1F1FF)%N] c Hs) by (apply (nth_error_In listed 16); reflexivity). unfold within, regional_indicator. cbn [In]. split; [intros H; exists 0x1F1E6%N, 0x1F1FF%N; split; [auto|lia]|].
    intros (a & b & [Hab|[]] & H). inversion Hab; subst. lia.
  - rewrite (listed_ok ZWJ [(0x200D, 0x200D)%N] c Hs) by (apply (nth_error_In listed 6); reflexivity). unfold within, zwj. cbn [In]. split; [intros H; exists 0x200D%N, 0x200D%N; split; [auto|lia]|].
    intros (a & b & [Hab|[]] & H). inversion Hab; subst. lia.
  - intros H. apply (class_codes EB c Hs) in H. exact (subset_ok _ _ eb_bases c H).
Qed.
Print Assumptions C63_classes.

(** ** Backspace *)
Lemma back_takes r h (W : rope_wf h r) cfg a u b c : 0 < tab_size cfg -> Forall scalar (a ++ (u ++ [c]) ++ b) -> c <> 32%N -> rcontent r = text_of (a ++ (u ++ [c]) ++ b) ->
  bscan real_props BStart (rev (E (a ++ u ++ [c]))) 0 0 = length (u ++ [c]) ->
  exists d, delete_backward r real_props [caret (length (text_of (a ++ u ++ [c])))] cfg = Some d /\ makes d (rcontent r) (text_of (a ++ b)).
Proof.
  intros T F Nc Er Hs. rewrite app_assoc in F, Er. set (v := a ++ u ++ [c]) in *. set (p := length (text_of v)) in *.
  assert (Fc : Forall (fun c => utf8_char c = true) (E v ++ E b)).
  { rewrite <- map_app. apply Forall_forall. intros x Hx. apply in_map_iff in Hx as (y & <- & Hy). rewrite Forall_forall in F. apply encode_char. now apply F. }
  assert (Es : rcontent r = concat (E v ++ E b)) by (rewrite Er, text_chars, map_app; reflexivity).
  assert (Ep : p = length (concat (E v))) by (unfold p; rewrite text_chars; reflexivity).
  assert (Off : offset_for_delete_backwards r real_props (caret p) cfg = Some (length (text_of a))).
  { destruct (backspace_ok r h W real_props cfg p (caret p) (E v) (E b) T eq_refl eq_refl Fc Es Ep) as [(_ & _ & st & (cc & _ & Hst & Hsp) & _)|[_ ->]].
    - exfalso. assert (L : st < p) by (destruct (Nat.eqb_spec (cc mod tab_size cfg) 0); lia). specialize (Hsp (p - 1) ltac:(lia)).
      destruct (encode_last c Nc) as (l & x & Ex & Nx). assert (Ev : text_of v = text_of (a ++ u) ++ l ++ [x]) by (unfold v; rewrite app_assoc, !text_chars, map_app, concat_app; cbn [map List.concat]; rewrite app_nil_r, Ex; reflexivity).
      rewrite Er, text_chars, map_app, concat_app, <- text_chars, Ev in Hsp. unfold p in Hsp. rewrite Ev in Hsp. rewrite app_assoc in Hsp. rewrite (app_length (text_of (a ++ u) ++ l)) in Hsp. cbn [length] in Hsp.
      rewrite Nat.add_sub in Hsp. rewrite <- app_assoc in Hsp. rewrite nth_error_app2, Nat.sub_diag in Hsp by lia. cbn in Hsp. congruence.
    - rewrite Hs. unfold v. rewrite (map_app _ a), (app_length (E a)), !map_length. replace (length a + length (u ++ [c]) - length (u ++ [c])) with (length (E a)) by (rewrite map_length; lia).
      rewrite firstn_app_exact by reflexivity. now rewrite text_chars. }
  assert (Bd : char_boundary (rcontent r) p) by (exists (E v), (E b); auto).
  destruct (delete_backward_ok r h W real_props cfg [caret p] [length (text_of a)]) as (d & Ed & M).
  - intros x [<-|[]]. unfold lo, hi. cbn [caret r_start r_end]. rewrite Nat.min_id, Nat.max_id. auto.
  - constructor; [exact Off|constructor].
  - exact T.
  - intros [|i] x y q Hx Hy; [discriminate|destruct i; discriminate].
  - exists d. split; auto. cbn [combine map edited fst snd] in M. unfold hi in M. cbn [caret r_start r_end] in M. rewrite Nat.max_id in M. unfold slice in M. cbn [skipn app] in M. rewrite Nat.sub_0_r in M.
    assert (E1 : firstn (length (text_of a)) (rcontent r) = text_of a) by (rewrite Er; unfold v; rewrite <- app_assoc, !text_chars, (map_app _ a), concat_app; now rewrite firstn_app_exact).
    assert (E2 : skipn p (rcontent r) = text_of b) by (rewrite Ep, Es, concat_app, skipn_app_exact by reflexivity; now rewrite text_chars). rewrite E1, E2 in M. rewrite (text_chars (a ++ b)), map_app, concat_app, <- !text_chars. exact M.
Qed.
(** A caret after an emoji: the emoji goes, and nothing else. Full statement: for every emoji. Missing
    ([one_emoji element]): sequences with a skin tone on an element that is not the first; see [C63_tones_refuted]. *)
Theorem C63_backspace_partial : forall r h, rope_wf h r -> forall cfg, 0 < tab_size cfg -> forall a u b,
  Forall scalar (a ++ u ++ b) -> rcontent r = text_of (a ++ u ++ b) -> one_emoji plain a u ->
  exists d, delete_backward r real_props [caret (length (text_of (a ++ u)))] cfg = Some d /\ makes d (rcontent r) (text_of (a ++ b)).
Proof.
  intros r h W cfg T a u b F Er U. destruct (one_last a u U) as (u' & c & -> & Nc). apply (back_takes r h W); auto. apply one_scan; auto. rewrite app_assoc in F. now apply Forall_app in F.
Qed.
Print Assumptions C63_backspace_partial.
(** A caret after any other character, but a line feed, a space or the characters emoji are made with: that character goes alone. *)
Theorem C63_backspace_other : forall r h, rope_wf h r -> forall cfg, 0 < tab_size cfg -> forall a c b,
  Forall scalar (a ++ [c] ++ b) -> rcontent r = text_of (a ++ [c] ++ b) ->
  ~ is_emoji_char c -> ~ selector c -> ~ In c [10; 32; 0x20E3; 0xE007F]%N ->
  exists d, delete_backward r real_props [caret (length (text_of (a ++ [c])))] cfg = Some d /\ makes d (rcontent r) (text_of (a ++ b)).
Proof.
  intros r h W cfg T a c b F Er He Hv Hn. cbn [In] in Hn. apply (back_takes r h W cfg a [] b c); auto. assert (Sc : scalar c) by (rewrite Forall_forall in F; apply F; apply in_or_app; right; now left).
  rewrite map_app. cbn [app map]. change (length [c]) with (length (E [c])). apply (unit_scan real_props (E a)). cbn [map]. apply unit_ordinary. unfold ordinary. rewrite r_vs, r_ris, r_mod, r_key, r_emoji, r_cancel by auto.
  assert (Ee : sure (emoji c) = false) by (destruct (sure (emoji c)) eqn:X; auto; apply emoji_in in X; contradiction). unfold selector, EmojiSpec.selector in Hv.
  split; [apply encode_nl; auto; tauto|]. split; [unfold variation_selector; lia|]. split; [destruct (regional_indicator c) eqn:R; auto; exfalso; apply He, indicator_emoji; unfold regional_indicator in R; unfold EmojiSpec.indicator; lia|].
  split; [destruct (emoji_modifier c) eqn:R; auto; exfalso; apply He, tone_emoji; unfold emoji_modifier in R; unfold tone; lia|]. split; [unfold enclosing_keycap; lia|]. split; [exact Ee|]. unfold emoji_cancel_tag. lia.
Qed.
Print Assumptions C63_backspace_other.

(** ** Wrong *)
Definition cfg63 : config := Config 4 true true [10].
Definition rope63 (cps : list N) : rope := text (E cps).
(** Two people, the second with a skin tone: only the second goes, and the joiner stays. *)
Theorem C63_tones_refuted : exists u, one_emoji element [] u /\ 
  run (delete_backward (rope63 u) real_props [caret (length (text_of u))] cfg63) (text_of u) = Some (text_of [0x1F469; 0x200D]%N) /\ text_of [0x1F469; 0x200D]%N <> [].
Proof.
  exists (joined [[0x1F469]; [0x1F469; 0x1F3FD]])%N. split; [|split; [vm_compute; reflexivity|discriminate]].
  assert (Hb : takes_tone 0x1F469%N) by (apply member_ok; vm_compute; reflexivity). apply one_joined.
  - left. apply plain_char. now apply base_emoji.
  - constructor; [|constructor]. right. apply toned_char; auto. unfold tone. lia.
  - intros _ [|? ?]; discriminate.
Qed.
Print Assumptions C63_tones_refuted.
(** Digits are in the table: two of them with a joiner between are taken together, which are not one emoji but
    one digit after another. *)
Theorem C63_digits_refuted : run (delete_backward (rope63 [0x31; 0x200D; 0x32]%N) real_props [caret 5] cfg63) (text_of [0x31; 0x200D; 0x32]%N) = Some [].
Proof. vm_compute. reflexivity. Qed.
Print Assumptions C63_digits_refuted.

(** ** The hypotheses are met *)
Example C63_ex_search : is_in_table [1; 5; 9; 10]%N 9%N = Some true /\ is_in_table [1; 5; 9; 10]%N 7%N = Some false /\ is_in_table [] 7%N = None.
Proof. vm_compute. auto. Qed.
(** "a", a person with a skin tone joined to a heart (with a selector) and a rocket, "b". *)
Definition pair63 : list N := joined [[0x1F469; 0x1F3FD]; [0x2764; 0xFE0F]; [0x1F680]]%N.
Example C63_ex_backspace : run (delete_backward (rope63 ([97] ++ pair63 ++ [98])%N) real_props [caret (length (text_of ([97%N] ++ pair63)))] cfg63) (text_of ([97] ++ pair63 ++ [98])%N) = Some [97; 98].
Proof. vm_compute. reflexivity. Qed.
Lemma picture_by c : member EMOJI_TABLE c && negb (regional_indicator c) && negb (emoji_modifier c) = true -> picture c.
Proof.
  intros H. apply andb_true_iff in H as [H H3]. apply andb_true_iff in H as [H1 H2]. apply member_ok in H1. unfold regional_indicator in H2. unfold emoji_modifier in H3. unfold picture, EmojiSpec.picture, EmojiSpec.indicator, tone. split; [exact H1|]. split; lia.
Qed.
Example C63_ex_hyps : rope_wf 0 (rope63 ([97] ++ pair63 ++ [98])%N) /\ Forall scalar ([97] ++ pair63 ++ [98])%N /\ one_emoji plain [97%N] pair63.
Proof.
  split; [apply text_wf; [repeat constructor|apply Nat.leb_le; vm_compute; reflexivity]|]. split; [unfold pair63; cbn; repeat constructor; unfold scalar; lia|]. apply one_joined.
  - right. apply toned_char; [apply member_ok; vm_compute; reflexivity|unfold tone; lia].
  - constructor; [apply plain_selected; [apply picture_by; vm_compute; reflexivity|unfold EmojiSpec.selector; lia]|].
    constructor; [apply plain_char; apply picture_by; vm_compute; reflexivity|constructor].
  - intros _ a' Ha. destruct a' as [|? [|? ?]]; discriminate.
Qed.
Example C63_ex_other : run (delete_backward (rope63 [97; 0x20AC; 98]%N) real_props [caret 4] cfg63) (text_of [97; 0x20AC; 98]%N) = Some [97; 98] /\ rope_wf 0 (rope63 [97; 0x20AC; 98]%N) /\ ~ is_emoji_char 0x20AC%N /\ ~ selector 0x20AC%N /\ ~ In 0x20AC%N [10; 32; 0x20E3; 0xE007F]%N.
Proof.
  split; [vm_compute; reflexivity|]. split; [apply text_wf; [repeat constructor|apply Nat.leb_le; vm_compute; reflexivity]|]. split.
  - intros H. apply emoji_in in H. vm_compute in H. discriminate.
  - unfold EmojiSpec.selector. cbn [In]. split; lia.
Qed.
