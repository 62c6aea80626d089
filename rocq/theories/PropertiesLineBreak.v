(** Properties of line breaking: C61 (strings) and C62 (ropes, line wrapping). *)
From Coq Require Import List Arith NArith ZArith Bool Lia ZifyBool ZifyN ZifyNat.
From Verif Require Import Base ListLib TreeModel TreeSpec TreeProofs RopeModel RopeSpec RopeProofs
  LinewrapModel LinewrapLines LinewrapSpec LinewrapWork LinewrapInv LinewrapHist PropertiesLinewrap
  LineBreakTables LineBreakModel LineBreakSpec LineBreakRules LineBreakChars LineBreakProofs LineBreakCodes LineBreakRope LineBreakHard LineBreakResume.
Import ListNotations.
Local Notation concat := List.concat.

(** ** Classes *)

(** Every character has a class, and looking it up in a text gives the same as looking up the code point,
    and the length of the character. *)
Theorem C61_class cp pre post : scalar cp -> exists c, linebreak_property cp = Some (class_no c) /\
  linebreak_property_str (pre ++ encode cp ++ post) (length pre) = Some (class_no c, length (encode cp)).
Proof. intros H. exists (class_of cp). split; [now apply class_of_ok|now apply property_str_ok]. Qed.
Print Assumptions C61_class.
(** All texts are the characters one after the other. *)
Theorem C61_texts s : utf8 s <-> exists cps, Forall scalar cps /\ s = text_of cps.
Proof. split; [apply utf8_text|]. intros (cps & F & ->). now apply text_utf8. Qed.
Print Assumptions C61_texts.
(** The characters of 24 of the classes are exactly those of the standard. *)
Theorem C61_listed cp : scalar cp ->
  (forall c rs, In (c, rs) listed -> (linebreak_property cp = Some (class_no c) <-> within rs cp)) /\
  (linebreak_property cp = Some (class_no H2) <-> hangul_lv cp) /\ (linebreak_property cp = Some (class_no H3) <-> hangul_lvt cp).
Proof.
  intros Hs. assert (K : forall c, linebreak_property cp = Some (class_no c) <-> class_of cp = c) by (intros c; rewrite codes_ok; symmetry; now apply class_codes).
  split; [intros c rs Hin; rewrite K; now apply listed_ok|]. rewrite !K. now apply hangul_ok.
Qed.
Print Assumptions C61_listed.
Example C61_class_hyps : scalar 0x1F469 /\ ~ scalar 0xD800 /\ encode 0x1F469 = [0xF0; 0x9F; 0x91; 0xA9] /\ linebreak_property 0x1F469 = Some (class_no EB) /\
  linebreak_property 0x61 = Some (class_no AL) /\ linebreak_property 0x4E00 = Some (class_no ID).
Proof. unfold scalar. split; [lia|]. split; [lia|]. split; [reflexivity|]. split; [vm_compute; reflexivity|]. split; vm_compute; reflexivity. Qed.

(** ** Breaks *)

(** No text is too hard: there are breaks, in ascending order, between characters, the last at the end of
    the text (and none in the empty text). *)
Theorem C61_total s : utf8 s -> exists bs, line_breaks s = Some bs /\ rises 0 (length s) bs /\ (forall x h, In (x, h) bs -> is_char_boundary s x = true).
Proof.
  intros U. destruct (utf8_text s U) as (cps & F & ->). rewrite (line_breaks_ok cps F). destruct (breaks_total cps) as [bs E]. exists bs. split; [exact E|]. destruct cps as [|cp cps].
  - cbn in E. injection E as <-. split; [reflexivity|intros x h []].
  - cbn [breaks_of] in E. split.
    + apply scan_rise with (lo := 0) in E; [|pose proof (encode_len cp); lia]. rewrite text_cons, app_length. exact E.
    + intros x h Hx. destruct (scan_in _ _ _ _ _ _ (inv_start (class_of cp)) E x h Hx) as [(d1 & d & d2 & m1 & m2 & -> & -> & _)|(-> & _)].
      * change (cp :: d1 ++ d :: d2) with ((cp :: d1) ++ d :: d2) in *. apply Forall_app in F as [_ F]. rewrite text_app. change (0 + length (encode cp)) with (length (encode cp)).
        rewrite <- app_length, <- text_cons. now apply text_cut.
      * cbn [Nat.add]. rewrite <- app_length, <- text_cons. apply cb_len.
Qed.
Print Assumptions C61_total.
(** A break is mandatory exactly after a newline of any kind, CR LF being one newline. *)
Theorem C61_hard cps bs x : Forall scalar cps -> line_breaks (text_of cps) = Some bs -> (In (x, true) bs <-> must_end cps x).
Proof. apply hard_ok. Qed.
Print Assumptions C61_hard.
(** Between two characters, unless the case is among the five kinds where the code departs from the
    rules, the code does what UAX 14 says. *)
Theorem C61_uax14_partial c1 cp c2 bs x : Forall scalar (c1 ++ cp :: c2) -> c1 <> [] -> line_breaks (text_of (c1 ++ cp :: c2)) = Some bs -> x = length (text_of c1) ->
  doubtful (rev (map class_of c1)) (class_of cp) = false ->
  match uax14 (rev (map class_of c1)) (class_of cp) with
  | No => forall h, ~ In (x, h) bs
  | May => In (x, false) bs /\ ~ In (x, true) bs
  | Must => In (x, true) bs /\ ~ In (x, false) bs
  end.
Proof.
  intros F Hn E Ex D. rewrite (line_breaks_ok _ F) in E. destruct c1 as [|c0 c1]; [congruence|]. cbn [app breaks_of] in E.
  destruct (scan_has _ _ _ _ _ _ _ _ (inv_start (class_of c0)) E) as (m1 & b & m2 & I1 & Em & Hh).
  assert (Er : raws c1 [class_of c0] = rev (map class_of (c0 :: c1))) by reflexivity. rewrite Er in I1.
  destruct (inv_step _ _ (class_of cp) I1) as (b' & m2' & Em' & _ & Hd & _). rewrite Em in Em'. injection Em' as <- <-. specialize (Hd D). rewrite <- Hd.
  assert (x = 0 + length (encode c0) + length (text_of c1)) as ->. { rewrite Ex, text_cons, app_length. reflexivity. }
  destruct b as [[]|]; cbn [decided].
  - split; [now apply Hh|]. intros H. apply Hh in H. discriminate.
  - split; [now apply Hh|]. intros H. apply Hh in H. discriminate.
  - intros h H. apply Hh in H. discriminate.
Qed.
Print Assumptions C61_uax14_partial.
(** A text without such a place is broken as UAX 14 says. *)
Theorem C61_uax14_text_partial cps : Forall scalar cps ->
  (forall c1 cp c2, cps = c1 ++ cp :: c2 -> c1 <> [] -> doubtful (rev (map class_of c1)) (class_of cp) = false) ->
  line_breaks (text_of cps) = Some (uax_breaks (map (fun cp => (class_of cp, length (encode cp))) cps)).
Proof.
  intros F D. rewrite (line_breaks_ok _ F). destruct cps as [|c0 cps]; [reflexivity|]. cbn [breaks_of map uax_breaks]. apply scan_uax; [apply inv_start|].
  intros c1 cp c2 ->. apply (D (c0 :: c1) cp c2); [reflexivity|discriminate].
Qed.
Print Assumptions C61_uax14_text_partial.

Definition classed (cps : list N) := map (fun cp => (class_of cp, length (encode cp))) cps.
(** Each of the five kinds does occur. *)
(** A joiner: the emoji family is torn apart. *)
Theorem C61_joiner_refuted : let cps := [0x1F469; 0x200D; 0x1F469]%N in
  line_breaks (text_of cps) = Some [(7, false); (11, false)] /\ uax_breaks (classed cps) = [(11, false)].
Proof. split; vm_compute; reflexivity. Qed.
Print Assumptions C61_joiner_refuted.
(** Two spaces after a parenthesis: broken, although one space is not. *)
Theorem C61_spaces_refuted : let cps := [0x28; 0x20; 0x20; 0x61]%N in
  line_breaks (text_of cps) = Some [(3, false); (4, false)] /\ uax_breaks (classed cps) = [(4, false)] /\
  line_breaks (text_of [0x28; 0x20; 0x61]%N) = Some [(3, false)].
Proof. split; [|split]; vm_compute; reflexivity. Qed.
Print Assumptions C61_spaces_refuted.
(** A closing brace before a currency sign. *)
Theorem C61_brace_refuted : let cps := [0x7D; 0x24]%N in
  line_breaks (text_of cps) = Some [(1, false); (2, false)] /\ uax_breaks (classed cps) = [(2, false)].
Proof. split; vm_compute; reflexivity. Qed.
Print Assumptions C61_brace_refuted.
(** A space after a Hebrew letter and a hyphen: not broken. *)
Theorem C61_hebrew_refuted : let cps := [0x5D0; 0x2D; 0x20; 0x61]%N in
  line_breaks (text_of cps) = Some [(5, false)] /\ uax_breaks (classed cps) = [(4, false); (5, false)].
Proof. split; vm_compute; reflexivity. Qed.
Print Assumptions C61_hebrew_refuted.
(** A no-break space after a flag: broken before it. *)
Theorem C61_flag_refuted : let cps := [0x1F1E6; 0x1F1E7; 0xA0; 0x61]%N in
  line_breaks (text_of cps) = Some [(8, false); (11, false)] /\ uax_breaks (classed cps) = [(11, false)].
Proof. split; vm_compute; reflexivity. Qed.
Print Assumptions C61_flag_refuted.
(** A text with none of these: quotes, brackets, a number, a mark, a flag, ideographs, CR LF. *)
Definition lb_text : list N := [0x22; 0x61; 0x22; 0x20; 0x28; 0x62; 0x301; 0x29; 0x20; 0x24; 0x31; 0x2C; 0x35; 0x20; 0x4E00; 0x4E01; 0xD; 0xA; 0x1F1E6; 0x1F1E7; 0x1F1E8; 0x2028; 0x61]%N.
Example C61_hyps : Forall scalar lb_text /\
  (forall c1 cp c2, lb_text = c1 ++ cp :: c2 -> c1 <> [] -> doubtful (rev (map class_of c1)) (class_of cp) = false) /\
  line_breaks (text_of lb_text) = Some [(10, false); (15, false); (18, false); (23, true); (31, false); (38, true); (39, false)] /\
  utf8 (text_of lb_text).
Proof.
  assert (F : Forall scalar lb_text) by (unfold lb_text, scalar; repeat constructor; lia). split; [exact F|]. split.
  - assert (G : forallb (fun k => match skipn k lb_text with cp :: _ => negb (doubtful (rev (map class_of (firstn k lb_text))) (class_of cp)) | [] => true end) (seq 1 30) = true) by (vm_compute; reflexivity).
    intros c1 cp c2 E Hn. rewrite forallb_forall in G. specialize (G (length c1)). rewrite in_seq in G. rewrite E, skipn_app, skipn_all, firstn_app, Nat.sub_diag, firstn_all in G. cbn [skipn app firstn] in G.
    rewrite app_nil_r in G. apply negb_true_iff. apply G. assert (length lb_text = length c1 + S (length c2)) by (rewrite E, app_length; reflexivity). change (length lb_text) with 23 in H. destruct c1; [congruence|cbn [length] in *; lia].
  - split; [vm_compute; reflexivity|now apply text_utf8].
Qed.
Example C61_hard_hyps : must_end lb_text 23 /\ must_end lb_text 38 /\ ~ must_end lb_text 22.
Proof.
  destruct C61_hyps as (F & _ & E & _). rewrite <- !(C61_hard _ _ _ F E). cbn [In]. repeat split; try tauto. intros [H|[H|[H|[H|[H|[H|[H|[]]]]]]]]; discriminate H.
Qed.

(** ** Ropes *)

(** From any place between two characters, the breaks of a rope are those of the rest of its text; at the
    end of the text the flag says whether the last byte is a newline. How the text is cut up into the
    leaves of the rope does not matter. *)
Theorem C62_rope r ht a : rope_wf ht r -> is_char_boundary (rcontent r) a = true ->
  exists bs, line_breaks (skipn a (rcontent r)) = Some bs /\ rope_breaks r a = Some (moved (rcontent r) a bs).
Proof.
  intros W B. destruct (utf8_cut _ _ (rope_utf8 ht r W) B) as [_ U]. destruct (C61_total _ U) as (bs & E & _). exists bs. split; auto.
  rewrite (rope_rest r ht a W B). unfold rest_breaks. now rewrite E.
Qed.
Print Assumptions C62_rope.
Theorem C62_leaves r ht r' ht' a : rope_wf ht r -> rope_wf ht' r' -> rcontent r = rcontent r' -> is_char_boundary (rcontent r) a = true -> rope_breaks r a = rope_breaks r' a.
Proof. intros W W' E B. rewrite (rope_rest r ht a W B). rewrite E in *. now rewrite (rope_rest r' ht' a W' B). Qed.
Print Assumptions C62_leaves.
(** Reading on from a break finds the breaks that follow it, unless a joiner follows. *)
Theorem C62_resume_partial r ht a bs x h : rope_wf ht r -> is_char_boundary (rcontent r) a = true -> rope_breaks r a = Some bs -> In (x, h) bs -> x < length (rcontent r) ->
  (forall b, skipn x (rcontent r) <> [0xE2; 0x80; 0x8D] ++ b) -> exists b1 b2, bs = b1 ++ (x, h) :: b2 /\ rope_breaks r x = Some b2.
Proof.
  intros W B E Hin Hx J. rewrite (rope_rest r ht a W B) in E. injection E as E. pose proof (rope_utf8 ht r W) as U.
  destruct (resume_at _ _ _ _ _ _ U B E Hin Hx eq_refl J) as (b1 & Eb). exists b1, (rest_breaks (rcontent r) x). split; auto. apply (rope_rest r ht x W).
  destruct (C62_rope r ht a W B) as (bs' & E' & _). unfold rest_breaks in E. rewrite E' in E. rewrite <- E in Hin. unfold moved in Hin. apply in_map_iff in Hin as ([y g] & Ey & Hin). cbn [fst snd] in Ey. injection Ey as Ey _. subst x.
  destruct (utf8_cut _ _ U B) as [U1 U2]. destruct (C61_total _ U2) as (bs2 & E2 & _ & Hb). rewrite E' in E2. injection E2 as <-. specialize (Hb y g Hin).
  destruct (Nat.eq_dec y 0) as [->|Hy]; [now rewrite Nat.add_0_r|]. rewrite <- (firstn_skipn a (rcontent r)). rewrite <- (cb_shift (firstn a (rcontent r))) in Hb by lia.
  rewrite firstn_length, Nat.min_l in Hb by (now apply cb_le). exact Hb.
Qed.
Print Assumptions C62_resume_partial.
(** What line wrapping assumes of the breaks of a text (C43) holds of these, for texts in which no line
    but the first begins with a joiner. *)
Theorem C62_wrap_partial : opps_laws (fun s => utf8 s /\ no_line_joiner s) rest_breaks line_opps /\
  (forall r ht a, rope_wf ht r -> is_char_boundary (rcontent r) a = true -> rope_breaks r a = Some (rest_breaks (rcontent r) a)).
Proof. split; [exact real_opps|]. intros r ht a. apply rope_rest. Qed.
Print Assumptions C62_wrap_partial.
(** So wrapping at these breaks depends only on the text and the width, and its rows are right. *)
Section Wrapping.
Context {F : Type} (fzero : F) (fadd : F -> F -> F) (fge fgt : F -> F -> bool) (fis0 : F -> bool) (of_nat : nat -> F).
Context (wid : @wrapw F -> list nat -> F) (max_pot : nat) (WL : width_laws fzero fadd fge fgt fis0) (Hmp : 0 < max_pot).
Notation reach := (reach fzero fadd fge fgt fis0 of_nat wid rest_breaks max_pot (fun s => utf8 s /\ no_line_joiner s)).
Notation starts ln text := (LinewrapHist.starts text (ln_breaks (F:=F) ln)).
Theorem C62_same_lines_partial text ln text' ln' : reach text ln -> reach text' ln' -> is_converged ln = true -> is_converged ln' = true ->
  rcontent text = rcontent text' -> ln_wrap ln = ln_wrap ln' -> starts ln text = starts ln' text'.
Proof. exact (C43_same_lines_partial fzero fadd fge fgt fis0 of_nat wid rest_breaks max_pot WL _ line_opps real_opps Hmp text ln text' ln'). Qed.
Theorem C62_rows_partial text ln max : reach text ln -> is_converged ln = true -> max_of of_nat (ln_wrap ln) = Some max ->
  wrapped fzero fadd fge fgt fis0 max (wid (ln_wrap ln)) line_opps (rcontent text) (starts ln text) /\ no_more (rcontent text) (starts ln text).
Proof. exact (C43_rows_partial fzero fadd fge fgt fis0 of_nat wid rest_breaks max_pot WL _ line_opps real_opps Hmp text ln max). Qed.
End Wrapping.
Print Assumptions C62_same_lines_partial.
Print Assumptions C62_rows_partial.

Lemma rope_exists cps s : Forall scalar cps -> s = text_of cps -> exists r ht, rope_from s = Some r /\ rope_wf ht r /\ rcontent r = s.
Proof. intros F ->. destruct (rope_from_ok _ (text_utf8 _ F)) as (r & ht & E & W & C). eauto 6. Qed.
(** A line that begins with a joiner, then an ideograph: reading on from the line's start does not find the
    break that reading from the start of the text finds. *)
Definition zwj_text : list N := [0x61; 0xA; 0x200D; 0x4E00; 0x20; 0x62]%N.
Theorem C62_resume_refuted : exists r ht, rope_wf ht r /\ rcontent r = text_of zwj_text /\
  rope_breaks r 0 = Some [(2, true); (5, false); (9, false); (10, false)] /\ rope_breaks r 2 = Some [(9, false); (10, false)].
Proof.
  destruct (rope_exists zwj_text (text_of zwj_text)) as (r & ht & E & W & C); [unfold zwj_text, scalar; repeat constructor; lia|reflexivity|].
  exists r, ht. split; auto. split; auto. rewrite !(rope_rest r ht _ W), C; [|rewrite C; vm_compute; reflexivity|rewrite C; vm_compute; reflexivity]. split; vm_compute; reflexivity.
Qed.
Print Assumptions C62_resume_refuted.
(** A text that ends in CR or U+2028: as a string its last break is mandatory, as a rope it is not. *)
Theorem C62_last_refuted : exists r ht, rope_wf ht r /\ rcontent r = [97; 13] /\ line_breaks [97; 13] = Some [(2, true)] /\ rope_breaks r 0 = Some [(2, false)].
Proof.
  destruct (rope_exists [97; 13]%N [97; 13]) as (r & ht & E & W & C); [unfold scalar; repeat constructor; lia|reflexivity|].
  exists r, ht. split; auto. split; auto. split; [vm_compute; reflexivity|]. rewrite (rope_rest r ht _ W), C; [|reflexivity]. vm_compute. reflexivity.
Qed.
Print Assumptions C62_last_refuted.
(** A rope of several leaves. *)
Definition long_text : list N := concat (repeat lb_text 60).
Example C62_hyps : exists r ht x h, rope_from (text_of long_text) = Some r /\ rope_wf ht r /\ 0 < ht /\ rcontent r = text_of long_text /\ (exists bs, rope_breaks r 4 = Some bs /\ In (x, h) bs) /\ x = 1000 + 24 /\
  is_char_boundary (rcontent r) 4 = true /\ x < length (rcontent r) /\ (forall b, skipn x (rcontent r) <> [0xE2; 0x80; 0x8D] ++ b).
Proof.
  assert (F : Forall scalar long_text). { unfold long_text. destruct C61_hyps as (F & _). clear -F. generalize 60. intros k. induction k; cbn [repeat List.concat]; [constructor|]. apply Forall_app. auto. }
  destruct (rope_exists long_text _ F eq_refl) as (r & ht & E & W & C). exists r, ht, (1000 + 24), false. split; auto. split; auto.
  assert (Hh : match rope_from (text_of long_text) with Some (NInt _ _ _ _) => true | _ => false end = true) by (vm_compute; reflexivity). rewrite E in Hh.
  split. { destruct r; [discriminate|]. destruct ht; [destruct W|lia]. }
  split; [exact C|]. assert (B : is_char_boundary (rcontent r) 4 = true) by (rewrite C; vm_compute; reflexivity).
  split.
  { exists (rest_breaks (rcontent r) 4). split; [exact (rope_rest r ht 4 W B)|]. rewrite C.
    assert (G : existsb (fun b => (fst b =? 1000 + 24) && negb (snd b)) (rest_breaks (text_of long_text) 4) = true) by (vm_compute; reflexivity).
    apply existsb_exists in G as ([y g] & Hin & G). apply andb_true_iff in G as [G1 G2]. cbn [fst snd] in *. apply Nat.eqb_eq in G1. apply negb_true_iff in G2. rewrite G1, G2 in Hin. exact Hin. }
  split; auto. split; auto. rewrite C.
  assert (G : match skipn (1000 + 24) (text_of long_text) with x :: _ => negb (x =? 0xE2) | [] => true end = true) by (vm_compute; reflexivity).
  split; [apply Nat.ltb_lt; vm_compute; reflexivity|]. intros b Hb. rewrite Hb in G. discriminate G.
Qed.
(** A text that wrapping takes: more than one line, joiners inside a line. *)
Example C62_wrap_hyps : let s := text_of [0x61; 0x200D; 0x62; 0xA; 0x63; 0x20; 0x64]%N in utf8 s /\ no_line_joiner s /\ para s 0 6 /\ rest_breaks s 0 = [(6, true); (8, false); (9, false)].
Proof.
  cbv zeta. split; [apply text_utf8; unfold scalar; repeat constructor; lia|]. split.
  - intros a b H. vm_compute in H. repeat (destruct a as [|?x a]; cbn [app] in H; [discriminate H|injection H as _ H]). destruct a; discriminate H.
  - split; [|vm_compute; reflexivity]. change (text_of _) with [97; 0xE2; 0x80; 0x8D; 98; 10; 99; 32; 100]. repeat split; cbn; try lia; [left; auto|left; auto|].
    intros i _ Hi. do 5 (destruct i as [|i]; [discriminate|]). lia.
Qed.
