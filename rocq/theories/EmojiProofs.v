(** The search in the emoji tables, what they say, and what a backspace takes. *)
From Coq Require Import List Arith NArith ZArith Bool Lia ZifyBool ZifyN ZifyNat Sorted.
From Verif Require Import Base RopeModel RopeIterModel EditOpsModel EditOpsMore EditOpsBack EditOpsUnits LineBreakSpec EmojiTables EmojiModel EmojiSpec.
Import ListNotations.
Local Open Scope N_scope.
Local Notation joined := EmojiSpec.joined.
Local Notation selector := EmojiSpec.selector.
Local Notation indicator := EmojiSpec.indicator.
Local Notation picture := EmojiSpec.picture.

(** ** Binary search *)
Definition rising (l : list N) : Prop := forall i j a b, (i <= j)%nat -> nth_error l i = Some a -> nth_error l j = Some b -> a <= b.
Lemma nth_some (l : list N) i : (i < length l)%nat -> exists a, nth_error l i = Some a.
Proof. intros H. destruct (nth_error l i) eqn:E; eauto. apply nth_error_None in E. lia. Qed.
Lemma search_ok l c : rising l -> forall f s e, (s <= e < length l)%nat -> (e - s < f)%nat ->
  exists b, is_in_asc_list f c l s e = Some b /\ (b = true <-> exists i, (s <= i <= e)%nat /\ nth_error l i = Some c).
Proof.
  intros R. induction f as [|f IH]; intros s e B F; [lia|]. cbn [is_in_asc_list].
  destruct (nth_some l s ltac:(lia)) as [a Ea]. destruct (nth_some l e ltac:(lia)) as [b Eb]. rewrite Ea, Eb. cbn [bind].
  destruct (N.eqb_spec c a) as [->|Na]; [exists true; split; auto; split; auto; intros _; exists s; split; [lia|auto]|].
  destruct (N.eqb_spec c b) as [->|Nb]; [exists true; split; auto; split; auto; intros _; exists e; split; [lia|auto]|].
  destruct (Nat.ltb_spec e s) as [L|L]; [lia|]. destruct (Nat.leb_spec (e - s) 1) as [L1|L1].
  - exists false. split; auto. split; [discriminate|]. intros (i & Hi & Ei). assert (i = s \/ i = e) as [->| ->] by lia; congruence.
  - set (mid := ((s + e) / 2)%nat). assert (Hm : (s < mid < e)%nat).
    { unfold mid. pose proof (Nat.div_mod (s + e) 2 ltac:(lia)). pose proof (Nat.mod_upper_bound (s + e) 2 ltac:(lia)). lia. }
    destruct (nth_some l mid ltac:(lia)) as [m Em]. rewrite Em. cbn [bind]. destruct (N.leb_spec m c) as [Lm|Lm].
    + destruct (IH mid e ltac:(lia) ltac:(lia)) as (r & Er & Hr). exists r. split; auto. rewrite Hr. split; intros (i & Hi & Ei); [exists i; split; [lia|auto]|].
      destruct (Nat.le_gt_cases mid i); [exists i; split; [lia|auto]|]. pose proof (R i mid c m ltac:(lia) Ei Em). assert (c = m) by lia. subst m. exists mid. split; [lia|auto].
    + destruct (IH s mid ltac:(lia) ltac:(lia)) as (r & Er & Hr). exists r. split; auto. rewrite Hr. split; intros (i & Hi & Ei); [exists i; split; [lia|auto]|].
      destruct (Nat.le_gt_cases i mid); [exists i; split; [lia|auto]|]. pose proof (R mid i m c ltac:(lia) Em Ei). lia.
Qed.
Lemma sorted_rising l : Sorted N.lt l -> rising l.
Proof.
  intros Hs. apply Sorted_StronglySorted in Hs; [|exact N.lt_trans]. induction Hs as [|x l Hs IH F]; intros i j a b L Ea Eb; [destruct i; discriminate|].
  destruct i as [|i], j as [|j]; cbn in Ea, Eb; try lia.
  - assert (a = b) by congruence. lia.
  - inversion Ea; subst. apply nth_error_In in Eb. rewrite Forall_forall in F. specialize (F _ Eb). lia.
  - apply (IH i j a b); auto. lia.
Qed.
Lemma table_ok l c : l <> [] -> Sorted N.lt l -> exists b, is_in_table l c = Some b /\ (b = true <-> In c l).
Proof.
  intros N Hs. unfold is_in_table. destruct (Nat.eqb_spec (length l) 0) as [E|E]; [destruct l; [contradiction|discriminate]|].
  destruct (search_ok l c (sorted_rising l Hs) (length l) 0 (length l - 1)) as (b & Eb & Hb); [lia|lia|]. exists b. split; auto. rewrite Hb. split.
  - intros (i & _ & Ei). now apply nth_error_In in Ei.
  - intros H. apply In_nth_error in H as [i Ei]. exists i. split; auto. assert (i < length l)%nat by (apply nth_error_Some; congruence). lia.
Qed.

(** ** The tables *)
Fixpoint ascending (l : list N) : bool := match l with [] => true | x :: l' => match l' with [] => true | y :: _ => (x <? y) && ascending l' end end.
Lemma ascending_ok l : ascending l = true -> Sorted N.lt l.
Proof.
  induction l as [|x l IH]; intros H; [constructor|]. destruct l as [|y l]; [constructor; constructor|]. cbn [ascending] in H. apply andb_true_iff in H as [H1 H2].
  constructor; [apply IH; exact H2|]. constructor. lia.
Qed.
Lemma emoji_sorted : Sorted N.lt EMOJI_TABLE. Proof. apply ascending_ok. vm_compute. reflexivity. Qed.
Lemma base_sorted : Sorted N.lt EMOJI_MODIFIER_BASE_TABLE. Proof. apply ascending_ok. vm_compute. reflexivity. Qed.
Lemma emoji_some : EMOJI_TABLE <> []. Proof. discriminate. Qed.
Lemma base_some : EMOJI_MODIFIER_BASE_TABLE <> []. Proof. discriminate. Qed.
Lemma emoji_in c : sure (emoji c) = true <-> is_emoji_char c.
Proof. destruct (table_ok EMOJI_TABLE c emoji_some emoji_sorted) as (b & E & H). unfold emoji. rewrite E. exact H. Qed.
Lemma base_in c : sure (emoji_modifier_base c) = true <-> takes_tone c.
Proof. destruct (table_ok EMOJI_MODIFIER_BASE_TABLE c base_some base_sorted) as (b & E & H). unfold emoji_modifier_base. rewrite E. exact H. Qed.
(** What is true of every emoji. *)
Definition never (c : N) : bool := (c =? 10) || (c =? 32) || variation_selector c || enclosing_keycap c || tag_spec_char c || emoji_cancel_tag c || zwj c.
Lemma emoji_never c : is_emoji_char c -> never c = false.
Proof.
  intros H. assert (F : forallb (fun c => negb (never c)) EMOJI_TABLE = true) by (vm_compute; reflexivity). rewrite forallb_forall in F. specialize (F c H). now destruct (never c).
Qed.
Definition member (l : list N) (c : N) : bool := existsb (N.eqb c) l.
Lemma member_ok l c : member l c = true <-> In c l.
Proof. unfold member. rewrite existsb_exists. split; [intros (x & Hx & E); apply N.eqb_eq in E; now subst|intros H; exists c; split; auto; apply N.eqb_refl]. Qed.
Lemma base_emoji c : takes_tone c -> is_emoji_char c /\ ~ indicator c /\ ~ tone c.
Proof.
  intros H. assert (F : forallb (fun c => member EMOJI_TABLE c && negb (regional_indicator c) && negb (emoji_modifier c)) EMOJI_MODIFIER_BASE_TABLE = true) by (vm_compute; reflexivity).
  rewrite forallb_forall in F. specialize (F c H). apply andb_true_iff in F as [F F3]. apply andb_true_iff in F as [F1 F2]. apply member_ok in F1.
  unfold regional_indicator in F2. unfold emoji_modifier in F3. unfold indicator, tone, EmojiSpec.indicator. split; [exact F1|]. split; lia.
Qed.
Definition spanN (a : N) (n : nat) : list N := map (fun k => a + N.of_nat k) (seq 0 n).
Lemma span_in a n c : a <= c -> c < a + N.of_nat n -> In c (spanN a n).
Proof. intros H1 H2. apply in_map_iff. exists (N.to_nat (c - a)). split; [lia|]. apply in_seq. lia. Qed.
Lemma span_emoji a n : forallb (member EMOJI_TABLE) (spanN a n) = true -> forall c, a <= c -> c < a + N.of_nat n -> is_emoji_char c.
Proof. intros F c H1 H2. rewrite forallb_forall in F. apply member_ok. apply F. now apply span_in. Qed.
Lemma tone_emoji c : tone c -> is_emoji_char c.
Proof. intros [H1 H2]. apply (span_emoji 0x1F3FB 5); [vm_compute; reflexivity|lia|lia]. Qed.
Lemma indicator_emoji c : indicator c -> is_emoji_char c.
Proof. intros [H1 H2]. apply (span_emoji 0x1F1E6 26); [vm_compute; reflexivity|lia|lia]. Qed.

(** ** Characters by code points *)
Lemma decode_encode cp : cp < 0x110000 -> decode (encode cp) = cp.
Proof.
  intros H. unfold encode. pose proof (N.div_mod cp 64 ltac:(lia)). pose proof (N.mod_lt cp 64 ltac:(lia)).
  pose proof (N.div_mod cp 4096 ltac:(lia)). pose proof (N.mod_lt cp 4096 ltac:(lia)). pose proof (N.div_mod cp 262144 ltac:(lia)).
  pose proof (N.div_mod (cp / 64) 64 ltac:(lia)). pose proof (N.mod_lt (cp / 64) 64 ltac:(lia)). pose proof (N.div_mod (cp / 4096) 64 ltac:(lia)). pose proof (N.mod_lt (cp / 4096) 64 ltac:(lia)).
  assert (E1 : cp / 4096 = cp / 64 / 64) by (rewrite N.div_div by lia; reflexivity). assert (E2 : cp / 262144 = cp / 4096 / 64) by (rewrite N.div_div by lia; reflexivity).
  destruct (cp <? 0x80) eqn:L1; [|destruct (cp <? 0x800) eqn:L2; [|destruct (cp <? 0x10000) eqn:L3]]; unfold decode; cbn [map]; rewrite !N2Nat.id; rewrite ?N.add_sub, ?(N.add_comm 0xC0), ?(N.add_comm 0x80), ?(N.add_comm 0xE0), ?(N.add_comm 0xF0), ?N.add_sub; lia.
Qed.
Lemma encode_nl cp : scalar cp -> cp <> 10 -> encode cp <> [10%nat].
Proof. intros Hs N E. apply N. rewrite <- (decode_encode cp) by (unfold scalar in Hs; lia). rewrite E. reflexivity. Qed.
Section Scan.
Local Notation P := real_props.
Local Notation E := (map encode).
Lemma dec c : scalar c -> decode (encode c) = c.
Proof. intros H. apply decode_encode. unfold scalar in H. lia. Qed.
Lemma r_vs c : scalar c -> is_variation_selector P (encode c) = variation_selector c. Proof. intros H. cbn. now rewrite dec. Qed.
Lemma r_ris c : scalar c -> is_ris P (encode c) = regional_indicator c. Proof. intros H. cbn. now rewrite dec. Qed.
Lemma r_mod c : scalar c -> is_emoji_modifier P (encode c) = emoji_modifier c. Proof. intros H. cbn. now rewrite dec. Qed.
Lemma r_key c : scalar c -> is_keycap P (encode c) = enclosing_keycap c. Proof. intros H. cbn. now rewrite dec. Qed.
Lemma r_emoji c : scalar c -> is_emoji P (encode c) = sure (emoji c). Proof. intros H. cbn [is_emoji P]. now rewrite dec. Qed.
Lemma r_cancel c : scalar c -> is_cancel_tag P (encode c) = emoji_cancel_tag c. Proof. intros H. cbn. now rewrite dec. Qed.
Lemma r_kbase c : scalar c -> is_keycap_base P (encode c) = keycap_base c. Proof. intros H. cbn. now rewrite dec. Qed.
Lemma r_base c : scalar c -> is_modifier_base P (encode c) = sure (emoji_modifier_base c). Proof. intros H. cbn [is_modifier_base P]. now rewrite dec. Qed.
Lemma r_zwj c : scalar c -> is_zwj P (encode c) = zwj c. Proof. intros H. cbn. now rewrite dec. Qed.
Lemma r_tag c : scalar c -> is_tag_spec P (encode c) = tag_spec_char c. Proof. intros H. cbn. now rewrite dec. Qed.
Lemma never_all c : never c = false -> c <> 10 /\ c <> 32 /\ variation_selector c = false /\ enclosing_keycap c = false /\ tag_spec_char c = false /\ emoji_cancel_tag c = false /\ zwj c = false.
Proof. unfold never. intros H. repeat (apply orb_false_iff in H as [H ?]). repeat split; auto; lia. Qed.
Lemma picture_char c : scalar c -> picture c -> EditOpsUnits.picture P (encode c) /\ is_tag_spec P (encode c) = false /\ is_zwj P (encode c) = false.
Proof.
  intros Sc (He & Hi & Ht). destruct (never_all c (emoji_never c He)) as (N1 & _ & N2 & N3 & N4 & N5 & N6). unfold EditOpsUnits.picture.
  rewrite r_vs, r_ris, r_mod, r_key, r_emoji, r_tag, r_zwj by auto. apply emoji_in in He. unfold indicator, EmojiSpec.indicator in Hi. unfold tone in Ht.
  repeat split; auto; [now apply encode_nl|unfold regional_indicator; lia|unfold emoji_modifier; lia].
Qed.
Lemma selector_char v : scalar v -> selector v -> EditOpsUnits.selector P (encode v) /\ is_emoji P (encode v) = false.
Proof.
  intros Sc Hv. assert (V : variation_selector v = true) by (unfold selector, EmojiSpec.selector in Hv; unfold variation_selector; lia). unfold EditOpsUnits.selector. rewrite r_vs, r_emoji by auto. split; [split; auto; apply encode_nl; auto; unfold variation_selector in V; lia|].
  destruct (sure (emoji v)) eqn:Em; auto. apply emoji_in in Em. destruct (never_all v (emoji_never v Em)) as (_ & _ & N2 & _). congruence.
Qed.
Lemma tone_char m : scalar m -> tone m -> EditOpsUnits.modifier P (encode m) /\ is_emoji P (encode m) = true.
Proof.
  intros Sc Hm. pose proof (proj2 (emoji_in m) (tone_emoji m Hm)) as He. unfold EditOpsUnits.modifier. rewrite r_vs, r_ris, r_mod, r_emoji by auto. unfold tone in Hm.
  repeat split; auto; [apply encode_nl; auto; lia|unfold variation_selector; lia|unfold regional_indicator; lia|unfold emoji_modifier; lia].
Qed.
Lemma base_char b : scalar b -> takes_tone b -> is_variation_selector P (encode b) = false /\ is_modifier_base P (encode b) = true.
Proof. intros Sc Hb. destruct (never_all b (emoji_never b (proj1 (base_emoji b Hb)))) as (_ & _ & N2 & _). rewrite r_vs, r_base by auto. split; auto. now apply base_in. Qed.
Lemma indicator_char x : scalar x -> indicator x -> EditOpsUnits.indicator P (encode x).
Proof.
  intros Sc [H1 H2]. unfold EditOpsUnits.indicator. rewrite r_vs, r_ris by auto. split; [apply encode_nl; auto; lia|]. unfold variation_selector, regional_indicator. split; lia.
Qed.
Local Notation scan := (bscan P).
Lemma no_joiner_ends a : Forall scalar a -> (forall a', a <> a' ++ [JOINER]) -> ~ ends_in (is_zwj P) (E a).
Proof.
  intros F H (a' & c & Ea & Hc). destruct (exists_last (l := a)) as (b & x & ->); [intros ->; destruct a'; discriminate|]. rewrite map_app in Ea. apply app_inj_tail in Ea as [_ <-].
  apply Forall_app in F as [_ F]. inversion F; subst. rewrite r_zwj in Hc by auto. unfold zwj in Hc. apply (H b). unfold JOINER. f_equal. f_equal. lia.
Qed.
Lemma zwj_char : is_zwj P (encode JOINER) = true. Proof. reflexivity. Qed.
Lemma joined_snoc els x : els <> [] -> joined (els ++ [x]) = joined els ++ JOINER :: x.
Proof.
  induction els as [|y els IH]; intros N; [contradiction|]. destruct els as [|z els]; [reflexivity|]. change (y ++ JOINER :: joined ((z :: els) ++ [x]) = (y ++ JOINER :: joined (z :: els)) ++ JOINER :: x).
  rewrite IH by discriminate. rewrite <- app_assoc. reflexivity.
Qed.
Lemma scan_snoc st (l : list (list nat)) (c : list nat) n vs : scan st (rev (l ++ [c])) n vs = if finished st then n else let '(st', n', vs') := bstep P st c n vs in scan st' (rev l) n' vs'.
Proof. rewrite rev_app_distr. reflexivity. Qed.
(** Before a joiner, and before the elements after the first. *)
Lemma scan_plain_zwj a x n vs : Forall scalar x -> plain x -> exists vs', scan BBeforeZwj (rev (E (a ++ x))) n vs = scan BBeforeEmoji (rev (E a)) (n + length x + 1) vs'.
Proof.
  intros F Hx; revert F; destruct Hx as [e He|e v He Hv]; intros F; rewrite map_app; cbn [map].
  - inversion F; subst. exists vs. destruct (picture_char e) as ((_ & _ & _ & M & _ & I) & _); auto. rewrite scan_snoc. cbn [finished bstep]. rewrite I, M. f_equal. cbn. lia.
  - inversion F as [|? ? S1 F']; subst. inversion F' as [|? ? S2 _]; subst. exists 0%nat. destruct (picture_char e) as ((_ & _ & _ & M & _ & I) & _); auto. destruct (selector_char v) as ((_ & V) & NI); auto.
    change (E a ++ [encode e; encode v]) with (E a ++ [encode e] ++ [encode v]). rewrite app_assoc, scan_snoc. cbn [finished bstep]. rewrite NI, V. rewrite scan_snoc. cbn [finished bstep]. rewrite I. f_equal. cbn. lia.
Qed.
Lemma scan_toned_zwj a x n vs : Forall scalar x -> toned x -> scan BBeforeZwj (rev (E (a ++ x))) n vs = (n + length x + 1)%nat.
Proof.
  intros F Hx; revert F; destruct Hx as [b m Hb Hm|b v m Hb Hv Hm]; intros F; rewrite map_app; cbn [map].
  - inversion F as [|? ? S1 F']; subst. inversion F' as [|? ? S2 _]; subst. destruct (tone_char m) as ((_ & _ & _ & M) & I); auto. destruct (base_char b) as (V & B); auto.
    change (E a ++ [encode b; encode m]) with (E a ++ [encode b] ++ [encode m]). rewrite app_assoc, scan_snoc. cbn [finished bstep]. rewrite I, M. rewrite scan_snoc. cbn [finished bstep]. rewrite V, B, scan_finished. cbn. lia.
  - inversion F as [|? ? S1 F']; subst. inversion F' as [|? ? S2 F'']; subst. inversion F'' as [|? ? S3 _]; subst. destruct (tone_char m) as ((_ & _ & _ & M) & I); auto. destruct (base_char b) as (V & B); auto. destruct (selector_char v) as ((_ & W) & _); auto.
    change (E a ++ [encode b; encode v; encode m]) with (E a ++ ([encode b] ++ [encode v]) ++ [encode m]). rewrite !app_assoc, scan_snoc. cbn [finished bstep]. rewrite I, M. rewrite scan_snoc. cbn [finished bstep]. rewrite W. rewrite scan_snoc. cbn [finished bstep]. rewrite B, scan_finished. cbn. lia.
Qed.
Lemma scan_before_zwj a x els : Forall scalar a -> element x -> Forall plain els -> Forall scalar (joined (x :: els)) -> (plain x -> forall a', a <> a' ++ [JOINER]) ->
  forall n vs, scan BBeforeZwj (rev (E (a ++ joined (x :: els)))) n vs = (n + length (joined (x :: els)) + 1)%nat.
Proof.
  intros Fa Hx Hp. induction els as [|y els IH] using rev_ind; intros Fs Ha n vs.
  - cbn [joined] in *. destruct Hx as [Hx|Hx].
    + destruct (scan_plain_zwj a x n vs Fs Hx) as (vs' & ->). apply scan_picture. apply no_joiner_ends; auto.
    + now apply scan_toned_zwj.
  - apply Forall_app in Hp as [Hp Hy]. inversion Hy as [|? ? Hy' _]; subst. change (x :: els ++ [y]) with ((x :: els) ++ [y]) in *. rewrite joined_snoc in * by discriminate. apply Forall_app in Fs as [F1 F2]. inversion F2 as [|? ? _ F3]; subst.
    rewrite app_assoc. change (JOINER :: y) with ([JOINER] ++ y). rewrite app_assoc. destruct (scan_plain_zwj ((a ++ joined (x :: els)) ++ [JOINER]) y n vs F3 Hy') as (vs' & ->).
    rewrite map_app. cbn [map]. rewrite scan_snoc. cbn [finished bstep]. rewrite zwj_char. rewrite (IH Hp F1 Ha). rewrite ?app_length. cbn [length]. rewrite ?app_length. cbn [length]. lia.
Qed.
Lemma scan_before_emoji a x els : Forall scalar a -> element x -> Forall plain els -> Forall scalar (joined (x :: els)) -> (plain x -> forall a', a <> a' ++ [JOINER]) ->
  forall n vs, scan BBeforeEmoji (rev (E (a ++ joined (x :: els) ++ [JOINER]))) n vs = (n + length (joined (x :: els)) + 1)%nat.
Proof.
  intros Fa Hx Hp Fs Ha n vs. rewrite app_assoc, map_app. cbn [map]. rewrite scan_snoc. cbn [finished bstep]. rewrite zwj_char. now apply scan_before_zwj.
Qed.
(** The start of the scan. *)
Lemma scan_plain a x : Forall scalar x -> plain x -> exists vs, scan BStart (rev (E (a ++ x))) 0 0 = scan BBeforeEmoji (rev (E a)) (length x) vs.
Proof.
  intros F Hx; revert F; destruct Hx as [e He|e v He Hv]; intros F; rewrite map_app, rev_app_distr; cbn [map rev app].
  - inversion F; subst. destruct (picture_char e) as ((N & V & R & M & K & I) & _); auto. exists 0%nat. apply start_step; auto. now rewrite V, R, M, K, I.
  - inversion F as [|? ? S1 F']; subst. inversion F' as [|? ? S2 _]; subst. destruct (picture_char e) as ((N & V & R & M & K & I) & _); auto. destruct (selector_char v) as ((Nv & W) & NI); auto.
    exists 0%nat. rewrite (start_step P _ _ BBeforeVS) by (auto; now rewrite W). rewrite scan_cons. cbn [finished bstep]. rewrite I. reflexivity.
Qed.
Lemma one_scan a u : Forall scalar (a ++ u) -> one_emoji plain a u -> scan BStart (rev (E (a ++ u))) 0 0 = length u.
Proof.
  intros F U. apply Forall_app in F as [Fa Fu]. revert Fa Fu. destruct U as [x els Hx Hp Ha|a0 fs x y -> Na Ff Ev Hx Hy|b Hb|b v Hb Hv|e ts He Ht]; intros Fa Fu.
  - destruct els as [|y els] using rev_ind.
    + cbn [joined] in *. destruct Hx as [Hx|Hx].
      * destruct (scan_plain a x Fu Hx) as (vs & ->). apply scan_picture. apply no_joiner_ends; auto.
      * rewrite map_app. clear Hp Ha. revert Fu. destruct Hx as [b m Hb Hm|b v m Hb Hv Hm]; intros Fu; cbn [map length]; apply (unit_scan P (E a)).
        -- inversion Fu as [|? ? S1 F']; subst. inversion F' as [|? ? S2 _]; subst. destruct (tone_char m) as (M & _); auto. destruct (base_char b) as (V & B); auto. now apply unit_modified.
        -- inversion Fu as [|? ? S1 F']; subst. inversion F' as [|? ? S2 F'']; subst. inversion F'' as [|? ? S3 _]; subst. destruct (tone_char m) as (M & _); auto. destruct (base_char b) as (V & B); auto. destruct (selector_char v) as (W & _); auto.
           now apply unit_modified_selector.
    + apply Forall_app in Hp as [Hp Hy]. inversion Hy as [|? ? Hy' _]; subst. change (x :: els ++ [y]) with ((x :: els) ++ [y]) in *. rewrite joined_snoc in * by discriminate. apply Forall_app in Fu as [F1 F2]. inversion F2 as [|? ? _ F3]; subst.
      change (JOINER :: y) with ([JOINER] ++ y). rewrite !app_assoc. destruct (scan_plain ((a ++ joined (x :: els)) ++ [JOINER]) y F3 Hy') as (vs & ->). rewrite <- app_assoc.
      rewrite scan_before_emoji by auto. rewrite !app_length. cbn [length]. lia.
  - inversion Fu as [|? ? S1 F']; subst. inversion F' as [|? ? S2 _]; subst. rewrite map_app. change (length [x; y]) with (length (E [x; y])). apply (unit_scan P). apply Forall_app in Fa as [Fa0 Fs]. cbn [map]. rewrite map_app.
    apply (unit_flag P _ (E a0) (E fs)); auto using indicator_char.
    + intros (a' & c & Ea & Hc). destruct (exists_last (l := a0)) as (q & z & ->); [intros ->; destruct a'; discriminate|]. rewrite map_app in Ea. apply app_inj_tail in Ea as [_ <-]. apply Forall_app in Fa0 as [_ Fz]. inversion Fz; subst. rewrite r_ris in Hc by auto.
      apply (Na q z eq_refl). unfold regional_indicator in Hc. unfold indicator, EmojiSpec.indicator. lia.
    + apply Forall_forall. intros c Hc. apply in_map_iff in Hc as (z & <- & Hz). rewrite Forall_forall in Ff, Fs. auto using indicator_char.
    + now rewrite map_length.
  - inversion Fu as [|? ? S1 F']; subst. rewrite map_app. change (length [b; 8419]) with (length (E [b; 8419])). apply (unit_scan P). apply unit_keycap; [repeat split; discriminate| |]; cbn [In] in Hb; [rewrite r_vs by auto; unfold variation_selector; lia|rewrite r_kbase by auto; unfold keycap_base; lia].
  - inversion Fu as [|? ? S1 F']; subst. inversion F' as [|? ? S2 _]; subst. rewrite map_app. change (length [b; v; 8419]) with (length (E [b; v; 8419])). apply (unit_scan P). apply unit_keycap_selector; [repeat split; discriminate|apply selector_char; auto|cbn [In] in Hb; rewrite r_kbase by auto; unfold keycap_base; lia].
  - inversion Fu as [|? ? S1 F']; subst. apply Forall_app in F' as [F' _]. destruct (picture_char e) as ((_ & _ & _ & _ & _ & I) & Tg & _); auto. replace (length (e :: ts ++ [0xE007F])) with (length (E (e :: ts ++ [0xE007F]))) by apply map_length.
    rewrite map_app. apply (unit_scan P). cbn [map]. rewrite map_app. cbn [map]. apply unit_tagged; auto.
    + unfold end_tag. rewrite r_vs, r_ris, r_mod, r_key, r_emoji, r_cancel by (unfold scalar; lia). repeat split; try reflexivity. discriminate.
    + apply Forall_forall. intros c Hc. apply in_map_iff in Hc as (z & <- & Hz). rewrite Forall_forall in Ht, F'. rewrite r_tag by auto. specialize (Ht z Hz). unfold tag_spec_char. lia.
Qed.
End Scan.

(** ** Sequences do not end in a space *)
Lemma element_last x : element x -> exists x' c, x = x' ++ [c] /\ c <> 32.
Proof.
  intros [[e (He & _)|e v He Hv]|[b m Hb Hm|b v m Hb Hv Hm]].
  - exists [], e. split; auto. now destruct (never_all e (emoji_never e He)) as (_ & ? & _).
  - exists [e], v. split; auto. unfold selector, EmojiSpec.selector in Hv. lia.
  - exists [b], m. split; auto. unfold tone in Hm. lia.
  - exists [b; v], m. split; auto. unfold tone in Hm. lia.
Qed.
Lemma one_last a u : one_emoji plain a u -> exists u' c, u = u' ++ [c] /\ c <> 32.
Proof.
  intros [x els Hx Hel _|a0 fs x y _ _ _ _ _ Hy|b _|b v _ _|e ts _ _].
  - destruct els as [|y els _] using rev_ind.
    + now apply element_last.
    + change (x :: els ++ [y]) with ((x :: els) ++ [y]) in *. rewrite joined_snoc by discriminate. apply Forall_app in Hel as [_ Hy]. inversion Hy as [|? ? Hy' _]; subst.
      destruct (element_last y (or_introl Hy')) as (y' & c & -> & Hc). exists (joined (x :: els) ++ JOINER :: y'), c. split; auto. now rewrite <- app_assoc.
  - exists [x], y. split; auto. unfold indicator, EmojiSpec.indicator in Hy. lia.
  - exists [b], 0x20E3. split; auto. lia.
  - exists [b; v], 0x20E3. split; auto. lia.
  - exists (e :: ts), 0xE007F. split; auto. lia.
Qed.
Lemma encode_last c : c <> 32 -> exists l x, encode c = l ++ [x] /\ x <> 32%nat.
Proof.
  intros N. unfold encode. destruct (c <? 0x80) eqn:L1; [exists [], (N.to_nat c); split; auto; lia|].
  destruct (c <? 0x800); [exists [N.to_nat (0xC0 + c / 64)], (N.to_nat (0x80 + c mod 64)); split; auto; lia|].
  destruct (c <? 0x10000); [exists [N.to_nat (0xE0 + c / 4096); N.to_nat (0x80 + (c / 64) mod 64)], (N.to_nat (0x80 + c mod 64)); split; auto; lia|].
  exists [N.to_nat (0xF0 + c / 262144); N.to_nat (0x80 + (c / 4096) mod 64); N.to_nat (0x80 + (c / 64) mod 64)], (N.to_nat (0x80 + c mod 64)). split; auto; lia.
Qed.
