(** Characters and their classes. *)
From Coq Require Import List Arith NArith ZArith Bool Lia ZifyBool ZifyN ZifyNat.
From Verif Require Import Base RopeModel RopeSpec RopeProofs LineBreakTables LineBreakModel LineBreakSpec LineBreakRules.
Import ListNotations.
Local Notation concat := List.concat.
Local Open Scope N_scope.
Ltac Zify.zify_post_hook ::= Z.div_mod_to_equations.

(** ** The tables *)
Definition below (b : N) (t : list N) : bool := forallb (fun x => x <? b) t.
Lemma below_tab b t n i : below b t = true -> N.of_nat (length t) = n -> i < n -> exists x, tab t i = Some x /\ x < b.
Proof.
  intros Hb En Hi. unfold tab. destruct (nth_error t (N.to_nat i)) as [x|] eqn:E.
  - exists x. split; auto. unfold below in Hb. rewrite forallb_forall in Hb. apply nth_error_In in E. specialize (Hb _ E). lia.
  - apply nth_error_None in E. lia.
Qed.
Lemma below_tab_from b t k n i : below b (skipn k t) = true -> N.of_nat (length t) = n -> N.of_nat k <= i -> i < n -> exists x, tab t i = Some x /\ x < b.
Proof.
  intros Hb En Hk Hi. unfold tab. destruct (nth_error t (N.to_nat i)) as [x|] eqn:E.
  - exists x. split; auto. unfold below in Hb. rewrite forallb_forall in Hb.
    assert (E' : nth_error (skipn k t) (N.to_nat i - k) = Some x).
    { rewrite <- E. rewrite <- (firstn_skipn k t) at 2. rewrite nth_error_app2; rewrite firstn_length_le; [reflexivity| | |]; lia. }
    apply nth_error_In in E'. specialize (Hb _ E'). lia.
  - apply nth_error_None in E. lia.
Qed.
Lemma t12 i : i < 0x800 -> exists x, tab LINEBREAK_1_2 i = Some x /\ x < 43.
Proof. apply below_tab; vm_compute; reflexivity. Qed.
Lemma t3r i : 32 <= i -> i < 1024 -> exists x, tab LINEBREAK_3_ROOT i = Some x /\ x < 183.
Proof. apply (below_tab_from _ _ 32); vm_compute; reflexivity. Qed.
Lemma t3c i : i < 11712 -> exists x, tab LINEBREAK_3_CHILD i = Some x /\ x < 43.
Proof. apply below_tab; vm_compute; reflexivity. Qed.
Lemma t4r i : 16 <= i -> i < 272 -> exists x, tab LINEBREAK_4_ROOT i = Some x /\ x < 15.
Proof. apply (below_tab_from _ _ 16); vm_compute; reflexivity. Qed.
Lemma t4m i : i < 960 -> exists x, tab LINEBREAK_4_MID i = Some x /\ x < 147.
Proof. apply below_tab; vm_compute; reflexivity. Qed.
Lemma t4l i : i < 9408 -> exists x, tab LINEBREAK_4_LEAVES i = Some x /\ x < 43.
Proof. apply below_tab; vm_compute; reflexivity. Qed.

(** ** Every code point has a class *)
Lemma property_some cp : cp < 0x110000 -> exists p, linebreak_property cp = Some p /\ p < 43.
Proof.
  intros H. unfold linebreak_property. destruct (cp <? 0x800) eqn:E1; [apply t12; lia|]. destruct (cp <? 0x10000) eqn:E2.
  - destruct (t3r (cp / 64)) as (x & -> & Hx); [lia|lia|]. cbn [bind]. apply t3c. lia.
  - destruct (t4r (cp / 4096)) as (x & -> & Hx); [lia|lia|]. cbn [bind].
    destruct (t4m (x * 64 + (cp / 64) mod 64)) as (y & -> & Hy); [lia|]. cbn [bind]. apply t4l. lia.
Qed.
(** The class of a character. *)
Definition class_of (cp : N) : cls :=
  match linebreak_property cp with Some n => nth (N.to_nat n) classes XX | None => XX end.
Lemma class_no_nth n : n < 43 -> class_no (nth (N.to_nat n) classes XX) = n.
Proof.
  intros H. assert (G : forallb (fun k => class_no (nth k classes XX) =? N.of_nat k) (seq 0 43) = true) by reflexivity.
  rewrite forallb_forall in G. specialize (G (N.to_nat n)). rewrite in_seq in G. specialize (G ltac:(lia)). lia.
Qed.
Lemma class_of_ok cp : scalar cp -> linebreak_property cp = Some (class_no (class_of cp)).
Proof.
  intros H. unfold class_of. destruct (property_some cp) as (p & E & Hp); [unfold scalar in H; lia|]. rewrite E. now rewrite class_no_nth.
Qed.

(** ** UTF-8 *)
Lemma encode_len cp : (0 < length (encode cp) <= 4)%nat.
Proof. unfold encode. destruct (cp <? 0x80); [cbn; lia|]. destruct (cp <? 0x800); [cbn; lia|]. destruct (cp <? 0x10000); cbn; lia. Qed.
Lemma encode_char cp : scalar cp -> utf8_char (encode cp) = true.
Proof.
  intros H. unfold scalar in H. unfold encode. destruct (cp <? 0x80) eqn:E1; [cbn [map utf8_char]; lia|].
  destruct (cp <? 0x800) eqn:E2; [cbn [map utf8_char]; unfold cont, in_range; lia|]. destruct (cp <? 0x10000) eqn:E3; cbn [map utf8_char]; unfold cont, in_range; lia.
Qed.
Lemma char_encode c : utf8_char c = true -> exists cp, scalar cp /\ c = encode cp.
Proof.
  intros H. destruct c as [|a [|b [|d [|e [|? ?]]]]]; try discriminate H; cbn [utf8_char] in H; unfold cont, in_range in H.
  - exists (N.of_nat a). unfold scalar, encode. split; [lia|]. replace (N.of_nat a <? 0x80) with true by lia. cbn [map]. f_equal. lia.
  - exists ((N.of_nat a - 0xC0) * 64 + (N.of_nat b - 0x80)). unfold scalar, encode.
    set (cp := (N.of_nat a - 0xC0) * 64 + (N.of_nat b - 0x80)). assert (cp = (N.of_nat a - 0xC0) * 64 + (N.of_nat b - 0x80)) by reflexivity. clearbody cp.
    split; [lia|]. replace (cp <? 0x80) with false by lia. replace (cp <? 0x800) with true by lia. cbn [map]. f_equal; [lia|]. f_equal. lia.
  - exists ((N.of_nat a - 0xE0) * 4096 + (N.of_nat b - 0x80) * 64 + (N.of_nat d - 0x80)). unfold scalar, encode.
    set (cp := (N.of_nat a - 0xE0) * 4096 + (N.of_nat b - 0x80) * 64 + (N.of_nat d - 0x80)).
    assert (cp = (N.of_nat a - 0xE0) * 4096 + (N.of_nat b - 0x80) * 64 + (N.of_nat d - 0x80)) by reflexivity. clearbody cp.
    split; [lia|]. replace (cp <? 0x80) with false by lia. replace (cp <? 0x800) with false by lia. replace (cp <? 0x10000) with true by lia. cbn [map]. f_equal; [lia|]. f_equal; [lia|]. f_equal. lia.
  - exists ((N.of_nat a - 0xF0) * 262144 + (N.of_nat b - 0x80) * 4096 + (N.of_nat d - 0x80) * 64 + (N.of_nat e - 0x80)). unfold scalar, encode.
    set (cp := (N.of_nat a - 0xF0) * 262144 + (N.of_nat b - 0x80) * 4096 + (N.of_nat d - 0x80) * 64 + (N.of_nat e - 0x80)).
    assert (cp = (N.of_nat a - 0xF0) * 262144 + (N.of_nat b - 0x80) * 4096 + (N.of_nat d - 0x80) * 64 + (N.of_nat e - 0x80)) by reflexivity. clearbody cp.
    split; [lia|]. replace (cp <? 0x80) with false by lia. replace (cp <? 0x800) with false by lia. replace (cp <? 0x10000) with false by lia. cbn [map]. f_equal; [lia|]. f_equal; [lia|]. f_equal; [lia|]. f_equal. lia.
Qed.
(** The texts are the UTF-8 forms of the sequences of scalar values. *)
Lemma text_chars cps : text_of cps = concat (map encode cps).
Proof. unfold text_of. now rewrite flat_map_concat_map. Qed.
Lemma text_utf8 cps : Forall scalar cps -> utf8 (text_of cps).
Proof.
  intros H. exists (map encode cps). split; [|apply text_chars]. apply Forall_forall. intros c Hc. apply in_map_iff in Hc as (cp & <- & Hi).
  apply encode_char. rewrite Forall_forall in H. auto.
Qed.
Lemma utf8_text s : utf8 s -> exists cps, Forall scalar cps /\ s = text_of cps.
Proof.
  intros (cs & F & ->). induction F as [|c cs Hc _ (cps & Fs & E)]; [exists []; auto|].
  destruct (char_encode c Hc) as (cp & Hs & ->). exists (cp :: cps). split; [auto|]. cbn. now rewrite E.
Qed.

(** ** The class is read off the bytes *)
Lemma byte_in pre l post i : (i < length l)%nat -> byte_at (pre ++ l ++ post) (length pre + i) = option_map N.of_nat (nth_error l i).
Proof. intros H. unfold byte_at. rewrite nth_error_app2 by lia. replace (length pre + i - length pre)%nat with i by lia. now rewrite nth_error_app1. Qed.
Lemma minus_ok a b c : a = c + b -> minus a b = Some c.
Proof. intros ->. unfold minus. replace (b <=? c + b) with true by lia. f_equal. lia. Qed.
Lemma property_str_ok pre cp post : scalar cp ->
  linebreak_property_str (pre ++ encode cp ++ post) (length pre) = Some (class_no (class_of cp), length (encode cp)).
Proof.
  intros H. pose proof (class_of_ok cp H) as Ec. unfold linebreak_property in Ec. unfold linebreak_property_str.
  pose proof (fun i => byte_in pre (encode cp) post i) as B. unfold scalar in H.
  assert (B0 := B 0%nat (proj1 (encode_len cp))). rewrite Nat.add_0_r in B0.
  set (T := pre ++ encode cp ++ post) in *. clearbody T. rewrite B0. clear B0. revert B. unfold encode.
  destruct (cp <? 0x80) eqn:E1.
  { intros _. cbn [map nth_error option_map bind length]. rewrite N2Nat.id, E1. replace (cp <? 0x800) with true in Ec by lia. rewrite Ec. reflexivity. }
  destruct (cp <? 0x800) eqn:E2.
  { intros B. cbn [map nth_error option_map bind length]. rewrite N2Nat.id. replace (0xC0 + cp / 64 <? 0x80) with false by lia. replace (0xC0 + cp / 64 <? 0xe0) with true by lia.
    rewrite (B 1%nat) by (cbn; lia). cbn [map nth_error option_map bind]. rewrite N2Nat.id. rewrite (minus_ok _ _ cp) by lia. cbn [bind]. rewrite Ec. reflexivity. }
  destruct (cp <? 0x10000) eqn:E3.
  { intros B. cbn [map nth_error option_map bind length]. rewrite N2Nat.id. replace (0xE0 + cp / 4096 <? 0x80) with false by lia. replace (0xE0 + cp / 4096 <? 0xe0) with false by lia. replace (0xE0 + cp / 4096 <? 0xf0) with true by lia.
    rewrite (B 1%nat) by (cbn; lia). cbn [map nth_error option_map bind]. rewrite N2Nat.id. rewrite (minus_ok _ _ (cp / 64)) by lia. cbn [bind].
    destruct (tab LINEBREAK_3_ROOT (cp / 64)) as [x|]; [|discriminate Ec]. cbn [bind] in *.
    rewrite (B 2%nat) by (cbn; lia). cbn [map nth_error option_map bind]. rewrite N2Nat.id. rewrite (minus_ok _ _ (x * 64 + cp mod 64)) by lia. cbn [bind]. rewrite Ec. reflexivity. }
  { intros B. cbn [map nth_error option_map bind length]. rewrite N2Nat.id. replace (0xF0 + cp / 262144 <? 0x80) with false by lia. replace (0xF0 + cp / 262144 <? 0xe0) with false by lia. replace (0xF0 + cp / 262144 <? 0xf0) with false by lia.
    rewrite (B 1%nat) by (cbn; lia). cbn [map nth_error option_map bind]. rewrite N2Nat.id. rewrite (minus_ok _ _ (cp / 4096)) by lia. cbn [bind].
    destruct (tab LINEBREAK_4_ROOT (cp / 4096)) as [x|]; [|discriminate Ec]. cbn [bind] in *.
    rewrite (B 2%nat) by (cbn; lia). cbn [map nth_error option_map bind]. rewrite N2Nat.id. rewrite (minus_ok _ _ (x * 64 + (cp / 64) mod 64)) by lia. cbn [bind].
    destruct (tab LINEBREAK_4_MID (x * 64 + (cp / 64) mod 64)) as [y|]; [|discriminate Ec]. cbn [bind] in *.
    rewrite (B 3%nat) by (cbn; lia). cbn [map nth_error option_map bind]. rewrite N2Nat.id. rewrite (minus_ok _ _ (y * 64 + cp mod 64)) by lia. cbn [bind]. rewrite Ec. reflexivity. }
Qed.
