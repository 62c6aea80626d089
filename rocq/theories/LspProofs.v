From Coq Require Import List Arith Lia Bool ZifyBool.
From Verif Require Import Base ListLib MultisetProofs TreeModel TreeSpec TreeProofs RopeModel RopeSpec RopeProofs RopeMetric RopeIterModel
  DeltaModel DeltaSpec DeltaProofs2 PropertiesDelta PluginCacheModel PluginCacheSpec PluginCacheProofs PropertiesPluginCache LspModel LspSpec.
Import ListNotations.
Local Notation concat := List.concat.

(** ** Units *)
Lemma units_utf8 s n : units s n -> utf8 s. Proof. intros (cs & C & _). now exists cs. Qed.
Lemma units_count s n : units s n -> count_utf16 s = n.
Proof. intros (cs & [F ->] & ->). now apply count_utf16_chars. Qed.
Lemma utf8_units s : utf8 s -> units s (count_utf16 s).
Proof. intros (cs & [F ->]). exists cs. split; [now split|]. now apply count_utf16_chars. Qed.
Lemma units_iff s n : units s n <-> utf8 s /\ n = count_utf16 s.
Proof. split; [intros H; split; [now apply units_utf8 in H|symmetry; now apply units_count]|]. intros [U ->]. now apply utf8_units. Qed.
Lemma count_pos s : utf8 s -> s <> [] -> 0 < count_utf16 s.
Proof.
  intros (cs & [F ->]) N. rewrite count_utf16_chars by auto. destruct cs as [|c cs]; [now destruct N|]. unfold utf16_len. cbn. unfold utf16_units at 1. destruct (length c =? 4); lia.
Qed.
Lemma slice_split {X} (t : list X) a b c : a <= b -> b <= c -> slice t a c = slice t a b ++ slice t b c.
Proof. intros H1 H2. unfold slice. replace (c - a) with ((b - a) + (c - b)) by lia. rewrite <- (firstn_skipn (b - a) (firstn (b - a + (c - b)) (skipn a t))). rewrite firstn_firstn, Nat.min_l by lia. f_equal. rewrite skipn_firstn_comm. replace (b - a + (c - b) - (b - a)) with (c - b) by lia. f_equal. rewrite skipn_skipn. f_equal. lia. Qed.
Lemma slice_length {X} (t : list X) a b : b <= length t -> length (slice t a b) = b - a.
Proof. intros H. unfold slice. rewrite firstn_length, skipn_length. lia. Qed.
Lemma count_lt t a b c : utf8 t -> a <= b -> b < c -> c <= length t -> char_boundary t a -> char_boundary t b -> char_boundary t c -> count_utf16 (slice t a b) < count_utf16 (slice t a c).
Proof.
  intros U H1 H2 H3 A B C. rewrite (slice_split t a b c) by lia. rewrite count_utf16_app. enough (0 < count_utf16 (slice t b c)) by lia. apply count_pos.
  - apply utf8_slice; auto; [lia| |]; now apply boundary_iff.
  - intros E. apply (f_equal (@length _)) in E. rewrite slice_length in E by lia. cbn in E. lia.
Qed.

(** ** Lines *)
Lemma line_is_unique t l b e b' e' : line_is t l b e -> line_is t l b' e' -> b = b' /\ e = e'.
Proof.
  intros (L & H1 & H2 & H3 & H4) (L' & H1' & H2' & H3' & H4'). pose proof (line_at_unique _ _ _ _ L L') as <-. split; auto.
  assert (K : forall e e', b <= e -> e <= length t -> e' <= length t -> ~ In 10 (slice t b e') -> e = length t \/ nth_error t e = Some 10 -> e' <= e).
  { clear. intros e e' A1 A2 A3 N [->|H]; [lia|]. destruct (Nat.le_gt_cases e' e); auto. exfalso. apply N. apply nth_error_In with (n := e - b). rewrite nth_slice. replace (e - b <? e' - b) with true by lia. now replace (b + (e - b)) with e by lia. }
  assert (e' <= e) by (apply (K e e'); auto). assert (e <= e') by (apply (K e' e); auto). lia.
Qed.
Lemma in_slice_nl t b o : b <= o -> o <= length t -> (In 10 (slice t b o) <-> newlines (firstn b t) < newlines (firstn o t)).
Proof.
  intros H1 H2. assert (E : firstn o t = firstn b t ++ slice t b o).
  { change (firstn o t) with (skipn 0 (firstn o t)). rewrite <- (Nat.sub_0_r o) at 1. change (firstn (o - 0) t) with (slice t 0 o) at 1. rewrite (slice_split t 0 b o) by lia. unfold slice at 1. now rewrite Nat.sub_0_r. }
  rewrite E, newlines_app. unfold newlines. split; intros H.
  - apply (count_occ_In Nat.eq_dec) in H. lia.
  - apply (count_occ_In Nat.eq_dec). lia.
Qed.
Lemma line_is_exists t o : o <= length t -> exists b e, line_is t (newlines (firstn o t)) b e /\ b <= o <= e.
Proof.
  intros Ho. destruct (line_at_exists t (newlines (firstn o t)) (newlines_firstn_le t o)) as (b & L).
  assert (Hb : b <= o).
  { destruct (Nat.le_gt_cases b o) as [|G]; auto. destruct L as (L1 & L2 & L3). exfalso. destruct L3 as [->|L3]; [lia|].
    assert (X : In 10 (slice t o b)) by (apply nth_error_In with (n := b - 1 - o); rewrite nth_slice; replace (b - 1 - o <? b - o) with true by lia; now replace (o + (b - 1 - o)) with (b - 1) by lia).
    apply in_slice_nl in X; lia. }
  assert (F : forall k, exists e, o <= e <= length t /\ ~ In 10 (slice t o e) /\ (e = length t \/ nth_error t e = Some 10 \/ e = o + k)).
  { induction k as [|k (e & E1 & E2 & E3)]; [exists o; split; [lia|]; split; [unfold slice; rewrite Nat.sub_diag; cbn; tauto|lia]|].
    destruct E3 as [E3|[E3|E3]]; [exists e; auto|exists e; auto|]. destruct (nth_error t e) as [x|] eqn:N; [|apply nth_error_None in N; exists e; split; auto; split; auto; left; lia].
    assert (e < length t) by (apply nth_error_Some; congruence). destruct (Nat.eq_dec x 10) as [->|Nx]; [exists e; auto|]. exists (S e). split; [lia|]. split; [|lia]. rewrite (slice_split t o e (S e)) by lia. intros I. apply in_app_or in I as [I|I]; auto.
    apply In_nth_error in I as (k' & Hk). rewrite nth_slice in Hk. destruct (k' <? S e - e) eqn:Ek; [|discriminate]. replace (e + k') with e in Hk by lia. congruence. }
  destruct (F (length t)) as (e & E1 & E2 & E3). exists b, e. split; [|lia]. split; auto. split; [lia|]. split; [lia|]. split.
  - rewrite (slice_split t b o e) by lia. intros I. apply in_app_or in I as [I|I]; auto. apply in_slice_nl in I; [|lia|lia]. destruct L as (_ & L & _). lia.
  - destruct E3 as [|[|]]; auto. left. lia.
Qed.
Lemma line_is_nl t l b e o : line_is t l b e -> b <= o <= e -> newlines (firstn o t) = l.
Proof.
  intros ((L1 & L2 & _) & H1 & H2 & H3 & _) Ho. destruct (Nat.eq_dec (newlines (firstn o t)) (newlines (firstn b t))) as [E|E]; [lia|]. exfalso. apply H3. rewrite (slice_split t b o e) by lia. apply in_or_app. left. apply in_slice_nl; [lia|lia|].
  enough (newlines (firstn b t) <= newlines (firstn o t)) by lia. replace (firstn b t) with (firstn b (firstn o t)) by (rewrite firstn_firstn; f_equal; lia). apply newlines_firstn_le.
Qed.
Lemma line_is_boundary t l b e : utf8 t -> line_is t l b e -> char_boundary t b /\ char_boundary t e.
Proof.
  intros U (L & H1 & H2 & H3 & H4). split.
  - apply boundary_iff; auto. apply (line_at_boundary t l b U). now left.
  - apply boundary_iff; auto. destruct H4 as [->|H4]; [apply cb_len|]. unfold is_char_boundary. destruct (e =? 0); auto. now rewrite H4.
Qed.
Lemma position_exists t o : utf8 t -> char_boundary t o -> exists p, position_of t o p /\ fst p = newlines (firstn o t).
Proof.
  intros U B. assert (Ho : o <= length t) by (apply boundary_iff in B; auto; now apply cb_le in B). destruct (line_is_exists t o Ho) as (b & e & L & H). destruct (line_is_boundary _ _ _ _ U L) as [Bb _].
  exists (newlines (firstn o t), count_utf16 (slice t b o)). split; auto. exists e, b. split; auto. split; auto. split; auto. apply utf8_units. apply utf8_slice; auto; [lia| |]; now apply boundary_iff.
Qed.
Lemma position_unique t o p p' : position_of t o p -> position_of t o p' -> p = p'.
Proof.
  intros (e & b & L & H & B & Un) (e' & b' & L' & H' & _ & Un'). destruct p as [l k], p' as [l' k']. cbn [fst snd] in *. assert (El : l = l') by (rewrite <- (line_is_nl _ _ _ _ o L H); exact (line_is_nl _ _ _ _ o L' H')). subst l'.
  destruct (line_is_unique _ _ _ _ _ _ L L') as [-> ->]. f_equal. apply units_count in Un, Un'. congruence.
Qed.
Lemma denotes_unique t p o o' : utf8 t -> denotes t p o -> denotes t p o' -> o = o'.
Proof.
  intros U D D'. destruct p as [l k].
  assert (K : forall b e o o', line_is t l b e -> b <= o <= e -> b <= o' <= e -> char_boundary t o -> char_boundary t o' -> count_utf16 (slice t b o) = count_utf16 (slice t b o') -> o = o').
  { clear -U. intros b e o o' L H H' B B' E. destruct (line_is_boundary _ _ _ _ U L) as [Bb _]. assert (e <= length t) by (destruct L as (_ & _ & ? & _); auto). destruct (Nat.lt_trichotomy o o') as [G|[G|G]]; auto; exfalso.
    - pose proof (count_lt t b o o' U ltac:(lia) G ltac:(lia) Bb B B'). lia.
    - pose proof (count_lt t b o' o U ltac:(lia) G ltac:(lia) Bb B' B). lia. }
  assert (M : forall b e o, line_is t l b e -> b <= o <= e -> char_boundary t o -> count_utf16 (slice t b o) <= count_utf16 (slice t b e)).
  { clear. intros b e o L H B. rewrite (slice_split t b o e) by lia. rewrite count_utf16_app. lia. }
  destruct D as [(e & b & L & H & B & Un)|(b & e & n & L & -> & Un & Hn)], D' as [(e' & b' & L' & H' & B' & Un')|(b' & e' & n' & L' & -> & Un' & Hn')]; cbn [fst snd] in *; destruct (line_is_unique _ _ _ _ _ _ L L') as [<- <-]; apply units_count in Un, Un'.
  - apply (K b e); auto. congruence.
  - pose proof (M b e o L H B). lia.
  - pose proof (M b e o' L H' B'). lia.
  - reflexivity.
Qed.
Lemma changed_unique t ch r r' : utf8 t -> changed t ch r -> changed t ch r' -> r' = r.
Proof.
  intros U. unfold changed. destruct (c_range ch) as [[p q]|]; [|congruence]. intros (a & b & A & B & _ & ->) (a' & b' & A' & B' & _ & ->). rewrite (denotes_unique t p a a' U A A'), (denotes_unique t q b b' U B B'). reflexivity.
Qed.

(** ** Asking for positions *)
Lemma history_utf8 t rev c : cc_history t rev c -> utf8 t.
Proof. induction 1; auto. match goal with H : edit_ok _ _ _ |- _ => destruct H as (_ & _ & _ & ? & _) end. auto. Qed.
Lemma utf16_to_base_over cs1 : forall fuel cs0 m, Forall uchar (cs0 ++ cs1) -> length (concat cs1) <= fuel -> utf16_len (cs0 ++ cs1) < m ->
  utf16_to_base fuel (concat (cs0 ++ cs1)) m (utf16_len cs0) (length (concat cs0)) = Some (length (concat (cs0 ++ cs1))).
Proof.
  induction cs1 as [|c cs1 IH]; intros fuel cs0 m F Hf Hm.
  - rewrite app_nil_r. unfold utf16_to_base. destruct fuel; rewrite skipn_all; reflexivity.
  - apply Forall_app in F as F'. destruct F' as [F0 F1]. inversion F1 as [|? ? Hc F1']; subst.
    destruct (char_shape c Hc) as (b & t & Ec & Hb & Ht & Hl & H4 & H240 & _).
    assert (Es : skipn (length (concat cs0)) (concat (cs0 ++ c :: cs1)) = c ++ concat cs1) by (rewrite concat_app, skipn_app_exact by auto; reflexivity).
    cbn [concat] in Hf. rewrite app_length in Hf. assert (0 < length c) by (rewrite Ec; cbn; lia). destruct fuel as [|fuel]; [lia|]. cbn [utf16_to_base]. rewrite Es.
    assert (Er : c ++ concat cs1 = b :: (t ++ concat cs1)) by (rewrite Ec; reflexivity). rewrite Er.
    assert (Hu : utf16_len cs0 <= utf16_len (cs0 ++ c :: cs1)) by (unfold utf16_len; rewrite map_app, list_sum_app; lia). replace (m <=? utf16_len cs0) with false by lia.
    specialize (IH fuel (cs0 ++ [c]) m). rewrite <- !app_assoc in IH. cbn [app] in IH. assert (Eu : utf16_len (cs0 ++ [c]) = utf16_len cs0 + (if 240 <=? b then 2 else 1)).
    { unfold utf16_len. rewrite map_app, list_sum_app. cbn [map list_sum fold_right]. unfold utf16_units. rewrite <- H240. destruct (240 <=? b); lia. }
    assert (El : length (concat (cs0 ++ [c])) = length (concat cs0) + len_utf8_from_first_byte b) by (rewrite concat_app, app_length; cbn; rewrite app_nil_r; lia).
    rewrite Eu, El in IH. apply IH; auto. lia.
Qed.
Section Ask.
Variables (t : list nat) (rev fuel : nat) (src : source).
Hypotheses (Src : source_ok t rev src) (Ref : ~ refuses t rev src) (Fuel : length t <= fuel).
Lemma get_position_ok c o : cc_history t rev c -> char_boundary t o ->
  exists c' p, get_position_of_offset fuel src o c = Some (c', Ok p) /\ cc_history t rev c' /\ position_of t o p.
Proof.
  intros H B. pose proof (history_utf8 _ _ _ H) as U. assert (Ho : o <= length t) by (apply boundary_iff in B; auto; now apply cb_le in B).
  destruct (position_exists t o U B) as ([l k] & P & El). cbn [fst] in El. destruct P as (e & b & L & Hbe & _ & Un). cbn [fst snd] in *.
  unfold get_position_of_offset, try at 1. destruct (C35_line_of_offset t rev c src o H Src) as (c1 & r1 & E1 & H1 & R1). rewrite E1. cbn [bind]. destruct r1 as [n|]; [|destruct R1 as [R1|R1]; [lia|now destruct Ref]].
  destruct R1 as [_ R1]. specialize (R1 B). rewrite <- El in R1. subst n.
  unfold try at 1. destruct (C35_offset_of_line t rev c1 src l H1 Src) as (c2 & r2 & E2 & H2 & R2). rewrite E2. cbn [bind].
  pose proof (newlines_firstn_le t o) as Hn. assert (Lb : line_at t l b) by (destruct L as (? & _); auto).
  destruct r2 as [lo|]; [|destruct R2 as [R2|R2]; [lia|now destruct Ref]]. destruct R2 as [R2|[R2 _]]; [|lia]. pose proof (line_at_unique _ _ _ _ R2 Lb) as ->.
  unfold try at 1. destruct (C35_get_line t rev c2 src l fuel H2 Src Fuel) as (c3 & r3 & E3 & H3 & R3). rewrite E3. cbn [bind]. destruct r3 as [ln|]; [|destruct R3 as [R3|R3]; [lia|now destruct Ref]].
  destruct R3 as (b' & e' & B1 & B2 & B3 & ->). pose proof (line_at_unique _ _ _ _ B1 Lb) as ->.
  assert (He' : o <= e' /\ e' <= length t). { destruct B2 as [B2|[B2 ->]]; [|lia]. destruct B2 as (B21 & B22 & B23). split; auto. pose proof (line_at_no_more t (l + 1) e' o ltac:(repeat split; auto) Ho ltac:(lia)). lia. }
  assert (C1 : is_char_boundary (slice t b e') (o - b) = true).
  { apply (cb_mid (firstn b t) (slice t b e') (skipn e' t)); [rewrite slice_length; lia|]. rewrite firstn_length, Nat.min_l by lia. replace (b + (o - b)) with o by lia.
    replace (firstn b t ++ slice t b e' ++ skipn e' t) with t; [now apply boundary_iff|]. rewrite <- (firstn_skipn b t) at 1. f_equal. unfold slice. rewrite <- (firstn_skipn (e' - b) (skipn b t)) at 1. f_equal. rewrite skipn_skipn. f_equal. lia. }
  unfold try at 1, or_panic, check. replace (b <=? o) with true by lia. rewrite str_slice_some by (auto using cb_0; lia). cbn [bind].
  exists c3, (l, count_utf16 (slice (slice t b e') 0 (o - b))). split; [reflexivity|]. split; auto. exists e, b. split; auto. split; [lia|]. split; auto. cbn [snd].
  replace (slice (slice t b e') 0 (o - b)) with (slice t b o); [apply units_utf8 in Un; now apply utf8_units|]. unfold slice. cbn [skipn]. rewrite Nat.sub_0_r, firstn_firstn. f_equal. lia.
Qed.
Lemma offset_of_position_ok c o p : cc_history t rev c -> position_of t o p -> exists c', offset_of_position fuel src p c = Some (c', Ok o) /\ cc_history t rev c'.
Proof.
  intros H P. pose proof (history_utf8 _ _ _ H) as U. destruct p as [l k]. destruct P as (e & b & L & Hbe & B & Un). cbn [fst snd] in *. assert (Lb : line_at t l b) by (destruct L as (? & _); auto). pose proof (line_at_bound _ _ _ Lb) as Hl.
  assert (Ho : o <= length t) by (destruct L as (_ & _ & ? & _); lia).
  unfold offset_of_position. cbn [fst snd]. unfold try at 1. destruct (C35_offset_of_line t rev c src l H Src) as (c2 & r2 & E2 & H2 & R2). rewrite E2. cbn [bind].
  destruct r2 as [lo|]; [|destruct R2 as [R2|R2]; [lia|now destruct Ref]]. destruct R2 as [R2|[R2 _]]; [|lia]. pose proof (line_at_unique _ _ _ _ R2 Lb) as ->.
  unfold try at 1. destruct (C35_get_line t rev c2 src l fuel H2 Src Fuel) as (c3 & r3 & E3 & H3 & R3). rewrite E3. cbn [bind]. destruct r3 as [ln|]; [|destruct R3 as [R3|R3]; [lia|now destruct Ref]].
  destruct R3 as (b' & e' & B1 & B2 & B3 & ->). pose proof (line_at_unique _ _ _ _ B1 Lb) as ->. pose proof (line_is_nl _ _ _ _ o L Hbe) as Nl.
  assert (He' : o <= e' /\ e' <= length t). { destruct B2 as [B2|[B2 ->]]; [|lia]. destruct B2 as (B21 & B22 & B23). split; auto. pose proof (line_at_no_more t (l + 1) e' o ltac:(repeat split; auto) Ho ltac:(lia)). lia. }
  assert (Be' : char_boundary t e') by (apply boundary_iff; auto; apply (line_at_boundary t (l + 1) e' U B2)). destruct (line_is_boundary _ _ _ _ U L) as [Bb _].
  assert (U1 : utf8 (slice t b o)) by (now apply units_utf8 in Un). assert (U2 : utf8 (slice t o e')) by (apply utf8_slice; auto; [lia| |]; now apply boundary_iff).
  destruct U1 as (cs1 & F1 & C1). destruct U2 as (cs2 & F2 & C2). assert (Ek : k = utf16_len cs1) by (apply units_count in Un; rewrite <- Un, C1; now apply count_utf16_chars).
  assert (E : slice t b e' = concat (cs1 ++ cs2)) by (rewrite concat_app, <- C1, <- C2; apply slice_split; lia).
  unfold try at 1, or_panic. rewrite E.
  destruct (utf16_to_base_ok (cs1 ++ cs2) (length (concat (cs1 ++ cs2))) [] k) as (x & y & E1 & E4 & E5 & E6); cbn [app]; auto; [now apply Forall_app|rewrite Ek; unfold utf16_len; rewrite map_app, list_sum_app; lia|].
  cbn [app concat length] in E4. change (utf16_len []) with 0 in E4. rewrite E4. cbn [bind]. exists c3. split; auto. unfold ret. do 3 f_equal.
  assert (X : x = cs1).
  { subst k. clear -E1 E5 E6 F1 F2. cbn [app] in E1. revert x E1 E5 E6. induction cs1 as [|a cs1 IH]; intros x E1 E5 E6.
    - destruct E6 as [E6|E6]; auto. cbn in E6. lia.
    - inversion F1 as [|? ? Fa F1']; subst. destruct x as [|a' x]; [change (utf16_len (a :: cs1)) with (utf16_units a + utf16_len cs1) in E5; unfold utf16_units in E5; change (utf16_len []) with 0 in E5; destruct (length a =? 4); lia|].
      cbn [app] in E1. injection E1 as <- E1. f_equal. change (utf16_len (a :: cs1)) with (utf16_units a + utf16_len cs1) in *. change (utf16_len (a :: x)) with (utf16_units a + utf16_len x) in E5. apply IH; auto; [lia|].
      destruct x as [|z x]; [now left|right]. destruct E6 as [E6|E6]; [discriminate|]. change (removelast (a :: z :: x)) with (a :: removelast (z :: x)) in E6. change (utf16_len (a :: removelast (z :: x))) with (utf16_units a + utf16_len (removelast (z :: x))) in E6. lia. }
  subst x. rewrite <- C1, slice_length by lia. lia.
Qed.
(** Beyond the end of the last line. *)
Lemma offset_beyond_last c o p b e k : cc_history t rev c -> line_is t (fst p) b e -> o = e -> fst p = newlines t -> units (slice t b e) k -> k < snd p ->
  exists c', offset_of_position fuel src p c = Some (c', Ok o) /\ cc_history t rev c'.
Proof.
  intros H L -> Hl Un Hk. pose proof (history_utf8 _ _ _ H) as U. destruct p as [l m]. cbn [fst snd] in *. assert (Lb : line_at t l b) by (destruct L as (? & _); auto).
  assert (Ee : e = length t). { pose proof L as (L1 & L2 & L3 & L4 & [L5|L5]); auto. exfalso. pose proof (line_is_nl _ _ _ _ e L ltac:(lia)) as Nl. assert (e < length t) by (apply nth_error_Some; congruence).
    assert (In 10 (slice t e (length t))). { apply nth_error_In with (n := 0). rewrite nth_slice. replace (0 <? length t - e) with true by lia. now rewrite Nat.add_0_r. } apply in_slice_nl in H1; try lia. rewrite firstn_all in H1. lia. }
  unfold offset_of_position. cbn [fst snd]. unfold try at 1. destruct (C35_offset_of_line t rev c src l H Src) as (c2 & r2 & E2 & H2 & R2). rewrite E2. cbn [bind].
  destruct r2 as [lo|]; [|destruct R2 as [R2|R2]; [lia|now destruct Ref]]. destruct R2 as [R2|[R2 _]]; [|lia]. pose proof (line_at_unique _ _ _ _ R2 Lb) as ->.
  unfold try at 1. destruct (C35_get_line t rev c2 src l fuel H2 Src Fuel) as (c3 & r3 & E3 & H3 & R3). rewrite E3. cbn [bind]. destruct r3 as [ln|]; [|destruct R3 as [R3|R3]; [lia|now destruct Ref]].
  destruct R3 as (b' & e' & B1 & B2 & B3 & ->). pose proof (line_at_unique _ _ _ _ B1 Lb) as ->.
  assert (e' = e). { destruct B2 as [B2|[_ B2]]; [|congruence]. apply line_at_bound in B2. lia. } subst e'.
  destruct Un as (cs & [F C] & Ek). unfold try at 1, or_panic. rewrite C. pose proof (utf16_to_base_over cs (length (concat cs)) [] m F ltac:(auto) ltac:(cbn [app]; lia)) as X. cbn [app concat length] in X. change (utf16_len []) with 0 in X. rewrite X. cbn [bind]. exists c3. split; auto. unfold ret. do 3 f_equal.
  rewrite <- C, slice_length by (destruct L as (_ & _ & ? & _); lia). destruct L as (_ & ? & _). lia.
Qed.
Lemma whole_ok c : cc_history t rev c -> exists c', whole fuel src c = Some (c', Ok [Change None t]) /\ cc_history t rev c'.
Proof.
  intros H. destruct (C35_get_document t rev c src fuel H Src Fuel) as (c' & r & E & H' & R). destruct r as [s|]; [|now destruct Ref]. subst s. exists c'. split; auto. unfold whole, try. rewrite E. reflexivity.
Qed.
End Ask.
Lemma get_position_err t rev fuel src c o : source_ok t rev src -> cc_history t rev c -> length t < o ->
  exists c', get_position_of_offset fuel src o c = Some (c', Err) /\ cc_history t rev c'.
Proof.
  intros Src H Ho. unfold get_position_of_offset, try at 1. destruct (C35_line_of_offset t rev c src o H Src) as (c1 & r1 & E1 & H1 & R1). rewrite E1. cbn [bind]. destruct r1 as [n|]; [lia|]. eauto.
Qed.

(** ** Positions in two texts *)
Lemma position_prefix t t' i p : utf8 t -> firstn i t' = firstn i t -> i <= length t' -> char_boundary t i -> position_of t' i p -> position_of t i p.
Proof.
  intros U E Hi B (e' & b & L & H & B' & Un). assert (Ht : i <= length t) by (apply boundary_iff in B; auto; now apply cb_le in B).
  destruct (position_exists t i U B) as ([l k] & P & El). destruct P as (e & b0 & L0 & H0 & _ & Un0). cbn [fst snd] in *. pose proof (line_is_nl _ _ _ _ i L H) as Nl. rewrite E in Nl.
  assert (Lb : line_at t (fst p) b) by (apply (line_at_keep t' t i); auto; [lia|destruct L as (? & _); auto]). rewrite <- Nl, <- El in Lb. assert (Eb : b = b0) by (apply (line_at_unique t l); auto; destruct L0 as (? & _); auto). subst b0.
  exists e, b. rewrite <- Nl, <- El. split; auto. split; auto. split; auto. replace (slice t b i) with (slice t' b i); auto. unfold slice. rewrite <- !skipn_firstn_comm. now rewrite E.
Qed.
Lemma position_extend t a e l k : utf8 t -> position_of t a (l, k) -> char_boundary t e -> a <= e -> ~ In 10 (slice t a e) -> position_of t e (l, k + count_utf16 (slice t a e)).
Proof.
  intros U (z & b & L & H & B & Un) Be Hae N. cbn [fst snd] in *. assert (He : e <= length t) by (apply boundary_iff in Be; auto; now apply cb_le in Be).
  assert (Hz : e <= z). { destruct L as (_ & _ & L3 & _ & [->|L4]); auto. destruct (Nat.le_gt_cases e z); auto. exfalso. apply N. apply nth_error_In with (n := z - a). rewrite nth_slice. replace (z - a <? e - a) with true by lia. now replace (a + (z - a)) with z by lia. }
  exists z, b. cbn [fst snd]. split; auto. split; [lia|]. split; auto. apply units_iff. rewrite (slice_split t b a e) by lia. rewrite count_utf16_app. apply units_iff in Un as [U1 ->]. split; auto. apply RopeProofs.utf8_app; auto. apply utf8_slice; auto; now apply boundary_iff.
Qed.
Lemma position_denotes t o p : position_of t o p -> denotes t p o. Proof. now left. Qed.

(** ** Simple deltas *)
Definition cut (d : delta nat) (i : nat) : Prop := i = 0 \/ i = base_len d \/ exists b e, In (Copy b e) (els d) /\ (i = b \/ i = e).
Lemma cut_boundary t d t' i : utf8 t -> edit_ok t d t' -> cut d i -> char_boundary t i.
Proof.
  intros U (_ & Hb & _ & _ & F) [->|[->|(b & e & I & [->| ->])]]; [apply boundary_iff; auto; apply cb_0|rewrite Hb; apply boundary_iff; auto; apply cb_len| |]; rewrite Forall_forall in F; specialize (F _ I); cbn in F; tauto.
Qed.
Lemma simple_insert_ok d t t' s : as_simple_insert d = Some s -> base_len d = length t -> apply d t = Some t' ->
  exists i n, summary d = ((i, i), n) /\ i <= length t /\ t' = firstn i t ++ s ++ skipn i t /\ cut d i.
Proof.
  intros H Hb Ha. unfold as_simple_insert in H. unfold apply in Ha. unfold summary, cut. destruct d as [l bl]. cbn [els base_len] in *. subst bl.
  assert (Sl : forall b, slice t b (length t) = skipn b t) by (intros b; unfold slice; apply firstn_all2; rewrite skipn_length; lia).
  assert (S0 : forall e, slice t 0 e = firstn e t) by (intros e; unfold slice; now rewrite Nat.sub_0_r).
  destruct l as [|[b e|x] l]; [discriminate| |].
  - destruct (b =? 0) eqn:E0; [|discriminate]. apply Nat.eqb_eq in E0. subst b. destruct l as [|[b1 e1|x] l]; try discriminate. destruct l as [|[b1 e1|x1] l]; [| |discriminate].
    + destruct (e =? length t) eqn:E; [|discriminate]. apply Nat.eqb_eq in E. subst e. injection H as ->. cbn [apply_els] in Ha. replace ((0 <=? length t) && (length t <=? length t)) with true in Ha by lia. injection Ha as <-. exists (length t). eexists. cbn [rev app]. split; [reflexivity|]. split; auto. rewrite S0, skipn_all. split; [now rewrite app_nil_r|]. auto.
    + destruct ((e =? b1) && (e1 =? length t)) eqn:E; [|discriminate]. cbn [andb] in H. destruct l; [|discriminate]. injection H as ->. assert (b1 = e /\ e1 = length t) as [-> ->] by lia. cbn [apply_els] in Ha. destruct ((0 <=? e) && (e <=? length t)) eqn:Ee; [|discriminate]. replace ((e <=? length t) && (length t <=? length t)) with true in Ha by lia. injection Ha as <-.
      exists e. eexists. cbn [rev app]. rewrite Nat.eqb_refl. split; [reflexivity|]. split; [lia|]. rewrite S0, Sl, app_nil_r. split; auto. right. right. exists 0, e. split; [now left|auto].
  - destruct l as [|[b1 e1|x1] l]; [| |discriminate].
    + destruct (0 =? length t) eqn:E; [|discriminate]. injection H as ->. cbn [apply_els] in Ha. injection Ha as <-. exists 0. eexists. cbn [rev app]. replace (length t) with 0 by lia. split; [reflexivity|]. split; [lia|]. destruct t; [|discriminate]. cbn. split; auto.
    + destruct ((0 =? b1) && (e1 =? length t)) eqn:E; [|discriminate]. cbn [andb] in H. destruct l; [|discriminate]. injection H as ->. assert (b1 = 0 /\ e1 = length t) as [-> ->] by lia. cbn [apply_els] in Ha. replace ((0 <=? length t) && (length t <=? length t)) with true in Ha by lia. injection Ha as <-.
      exists 0. eexists. cbn [rev app]. rewrite Nat.eqb_refl. split; [reflexivity|]. split; [lia|]. rewrite Sl, app_nil_r. cbn. split; auto.
Qed.
Lemma simple_delete_ok d t t' : is_simple_delete d = true -> base_len d = length t -> wf_delta d -> apply d t = Some t' ->
  as_simple_insert d = None /\ exists a e n, summary d = ((a, e), n) /\ a < e /\ e <= length t /\ t' = firstn a t ++ skipn e t /\ cut d a /\ cut d e.
Proof.
  intros H Hb Hw Ha. assert (N : as_simple_insert d = None) by (unfold as_simple_insert, is_simple_delete in *; destruct (els d) as [|[b e|x] [|[b1 e1|x1] l]]; auto; try discriminate; try (destruct (b =? 0); auto; try discriminate); destruct (_ =? _); cbn in H; discriminate || auto).
  split; auto. destruct (summary d) as [[a e] n] eqn:Es. exists a, e, n. split; auto. destruct (C07_summary d t a e n Hw Hb Es) as (Hae & He & mid & Hm & Ha'). rewrite Ha in Ha'. injection Ha' as ->.
  assert (K : n = 0 /\ a < e /\ cut d a /\ cut d e).
  { unfold is_simple_delete, summary, cut in *. destruct d as [l bl]. cbn [els base_len] in *. destruct l as [|[b x|x] l]; [cbn in Es; injection Es as <- <- <-; repeat split; auto; lia| |discriminate].
    destruct (b =? 0) eqn:E0.
    - apply Nat.eqb_eq in E0. subst b. destruct l as [|[b1 e1|x1] l]; [cbn in Es; injection Es as <- <- <-; split; auto; split; [lia|]; split; [right; right; exists 0, x; split; [now left|auto]|auto]| |discriminate].
      destruct l; [|discriminate]. cbn [andb] in H. assert (e1 = bl /\ x < b1) as [-> Hx] by lia. cbn [rev app] in Es. rewrite Nat.eqb_refl in Es. cbn in Es. injection Es as <- <- <-. split; auto. split; auto. split; right; right; [exists 0, x; split; [now left|auto]|exists b1, bl; split; [right; now left|auto]].
    - destruct l; [|lia]. assert (x = bl) as -> by lia. destruct b as [|b]; [discriminate|]. cbn [rev app] in Es. rewrite Nat.eqb_refl in Es. cbn in Es. injection Es as <- <- <-. split; auto. split; [lia|]. split; [auto|]. right. right. exists (S b), bl. split; [now left|auto]. }
  destruct K as (-> & K1 & K2 & K3). destruct mid; [|discriminate]. cbn [app]. auto 6.
Qed.
