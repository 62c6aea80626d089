(** Proofs about the caches of plugin-lib. *)
From Coq Require Import List Arith Bool Lia ZifyBool.
From Verif Require Import Base ListLib MultisetProofs RopeSpec TreeModel TreeProofs RopeModel RopeProofs RopeIterModel RopeIterProofs RopeMetric
  DeltaModel DeltaSpec DeltaProofs2 PluginCacheModel PluginCacheSpec.
From Verif Require BreaksModel.
Import ListNotations.
Local Notation concat := List.concat.
Local Notation bsearch := BreaksModel.bsearch.

(** ** Newlines *)
Lemma nlf_shift s : forall b, newline_offsets_from b s = map (fun x => b + x) (newline_offsets s).
Proof.
  unfold newline_offsets. induction s as [|c s IH]; intros b; cbn [newline_offsets_from map]; auto.
  rewrite (IH (S b)), (IH 1). destruct (c =? NL); cbn [map]; rewrite ?map_map; [f_equal; [lia|]|]; apply map_ext; lia.
Qed.
Lemma nlo_app a b : newline_offsets (a ++ b) = newline_offsets a ++ map (fun x => length a + x) (newline_offsets b).
Proof.
  unfold newline_offsets. induction a as [|c a IH]; cbn [app newline_offsets_from length Nat.add].
  - symmetry. apply map_id.
  - rewrite (nlf_shift (a ++ b)), (nlf_shift a). unfold newline_offsets. rewrite IH, map_app, map_map.
    destruct (c =? NL); cbn [app]; [f_equal|]; f_equal; apply map_ext; lia.
Qed.
Lemma nlo_bound s x : In x (newline_offsets s) -> 0 < x <= length s.
Proof.
  revert x. unfold newline_offsets. induction s as [|c s IH]; intros x; cbn [newline_offsets_from length]; [intros []|].
  rewrite nlf_shift. unfold newline_offsets. destruct (c =? NL); cbn [In]; rewrite in_map_iff.
  - intros [<-|(y & <- & Hy)]; [lia|]. apply IH in Hy. lia.
  - intros (y & <- & Hy). apply IH in Hy. lia.
Qed.
Lemma nlo_length s : length (newline_offsets s) = newlines s.
Proof.
  rewrite newlines_eq. unfold newline_offsets. induction s as [|c s IH]; cbn [newline_offsets_from count_newlines length]; auto.
  rewrite nlf_shift. destruct (c =? NL); cbn [length]; rewrite map_length; unfold newline_offsets; lia.
Qed.
Lemma nlo_In s x : In x (newline_offsets s) <-> exists i, x = i + 1 /\ nth_error s i = Some 10.
Proof.
  unfold newline_offsets. revert x. induction s as [|c s IH]; intros x; cbn [newline_offsets_from].
  - split; [intros []|]. intros (i & _ & H). destruct i; discriminate.
  - rewrite nlf_shift. unfold newline_offsets. destruct (Nat.eqb_spec c NL) as [->|Hc]; cbn [In]; rewrite in_map_iff.
    + split.
      * intros [<-|(y & <- & Hy)]; [exists 0; auto|]. apply IH in Hy as (i & -> & Hi). exists (S i). split; [lia|auto].
      * intros (i & -> & Hi). destruct i as [|i]; [left; lia|]. right. exists (i + 1). split; [lia|]. apply IH. eauto.
    + split.
      * intros (y & <- & Hy). apply IH in Hy as (i & -> & Hi). exists (S i). split; [lia|auto].
      * intros (i & -> & Hi). destruct i as [|i]; [cbn in Hi; unfold NL in Hc; congruence|]. exists (i + 1). split; [lia|]. apply IH. eauto.
Qed.
Lemma newlines_app a b : newlines (a ++ b) = newlines a + newlines b.
Proof. unfold newlines. apply count_occ_app. Qed.

(** Strictly increasing lists. *)
Fixpoint incr (l : list nat) : Prop :=
  match l with
  | [] => True
  | x :: l' => Forall (fun y => x < y) l' /\ incr l'
  end.
Lemma incr_app a b : incr (a ++ b) <-> incr a /\ incr b /\ forall x y, In x a -> In y b -> x < y.
Proof.
  induction a as [|z a IH]; cbn [app incr In]; [intuition|]. rewrite IH, Forall_app, !Forall_forall. split.
  - intros ((H1 & H2) & H3 & H4 & H5). repeat split; auto. intros x y [<-|Hx] Hy; auto.
  - intros ((H1 & H2) & H3 & H4). repeat split; auto.
Qed.
Lemma incr_map f l : (forall x y, x < y -> f x < f y) -> incr l -> incr (map f l).
Proof.
  intros Hf. induction l as [|x l IH]; cbn [map incr]; auto. intros [H1 H2]. split; auto.
  rewrite Forall_forall in *. intros y Hy. apply in_map_iff in Hy as (z & <- & Hz). auto.
Qed.
Lemma nlo_incr s : incr (newline_offsets s).
Proof.
  unfold newline_offsets. induction s as [|c s IH]; cbn [newline_offsets_from]; [exact I|].
  rewrite nlf_shift. unfold newline_offsets. assert (incr (map (fun x => 1 + x) (newline_offsets_from 0 s))) by (apply incr_map; auto; lia).
  destruct (c =? NL); auto. cbn [incr]. split; auto. apply Forall_forall. intros y Hy. apply in_map_iff in Hy as (z & <- & Hz).
  apply nlo_bound in Hz. lia.
Qed.
Lemma incr_nth l : incr l -> forall i j x y, i < j -> nth_error l i = Some x -> nth_error l j = Some y -> x < y.
Proof.
  induction l as [|z l IH]; intros Hi i j x y Hij Hx Hy; [destruct i; discriminate|]. destruct Hi as [H1 H2].
  destruct j as [|j]; [lia|]. destruct i as [|i]; cbn [nth_error] in *.
  - injection Hx as <-. apply nth_error_In in Hy. rewrite Forall_forall in H1. auto.
  - eapply (IH H2 i j); eauto. lia.
Qed.
Lemma incr_filter f l : incr l -> incr (filter f l).
Proof.
  induction l as [|x l IH]; cbn [filter incr]; auto. intros [H1 H2]. destruct (f x); auto. cbn [incr]. split; auto.
  apply Forall_forall. intros y Hy. apply filter_In in Hy as [Hy _]. rewrite Forall_forall in H1. auto.
Qed.

(** Binary search. *)
Lemma bs_split l1 l2 x : (forall y, In y l1 -> y < x) -> (forall y, In y l2 -> x < y) -> bsearch (l1 ++ l2) x = (false, length l1).
Proof.
  induction l1 as [|z l1 IH]; cbn [app In length]; intros H1 H2.
  - destruct l2 as [|y l2]; auto. cbn [BreaksModel.bsearch]. specialize (H2 y (or_introl eq_refl)).
    destruct (Nat.eqb_spec y x); [lia|]. destruct (Nat.ltb_spec x y); [auto|lia].
  - cbn [BreaksModel.bsearch]. specialize (H1 z (or_introl eq_refl)) as Hz. destruct (Nat.eqb_spec z x); [lia|].
    destruct (Nat.ltb_spec x z); [lia|]. rewrite IH; auto.
Qed.
Lemma bs_found l1 l2 x : (forall y, In y l1 -> y < x) -> bsearch (l1 ++ x :: l2) x = (true, length l1).
Proof.
  induction l1 as [|z l1 IH]; cbn [app In length]; intros H1; cbn [BreaksModel.bsearch].
  - now rewrite Nat.eqb_refl.
  - specialize (H1 z (or_introl eq_refl)) as Hz. destruct (Nat.eqb_spec z x); [lia|].
    destruct (Nat.ltb_spec x z); [lia|]. rewrite IH; auto.
Qed.
(** The general shape of an answer. *)
Lemma bs_cases l x : incr l ->
  (exists l1 l2, l = l1 ++ x :: l2 /\ bsearch l x = (true, length l1) /\ (forall y, In y l1 -> y < x) /\ (forall y, In y l2 -> x < y)) \/
  (exists l1 l2, l = l1 ++ l2 /\ bsearch l x = (false, length l1) /\ (forall y, In y l1 -> y < x) /\ (forall y, In y l2 -> x < y)).
Proof.
  induction l as [|z l IH]; intros Hi.
  - right. exists [], []. cbn. intuition.
  - destruct Hi as [H1 H2]. rewrite Forall_forall in H1. cbn [BreaksModel.bsearch]. destruct (Nat.eqb_spec z x) as [->|Hn].
    + left. exists [], l. cbn. intuition.
    + destruct (Nat.ltb_spec x z).
      * right. exists [], (z :: l). split; [auto|]. split; [auto|]. split; [intros y []|]. intros y [<-|Hy]; auto. specialize (H1 _ Hy). lia.
      * destruct (IH H2) as [(l1 & l2 & -> & E & A & B)|(l1 & l2 & -> & E & A & B)]; [left|right]; exists (z :: l1), l2; rewrite E; cbn [app length In];
          (split; [auto|]); (split; [auto|]); (split; [|auto]); intros y [<-|Hy]; auto; lia.
Qed.
(** The number of elements up to [x]. *)
Definition bs_upto (l : list nat) (x : nat) : nat := match bsearch l x with (true, ix) => ix + 1 | (false, ix) => ix end.
Lemma bs_upto_split l1 l2 x : incr l1 -> (forall y, In y l1 -> y <= x) -> (forall y, In y l2 -> x < y) -> bs_upto (l1 ++ l2) x = length l1.
Proof.
  intros Hi H1 H2. unfold bs_upto. destruct (bs_cases l1 x Hi) as [(a & b & -> & E & A & B)|(a & b & -> & E & A & B)].
  - assert (b = []) as ->. { destruct b as [|y b]; auto. specialize (B y (or_introl eq_refl)). specialize (H1 y). rewrite in_app_iff in H1. cbn in H1. lia. }
    rewrite <- app_assoc. cbn [app]. rewrite bs_found by auto. rewrite app_length. cbn. lia.
  - assert (b = []) as ->. { destruct b as [|y b]; auto. specialize (B y (or_introl eq_refl)). specialize (H1 y). rewrite in_app_iff in H1. cbn in H1. lia. }
    rewrite app_nil_r in *. now rewrite bs_split.
Qed.

(** ** Line starts *)
Lemma newlines_firstn_le s k : newlines (firstn k s) <= newlines s.
Proof. rewrite <- (firstn_skipn k s) at 2. rewrite newlines_app. lia. Qed.

Lemma line_at_nth s k x : nth_error (newline_offsets s) k = Some x -> line_at s (k + 1) x.
Proof.
  revert k x. induction s as [|c s IH] using rev_ind; intros k x H; [destruct k; discriminate|].
  rewrite nlo_app in H. unfold newline_offsets at 2 in H. cbn [newline_offsets_from] in H.
  destruct (Nat.lt_ge_cases k (length (newline_offsets s))) as [Hk|Hk].
  - rewrite nth_error_app1 in H by auto. apply IH in H as (H1 & H2 & H3). split; [rewrite app_length; lia|].
    rewrite firstn_app. replace (x - length s) with 0 by lia. rewrite firstn_O, app_nil_r. split; auto.
    destruct H3 as [H3|H3]; auto. right. rewrite nth_error_app1; auto. apply nth_error_Some. congruence.
  - rewrite nth_error_app2 in H by auto. destruct (Nat.eqb_spec c NL) as [->|]; [|destruct (k - _); discriminate].
    cbn [map] in H. destruct (k - length (newline_offsets s)) as [|m] eqn:E; [|destruct m; discriminate].
    cbn in H. injection H as <-. rewrite nlo_length in *. split; [rewrite app_length; cbn; lia|].
    rewrite firstn_all2 by (rewrite app_length; cbn; lia). split; [rewrite newlines_app; cbn; lia|].
    right. replace (length s + 1 - 1) with (length s) by lia. rewrite nth_error_app2, Nat.sub_diag by auto. reflexivity.
Qed.
(** A line start in the middle of a text. *)
Lemma line_at_shift p s q n x : 0 < x -> line_at s n x -> line_at (p ++ s ++ q) (newlines p + n) (length p + x).
Proof.
  intros H0 (H1 & H2 & H3). split; [rewrite !app_length; lia|]. split.
  - rewrite firstn_app. rewrite firstn_all2 by lia. replace (length p + x - length p) with x by lia.
    rewrite newlines_app, firstn_app. replace (x - length s) with 0 by lia. rewrite firstn_O, app_nil_r. lia.
  - right. destruct H3 as [->|H3]; [lia|]. rewrite nth_error_app2 by lia. replace (length p + x - 1 - length p) with (x - 1) by lia.
    rewrite nth_error_app1; auto. apply nth_error_Some. congruence.
Qed.
Lemma line_at_unique t n o o' : line_at t n o -> line_at t n o' -> o = o'.
Proof. exact (line_start_unique t n o o'). Qed.
Lemma line_at_bound t n o : line_at t n o -> n <= newlines t.
Proof. intros (_ & <- & _). apply newlines_firstn_le. Qed.
Lemma line_at_0 t : line_at t 0 0.
Proof. split; [lia|]. split; [reflexivity|auto]. Qed.
Lemma line_at_exists t n : n <= newlines t -> exists o, line_at t n o.
Proof.
  intros H. destruct n as [|n]; [exists 0; apply line_at_0|].
  destruct (nth_error (newline_offsets t) n) as [x|] eqn:E.
  - exists x. replace (S n) with (n + 1) by lia. now apply line_at_nth.
  - apply nth_error_None in E. rewrite nlo_length in E. lia.
Qed.
(** Text edited only after a line start keeps it. *)
Lemma line_at_prefix t p q n o : t = p ++ q -> o <= length p -> (line_at t n o <-> line_at p n o).
Proof.
  intros -> Ho. unfold line_at. rewrite firstn_app. replace (o - length p) with 0 by lia. rewrite firstn_O, app_nil_r, app_length.
  assert (G : o = 0 \/ nth_error (p ++ q) (o - 1) = nth_error p (o - 1)).
  { destruct (Nat.eq_dec o 0); auto. right. apply nth_error_app1. lia. }
  destruct G as [G|G]; [subst o|rewrite G]; intuition lia.
Qed.
Lemma line_at_boundary t n o : utf8 t -> line_or_end t n o -> is_char_boundary t o = true.
Proof.
  intros U [(H1 & _ & [->|H3])|[_ ->]]; [apply cb_0| |apply cb_len].
  destruct o as [|o]; [apply cb_0|]. cbn [Nat.sub] in H3. rewrite Nat.sub_0_r in H3. now apply cb_after_nl.
Qed.

(** ** The invariant *)
Record inv (t : list nat) (rev : nat) (p : list nat) (c : chunk_cache) (q : list nat) : Prop := {
  i_utf8 : utf8 t;
  i_text : t = p ++ cc_contents c ++ q;
  i_off : cc_offset c = length p;
  i_cb1 : is_char_boundary t (length p) = true;
  i_cb2 : is_char_boundary t (length p + length (cc_contents c)) = true;
  i_lines : cc_line_offsets c = newline_offsets (cc_contents c);
  i_first : cc_first_line c = newlines p;
  i_start : exists b, line_at t (newlines p) b /\ length p = b + cc_first_line_offset c;
  i_size : cc_buf_size c = length t;
  i_num : cc_num_lines c = newlines t + 1;
  i_rev : cc_rev c = rev }.

(** Boundaries of the middle part of a text. *)
Lemma cb_mid p s q i : i <= length s -> is_char_boundary (p ++ s ++ q) (length p + i) = true -> is_char_boundary s i = true.
Proof.
  intros Hi H. destruct (Nat.eq_dec i 0) as [->|Hz]; [apply cb_0|]. rewrite cb_shift in H by lia.
  destruct (Nat.eq_dec i (length s)) as [->|]; [apply cb_len|]. rewrite cb_left in H by lia. auto.
Qed.
Lemma cb_mid_conv p s q i : i <= length s -> is_char_boundary (p ++ s ++ q) (length p) = true ->
  is_char_boundary (p ++ s ++ q) (length p + length s) = true ->
  is_char_boundary s i = true -> is_char_boundary (p ++ s ++ q) (length p + i) = true.
Proof.
  intros Hi H1 H2 H. destruct (Nat.eq_dec i 0) as [->|Hz]; [now rewrite Nat.add_0_r|].
  destruct (Nat.eq_dec i (length s)) as [->|]; auto. rewrite cb_shift, cb_left by lia. auto.
Qed.
Lemma slice_mid {A} (p s q : list A) b e : b <= e -> e <= length s -> slice (p ++ s ++ q) (length p + b) (length p + e) = slice s b e.
Proof.
  intros Hb He. unfold slice. replace (length p + e - (length p + b)) with (e - b) by lia.
  rewrite <- skipn_skipn, skipn_app_exact by auto. rewrite skipn_app. replace (b - length s) with 0 by lia. cbn [skipn].
  rewrite firstn_app, skipn_length. replace (e - b - (length s - b)) with 0 by lia. now rewrite firstn_O, app_nil_r.
Qed.

Lemma inv_agrees t rev p c q : inv t rev p c q -> agrees t rev c.
Proof.
  intros [U T O C1 C2 L F (b & B1 & B2) Sz N R]. unfold agrees. rewrite O, F, L.
  split; [rewrite T, !app_length; lia|]. split.
  { rewrite T. replace (length p) with (length p + 0) at 1 by lia. rewrite slice_mid by lia.
    unfold slice. cbn [skipn]. now rewrite Nat.sub_0_r, firstn_all. }
  split; [apply nlo_In|]. split; [apply incr_nth, nlo_incr|].
  split; [rewrite T, firstn_app_exact; auto|]. split; [eauto|auto].
Qed.

Lemma inv_new t rev : utf8 t -> inv t rev [] (cc_new (length t) rev (newlines t + 1)) t.
Proof.
  intros U. constructor; cbn; auto. exists 0. split; [apply line_at_0|auto].
Qed.
Lemma inv_clear t rev p c q : inv t rev p c q -> inv t rev [] (cc_clear c) t.
Proof.
  intros [U T O C1 C2 L F B Sz N R]. constructor; cbn; auto. exists 0. split; [apply line_at_0|auto].
Qed.

(** The cache holds what the source answered. *)
Lemma inv_reset t rev p c q start u r : inv t rev p c q -> answers t start u r ->
  exists p' q', inv t rev p' (reset_chunk c r) q' /\ p' = firstn (r_offset r) t.
Proof.
  intros [U T O C1 C2 L F B Sz N R] (_ & A1 & (e & A2 & A3 & A4) & A5 & A6 & (b & A7 & A8)).
  exists (firstn (r_offset r) t), (skipn e t). split; auto.
  assert (Hl : length (firstn (r_offset r) t) = r_offset r) by (apply firstn_length_le; lia).
  assert (Hc : length (r_chunk r) = e - r_offset r) by (rewrite A4; unfold slice; rewrite firstn_length_le; [lia|rewrite skipn_length; lia]).
  constructor; cbn; auto.
  - rewrite A4. unfold slice. rewrite <- (firstn_skipn (r_offset r) t) at 1. f_equal.
    rewrite <- (firstn_skipn (e - r_offset r) (skipn (r_offset r) t)) at 1. f_equal. rewrite skipn_skipn. f_equal. lia.
  - rewrite Hl. now apply boundary_iff.
  - rewrite Hl, Hc. replace (r_offset r + (e - r_offset r)) with e by lia. now apply boundary_iff.
  - exists b. rewrite A6 in A7. rewrite Hl. auto.
Qed.
(** Appending what comes next. *)
Lemma inv_append t rev p c q r : inv t rev p c q -> answers t (length p + length (cc_contents c)) Utf8 r ->
  exists q', inv t rev p (append_chunk c r) q' /\ (q <> [] -> r_chunk r <> []).
Proof.
  intros [U T O C1 C2 L F B Sz N R] ((A0 & A1 & A1') & _ & (e & A2 & A3 & A4) & A5 & A6 & _).
  assert (Ho : r_offset r = length p + length (cc_contents c)).
  { destruct (Nat.eq_dec (r_offset r) (length p + length (cc_contents c))); auto. exfalso.
    apply (A1' (length p + length (cc_contents c))); [lia|]. now apply boundary_iff. }
  rewrite Ho in *. exists (skipn e t).
  assert (Hq : q = r_chunk r ++ skipn e t).
  { transitivity (skipn (length p + length (cc_contents c)) t).
    - rewrite T, app_assoc, skipn_app_exact; auto. now rewrite app_length.
    - rewrite A4. unfold slice. rewrite <- (firstn_skipn (e - (length p + length (cc_contents c))) (skipn _ t)) at 1. f_equal. rewrite skipn_skipn. f_equal. lia. }
  split.
  2: { intros Hn. apply A5. rewrite T, !app_length. destruct q; [congruence|cbn; lia]. }
  constructor; cbn; auto.
  - rewrite T, Hq at 1. now rewrite !app_assoc.
  - rewrite app_length. replace (length p + (length (cc_contents c) + length (r_chunk r))) with e; [now apply boundary_iff|].
    rewrite A4. unfold slice. rewrite firstn_length_le; [lia|rewrite skipn_length; lia].
Qed.

(** [clear_up_to] throws away the front. *)
Lemma nlo_split a b : newline_offsets (a ++ b) = newline_offsets a ++ map (fun x => length a + x) (newline_offsets b) /\
  (forall y, In y (newline_offsets a) -> y <= length a) /\ (forall y, In y (map (fun x => length a + x) (newline_offsets b)) -> length a < y).
Proof.
  split; [apply nlo_app|]. split.
  - intros y Hy. apply nlo_bound in Hy. lia.
  - intros y Hy. apply in_map_iff in Hy as (x & <- & Hx). apply nlo_bound in Hx. lia.
Qed.
Lemma filter_all {A} (f : A -> bool) l : (forall x, In x l -> f x = true) -> filter f l = l.
Proof. induction l as [|x l IH]; cbn [filter In]; intros H; auto. rewrite (H x) by auto. f_equal. auto. Qed.
Lemma filter_none {A} (f : A -> bool) l : (forall x, In x l -> f x = false) -> filter f l = [].
Proof. induction l as [|x l IH]; cbn [filter In]; intros H; auto. rewrite (H x) by auto. auto. Qed.

Lemma clear_up_to_ok t rev p c q o : inv t rev p c q -> o <= length (cc_contents c) ->
  is_char_boundary (cc_contents c) o = true ->
  exists c', clear_up_to c o = Some c' /\ inv t rev (p ++ firstn o (cc_contents c)) c' q /\
    cc_contents c' = skipn o (cc_contents c).
Proof.
  intros [U T O C1 C2 L F B Sz N R] Ho Hb. unfold clear_up_to. rewrite (proj2 (Nat.leb_le _ _) Ho). cbn [check].
  rewrite str_slice_some by auto using cb_len. cbn [bind].
  set (a := firstn o (cc_contents c)) in *. set (b := skipn o (cc_contents c)) in *.
  assert (Es : slice (cc_contents c) o (length (cc_contents c)) = b) by (unfold slice; apply firstn_all2; unfold b; rewrite skipn_length; lia).
  assert (Eab : cc_contents c = a ++ b) by (symmetry; apply firstn_skipn).
  assert (La : length a = o) by (apply firstn_length_le; auto).
  destruct (nlo_split a b) as (E1 & E2 & E3). rewrite La in *.
  assert (Ef : map (fun i => i - o) (filter (fun i => o <? i) (newline_offsets a ++ map (fun x => o + x) (newline_offsets b))) = newline_offsets b).
  { rewrite filter_app, filter_none, filter_all; cbn [app].
    - rewrite map_map. transitivity (map (fun x => x) (newline_offsets b)); [apply map_ext; lia|apply map_id].
    - intros x Hx. apply E3 in Hx. lia.
    - intros x Hx. apply E2 in Hx. lia. }
  assert (G : forall nl nlo0, nl = newlines p + newlines a -> (exists s, line_at t nl s /\ length p + o = s + nlo0) ->
     inv t rev (p ++ a) (CC (cc_offset c + o) b nl nlo0 (newline_offsets b) (cc_buf_size c) (cc_num_lines c) (cc_rev c)) q).
  { intros nl nlo0 Hnl (s & Hs1 & Hs2). constructor; cbn; auto.
    - rewrite T, Eab. now rewrite !app_assoc.
    - rewrite app_length. lia.
    - rewrite app_length, La. rewrite T. rewrite T in C1, C2. apply cb_mid_conv; auto.
    - rewrite app_length, La. replace (length p + o + length b) with (length p + length (cc_contents c)); auto. rewrite Eab, app_length. lia.
    - rewrite newlines_app. auto.
    - exists s. rewrite newlines_app, app_length, La, <- Hnl. auto. }
  rewrite L, Eab, E1, Ef. rewrite <- Eab, Es.
  destruct (bs_cases (newline_offsets a) o (nlo_incr a)) as [(l1 & l2 & Ea & E & A1 & A2)|(l1 & l2 & Ea & E & A1 & A2)].
  - assert (l2 = []) as ->. { destruct l2 as [|y l2]; auto. specialize (A2 y (or_introl eq_refl)). specialize (E2 y). rewrite Ea, in_app_iff in E2. cbn in E2. lia. }
    rewrite Ea, <- app_assoc. cbn [app]. rewrite bs_found by auto. cbn [bind]. eexists. split; [reflexivity|].
    split; [|reflexivity]. assert (Hn : newlines a = length l1 + 1) by (rewrite <- nlo_length, Ea, app_length; cbn; lia).
    apply G; [lia|]. exists (length p + o). split; [|lia].
    assert (Hx : line_at a (length l1 + 1) o). { apply line_at_nth. rewrite Ea, nth_error_app2, Nat.sub_diag by auto. reflexivity. }
    assert (0 < o) by (destruct (nlo_bound a o); [rewrite Ea, in_app_iff; cbn; auto|lia]).
    rewrite T, Eab, <- app_assoc. rewrite F. replace (newlines p + length l1 + 1) with (newlines p + (length l1 + 1)) by lia. apply line_at_shift; auto.
  - assert (l2 = []) as ->. { destruct l2 as [|y l2]; auto. specialize (A2 y (or_introl eq_refl)). specialize (E2 y). rewrite Ea, in_app_iff in E2. cbn in E2. lia. }
    rewrite app_nil_r in Ea. rewrite Ea, bs_split by auto. assert (Hn : newlines a = length l1) by now rewrite <- nlo_length, Ea.
    induction l1 as [|z l1' _] using rev_ind.
    + cbn [length bind]. eexists. split; [reflexivity|]. split; [|reflexivity]. cbn in Hn. apply G; [lia|].
      destruct B as (s & B1 & B2). exists s. rewrite F. split; [auto|lia].
    + rewrite app_length. cbn [length]. rewrite Nat.add_1_r.
      assert (Ez : nth_error (newline_offsets a) (length l1') = Some z) by (rewrite Ea, nth_error_app2, Nat.sub_diag; auto).
      rewrite nth_error_app1 by (rewrite app_length; cbn; lia). rewrite <- Ea, Ez. cbn [bind].
      assert (z < o) by (apply A1; rewrite in_app_iff; cbn; auto). rewrite (proj2 (Nat.leb_le z o)) by lia. cbn [check bind].
      eexists. split; [reflexivity|]. split; [|reflexivity]. rewrite app_length in Hn; cbn in Hn. apply G; [lia|]. exists (length p + z). split; [|lia].
      apply line_at_nth in Ez as Hx. assert (0 < z) by (destruct (nlo_bound a z); [now apply nth_error_In in Ez|lia]).
      rewrite F, T, Eab, <- app_assoc. replace (newlines p + S (length l1')) with (newlines p + (length l1' + 1)) by lia. apply line_at_shift; auto.
Qed.

(** [cached_offset_of_line] knows the lines that start in the chunk, the one the chunk starts
    in, and the end of the text if the chunk reaches it. *)
Lemma line_at_no_more t n x o : line_at t n x -> o <= length t -> newlines (firstn o t) < n -> o < x.
Proof.
  intros (H1 & H2 & H3) Ho Hn. destruct (Nat.lt_ge_cases o x); auto. exfalso.
  assert (newlines (firstn x t) <= newlines (firstn o t)); [|lia].
  replace (firstn x t) with (firstn x (firstn o t)) by (rewrite firstn_firstn; f_equal; lia). apply newlines_firstn_le.
Qed.
Lemma cached_ok t rev p c q n : inv t rev p c q ->
  exists x, cached_offset_of_line c n = Some x /\
    match x with
    | Some o => line_or_end t n o /\ o <= length p + length (cc_contents c)
    | None => newlines t + 1 < n \/ n < newlines p \/ (newlines p + newlines (cc_contents c) < n /\ q <> [])
    end.
Proof.
  intros [U T O C1 C2 L F (b & B1 & B2) Sz N R]. unfold cached_offset_of_line. rewrite F, L, O, N, Sz, nlo_length.
  destruct (Nat.ltb_spec n (newlines p)); [exists None; split; auto|].
  destruct (Nat.eqb_spec (n - newlines p) 0).
  { rewrite (proj2 (Nat.leb_le _ _)) by lia. cbn [check]. eexists. split; [reflexivity|]. cbn.
    replace n with (newlines p) by lia. replace (length p - cc_first_line_offset c) with b by lia. split; [now left|lia]. }
  destruct (Nat.leb_spec (n - newlines p) (newlines (cc_contents c))).
  { destruct (nth_error (newline_offsets (cc_contents c)) (n - newlines p - 1)) as [x|] eqn:E.
    2: { apply nth_error_None in E. rewrite nlo_length in E. lia. }
    cbn [bind]. eexists. split; [reflexivity|]. cbn. apply line_at_nth in E as Hx. pose proof (nlo_bound _ _ (nth_error_In _ _ E)).
    split; [left|lia]. rewrite T. replace n with (newlines p + (n - newlines p - 1 + 1)) at 1 by lia. apply line_at_shift; [lia|auto]. }
  assert (Hq : length p + length (cc_contents c) = length t <-> q = []).
  { rewrite T, !app_length. destruct q; cbn [length]; split; intros; auto; try lia; discriminate. }
  destruct (Nat.eqb_spec n (newlines t + 1)); cbn [andb].
  - destruct (Nat.eqb_spec (length p + length (cc_contents c)) (length t)) as [Hx|Hx].
    + eexists. split; [reflexivity|]. cbn. split; [right; auto|lia].
    + exists None. split; auto. right. right. split; [lia|]. intros ->. apply Hx, Hq. reflexivity.
  - exists None. split; auto. assert (Ht : newlines t = newlines p + newlines (cc_contents c) + newlines q) by (rewrite T, !newlines_app; lia).
    destruct q as [|z q']; [left; cbn in Ht; lia|]. right. right. split; [lia|discriminate].
Qed.

(** ** Queries *)
Lemma line_le t n m o o' : line_at t n o -> line_or_end t m o' -> n <= m -> o <= o'.
Proof.
  intros H [H'|[_ ->]] Hnm; [|destruct H; auto]. destruct (Nat.eq_dec n m) as [->|]; [now rewrite (line_at_unique _ _ _ _ H H')|].
  destruct H as (H1 & H2 & H3). enough (o < o') by lia. eapply line_at_no_more; eauto. lia.
Qed.
Lemma fetch_ok t rev p c q src start u : inv t rev p c q -> source_ok t rev src -> request_ok t start u ->
  match fetch src c start u with Some r => answers t start u r | None => refuses t rev src end.
Proof.
  intros V Hs Hr. unfold fetch. rewrite (i_rev _ _ _ _ _ V). destruct (src start u CHUNK_SIZE rev) as [r|] eqn:E.
  - now apply Hs in E.
  - now exists start, u.
Qed.
Lemma append_left t rev p c q c' q' r : inv t rev p c q -> inv t rev p c' q' -> c' = append_chunk c r -> r_chunk r <> [] -> length q' < length q.
Proof.
  intros V V' -> Hn. pose proof (i_text _ _ _ _ _ V) as T. pose proof (i_text _ _ _ _ _ V') as T'. cbn in T'.
  rewrite T in T'. apply (f_equal (@length nat)) in T'. rewrite !app_length in T'. destruct (r_chunk r); [congruence|cbn in T'; lia].
Qed.

Definition line_result t rev src n (res : result (list nat)) : Prop :=
  match res with Ok l => is_line t n l | Err => refuses t rev src end.

Lemma get_line_loop_ok t rev src n : source_ok t rev src -> n <= newlines t ->
  forall fuel p c q s, inv t rev p c q -> s <= length (cc_contents c) -> line_at t n (length p + s) -> length q <= fuel ->
  exists c' res p' q', get_line_loop fuel src c n s = Some (c', res) /\ inv t rev p' c' q' /\ line_result t rev src n res.
Proof.
  intros Hs Hn. induction fuel as [|fuel IH]; intros p c q s V Hc Hl Hf;
    destruct (cached_ok _ _ _ _ _ (n + 1) V) as (x & E & Hx); cbn [get_line_loop]; rewrite E; cbn [bind].
  all: pose proof (i_text _ _ _ _ _ V) as T; pose proof (i_off _ _ _ _ _ V) as O; pose proof (i_utf8 _ _ _ _ _ V) as U.
  all: assert (Hcb : is_char_boundary (cc_contents c) s = true)
    by (apply (cb_mid p _ q); auto; rewrite <- T; apply (line_at_boundary t n); auto; now left).
  all: assert (Hok : forall o, x = Some o -> exists c' res p' q',
    check (cc_offset c <=? o) (let? s0 := str_slice (cc_contents c) s (o - cc_offset c) in Some (c, Ok s0)) = Some (c', res) /\
    inv t rev p' c' q' /\ line_result t rev src n res).
  1,3: intros o ->; destruct Hx as (Hx & Hxl); pose proof (line_le _ _ _ _ _ Hl Hx ltac:(lia)) as Hle; rewrite O;
    rewrite (proj2 (Nat.leb_le _ _)) by lia; cbn [check];
    rewrite str_slice_some; [|lia|auto|apply (cb_mid p _ q); [lia|]; rewrite <- T; replace (length p + (o - length p)) with o by lia; eapply line_at_boundary; eauto];
    cbn [bind]; exists c, (Ok (slice (cc_contents c) s (o - length p))), p, q; split; [auto|]; split; [auto|];
    exists (length p + s), o; split; [auto|]; split; [auto|]; split; [auto|];
    rewrite T, <- (slice_mid p _ q) by lia; f_equal; lia.
  - destruct x as [o|]; [eauto|]. exfalso. destruct Hx as [Hx|[Hx|[_ Hx]]]; [lia| |destruct q; [congruence|cbn in Hf; lia]].
    destruct Hl as (_ & Hl & _). rewrite T, firstn_app, newlines_app in Hl. rewrite firstn_all2 in Hl by lia. lia.
  - destruct x as [o|]; [eauto|].
    assert (Hq : q <> []). { destruct Hx as [Hx|[Hx|[_ Hx]]]; auto; [lia|]. destruct Hl as (_ & Hl & _). rewrite T, firstn_app, newlines_app in Hl. rewrite firstn_all2 in Hl by lia. lia. }
    assert (G : exists c1 p1, (if s =? 0 then Some (c, s) else let? c1 := clear_up_to c s in Some (c1, 0)) = Some (c1, 0) /\
       inv t rev p1 c1 q /\ line_at t n (length p1 + 0)).
    { destruct (Nat.eqb_spec s 0) as [->|Hz]; [exists c, p; auto|].
      destruct (clear_up_to_ok _ _ _ _ _ s V Hc Hcb) as (c1 & -> & V1 & _). cbn [bind]. exists c1, (p ++ firstn s (cc_contents c)).
      split; auto. split; auto. rewrite Nat.add_0_r, app_length, firstn_length_le by auto. auto. }
    destruct G as (c1 & p1 & -> & V1 & Hl1). cbn [bind]. rewrite (i_off _ _ _ _ _ V1).
    pose proof (i_text _ _ _ _ _ V1) as T1.
    assert (Hr : request_ok t (length p1 + length (cc_contents c1)) Utf8) by (cbn; rewrite T1, !app_length; lia).
    pose proof (fetch_ok _ _ _ _ _ src _ _ V1 Hs Hr) as Hfe. destruct (fetch src c1 _ Utf8) as [r|].
    + destruct (inv_append _ _ _ _ _ _ V1 Hfe) as (q' & V2 & Hne). specialize (Hne Hq).
      pose proof (append_left _ _ _ _ _ _ _ _ V1 V2 eq_refl Hne). eapply IH; eauto; lia.
    + exists c1, Err, p1, q. auto.
Qed.

Lemma get_line_ok t rev p c q src n fuel : inv t rev p c q -> source_ok t rev src -> length t <= fuel ->
  exists c' res p' q', get_line fuel src c n = Some (c', res) /\ inv t rev p' c' q' /\
    match res with Ok l => is_line t n l | Err => newlines t < n \/ refuses t rev src end.
Proof.
  intros V Hs Hf. unfold get_line. rewrite (i_num _ _ _ _ _ V). destruct (Nat.leb_spec (newlines t + 1) n).
  { exists c, Err, p, q. split; auto. split; auto. left. lia. }
  set (go := get_line_from fuel src n).
  assert (G : forall p c q, inv t rev p c q -> newlines p <= n <= newlines p + newlines (cc_contents c) -> (newlines p = n -> cc_first_line_offset c = 0) ->
    exists c' res p' q', go c = Some (c', res) /\ inv t rev p' c' q' /\
      match res with Ok l => is_line t n l | Err => newlines t < n \/ refuses t rev src end).
  { clear p c q V. intros p c q V Hn1 Hn2. subst go. unfold get_line_from. destruct (cached_ok _ _ _ _ _ n V) as (x & E & Hx). rewrite E. cbn [bind].
    destruct x as [o|]; [|exfalso; lia]. cbn [bind]. destruct Hx as ([Hx|[Hx _]] & Hxl); [|lia].
    rewrite (i_off _ _ _ _ _ V). pose proof (i_text _ _ _ _ _ V) as T.
    assert (Ho : length p <= o).
    { destruct (Nat.eq_dec (newlines p) n) as [En|En].
      - specialize (Hn2 En). destruct (i_start _ _ _ _ _ V) as (b & B1 & B2). rewrite En in B1. rewrite (line_at_unique _ _ _ _ Hx B1). lia.
      - pose proof (line_at_no_more t n o (length p) Hx). rewrite T, !app_length, firstn_app_exact in H0 by auto. lia. }
    rewrite (proj2 (Nat.leb_le _ _) Ho). cbn [check].
    destruct (get_line_loop_ok t rev src n Hs ltac:(lia) fuel p c q (o - length p) V) as (c' & res & p' & q' & E' & V' & Hr); try lia.
    { replace (length p + (o - length p)) with o by lia. auto. }
    { rewrite T, !app_length in Hf. lia. }
    exists c', res, p', q'. split; auto. split; auto. destruct res; cbn in Hr; auto. }
  match goal with |- context [if ?b then _ else _] => destruct b eqn:Eb end.
  - assert (Hr : request_ok t n Line) by (cbn; lia). pose proof (fetch_ok _ _ _ _ _ src _ _ V Hs Hr) as Hfe. destruct (fetch src c n Line) as [r|].
    2: { exists c, Err, p, q. auto. }
    destruct (inv_reset _ _ _ _ _ _ _ _ V Hfe) as (p' & q' & V' & Ep). destruct Hfe as (Hn & _ & _ & _ & H6 & (b & H7 & H8)).
    destruct Hn as [Hn|[Hn _]]; [|lia]. assert (En : newlines p' = n) by (rewrite Ep; apply Hn). apply (G _ _ _ V'); [lia|]. intros _. cbn.
    rewrite H6, <- Ep, En in H7. rewrite (line_at_unique _ _ _ _ H7 Hn) in H8. lia.
  - rewrite !orb_false_iff in Eb. destruct Eb as (((_ & E2) & E3) & E4). rewrite (i_first _ _ _ _ _ V) in *. rewrite (i_lines _ _ _ _ _ V), nlo_length in E4.
    apply (G _ _ _ V); [lia|]. intros En. rewrite <- En, Nat.eqb_refl in E3. cbn [andb] in E3. lia.
Qed.

(** Regions. *)
Lemma get_region_loop_ok t rev src b e : source_ok t rev src -> b <= e -> e <= length t -> char_boundary t b -> char_boundary t e ->
  forall fuel p c q, inv t rev p c q -> length p <= b <= length p + length (cc_contents c) -> length q <= fuel ->
  exists c' res p' q', get_region_loop fuel src c b e = Some (c', res) /\ inv t rev p' c' q' /\
    match res with Ok s => s = slice t b e | Err => refuses t rev src end.
Proof.
  intros Hs Hbe He Cb Ce. induction fuel as [|fuel IH]; intros p c q V Hb Hf; cbn [get_region_loop]; unfold get_region_turn;
    pose proof (i_text _ _ _ _ _ V) as T; pose proof (i_off _ _ _ _ _ V) as O; pose proof (i_utf8 _ _ _ _ _ V) as U; rewrite O.
  all: apply boundary_iff in Cb as Cb'; auto; apply boundary_iff in Ce as Ce'; auto.
  all: rewrite (proj2 (Nat.leb_le (length p) b)), (proj2 (Nat.leb_le (length p) e)) by lia; cbn [andb check].
  all: assert (Hcb : is_char_boundary (cc_contents c) (b - length p) = true)
    by (apply (cb_mid p _ q); [lia|]; rewrite <- T; replace (length p + (b - length p)) with b by lia; auto).
  all: destruct (Nat.leb_spec (e - length p) (length (cc_contents c))).
  1,3: rewrite str_slice_some; [|lia|auto|apply (cb_mid p _ q); [lia|]; rewrite <- T; replace (length p + (e - length p)) with e by lia; auto];
    cbn [bind]; eexists c, _, p, q; split; [reflexivity|]; split; [auto|]; rewrite T, <- (slice_mid p _ q) by lia; f_equal; lia.
  - exfalso. destruct q; [|cbn in Hf; lia]. rewrite T, !app_length in He. cbn in He. lia.
  - assert (Hq : q <> []). { intros ->. rewrite T, !app_length in He. cbn in He. lia. }
    assert (G : exists c1 p1, (if b - length p =? 0 then Some c else clear_up_to c (b - length p)) = Some c1 /\
       inv t rev p1 c1 q /\ length p1 <= b <= length p1 + length (cc_contents c1)).
    { destruct (Nat.eqb_spec (b - length p) 0) as [Ez|Hz]; [exists c, p; auto|].
      destruct (clear_up_to_ok _ _ _ _ _ (b - length p) V ltac:(lia) Hcb) as (c1 & -> & V1 & _). exists c1, (p ++ firstn (b - length p) (cc_contents c)).
      split; auto. split; auto. rewrite app_length, firstn_length_le by lia. lia. }
    destruct G as (c1 & p1 & -> & V1 & Hl1). cbn [bind]. rewrite (i_off _ _ _ _ _ V1).
    pose proof (i_text _ _ _ _ _ V1) as T1.
    assert (Hr : request_ok t (length p1 + length (cc_contents c1)) Utf8) by (cbn; rewrite T1, !app_length; lia).
    pose proof (fetch_ok _ _ _ _ _ src _ _ V1 Hs Hr) as Hfe. destruct (fetch src c1 _ Utf8) as [r|]; cbn [bind].
    + destruct (inv_append _ _ _ _ _ _ V1 Hfe) as (q' & V2 & Hne). specialize (Hne Hq).
      pose proof (append_left _ _ _ _ _ _ _ _ V1 V2 eq_refl Hne). eapply IH; eauto; [|lia]. cbn. rewrite app_length. lia.
    + exists c1, Err, p1, q. auto.
Qed.
Lemma get_region_ok t rev p c q src b e fuel : inv t rev p c q -> source_ok t rev src -> length t <= fuel ->
  b <= e -> e <= length t -> char_boundary t b -> char_boundary t e ->
  exists c' res p' q', get_region fuel src c b e = Some (c', res) /\ inv t rev p' c' q' /\
    match res with Ok s => s = slice t b e | Err => refuses t rev src end.
Proof.
  intros V Hs Hf Hbe He Cb Ce. unfold get_region. rewrite (i_off _ _ _ _ _ V). pose proof (i_text _ _ _ _ _ V) as T.
  match goal with |- context [if ?b then _ else _] => destruct b eqn:Eb end.
  - assert (Hr : request_ok t b Utf8) by (cbn; lia). pose proof (fetch_ok _ _ _ _ _ src _ _ V Hs Hr) as Hfe. destruct (fetch src c b Utf8) as [r|].
    2: { exists c, Err, p, q. auto. }
    destruct (inv_reset _ _ _ _ _ _ _ _ V Hfe) as (p' & q' & V' & Ep). destruct Hfe as ((H1 & H2 & H3) & _ & (x & H4 & _ & _) & _).
    assert (Er : r_offset r = b). { destruct (Nat.eq_dec (r_offset r) b); auto. exfalso. apply (H3 b); auto. lia. }
    assert (Lp : length p' = b) by (rewrite Ep, Er; apply firstn_length_le; lia).
    apply (get_region_loop_ok t rev src b e Hs Hbe He Cb Ce fuel p' _ q' V'); [lia|].
    pose proof (f_equal (@length nat) (i_text _ _ _ _ _ V')) as Hl. rewrite !app_length in Hl. lia.
  - rewrite !orb_false_iff in Eb. apply (get_region_loop_ok t rev src b e Hs Hbe He Cb Ce fuel p c q V); [lia|].
    rewrite T, !app_length in Hf. lia.
Qed.

(** Whatever is asked, the cache stays right. *)
Lemma cb_conv t rev p c q o : inv t rev p c q -> o <= length (cc_contents c) -> is_char_boundary (cc_contents c) o = true ->
  is_char_boundary t (length p + o) = true.
Proof.
  intros [U T O C1 C2 L F B Sz N R] Ho H. rewrite T. rewrite T in C1, C2. apply cb_mid_conv; auto.
Qed.
Lemma str_slice_inv s b e r : str_slice s b e = Some r -> b <= e <= length s /\ is_char_boundary s b = true /\ is_char_boundary s e = true /\ r = slice s b e.
Proof.
  unfold str_slice. destruct (Nat.leb_spec b e); [|discriminate]. destruct (is_char_boundary s b) eqn:E1; [|discriminate].
  destruct (is_char_boundary s e) eqn:E2; [|discriminate]. cbn. intros H0; injection H0 as <-. apply cb_le in E2 as ?. auto.
Qed.
Lemma clear_up_to_inv t rev p c q o c' : inv t rev p c q -> clear_up_to c o = Some c' -> exists p', inv t rev p' c' q.
Proof.
  intros V E. assert (H : o <= length (cc_contents c) /\ is_char_boundary (cc_contents c) o = true).
  { unfold clear_up_to in E. destruct (Nat.leb_spec o (length (cc_contents c))); [|discriminate]. cbn [check] in E.
    destruct (str_slice (cc_contents c) o (length (cc_contents c))) eqn:Es; [|discriminate]. apply str_slice_inv in Es. tauto. }
  destruct H as [H1 H2]. destruct (clear_up_to_ok _ _ _ _ _ o V H1 H2) as (c1 & E1 & V1 & _). rewrite E1 in E. injection E as <-. eauto.
Qed.
Lemma fetch_some t rev p c q src start u r : inv t rev p c q -> source_ok t rev src -> fetch src c start u = Some r -> answers t start u r.
Proof. intros V Hs E. unfold fetch in E. rewrite (i_rev _ _ _ _ _ V) in E. now apply Hs in E. Qed.
Lemma append_inv t rev p c q src r : inv t rev p c q -> source_ok t rev src ->
  fetch src c (cc_offset c + length (cc_contents c)) Utf8 = Some r -> exists q', inv t rev p (append_chunk c r) q'.
Proof.
  intros V Hs E. eapply fetch_some in E; eauto. rewrite (i_off _ _ _ _ _ V) in E. destruct (inv_append _ _ _ _ _ _ V E) as (q' & V' & _). eauto.
Qed.
Lemma region_loop_inv t rev src b e : source_ok t rev src -> forall fuel p c q c' res, inv t rev p c q ->
  get_region_loop fuel src c b e = Some (c', res) -> exists p' q', inv t rev p' c' q'.
Proof.
  intros Hs. induction fuel as [|fuel IH]; intros p c q c' res V E; cbn [get_region_loop] in E; unfold get_region_turn in E;
    destruct ((cc_offset c <=? b) && (cc_offset c <=? e)); try discriminate; cbn [check] in E; (destruct (_ <=? _) in E;
    [destruct (str_slice _ _ _) in E; [|discriminate]; cbn [bind] in E; injection E as <- <-; eauto|]).
  all: destruct (if b - cc_offset c =? 0 then Some c else clear_up_to c (b - cc_offset c)) as [c1|] eqn:Ec; [|discriminate]; cbn [bind] in E.
  all: assert (V1 : exists p1, inv t rev p1 c1 q) by (destruct (b - cc_offset c =? 0); [injection Ec as <-; eauto|eapply clear_up_to_inv; eauto]).
  all: destruct V1 as (p1 & V1); destruct (fetch src c1 _ Utf8) as [r|] eqn:Ef; cbn [bind] in E; [|injection E as <- <-; eauto].
  - discriminate.
  - eapply append_inv in Ef as (q' & V2); eauto.
Qed.
Lemma get_region_inv t rev p c q src b e fuel c' res : inv t rev p c q -> source_ok t rev src ->
  get_region fuel src c b e = Some (c', res) -> exists p' q', inv t rev p' c' q'.
Proof.
  intros V Hs. unfold get_region. match goal with |- context [if ?b then _ else _] => destruct b end.
  - destruct (fetch src c b Utf8) as [r|] eqn:Ef; [|intros H; injection H as <- <-; eauto]. eapply fetch_some in Ef; eauto.
    destruct (inv_reset _ _ _ _ _ _ _ _ V Ef) as (p' & q' & V' & _). eapply region_loop_inv; eauto.
  - eapply region_loop_inv; eauto.
Qed.

(** Fuel does not matter once there is an answer. *)
Lemma get_line_loop_more src n : forall fuel c s r, get_line_loop fuel src c n s = Some r -> forall k, get_line_loop (fuel + k) src c n s = Some r.
Proof.
  induction fuel as [|fuel IH]; intros c s r E k.
  - cbn [get_line_loop] in E. destruct k as [|k]; auto. cbn [Nat.add get_line_loop].
    destruct (cached_offset_of_line c (n + 1)) as [[o|]|]; cbn [bind] in *; auto.
    match goal with |- bind ?x _ = _ => destruct x as [[c1 s1]|]; cbn [bind] in *; auto end.
    destruct (fetch src c1 _ Utf8); [discriminate|auto].
  - cbn [Nat.add get_line_loop] in *. destruct (cached_offset_of_line c (n + 1)) as [[o|]|]; cbn [bind] in *; auto.
    match goal with |- bind ?x _ = _ => destruct x as [[c1 s1]|]; cbn [bind] in *; auto end.
    destruct (fetch src c1 _ Utf8); auto.
Qed.
Lemma get_line_more src n fuel c r k : get_line fuel src c n = Some r -> get_line (fuel + k) src c n = Some r.
Proof.
  unfold get_line. destruct (_ <=? _); auto.
  assert (G : forall c0, get_line_from fuel src n c0 = Some r -> get_line_from (fuel + k) src n c0 = Some r).
  { intros c0. unfold get_line_from. destruct (cached_offset_of_line c0 n) as [[o|]|]; cbn [bind]; auto. destruct (cc_offset c0 <=? o); cbn [check]; auto. intros; now apply get_line_loop_more. }
  match goal with |- context [if ?b then _ else _] => destruct b end; auto. destruct (fetch src c n Line); auto.
Qed.

(** The whole document. *)
Lemma get_document_loop_ok t rev src : source_ok t rev src -> forall fuel p c q acc cur, inv t rev p c q ->
  cur <= length t -> char_boundary t cur -> acc = firstn cur t -> length t - cur <= fuel ->
  exists c' res p' q', get_document_loop fuel src c acc cur = Some (c', res) /\ inv t rev p' c' q' /\
    match res with Ok s => s = t | Err => refuses t rev src end.
Proof.
  intros Hs. induction fuel as [|fuel IH]; intros p c q acc cur V Hc Cb -> Hf; cbn [get_document_loop]; rewrite (i_size _ _ _ _ _ V).
  - rewrite (proj2 (Nat.leb_le _ _)) by lia. exists c, (Ok (firstn cur t)), p, q. split; auto. split; auto. apply firstn_all2. lia.
  - destruct (Nat.leb_spec (length t) cur).
    { exists c, (Ok (firstn cur t)), p, q. split; auto. split; auto. apply firstn_all2. lia. }
    assert (G : forall p c q, inv t rev p c q -> length p = cur -> cc_contents c <> [] ->
      exists c' res p' q', get_document_loop fuel src c (firstn cur t ++ cc_contents c) (cc_offset c + length (cc_contents c)) = Some (c', res) /\ inv t rev p' c' q' /\
      match res with Ok s => s = t | Err => refuses t rev src end).
    { clear p c q V. intros p c q V Hp Hn. pose proof (i_text _ _ _ _ _ V) as T. rewrite (i_off _ _ _ _ _ V).
      pose proof (f_equal (@length nat) T) as Hl. rewrite !app_length in Hl. apply (IH p c q); auto.
      - lia.
      - apply boundary_iff; [apply V|apply V].
      - rewrite T at 1. rewrite firstn_app_exact by auto. transitivity (firstn (length (p ++ cc_contents c)) t); [|f_equal; rewrite app_length; lia].
        symmetry. rewrite T at 1. rewrite app_assoc. now apply firstn_app_exact.
      - destruct (cc_contents c); [congruence|cbn [length] in *; lia]. }
    match goal with |- context [if ?b then _ else _] => destruct b eqn:Eb end.
    + assert (Hr : request_ok t cur Utf8) by (cbn; lia). pose proof (fetch_ok _ _ _ _ _ src _ _ V Hs Hr) as Hfe. destruct (fetch src c cur Utf8) as [r|].
      2: { exists c, Err, p, q. auto. }
      destruct (inv_reset _ _ _ _ _ _ _ _ V Hfe) as (p' & q' & V' & Ep). destruct Hfe as ((H1 & H2 & H3) & _ & _ & H5 & _).
      assert (Er : r_offset r = cur). { destruct (Nat.eq_dec (r_offset r) cur); auto. exfalso. apply (H3 cur); auto. lia. }
      apply (G p' _ q' V'); [rewrite Ep, Er; apply firstn_length_le; lia|]. cbn. apply H5. lia.
    + rewrite orb_false_iff, negb_false_iff in Eb. destruct Eb as [E1 E2]. apply Nat.eqb_eq in E2. rewrite (i_off _ _ _ _ _ V) in E2.
      apply (G p c q V); auto. intros E. rewrite E in E1. discriminate.
Qed.
Lemma get_document_loop_more src : forall fuel c acc cur r, get_document_loop fuel src c acc cur = Some r -> forall k, get_document_loop (fuel + k) src c acc cur = Some r.
Proof.
  induction fuel as [|fuel IH]; intros c acc cur r E k.
  - cbn [get_document_loop] in E. destruct k as [|k]; auto. cbn [Nat.add get_document_loop]. destruct (_ <=? _); auto.
    match goal with |- context [if ?b then _ else _] => destruct b end; [|discriminate]. destruct (fetch src c cur Utf8); [discriminate|auto].
  - cbn [Nat.add get_document_loop] in *. destruct (_ <=? _); auto.
    match goal with |- context [if ?b then _ else _] => destruct b end; auto. destruct (fetch src c cur Utf8); auto.
Qed.

(** Lines to offsets. *)
Lemma offset_of_line_cached t rev p c q src n fuel : inv t rev p c q -> source_ok t rev src -> 1 <= fuel ->
  exists c' res p' q', cc_offset_of_line fuel src c n = Some (c', res) /\ inv t rev p' c' q' /\
    match res with Ok o => line_or_end t n o | Err => newlines t + 1 < n \/ refuses t rev src end.
Proof.
  intros V Hs Hf. destruct fuel as [|fuel]; [lia|]. cbn [cc_offset_of_line]. rewrite (i_num _ _ _ _ _ V).
  destruct (Nat.ltb_spec (newlines t + 1) n).
  { exists c, Err, p, q. auto. }
  destruct (cached_ok _ _ _ _ _ n V) as (x & -> & Hx). cbn [bind]. destruct x as [o|].
  { exists c, (Ok o), p, q. split; auto. split; auto. apply Hx. }
  assert (Hr : request_ok t n Line) by (cbn; lia). pose proof (fetch_ok _ _ _ _ _ src _ _ V Hs Hr) as Hfe. destruct (fetch src c n Line) as [r|].
  2: { exists c, Err, p, q. auto. }
  destruct (inv_reset _ _ _ _ _ _ _ _ V Hfe) as (p' & q' & V' & Ep).
  destruct (cached_ok _ _ _ _ _ n V') as (x & Ex & Hx'). 
  assert (Hsome : exists o, x = Some o).
  { destruct x as [o|]; [eauto|]. exfalso. destruct Hfe as (Hn & _ & (e & He & _ & Hch) & _). destruct Hn as [Hn|[-> Hn]].
    - assert (newlines p' = n) by (rewrite Ep; apply Hn). lia.
    - rewrite Hn, firstn_all in Ep. subst p'. pose proof (i_text _ _ _ _ _ V') as T. apply (f_equal (@length nat)) in T. rewrite !app_length in T.
      destruct q'; [|cbn in T; lia]. intuition lia. }
  destruct Hsome as (o & ->).
  exists (reset_chunk c r), (Ok o), p', q'. split; [|split; [auto|apply Hx']].
  destruct fuel as [|fuel]; cbn [cc_offset_of_line]; rewrite (i_num _ _ _ _ _ V'), (proj2 (Nat.ltb_ge _ _)) by lia; rewrite Ex; reflexivity.
Qed.
Lemma cc_offset_of_line_more src n : forall fuel c r, cc_offset_of_line fuel src c n = Some r -> forall k, cc_offset_of_line (fuel + k) src c n = Some r.
Proof.
  induction fuel as [|fuel IH]; intros c r E k.
  - cbn [cc_offset_of_line] in E. destruct k as [|k]; auto. cbn [Nat.add cc_offset_of_line]. destruct (_ <? _); auto.
    destruct (cached_offset_of_line c n) as [[o|]|]; cbn [bind] in *; auto. destruct (fetch src c n Line); [discriminate|auto].
  - cbn [Nat.add cc_offset_of_line] in *. destruct (_ <? _); auto.
    destruct (cached_offset_of_line c n) as [[o|]|]; cbn [bind] in *; auto. destruct (fetch src c n Line); auto.
Qed.

(** Offsets to lines. *)
Lemma line_of_offset_cached t rev p c q src o : inv t rev p c q -> source_ok t rev src ->
  exists c' res p' q', cc_line_of_offset src c o = Some (c', res) /\ inv t rev p' c' q' /\
    match res with Ok n => o <= length t /\ (char_boundary t o -> n = newlines (firstn o t)) | Err => length t < o \/ refuses t rev src end.
Proof.
  intros V Hs. unfold cc_line_of_offset. rewrite (i_size _ _ _ _ _ V). destruct (Nat.ltb_spec (length t) o).
  { exists c, Err, p, q. auto. }
  set (go := line_of_offset_from o).
  assert (G : forall p c q, inv t rev p c q -> length p <= o -> (char_boundary t o -> o <= length p + length (cc_contents c)) ->
    exists c' res p' q', go c = Some (c', res) /\ inv t rev p' c' q' /\
    match res with Ok n => o <= length t /\ (char_boundary t o -> n = newlines (firstn o t)) | Err => length t < o \/ refuses t rev src end).
  { clear p c q V. intros p c q V Ho Hc. subst go. unfold line_of_offset_from. rewrite (i_off _ _ _ _ _ V), (proj2 (Nat.leb_le _ _) Ho). cbn [check].
    eexists c, (Ok _), p, q. split; [reflexivity|]. split; auto. split; auto. intros Cb. specialize (Hc Cb).
    rewrite (i_lines _ _ _ _ _ V), (i_first _ _ _ _ _ V). set (k := o - length p).
    pose proof (i_text _ _ _ _ _ V) as T.
    transitivity (bs_upto (newline_offsets (cc_contents c)) k + newlines p).
    { unfold bs_upto. destruct (bsearch _ _) as [[] i]; lia. }
    assert (Lk : length (firstn k (cc_contents c)) = k) by (apply firstn_length_le; lia).
    destruct (nlo_split (firstn k (cc_contents c)) (skipn k (cc_contents c))) as (E1 & E2 & E3). rewrite firstn_skipn in E1. rewrite Lk in *.
    rewrite E1, bs_upto_split by auto using nlo_incr. rewrite nlo_length. rewrite T at 1. rewrite firstn_app, newlines_app.
    rewrite (firstn_all2 p) by lia. fold k. rewrite firstn_app. replace (k - length (cc_contents c)) with 0 by lia. rewrite firstn_O, app_nil_r. lia. }
  match goal with |- context [if ?b then _ else _] => destruct b eqn:Eb end.
  - assert (Hr : request_ok t o Utf8) by (cbn; lia). pose proof (fetch_ok _ _ _ _ _ src _ _ V Hs Hr) as Hfe. destruct (fetch src c o Utf8) as [r|].
    2: { exists c, Err, p, q. auto. }
    destruct (inv_reset _ _ _ _ _ _ _ _ V Hfe) as (p' & q' & V' & Ep). destruct Hfe as ((H1 & H2 & H3) & _ & _ & H5 & _).
    assert (Lp : length p' = r_offset r) by (rewrite Ep; apply firstn_length_le; lia).
    apply (G p' _ q' V'); [lia|]. intros Cb. destruct (Nat.eq_dec (r_offset r) o) as [<-|]; [lia|]. exfalso. apply (H3 o); auto. lia.
  - rewrite !orb_false_iff, (i_off _ _ _ _ _ V) in Eb. apply (G p c q V); lia.
Qed.

(** ** Updates *)
(** The shape of a simple edit: something copied from the front (unless that is nothing),
    something inserted (or nothing), something copied to the end (unless that is nothing). *)
Definition simple_shape (d : delta nat) (t : list nat) (b e : nat) (mid : list (element nat)) : Prop :=
  exists pre post, els d = pre ++ mid ++ post /\
    (pre = [Copy 0 b] \/ pre = [] /\ b = 0) /\ (post = [Copy e (length t)] \/ post = [] /\ e = length t).

Lemma insert_shape d t s : as_simple_insert d = Some s -> base_len d = length t -> wf_delta d ->
  exists i, i <= length t /\ summary d = ((i, i), length s) /\ apply d t = Some (firstn i t ++ s ++ skipn i t) /\
    simple_shape d t i i [Insert s].
Proof.
  intros H Hb Hw. unfold simple_shape. pose proof (as_simple_insert_ok d t s H Hb Hw) as Ha. destruct Hw as [Hw _].
  unfold as_simple_insert, summary, apply in *. rewrite Hb in *.
  assert (G : forall i, i <= length t -> apply_els (els d) t = Some (slice t 0 i ++ s ++ slice t i (length t)) ->
     apply_els (els d) t = Some (firstn i t ++ s ++ skipn i t)).
  { intros i Hi ->. unfold slice. cbn [skipn]. rewrite Nat.sub_0_r. do 3 f_equal. apply firstn_all2. rewrite skipn_length. lia. }
  assert (Z : forall (l : list nat) k, slice l k k = []) by (intros; unfold slice; now rewrite Nat.sub_diag).
  destruct (els d) as [|[b e|n] l].
  - discriminate.
  - destruct (Nat.eqb_spec b 0) as [->|]; [|discriminate].
    destruct l as [|[b1 e1|n] l]; try discriminate. exists e.
    destruct l as [|[b1 e1|n1] l]; try discriminate.
    + destruct (Nat.eqb_spec e (length t)) as [->|]; [|discriminate]. injection H as ->. split; [lia|].
      cbn [rev app total_element_len]. split; [do 2 f_equal; lia|]. split.
      * apply G; [lia|]. rewrite Z, app_nil_r. cbn [apply_els]. rewrite (proj2 (Nat.leb_le 0 _)), Nat.leb_refl by lia. cbn [andb bind]. now rewrite app_nil_r.
      * exists [Copy 0 (length t)], []. auto.
    + destruct (Nat.eqb_spec e b1) as [->|]; [|discriminate].
      destruct (Nat.eqb_spec e1 (length t)) as [->|]; [|discriminate].
      destruct l; [|discriminate]. cbn in H. injection H as ->. cbn in Hw. split; [lia|].
      cbn [rev app]. rewrite Nat.eqb_refl. cbn [rev app total_element_len]. split; [do 2 f_equal; lia|]. split.
      * apply G; [lia|]. cbn [apply_els]. rewrite (proj2 (Nat.leb_le 0 b1)), (proj2 (Nat.leb_le b1 (length t))), Nat.leb_refl by lia. cbn [andb bind]. now rewrite app_nil_r.
      * exists [Copy 0 b1], [Copy b1 (length t)]. auto.
  - exists 0. split; [lia|]. destruct l as [|[b1 e1|n1] l]; try discriminate.
    + destruct (Nat.eqb_spec 0 (length t)) as [E|]; [|discriminate]. injection H as ->.
      cbn [rev app total_element_len]. split; [do 2 f_equal; lia|]. split.
      * destruct t; [|discriminate]. reflexivity.
      * exists [], []. auto.
    + destruct (Nat.eqb_spec 0 b1) as [<-|]; [|discriminate].
      destruct (Nat.eqb_spec e1 (length t)) as [->|]; [|discriminate].
      destruct l; [|discriminate]. cbn in H. injection H as ->.
      cbn [rev app]. rewrite Nat.eqb_refl. cbn [rev app total_element_len]. split; [do 2 f_equal; lia|]. split.
      * apply G; [lia|]. cbn [apply_els]. rewrite (proj2 (Nat.leb_le 0 _)), Nat.leb_refl by lia. cbn [andb bind]. now rewrite Z, app_nil_r.
      * exists [], [Copy 0 (length t)]. auto.
Qed.
Lemma delete_shape d t : is_simple_delete d = true -> base_len d = length t -> wf_delta d ->
  exists b e, b < e /\ e <= length t /\ summary d = ((b, e), 0) /\ apply d t = Some (firstn b t ++ skipn e t) /\
    simple_shape d t b e [].
Proof.
  intros H Hb [Hw _]. unfold simple_shape. unfold is_simple_delete, summary, apply in *. rewrite Hb in *.
  assert (Ef : forall k, firstn (length t - k) (skipn k t) = skipn k t) by (intros; apply firstn_all2; rewrite skipn_length; lia).
  destruct (els d) as [|[b e|n] l]; [| |discriminate].
  - exists 0, (length t). split; [lia|]. split; [lia|]. split; [reflexivity|]. split; [cbn; now rewrite skipn_all|]. exists [], []. auto.
  - destruct (Nat.eqb_spec b 0) as [->|Hb0].
    + destruct l as [|[b1 e1|n1] l]; [| |discriminate].
      * exists e, (length t). split; [lia|]. split; [lia|]. split; [reflexivity|]. split.
        -- cbn [apply_els]. rewrite (proj2 (Nat.leb_le 0 e)), (proj2 (Nat.leb_le e (length t))) by lia. cbn [andb bind].
           unfold slice. cbn [skipn]. now rewrite Nat.sub_0_r, skipn_all.
        -- exists [Copy 0 e], []. auto.
      * apply andb_true_iff in H as [H H3]. apply andb_true_iff in H as [H1 H2].
        apply Nat.ltb_lt in H2. apply Nat.eqb_eq in H3. subst. destruct l; [|discriminate].
        cbn in Hw. exists e, b1. split; [lia|]. split; [lia|]. split; [cbn [rev app]; rewrite Nat.eqb_refl; reflexivity|]. split.
        -- cbn [apply_els]. rewrite (proj2 (Nat.leb_le 0 e)), (proj2 (Nat.leb_le e (length t))), (proj2 (Nat.leb_le b1 (length t))), Nat.leb_refl by lia. cbn [andb bind].
           unfold slice. cbn [skipn]. rewrite Nat.sub_0_r, app_nil_r. now rewrite Ef.
        -- exists [Copy 0 e], [Copy b1 (length t)]. auto.
    + apply andb_true_iff in H as [H1 H2]. apply Nat.eqb_eq in H1. subst. destruct l; [|discriminate].
      cbn in Hw. exists 0, b. split; [lia|]. split; [lia|].
      split; [destruct b; [lia|]; cbn [rev app]; rewrite Nat.eqb_refl; reflexivity|]. split.
      * cbn [apply_els]. rewrite (proj2 (Nat.leb_le b (length t))), Nat.leb_refl by lia. cbn [andb bind firstn app].
        unfold slice. rewrite app_nil_r. now rewrite Ef.
      * exists [], [Copy b (length t)]. auto.
Qed.
Lemma insert_not_delete (d : delta nat) s : as_simple_insert d = Some s -> is_simple_delete d = false.
Proof.
  unfold as_simple_insert, is_simple_delete. destruct (els d) as [|[b e|n] l]; auto; [discriminate|].
  destruct (b =? 0); [|discriminate]. destruct l as [|[b1 e1|n1] l]; auto; discriminate.
Qed.

(** The contents after a simple edit that starts in the chunk. *)
Lemma update_chunk_ok t rev p c q d b e mid ins : inv t rev p c q -> simple_shape d t b e mid ->
  length p <= b <= length p + length (cc_contents c) -> b <= e <= length t ->
  Forall (fun x => match x with Copy b e => char_boundary t b /\ char_boundary t e | Insert s => utf8 s end) (els d) ->
  (mid = [] /\ ins = [] \/ mid = [Insert ins]) ->
  forall l, update_chunk (cc_with_line_offsets c l) d =
    Some (CC (cc_offset c) (firstn (b - length p) (cc_contents c) ++ ins ++ skipn (e - length p) (cc_contents c))
             (cc_first_line c) (cc_first_line_offset c) l (cc_buf_size c) (cc_num_lines c) (cc_rev c)).
Proof.
  intros V (pre & post & E & Hpre & Hpost) Hb He HF Hm l. unfold update_chunk.
  pose proof (i_text _ _ _ _ _ V) as T. pose proof (i_off _ _ _ _ _ V) as O. pose proof (i_utf8 _ _ _ _ _ V) as U.
  set (c1 := cc_with_line_offsets c l).
  assert (Cb : is_char_boundary (cc_contents c) (b - length p) = true).
  { apply (cb_mid p _ q); [lia|]. rewrite <- T. replace (length p + (b - length p)) with b by lia.
    destruct Hpre as [->|[-> ->]]; [|apply cb_0]. rewrite E, Forall_app in HF. destruct HF as [HF _]. inversion_clear HF. apply boundary_iff; tauto. }
  assert (Ce : e <= length p + length (cc_contents c) -> is_char_boundary (cc_contents c) (e - length p) = true).
  { intros Hc. apply (cb_mid p _ q); [lia|]. rewrite <- T. replace (length p + (e - length p)) with e by lia.
    destruct Hpost as [->|[-> ->]]; [|apply cb_len]. rewrite E, !Forall_app in HF. destruct HF as (_ & _ & HF). inversion_clear HF. apply boundary_iff; tauto. }
  rewrite E.
  assert (G1 : forall rest, update_chunk_loop c1 (pre ++ rest) (ChunkState [] 0 0 0) =
            update_chunk_loop c1 rest (ChunkState (firstn (b - length p) (cc_contents c)) b 0 0)).
  { intros rest. destruct Hpre as [->|[-> ->]].
    - cbn [app update_chunk_loop]. unfold c1, cc_with_line_offsets. cbn [cc_offset cc_contents cs_prev cs_del cs_new cs_ins]. rewrite O.
      rewrite Nat.min_l by lia. assert (Es : str_slice (cc_contents c) 0 (b - length p) = Some (firstn (b - length p) (cc_contents c))).
      { rewrite str_slice_some by (auto using cb_0; lia). unfold slice. cbn [skipn]. now rewrite Nat.sub_0_r. }
      destruct (Nat.ltb_spec 0 (length p)).
      + cbn [Nat.leb check]. rewrite (proj2 (Nat.leb_le (length p) b)) by lia. rewrite Es. cbn [bind app]. reflexivity.
      + assert (length p = 0) by lia. rewrite (proj2 (Nat.leb_le 0 _)) by lia. rewrite (proj2 (Nat.leb_le (length p) b)) by lia. cbn [check].
        replace (0 - length p) with 0 by lia. rewrite Es. cbn [bind app]. reflexivity.
    - cbn [app]. now rewrite Nat.sub_0_l, firstn_O. }
  assert (G2 : forall rest new, update_chunk_loop c1 (mid ++ rest) (ChunkState new b 0 0) = update_chunk_loop c1 rest (ChunkState (new ++ ins) b 0 0)).
  { intros rest new. destruct Hm as [[-> ->]| ->]; cbn [app update_chunk_loop]; [now rewrite app_nil_r|].
    unfold c1, cc_with_line_offsets. cbn [cc_offset cc_contents cs_prev cs_del cs_new cs_ins]. rewrite O.
    rewrite (proj2 (Nat.ltb_ge b (length p))), (proj2 (Nat.leb_le b _)) by lia. reflexivity. }
  assert (G3 : forall new, exists x, update_chunk_loop c1 post (ChunkState new b 0 0) = Some (ChunkState (new ++ skipn (e - length p) (cc_contents c)) x 0 0)).
  { intros new. assert (Hl : length t = length p + length (cc_contents c) + length q) by (rewrite T, !app_length; lia).
    destruct Hpost as [->|[-> ->]]; cbn [update_chunk_loop].
    - unfold c1, cc_with_line_offsets. cbn [cc_offset cc_contents cs_prev cs_del cs_new cs_ins]. rewrite O.
      rewrite (proj2 (Nat.ltb_ge e (length p))) by lia. destruct (Nat.leb_spec e (length p + length (cc_contents c))).
      + rewrite (proj2 (Nat.ltb_ge b (length p))), (proj2 (Nat.leb_le (length p) (length t))) by lia. cbn [check]. rewrite Nat.min_r by lia.
        rewrite str_slice_some by (auto using cb_len; lia). cbn [bind]. eexists. do 3 f_equal.
        unfold slice. apply firstn_all2. rewrite skipn_length. lia.
      + cbn [bind]. eexists. rewrite (skipn_all2 (cc_contents c)) by lia. now rewrite app_nil_r.
    - eexists. rewrite skipn_all2 by lia. now rewrite app_nil_r. }
  rewrite G1, G2. destruct (G3 (firstn (b - length p) (cc_contents c) ++ ins)) as (x & ->). cbn [bind cs_del cs_ins cs_new].
  rewrite (proj2 (Nat.leb_le 0 _)) by lia. cbn [check]. unfold c1, cc_with_line_offsets. cbn. rewrite Nat.add_0_r, Nat.sub_0_r, <- app_assoc. reflexivity.
Qed.

Lemma utf8_app_cb a b : utf8 a -> utf8 b -> is_char_boundary (a ++ b) (length a) = true.
Proof.
  intros (x & X & ->) (y & Y & ->). rewrite <- concat_app. now apply cb_start.
Qed.
Lemma utf8_app a b : utf8 a -> utf8 b -> utf8 (a ++ b).
Proof. intros (x & X & ->) (y & Y & ->). exists (x ++ y). split; [now apply Forall_app|now rewrite concat_app]. Qed.
Lemma utf8_app_inv a b : utf8 (a ++ b) -> is_char_boundary (a ++ b) (length a) = true -> utf8 a /\ utf8 b.
Proof. intros U C. destruct (utf8_cut _ _ U C) as [U1 U2]. rewrite firstn_app_exact in U1 by auto. rewrite skipn_app_exact in U2 by auto. auto. Qed.

Lemma inv_parts t rev p c q : inv t rev p c q -> utf8 p /\ utf8 (cc_contents c) /\ utf8 q.
Proof.
  intros [U T O C1 C2 L F B Sz N R]. rewrite T in U, C1, C2. destruct (utf8_app_inv _ _ U C1) as [U1 U2]. split; auto.
  apply utf8_app_inv; auto. destruct (Nat.eq_dec (length (cc_contents c)) 0) as [->|]; [apply cb_0|].
  rewrite cb_shift in C2; auto. lia.
Qed.

(** Line offsets of a chunk with something inserted or deleted. *)
Lemma map_id_in {A} (f : A -> A) l : (forall x, In x l -> f x = x) -> map f l = l.
Proof. induction l as [|x l IH]; cbn [map In]; intros H; auto. f_equal; auto. Qed.

Lemma simple_insert_ok t rev p c q s k : inv t rev p c q -> k <= length (cc_contents c) ->
  simple_insert c s (length p + k) =
    Some (cc_with_line_offsets c (newline_offsets (firstn k (cc_contents c) ++ s ++ skipn k (cc_contents c)))).
Proof.
  intros V Hk. unfold simple_insert. rewrite (i_off _ _ _ _ _ V). rewrite (proj2 (Nat.leb_le _ _)) by lia. cbn [check].
  replace (length p + k - length p) with k by lia. rewrite (i_lines _ _ _ _ _ V).
  set (a := firstn k (cc_contents c)). set (b := skipn k (cc_contents c)).
  assert (La : length a = k) by (apply firstn_length_le; auto).
  assert (Eab : cc_contents c = a ++ b) by (symmetry; apply firstn_skipn).
  destruct (nlo_split a b) as (E1 & E2 & E3). rewrite La in *. rewrite Eab, E1, map_app.
  rewrite (map_id_in _ (newline_offsets a)) by (intros x Hx; apply E2 in Hx; destruct (Nat.ltb_spec k x); lia).
  assert (E4 : map (fun off => if k <? off then off + length s else off) (map (fun x => k + x) (newline_offsets b)) =
               map (fun x => k + length s + x) (newline_offsets b)).
  { rewrite map_map. apply map_ext_in. intros x Hx. apply nlo_bound in Hx. destruct (Nat.ltb_spec k (k + x)); lia. }
  rewrite E4.
  assert (E5 : newline_offsets (a ++ s ++ b) = newline_offsets a ++ map (fun off => off + k) (newline_offsets s) ++ map (fun x => k + length s + x) (newline_offsets b)).
  { rewrite !nlo_app, map_app, La, map_map. f_equal. f_equal; apply map_ext; lia. }
  rewrite E5. destruct (Nat.ltb_spec 0 (count_newlines s)) as [Hn|Hn].
  - rewrite <- newlines_eq, <- nlo_length in Hn. destruct (newline_offsets s) as [|x ns] eqn:Es; [cbn in Hn; lia|]. cbn [map nth_error bind].
    assert (Hx : 0 < x <= length s) by (apply nlo_bound; rewrite Es; cbn; auto).
    rewrite bs_split.
    + rewrite firstn_app_exact, skipn_app_exact by auto. reflexivity.
    + intros y Hy. apply E2 in Hy. lia.
    + intros y Hy. apply in_map_iff in Hy as (z & <- & Hz). apply nlo_bound in Hz. lia.
  - assert (Es : newline_offsets s = []). { apply length_zero_iff_nil. rewrite nlo_length, newlines_eq. lia. } rewrite Es. reflexivity.
Qed.

Lemma memchr_none s : memchr NL s = None <-> newline_offsets s = [].
Proof.
  unfold newline_offsets. induction s as [|b s IH]; cbn [memchr newline_offsets_from]; [tauto|]. rewrite (nlf_shift s 1). unfold newline_offsets.
  destruct (b =? NL); [split; discriminate|]. destruct (memchr NL s); destruct (newline_offsets_from 0 s); cbn [map]; intuition discriminate.
Qed.

Lemma simple_delete_ok t rev p c q k j : inv t rev p c q -> k <= j <= length (cc_contents c) ->
  simple_delete c (length p + k) (length p + j) =
    Some (cc_with_line_offsets c (newline_offsets (firstn k (cc_contents c) ++ skipn j (cc_contents c)))).
Proof.
  intros V Hk. unfold simple_delete. rewrite (i_off _ _ _ _ _ V). rewrite !(proj2 (Nat.leb_le _ _)) by lia. cbn [check andb].
  replace (length p + k - length p) with k by lia. replace (length p + j - length p) with j by lia. replace (length p + j - (length p + k)) with (j - k) by lia.
  rewrite (i_lines _ _ _ _ _ V).
  set (a := firstn k (cc_contents c)). set (m := slice (cc_contents c) k j). set (b := skipn j (cc_contents c)).
  assert (La : length a = k) by (apply firstn_length_le; lia).
  assert (Lm : length m = j - k) by (unfold m, slice; rewrite firstn_length_le; [lia|rewrite skipn_length; lia]).
  assert (Eab : cc_contents c = a ++ m ++ b).
  { unfold a, m, b, slice. rewrite <- (firstn_skipn k (cc_contents c)) at 1. f_equal.
    rewrite <- (firstn_skipn (j - k) (skipn k (cc_contents c))) at 1. f_equal. rewrite skipn_skipn. f_equal. lia. }
  assert (E5 : newline_offsets (cc_contents c) = newline_offsets a ++ map (fun x => k + x) (newline_offsets m) ++ map (fun x => j + x) (newline_offsets b)).
  { rewrite Eab, !nlo_app, map_app, La, Lm, map_map. f_equal. f_equal. apply map_ext; lia. }
  assert (E6 : newline_offsets (a ++ b) = newline_offsets a ++ map (fun x => k + x) (newline_offsets b)) by (rewrite nlo_app, La; auto).
  rewrite E5, E6.
  destruct (memchr NL m) eqn:Em.
  - f_equal. f_equal. rewrite !flat_map_app.
    assert (F1 : forall f (l : list nat), (forall x, In x l -> f x = [x]) -> flat_map f l = l).
    { intros f l. induction l as [|x l IH]; cbn [flat_map In]; intros H; auto. rewrite (H x) by auto. cbn [app]. f_equal. auto. }
    assert (F2 : forall (f : nat -> list nat) (l : list nat), (forall x, In x l -> f x = []) -> flat_map f l = []).
    { intros f l. induction l as [|x l IH]; cbn [flat_map In]; intros H; auto. rewrite (H x) by auto. cbn [app]. auto. }
    rewrite F1, F2.
    + cbn [app]. f_equal. rewrite flat_map_concat_map, map_map.
      transitivity (concat (map (fun x => [k + x]) (newline_offsets b))); [|rewrite <- flat_map_concat_map; apply flat_map_single].
      f_equal. apply map_ext_in. intros x Hx. apply nlo_bound in Hx. destruct (Nat.leb_spec (j + x) k); [lia|]. destruct (Nat.leb_spec (j + x) j); [lia|]. f_equal. lia.
    + intros x Hx. apply in_map_iff in Hx as (y & <- & Hy). apply nlo_bound in Hy. destruct (Nat.leb_spec (k + y) k); [lia|]. destruct (Nat.leb_spec (k + y) j); [auto|lia].
    + intros x Hx. apply nlo_bound in Hx. destruct (Nat.leb_spec x k); [auto|lia].
  - apply memchr_none in Em. rewrite Em. cbn [map app].
    set (f := fun off acc => bind acc (fun acc => if j <=? off then check (j - k <=? off) (Some (off - (j - k) :: acc)) else Some (off :: acc))).
    assert (G : forall l acc, (forall x, In x l -> j <= x -> j - k <= x) -> fold_right f (Some acc) l = Some (map (fun x => if j <=? x then x - (j - k) else x) l ++ acc)).
    { induction l as [|x l IH]; intros acc H; cbn [fold_right map app]; auto. rewrite IH by (intros; apply H; cbn; auto). unfold f. cbn [bind].
      specialize (H x (or_introl eq_refl)). destruct (Nat.leb_spec j x); auto. rewrite (proj2 (Nat.leb_le _ _)) by auto. reflexivity. }
    fold f. rewrite G by (intros; lia). cbn [bind]. rewrite app_nil_r, map_app, map_map. do 3 f_equal.
    + apply map_id_in. intros x Hx. apply nlo_bound in Hx. destruct (Nat.leb_spec j x); lia.
    + apply map_ext. intros x. destruct (Nat.leb_spec j (j + x)); lia.
Qed.

(** Announced edits. *)
Lemma inv_edit t rev p c q t' q' rev' contents : inv t rev p c q -> utf8 t' -> t' = p ++ contents ++ q' -> utf8 contents -> utf8 q' ->
  inv t' rev' p (CC (cc_offset c) contents (cc_first_line c) (cc_first_line_offset c) (newline_offsets contents) (length t') (newlines t' + 1) rev') q'.
Proof.
  intros V U' T' Uc Uq. destruct (inv_parts _ _ _ _ _ V) as (Up & _ & _). destruct V as [U T O C1 C2 L F (b & B1 & B2) Sz N R]. constructor; cbn; auto.
  - rewrite T'. apply utf8_app_cb; auto using utf8_app.
  - rewrite T', app_assoc, <- app_length. apply utf8_app_cb; auto using utf8_app.
  - exists b. split; auto. apply (line_at_prefix t' p (contents ++ q')); [auto|lia|]. apply (line_at_prefix t p (cc_contents c ++ q)); [auto|lia|auto].
Qed.

Lemma cc_update_ok t rev p c q d t' rev' : inv t rev p c q -> edit_ok t d t' ->
  exists c' p' q', cc_update c (Some d) (length t') (newlines t' + 1) rev' = Some c' /\ inv t' rev' p' c' q'.
Proof.
  intros V (Hw & Hb & Ha & U' & HF). unfold cc_update.
  assert (Hclear : forall c0, exists c' p' q', (let? c2 := Some (cc_clear c0) in Some (CC (cc_offset c2) (cc_contents c2) (cc_first_line c2) (cc_first_line_offset c2) (cc_line_offsets c2)
           (length t') (newlines t' + 1) rev')) = Some c' /\ inv t' rev' p' c' q').
  { intros c0. eexists _, [], t'. split; [reflexivity|]. cbn. exact (inv_new t' rev' U'). }
  destruct ((cc_offset c =? 0) && match cc_contents c with [] => true | _ => false end); cbn [bind]; [apply Hclear|].
  unfold should_clear. destruct (summary d) as [[b e] n] eqn:Es. rewrite (i_off _ _ _ _ _ V).
  pose proof (i_text _ _ _ _ _ V) as T. pose proof (i_off _ _ _ _ _ V) as O. destruct (inv_parts _ _ _ _ _ V) as (Up & Uc & Uq).
  pose proof (i_utf8 _ _ _ _ _ V) as U.
  destruct ((b <? length p) || (length p + length (cc_contents c) <? b)) eqn:Hout; cbn [bind]; [apply Hclear|].
  assert (Hbr : length p <= b <= length p + length (cc_contents c)) by lia.
  assert (Lt : length t = length p + length (cc_contents c) + length q) by (rewrite T, !app_length; lia).
  assert (Cmid : forall x, length p <= x <= length p + length (cc_contents c) -> is_char_boundary t x = true ->
     utf8 (firstn (x - length p) (cc_contents c)) /\ utf8 (skipn (x - length p) (cc_contents c))).
  { intros x Hx Hc. apply utf8_cut; auto. apply (cb_mid p _ q); [lia|]. rewrite <- T. now replace (length p + (x - length p)) with x by lia. }
  destruct (is_simple_delete d) eqn:Ed.
  - destruct (delete_shape d t Ed Hb Hw) as (b' & e' & Hlt & Hle & Es' & Ea & Sh). rewrite Es in Es'. injection Es' as <- <- ->.
    rewrite Ea in Ha. injection Ha as <-.
    set (j := Nat.min e (length p + length (cc_contents c)) - length p).
    pose proof (simple_delete_ok _ _ _ _ _ (b - length p) j V ltac:(lia)) as SD.
    replace (length p + (b - length p)) with b in SD by lia. replace (length p + j) with (Nat.min e (length p + length (cc_contents c))) in SD by lia.
    cbv zeta. rewrite SD. cbn [bind].
    rewrite (update_chunk_ok t rev p c q d b e [] [] V Sh) by (auto; lia). cbn [bind cc_offset cc_contents cc_first_line cc_first_line_offset cc_line_offsets].
    assert (Ej : skipn j (cc_contents c) = skipn (e - length p) (cc_contents c)).
    { destruct (Nat.le_gt_cases e (length p + length (cc_contents c))); [f_equal; lia|]. rewrite !skipn_all2 by lia. auto. }
    rewrite Ej. cbn [app].
    assert (Cb : is_char_boundary t b = true /\ is_char_boundary t e = true).
    { destruct Sh as (pre & post & E & Hpre & Hpost). rewrite E, !Forall_app in HF. destruct HF as (F1 & _ & F2). split.
      - destruct Hpre as [->|[-> ->]]; [|apply cb_0]. inversion_clear F1. apply boundary_iff; tauto.
      - destruct Hpost as [->|[-> ->]]; [|apply cb_len]. inversion_clear F2. apply boundary_iff; tauto. }
    destruct Cb as [Cb Ce]. destruct (Cmid b Hbr Cb) as [Ub _].
    assert (Uq' : utf8 (skipn (e - (length p + length (cc_contents c))) q)).
    { destruct (Nat.le_gt_cases e (length p + length (cc_contents c))).
      - replace (e - (length p + length (cc_contents c))) with 0 by lia. auto.
      - destruct (utf8_cut _ _ U Ce) as [_ U2]. rewrite T, !skipn_app in U2. rewrite (skipn_all2 p), (skipn_all2 (cc_contents c)) in U2 by lia.
        cbn [app] in U2. replace (e - length p - length (cc_contents c)) with (e - (length p + length (cc_contents c))) in U2 by lia. auto. }
    assert (Ue : utf8 (skipn (e - length p) (cc_contents c))).
    { destruct (Nat.le_gt_cases e (length p + length (cc_contents c))); [apply (Cmid e); auto; lia|]. rewrite skipn_all2 by lia. exists []. split; [constructor|auto]. }
    eexists _, p, (skipn (e - (length p + length (cc_contents c))) q). split; [reflexivity|]. apply (inv_edit t rev p c q); auto using utf8_app.
    rewrite T at 1 2. rewrite firstn_app, (firstn_all2 p) by lia. rewrite firstn_app. replace (b - length p - length (cc_contents c)) with 0 by lia. rewrite firstn_O, app_nil_r.
    rewrite !skipn_app, (skipn_all2 p) by lia. cbn [app]. rewrite <- !app_assoc. do 3 f_equal. f_equal. lia.
  - destruct (as_simple_insert d) as [s|] eqn:Ei; cbn [bind]; [|apply Hclear].
    destruct (insert_shape d t s Ei Hb Hw) as (i & Hi & Es' & Ea & Sh). rewrite Es in Es'. injection Es' as <- -> ->.
    rewrite Ea in Ha. injection Ha as <-.
    rewrite Nat.sub_diag. cbn [Nat.eqb check].
    pose proof (simple_insert_ok _ _ _ _ _ s (b - length p) V ltac:(lia)) as SI. replace (length p + (b - length p)) with b in SI by lia. rewrite SI. cbn [bind].
    rewrite (update_chunk_ok t rev p c q d b b [Insert s] s V Sh) by (auto; lia). cbn [bind cc_offset cc_contents cc_first_line cc_first_line_offset cc_line_offsets].
    assert (Cb : is_char_boundary t b = true /\ utf8 s).
    { destruct Sh as (pre & post & E & Hpre & Hpost). rewrite E, !Forall_app in HF. destruct HF as (F1 & F3 & F2). split.
      - destruct Hpre as [->|[-> ->]]; [|apply cb_0]. inversion_clear F1. apply boundary_iff; tauto.
      - now inversion_clear F3. }
    destruct Cb as [Cb Us]. destruct (Cmid b Hbr Cb) as [Ub Ue].
    eexists _, p, q. split; [reflexivity|]. apply (inv_edit t rev p c q); auto using utf8_app.
    rewrite T at 1 2. rewrite firstn_app, (firstn_all2 p) by lia. rewrite firstn_app. replace (b - length p - length (cc_contents c)) with 0 by lia. rewrite firstn_O, app_nil_r.
    rewrite !skipn_app, (skipn_all2 p) by lia. cbn [app]. replace (b - length p - length (cc_contents c)) with 0 by lia. cbn [skipn]. now rewrite <- !app_assoc.
Qed.
Lemma cc_replace_ok c t' rev' : utf8 t' -> 
  exists c', cc_update c None (length t') (newlines t' + 1) rev' = Some c' /\ inv t' rev' [] c' t'.
Proof. intros U. eexists. split; [reflexivity|]. exact (inv_new t' rev' U). Qed.

(** ** Histories *)
Lemma cc_query_inv t rev p c q c' : inv t rev p c q -> cc_query t rev c c' -> exists p' q', inv t rev p' c' q'.
Proof.
  intros V Q. destruct Q as [src fuel n res Hs E|src fuel b e res Hs E|src fuel res Hs E|src fuel n res Hs E|src o res Hs E].
  - destruct (get_line_ok t rev p c q src n (fuel + length t) V Hs ltac:(lia)) as (c1 & r1 & p1 & q1 & E1 & V1 & _).
    rewrite (get_line_more _ _ _ _ _ _ E) in E1. injection E1 as <- <-. eauto.
  - eapply get_region_inv; eauto.
  - unfold get_document in E. destruct (get_document_loop_ok t rev src Hs (fuel + length t) p c q [] 0 V) as (c1 & r1 & p1 & q1 & E1 & V1 & _); try lia; auto.
    { apply boundary_iff; [apply V|apply cb_0]. }
    rewrite (get_document_loop_more _ _ _ _ _ _ E) in E1. injection E1 as <- <-. eauto.
  - destruct (offset_of_line_cached t rev p c q src n (fuel + 1) V Hs ltac:(lia)) as (c1 & r1 & p1 & q1 & E1 & V1 & _).
    rewrite (cc_offset_of_line_more _ _ _ _ _ E) in E1. injection E1 as <- <-. eauto.
  - destruct (line_of_offset_cached t rev p c q src o V Hs) as (c1 & r1 & p1 & q1 & E1 & V1 & _). rewrite E in E1. injection E1 as <- <-. eauto.
Qed.
Theorem cc_history_inv t rev c : cc_history t rev c -> exists p q, inv t rev p c q.
Proof.
  induction 1 as [t rev U|t rev c c' H (p & q & V) Q|t rev c d t' rev' c' H (p & q & V) He E|t rev c t' rev' c' H (p & q & V) U E|t rev c H (p & q & V)].
  - eexists _, _. now apply inv_new.
  - eapply cc_query_inv; eauto.
  - destruct (cc_update_ok _ _ _ _ _ _ _ rev' V He) as (c1 & p1 & q1 & E1 & V1). rewrite E in E1. injection E1 as <-. eauto.
  - destruct (cc_replace_ok c t' rev' U) as (c1 & E1 & V1). rewrite E in E1. injection E1 as <-. eauto.
  - eexists _, _. eapply inv_clear; eauto.
Qed.

(** ** The core's answers *)
Lemma server_ok h r fuel start u max_size : rope_wf h r -> h + 1 < fuel -> 4 <= max_size ->
  let t := rcontent r in
  (request_ok t start u -> exists resp, plugin_get_data fuel r start u max_size = Some (Some resp) /\ answers t start u resp /\
     length (r_chunk resp) <= max_size) /\
  (~ request_ok t start u -> plugin_get_data fuel r start u max_size = Some None).
Proof.
  intros W Hf Hm t. pose proof (rope_utf8 h r W) as U. fold t in U.
  pose proof (wf_len rope_ops (fun s => s) leafV compute_info h r W) as Hlen. change (TreeSpec.content (fun s : list nat => s) r) with t in Hlen.
  assert (Em : measure lines_metric r = newlines t).
  { unfold measure. rewrite (wf_info rope_ops (fun s => s) leafV compute_info h r W), newlines_eq. reflexivity. }
  unfold plugin_get_data. split.
  - intros Hr.
    assert (G : exists o, resolve_offset fuel u r start = Some (Some o) /\ o <= length t /\ is_char_boundary t o = true /\
       match u with
       | Utf8 => o <= start /\ char_boundary t o /\ forall y, o < y <= start -> ~ char_boundary t y
       | Line => line_or_end t start o
       end).
    { unfold resolve_offset. destruct u; cbn in Hr.
      - rewrite Hlen, (proj2 (Nat.ltb_ge _ _) Hr). unfold at_or_prev_codepoint_boundary. rewrite (is_cb_ok r h W start Hr). cbn [bind]. fold t.
        destruct (is_char_boundary t start) eqn:B.
        + exists start. split; auto. split; auto. split; auto. split; auto. split; [now apply boundary_iff|]. lia.
        + destruct (prev_cp_ok r h W start Hr) as (x & -> & Hx). fold t in Hx. destruct x as [y|]; [|subst; rewrite cb_0 in B; discriminate].
          destruct Hx as (H1 & H2 & H3). exists y. split; auto. split; [lia|]. split; auto. split; [lia|]. split; [now apply boundary_iff|].
          intros z Hz Hn. apply boundary_iff in Hn; auto. destruct (Nat.eq_dec z start) as [->|]; [congruence|]. apply (H3 z); [lia|auto].
      - rewrite Em, (proj2 (Nat.ltb_ge _ _) Hr).
        assert (exists o, offset_of_line fuel r start = Some o /\ line_or_end t start o) as (o & -> & Ho).
        { destruct (Nat.le_gt_cases start (newlines t)).
          - destruct (offset_of_line_ok h r start fuel W) as (o & E & L); auto. exists o. split; auto. now left.
          - replace start with (newlines t + 1) by lia. exists (length t). split; [eapply offset_of_line_end; eauto|]. right. auto. }
        cbn [bind]. exists o. split; auto. split; [destruct Ho as [(Ho & _)|[_ ->]]; auto|]. split; [eapply line_at_boundary; eauto|auto]. }
    destruct G as (o & -> & Ho & Co & Hu). cbn [bind].
    set (m := Nat.min max_size MAX_SIZE_LIMIT). assert (Hm4 : 4 <= m).
    { apply Nat.min_glb; auto. apply Nat.leb_le. reflexivity. }
    assert (Hmm : m <= max_size) by (unfold m; lia).
    assert (G : exists e, (if n_len r <=? o + m then Some (n_len r) else let? p := prev_codepoint_offset r (o + m + 1) in p) = Some e /\
       o <= e <= length t /\ is_char_boundary t e = true /\ (o < length t -> o < e) /\ e <= o + m).
    { rewrite Hlen. destruct (Nat.leb_spec (length t) (o + m)).
      - exists (length t). split; auto. split; [lia|]. split; [apply cb_len|]. lia.
      - destruct (prev_cp_ok r h W (o + m + 1)) as (x & -> & Hx); [change (o + m + 1 <= length t); lia|]. cbn [bind]. change (rcontent r) with t in Hx. destruct x as [y|]; [|lia].
        destruct Hx as (H1 & H2 & H3). exists y. split; auto. destruct (back_spec t (o + m)) as (B1 & B2 & _).
        pose proof (back_le3 t (o + m) U ltac:(lia)). assert (o < y).
        { destruct (Nat.le_gt_cases (back_to_boundary t (o + m)) y); [lia|]. exfalso. apply (H3 (back_to_boundary t (o + m))); [lia|auto]. }
        split; [lia|]. split; auto. lia. }
    destruct G as (e & -> & He & Ce & Hne & Hem). cbn [bind].
    rewrite (slice_to_cow_ok r h W o e) by (auto; lia). cbn [bind]. fold t.
    rewrite (line_of_offset_ok h r o fuel W Co Hf). cbn [bind]. fold t.
    destruct (offset_of_line_ok h r (newlines (firstn o t)) fuel W) as (b & -> & Lb); auto.
    { fold t. apply newlines_firstn_le. }
    change (line_start (rcontent r)) with (line_at t) in Lb. cbn [bind].
    assert (Hbo : b <= o).
    { destruct (Nat.le_gt_cases b o); auto. exfalso. destruct Lb as (L1 & L2 & [->|L3]); [lia|].
      assert (nth_error (slice t o b) (b - 1 - o) = Some 10).
      { unfold slice. rewrite nth_error_firstn. destruct (Nat.ltb_spec (b - 1 - o) (b - o)); [|lia]. rewrite nth_error_skipn. rewrite <- L3. f_equal. lia. }
      assert (firstn b t = firstn o t ++ slice t o b) as Es.
      { unfold slice. rewrite <- (firstn_skipn o (firstn b t)). f_equal; [rewrite firstn_firstn; f_equal; lia|]. now rewrite skipn_firstn_comm. }
      rewrite Es, newlines_app in L2. assert (newlines (slice t o b) > 0); [|lia]. apply count_occ_In. now apply nth_error_In in H0. }
    rewrite (proj2 (Nat.leb_le _ _) Hbo). cbn [check]. eexists. split; [reflexivity|]. split.
    2: { cbn [r_chunk]. unfold slice. rewrite firstn_length. lia. }
    unfold answers. cbn [r_offset r_chunk r_first_line r_first_line_offset].
    split; [auto|]. split; [now apply boundary_iff|]. split; [exists e; split; [lia|]; split; [now apply boundary_iff|auto]|].
    split; [|split; [auto|exists b; split; [auto|lia]]].
    intros Hlt Hn. specialize (Hne Hlt). apply (f_equal (@length nat)) in Hn. unfold slice in Hn. rewrite firstn_length_le in Hn; [cbn in Hn; lia|rewrite skipn_length; lia].
  - intros Hn. unfold resolve_offset. destruct u; cbn in Hn; [rewrite Hlen|rewrite Em]; rewrite (proj2 (Nat.ltb_lt _ _)) by lia; reflexivity.
Qed.

(** ** The state cache *)
Section State.
Context {S : Type}.
Implicit Types (c : state_cache S) (es : list (entry S)) (e : entry S).

Lemma line_at_lt t n m o o' : line_at t n o -> line_at t m o' -> o < o' -> n < m.
Proof.
  intros H H' Ho. destruct (Nat.lt_ge_cases n m); auto. exfalso.
  assert (o' <= o); [|lia]. eapply line_le; eauto. now left.
Qed.
Lemma line_at_lt_off t n m o o' : line_at t n o -> line_at t m o' -> n < m -> o < o'.
Proof. intros (H1 & H2 & _) H' Ho. eapply line_at_no_more; eauto. lia. Qed.

Record sinv (t : list nat) (es : list (entry S)) : Prop := {
  si_incr : incr (map e_offset es);
  si_line : Forall (fun e => line_at t (e_line e) (e_offset e)) es }.

Lemma sinv_lines t es : sinv t es -> incr (map e_line es).
Proof.
  intros [H1 H2]. induction es as [|e es IH]; cbn [map incr] in *; auto. inversion_clear H2. destruct H1 as [H1 H1']. split; auto.
  rewrite Forall_forall in *. intros y Hy. apply in_map_iff in Hy as (e' & <- & He'). eapply line_at_lt; eauto. apply H1. now apply in_map.
Qed.
Lemma sinv_aligned t es : sinv t es -> aligned t es.
Proof.
  intros H. pose proof (sinv_lines t es H) as HL. destruct H as [H1 H2]. rewrite Forall_forall in H2. split; auto.
  intros i j a b Hij Ha Hb. split.
  - apply (incr_nth _ HL i j); auto; now apply map_nth_error.
  - apply (incr_nth _ H1 i j); auto; now apply map_nth_error.
Qed.

Lemma find_cases (key : entry S -> nat) es x : incr (map key es) ->
  (exists es1 e es2, es = es1 ++ e :: es2 /\ key e = x /\ bsearch (map key es) x = (true, length es1) /\
     Forall (fun a => key a < x) es1 /\ Forall (fun a => x < key a) es2) \/
  (exists es1 es2, es = es1 ++ es2 /\ bsearch (map key es) x = (false, length es1) /\
     Forall (fun a => key a < x) es1 /\ Forall (fun a => x < key a) es2).
Proof.
  intros Hi. destruct (bs_cases (map key es) x Hi) as [(l1 & l2 & El & E & A & B)|(l1 & l2 & El & E & A & B)]; [left|right].
  - apply map_eq_app in El as (es1 & es' & -> & <- & El). destruct es' as [|e es2]; [discriminate|]. cbn in El. injection El as Ek <-.
    exists es1, e, es2. split; auto. split; auto. rewrite map_length in E. split; auto.
    split; apply Forall_forall; intros a Ha; [apply A|apply B]; now apply in_map.
  - apply map_eq_app in El as (es1 & es2 & -> & <- & <-). exists es1, es2. rewrite map_length in E. split; auto. split; auto.
    split; apply Forall_forall; intros a Ha; [apply A|apply B]; now apply in_map.
Qed.
Lemma sinv_app t es1 es2 : sinv t (es1 ++ es2) -> sinv t es1 /\ sinv t es2.
Proof.
  intros [H1 H2]. rewrite map_app in H1. apply incr_app in H1 as (A & B & _). apply Forall_app in H2 as [C D]. split; constructor; auto.
Qed.
Lemma sinv_join t es1 es2 : sinv t es1 -> sinv t es2 -> (forall a b, In a es1 -> In b es2 -> e_offset a < e_offset b) -> sinv t (es1 ++ es2).
Proof.
  intros [A B] [C D] H. constructor; [|now apply Forall_app]. rewrite map_app. apply incr_app. split; auto. split; auto.
  intros x y Hx Hy. apply in_map_iff in Hx as (a & <- & Ha). apply in_map_iff in Hy as (b & <- & Hb). auto.
Qed.
Lemma sinv_cross t es1 es2 : sinv t (es1 ++ es2) -> forall a b, In a es1 -> In b es2 -> e_offset a < e_offset b /\ e_line a < e_line b.
Proof.
  intros H a b Ha Hb. pose proof (sinv_lines _ _ H) as HL. destruct H as [H1 _]. rewrite map_app in *. apply incr_app in H1 as (_ & _ & H1). apply incr_app in HL as (_ & _ & HL).
  split; [apply H1|apply HL]; now apply in_map.
Qed.

(** Entries at or before an offset. *)
Lemma after_offset_ok t c b : sinv t (sc_entries c) ->
  exists es1 es2, sc_entries c = es1 ++ es2 /\ after_offset c b = length es1 /\
    Forall (fun a => e_offset a <= b) es1 /\ Forall (fun a => b < e_offset a) es2.
Proof.
  intros H. unfold after_offset, find_offset. destruct (find_cases e_offset (sc_entries c) b (si_incr _ _ H)) as [(es1 & e & es2 & E & Ek & -> & A & B)|(es1 & es2 & E & -> & A & B)].
  - exists (es1 ++ [e]), es2. rewrite <- app_assoc. split; auto. split; [rewrite app_length; reflexivity|]. split; auto.
    apply Forall_app. split; [eapply Forall_impl; [|exact A]; cbv beta; lia|constructor; [lia|constructor]].
  - exists es1, es2. split; auto. split; auto. split; auto. eapply Forall_impl; [|exact A]. cbv beta. lia.
Qed.
Lemma truncate_ok t c b : sinv t (sc_entries c) ->
  exists es1 es2 f, sc_entries c = es1 ++ es2 /\ truncate_cache c b = Some (SC (sc_buf c) es1 f) /\
    Forall (fun a => e_offset a <= b) es1 /\ Forall (fun a => b < e_offset a) es2.
Proof.
  intros H. unfold truncate_cache, find_offset. destruct (find_cases e_offset (sc_entries c) b (si_incr _ _ H)) as [(es1 & e & es2 & E & Ek & -> & A & B)|(es1 & es2 & E & -> & A & B)].
  - rewrite E, nth_error_app2, Nat.sub_diag by auto. cbn [nth_error bind]. exists (es1 ++ [e]), es2. eexists.
    rewrite <- app_assoc. split; auto. split.
    + do 2 f_equal. change (e :: es2) with ([e] ++ es2). rewrite app_assoc. apply firstn_app_exact. rewrite app_length. reflexivity.
    + split; auto. apply Forall_app. split; [eapply Forall_impl; [|exact A]; cbv beta; lia|constructor; [lia|constructor]].
  - assert (A' : Forall (fun a => e_offset a <= b) es1) by (eapply Forall_impl; [|exact A]; cbv beta; lia).
    destruct es1 as [|e es1' _] using rev_ind.
    + cbn [length bind]. exists [], es2. eexists. split; auto.
    + rewrite app_length. cbn [length]. rewrite Nat.add_1_r. rewrite E, <- app_assoc, nth_error_app2, Nat.sub_diag by auto. cbn [app nth_error bind].
      exists (es1' ++ [e]), es2. eexists. split; [now rewrite <- app_assoc|]. split; [|auto]. do 2 f_equal. change (e :: es2) with ([e] ++ es2). rewrite app_assoc. apply firstn_app_exact. rewrite app_length. cbn. lia.
Qed.

(** Entries before an edit stay right. *)
Lemma line_at_keep t t' b n o : firstn b t' = firstn b t -> b <= length t -> b <= length t' -> o <= b -> line_at t n o -> line_at t' n o.
Proof.
  intros E H1 H2 Ho H. apply (line_at_prefix t' (firstn b t') (skipn b t')); [symmetry; apply firstn_skipn|rewrite firstn_length_le; auto|].
  rewrite E. apply (line_at_prefix t (firstn b t) (skipn b t)); auto; [symmetry; apply firstn_skipn|rewrite firstn_length_le; auto].
Qed.
Lemma sinv_keep t t' b es : firstn b t' = firstn b t -> b <= length t -> b <= length t' -> Forall (fun a => e_offset a <= b) es -> sinv t es -> sinv t' es.
Proof.
  intros E H1 H2 H [A B]. constructor; auto. rewrite Forall_forall in *. intros e He. eapply line_at_keep; eauto.
Qed.
(** Entries after it move. *)
Lemma line_at_rest a b n o : length a < o -> line_at (a ++ b) n o -> newlines a <= n /\ line_at b (n - newlines a) (o - length a).
Proof.
  intros Ho (H1 & H2 & H3). rewrite firstn_app, firstn_all2, newlines_app in H2 by lia. rewrite app_length in H1. split; [lia|].
  split; [lia|]. split; [lia|]. right. destruct H3 as [H3|H3]; [lia|]. rewrite nth_error_app2 in H3 by lia. rewrite <- H3. f_equal. lia.
Qed.
Lemma line_at_move a m m' b n o : length a + length m < o -> line_at (a ++ m ++ b) n o ->
  newlines m <= n /\ line_at (a ++ m' ++ b) (n - newlines m + newlines m') (o - length m + length m').
Proof.
  intros Ho H. rewrite app_assoc in H. destruct (line_at_rest (a ++ m) b n o) as [H1 H2]; auto; [rewrite app_length; lia|].
  rewrite newlines_app, app_length in *. split; [lia|]. apply (line_at_shift (a ++ m') b []) in H2; [|lia]. rewrite app_nil_r, <- app_assoc in H2.
  rewrite newlines_app, app_length in H2. replace (n - newlines m + newlines m') with (newlines a + newlines m' + (n - (newlines a + newlines m))) by lia.
  replace (o - length m + length m') with (length a + length m' + (o - (length a + length m))) by lia. exact H2.
Qed.

Lemma patchup_entries c ix mv : ix <= length (sc_entries c) -> exists f, patchup_frontier c ix mv = Some (SC (sc_buf c) (sc_entries c) f).
Proof.
  intros H. unfold patchup_frontier. destruct ix as [|i]; cbn [bind]; [eauto|].
  destruct (nth_error (sc_entries c) i) as [e|] eqn:E; [cbn [bind]; eauto|]. apply nth_error_None in E. lia.
Qed.

(** What an edit does to the entries. *)
Definition followed (b e k : nat) (es es' : list (entry S)) : Prop :=
  forall a', In a' es' -> exists a, In a es /\ e_state a' = e_state a /\
    (e_offset a <= b /\ a' = a \/ e < e_offset a /\ e_offset a' = e_offset a - (e - b) + k).

Lemma update_line_cache_ok t rev p c q d t' : inv t rev p (sc_buf c) q -> sinv t (sc_entries c) -> edit_ok t d t' ->
  exists c', update_line_cache c d = Some c' /\ sc_buf c' = sc_buf c /\ sinv t' (sc_entries c') /\
    followed (fst (fst (summary d))) (snd (fst (summary d))) (snd (summary d)) (sc_entries c) (sc_entries c') /\
    length (sc_entries c') <= length (sc_entries c).
Proof.
  intros V H (Hw & Hb & Ha & U' & HF). unfold update_line_cache. destruct (summary d) as [[b e] n] eqn:Es. cbn [fst snd].
  destruct (as_simple_insert d) as [s|] eqn:Ei.
  - destruct (insert_shape d t s Ei Hb Hw) as (i & Hi & Es' & Ea & Sh). rewrite Es in Es'. injection Es' as <- -> ->.
    rewrite Ea in Ha. injection Ha as <-. rewrite Nat.sub_diag, !Nat.eqb_refl. cbn [andb check]. unfold line_cache_simple_insert.
    destruct (after_offset_ok t c b H) as (es1 & es2 & E & -> & A & B). rewrite E, firstn_app_exact, skipn_app_exact by auto.
    set (mv := fun a : entry S => Entry (e_line a + count_newlines s) (e_offset a + length s) (e_state a)).
    match goal with |- context [patchup_frontier ?x ?y ?z] => destruct (patchup_entries x y z) as (f & ->) end; [cbn; rewrite app_length; lia|].
    eexists. split; [reflexivity|]. split; [reflexivity|]. cbn [sc_entries sc_buf].
    rewrite E in H. destruct (sinv_app _ _ _ H) as [H1 H2].
    assert (Lf : length (firstn b t) = b) by (apply firstn_length_le; auto).
    split; [|split].
    + apply sinv_join.
      * eapply (sinv_keep t _ b); eauto; [apply firstn_app_exact; auto|rewrite !app_length, Lf; lia].
      * destruct H2 as [C D]. constructor.
        -- rewrite map_map. change (map (fun x => e_offset (mv x)) es2) with (map (fun x => e_offset x + length s) es2).
           rewrite <- (map_map e_offset (fun x => x + length s)). apply incr_map; auto. lia.
        -- rewrite Forall_forall in *. intros x Hx. apply in_map_iff in Hx as (a & <- & Hin). cbn. specialize (B a Hin). specialize (D a Hin). rewrite <- newlines_eq.
           pose proof (line_at_move (firstn b t) [] s (skipn b t) (e_line a) (e_offset a)) as M. cbn [app length newlines count_occ] in M.
           rewrite firstn_skipn in M. destruct M as [_ M]; auto; [lia|]. cbn in M. rewrite !Nat.sub_0_r in M. exact M.
      * intros x y Hx Hy. apply in_map_iff in Hy as (a & <- & Hin). cbn. rewrite Forall_forall in A, B. specialize (A x Hx). specialize (B a Hin). lia.
    + intros a' Hin. apply in_app_iff in Hin as [Hin|Hin].
      * exists a'. rewrite Forall_forall in A. split; [rewrite in_app_iff; auto|]. split; auto.
      * apply in_map_iff in Hin as (a & <- & Hin). exists a. rewrite Forall_forall in B. split; [rewrite in_app_iff; auto|]. split; [reflexivity|]. right. cbn. specialize (B a Hin). lia.
    + rewrite !app_length, map_length. lia.
  - destruct (is_simple_delete d) eqn:Ed.
    + destruct (delete_shape d t Ed Hb Hw) as (b' & e' & Hlt & Hle & Es' & Ea & Sh). rewrite Es in Es'. injection Es' as <- <- ->.
      rewrite Ea in Ha. injection Ha as <-. cbn [Nat.eqb check]. unfold line_cache_simple_delete. rewrite (i_off _ _ _ _ _ V).
      assert (Lf : length (firstn b t) = b) by (apply firstn_length_le; lia).
      assert (Cb : is_char_boundary t b = true /\ is_char_boundary t e = true).
      { pose proof (i_utf8 _ _ _ _ _ V) as U. destruct Sh as (pre & post & E & Hpre & Hpost). rewrite E, !Forall_app in HF. destruct HF as (F1 & _ & F2). split.
        - destruct Hpre as [->|[-> ->]]; [|apply cb_0]. inversion_clear F1. apply boundary_iff; tauto.
        - destruct Hpost as [->|[-> ->]]; [|apply cb_len]. inversion_clear F2. apply boundary_iff; tauto. }
      destruct Cb as [Cb Ce]. pose proof (i_text _ _ _ _ _ V) as T.
      destruct ((length p <=? b) && (e <=? length p + length (cc_contents (sc_buf c)))) eqn:Hin.
      * assert (Hr : length p <= b /\ e <= length p + length (cc_contents (sc_buf c))) by lia.
        rewrite str_slice_some; [|lia|apply (cb_mid p _ q); [lia|]; rewrite <- T; now replace (length p + (b - length p)) with b by lia
          |apply (cb_mid p _ q); [lia|]; rewrite <- T; now replace (length p + (e - length p)) with e by lia].
        cbn [bind]. replace (slice (cc_contents (sc_buf c)) (b - length p) (e - length p)) with (slice t b e).
        2: { rewrite T at 1. replace b with (length p + (b - length p)) at 1 by lia. replace e with (length p + (e - length p)) at 1 by lia. apply slice_mid; lia. }
        rewrite <- newlines_eq. set (m := slice t b e). set (k := newlines m).
        assert (Lm : length m = e - b) by (unfold m, slice; rewrite firstn_length_le; [lia|rewrite skipn_length; lia]).
        assert (Et : t = firstn b t ++ m ++ skipn e t).
        { unfold m, slice. rewrite <- (firstn_skipn b t) at 1. f_equal.
          rewrite <- (firstn_skipn (e - b) (skipn b t)) at 1. f_equal. rewrite skipn_skipn. f_equal. lia. }
        destruct (after_offset_ok t c b H) as (es1 & es2 & E & -> & A & B). rewrite E, firstn_app_exact, skipn_app_exact by auto.
        rewrite E in H. destruct (sinv_app _ _ _ H) as [H1 H2].
        assert (D : exists es3 es4, es2 = es3 ++ es4 /\ drop_until es2 e = es4 /\ Forall (fun a => e < e_offset a) es4).
        { clear -H2. destruct H2 as [H2 _]. induction es2 as [|a es2 IH]; cbn [drop_until].
          - exists [], []. auto.
          - cbn [map incr] in H2. destruct H2 as [H2 H3]. destruct (Nat.leb_spec (e_offset a) e).
            + destruct (IH H3) as (es3 & es4 & -> & Ed & F). exists (a :: es3), es4. auto.
            + exists [], (a :: es2). split; auto. split; auto. constructor; auto. rewrite Forall_forall in *. intros x Hx.
              specialize (H2 (e_offset x) (in_map _ _ _ Hx)). lia. }
        destruct D as (es3 & es4 & -> & -> & F4). destruct (sinv_app _ _ _ H2) as [_ H4].
        set (mv := fun a : entry S => Entry (e_line a - k) (e_offset a - (e - b)) (e_state a)).
        assert (Hm : forall a, In a es4 -> k <= e_line a /\ line_at (firstn b t ++ skipn e t) (e_line a - k) (e_offset a - (e - b))).
        { intros a Hin'. destruct H4 as [_ D]. rewrite Forall_forall in D, F4. specialize (D a Hin'). specialize (F4 a Hin'). rewrite Et in D.
          pose proof (line_at_move (firstn b t) m [] (skipn e t) (e_line a) (e_offset a)) as M. rewrite Lf, Lm in M. destruct M as [M1 M2]; auto; [lia|].
          fold k in M1, M2. cbn in M2. rewrite !Nat.add_0_r in M2. auto. }
        match goal with |- context [fold_right ?f (Some []) es4] => assert (G : fold_right f (Some []) es4 = Some (map mv es4)) end.
        { clear -Hm F4 Hlt. induction es4 as [|a es4 IH]; cbn [fold_right map]; auto. inversion_clear F4. rewrite IH by (auto; intros; apply Hm; cbn; auto). cbn [bind].
          destruct (Hm a (or_introl eq_refl)) as [Hk _]. rewrite (proj2 (Nat.leb_le _ _) Hk), (proj2 (Nat.leb_le _ _)) by lia. reflexivity. }
        rewrite G. cbn [bind].
        match goal with |- context [patchup_frontier ?x ?y ?z] => destruct (patchup_entries x y z) as (f & ->) end; [cbn; rewrite app_length; lia|].
        eexists. split; [reflexivity|]. split; [reflexivity|]. cbn [sc_entries sc_buf]. split; [|split].
        -- apply sinv_join.
           ++ eapply (sinv_keep t _ b); eauto; [apply firstn_app_exact; auto|lia|rewrite !app_length, Lf; lia].
           ++ destruct H4 as [C D]. constructor.
              ** rewrite Forall_forall in F4. clear -C F4 Hlt. induction es4 as [|a es4 IH]; cbn [map incr] in *; auto. destruct C as [C1 C2]. split; [|apply IH; auto; intros; apply F4; cbn; auto].
                 rewrite Forall_forall in *. intros x Hx. apply in_map_iff in Hx as (y & <- & Hy). apply in_map_iff in Hy as (z & <- & Hz). cbn.
                 specialize (C1 (e_offset z) (in_map _ _ _ Hz)). pose proof (F4 a (or_introl eq_refl)). lia.
              ** apply Forall_forall. intros x Hx. apply in_map_iff in Hx as (a & <- & Hin'). cbn. now apply Hm.
           ++ intros x y Hx Hy. apply in_map_iff in Hy as (a & <- & Hin'). cbn. rewrite Forall_forall in A, F4. specialize (A x Hx). specialize (F4 a Hin'). lia.
        -- intros a' Hin'. apply in_app_iff in Hin' as [Hin'|Hin'].
           ++ exists a'. rewrite Forall_forall in A. split; [rewrite in_app_iff; auto|]. split; auto.
           ++ apply in_map_iff in Hin' as (a & <- & Hin'). exists a. rewrite Forall_forall in F4. split; [rewrite !in_app_iff; auto|]. split; [reflexivity|]. right. cbn. specialize (F4 a Hin'). lia.
        -- rewrite !app_length, map_length. lia.
      * destruct (truncate_ok t c b H) as (es1 & es2 & f & E & -> & A & B). eexists. split; [reflexivity|]. split; [reflexivity|]. cbn [sc_entries].
        rewrite E in H. destruct (sinv_app _ _ _ H) as [H1 H2]. split; [|split].
        -- eapply (sinv_keep t _ b); eauto; [apply firstn_app_exact; auto|lia|rewrite !app_length, Lf; lia].
        -- intros a Hin'. exists a. rewrite Forall_forall in A. rewrite E. split; [rewrite in_app_iff; auto|]. auto.
        -- rewrite E, app_length. lia.
    + destruct (summary_ok d t b e n Hw Hb Es) as (S1 & S2 & mid & Sl & Sa). rewrite Sa in Ha. injection Ha as <-.
      assert (Lf : length (firstn b t) = b) by (apply firstn_length_le; lia).
      destruct (truncate_ok t c b H) as (es1 & es2 & f & E & -> & A & B). eexists. split; [reflexivity|]. split; [reflexivity|]. cbn [sc_entries].
      rewrite E in H. destruct (sinv_app _ _ _ H) as [H1 H2]. split; [|split].
      * eapply (sinv_keep t _ b); eauto; [apply firstn_app_exact; auto|lia|rewrite !app_length, Lf; lia].
      * intros a Hin'. exists a. rewrite Forall_forall in A. rewrite E. split; [rewrite in_app_iff; auto|]. auto.
      * rewrite E, app_length. lia.
Qed.

Lemma sc_update_ok t rev p c q d t' rev' : inv t rev p (sc_buf c) q -> sinv t (sc_entries c) -> edit_ok t d t' ->
  exists c' p' q', sc_update c (Some d) (length t') (newlines t' + 1) rev' = Some c' /\ inv t' rev' p' (sc_buf c') q' /\ sinv t' (sc_entries c') /\
    followed (fst (fst (summary d))) (snd (fst (summary d))) (snd (summary d)) (sc_entries c) (sc_entries c') /\
    length (sc_entries c') <= length (sc_entries c).
Proof.
  intros V H He. unfold sc_update. destruct (update_line_cache_ok _ _ _ _ _ _ _ V H He) as (c1 & -> & Eb & H1 & Hf & Hl). cbn [bind]. rewrite Eb.
  destruct (cc_update_ok _ _ _ _ _ _ _ rev' V He) as (b & p' & q' & -> & V'). cbn [bind]. eexists _, p', q'. split; [reflexivity|]. auto.
Qed.
Lemma sc_replace_ok t rev p c q t' rev' : inv t rev p (sc_buf c) q -> sinv t (sc_entries c) -> utf8 t' ->
  exists c' p' q', sc_update c None (length t') (newlines t' + 1) rev' = Some c' /\ inv t' rev' p' (sc_buf c') q' /\ sinv t' (sc_entries c') /\
    (forall a, In a (sc_entries c') -> In a (sc_entries c) /\ e_line a = 0 /\ e_offset a = 0) /\
    length (sc_entries c') <= length (sc_entries c).
Proof.
  intros V H U'. unfold sc_update. destruct (truncate_ok t c 0 H) as (es1 & es2 & f & E & -> & A & B). cbn [bind sc_buf sc_entries].
  destruct (cc_replace_ok (sc_buf c) t' rev' U') as (b & -> & V'). cbn [bind]. eexists _, _, _. split; [reflexivity|]. split; [exact V'|]. cbn [sc_entries].
  rewrite E in *. destruct (sinv_app _ _ _ H) as [H1 H2]. split; [|split].
  - eapply (sinv_keep t _ 0); eauto; lia.
  - intros a Ha. rewrite Forall_forall in A. specialize (A a Ha). split; [rewrite in_app_iff; auto|]. destruct H1 as [_ D]. rewrite Forall_forall in D. destruct (D a Ha) as (_ & D2 & _).
    replace (e_offset a) with 0 in * by lia. cbn in D2. auto.
  - rewrite app_length. lia.
Qed.

(** Eviction. *)
Lemma compute_gap_ok t rev p c q ix : inv t rev p (sc_buf c) q -> sinv t (sc_entries c) -> ix < length (sc_entries c) -> exists g, compute_gap c ix = Some g.
Proof.
  intros V H Hi. unfold compute_gap. pose proof (sinv_aligned _ _ H) as [AL1 AL2]. rewrite (i_size _ _ _ _ _ V).
  assert (G : exists x, (match ix with 0 => Some 0 | Datatypes.S i => let? e := nth_error (sc_entries c) i in Some (e_offset e) end) = Some x /\
     x <= match nth_error (sc_entries c) (ix + 1) with Some item => e_offset item | None => length t end).
  { destruct ix as [|i]; [exists 0; split; auto; lia|]. destruct (nth_error (sc_entries c) i) as [a|] eqn:Ea; [|apply nth_error_None in Ea; lia].
    exists (e_offset a). split; auto. destruct (nth_error (sc_entries c) (Datatypes.S i + 1)) as [b|] eqn:Eb.
    - destruct (AL2 i (Datatypes.S i + 1) a b) as [_ ?]; auto; lia.
    - apply nth_error_In in Ea. apply AL1 in Ea. apply Ea. }
  destruct G as (x & -> & Hx). cbn [bind]. rewrite (proj2 (Nat.leb_le _ _) Hx). cbn [check]. eauto.
Qed.
Lemma choose_victim_ok t rev p c q : inv t rev p (sc_buf c) q -> sinv t (sc_entries c) -> forall probes best,
  Forall (fun ix => ix < length (sc_entries c)) probes -> (forall g i, best = Some (g, i) -> i < length (sc_entries c)) ->
  probes <> [] \/ best <> None -> exists ix, choose_victim c probes best = Some ix /\ ix < length (sc_entries c).
Proof.
  intros V H. induction probes as [|ix probes IH]; intros best HF Hb Hn; cbn [choose_victim].
  - destruct best as [[g i]|]; [|destruct Hn; congruence]. cbn [bind]. exists i. eauto.
  - inversion_clear HF. rewrite (proj2 (Nat.ltb_lt _ _) H0). cbn [check]. destruct (compute_gap_ok _ _ _ _ _ ix V H H0) as (g & ->). cbn [bind].
    apply IH; auto.
    + destruct best as [[g0 i0]|]; [destruct (g <? g0)|]; intros g1 i1 E1; injection E1 as <- <-; eauto.
    + right. destruct best as [[g0 i0]|]; [destruct (g <? g0)|]; discriminate.
Qed.
Lemma choose_victim_bound c : forall probes best ix, (forall g i, best = Some (g, i) -> i < length (sc_entries c)) ->
  choose_victim c probes best = Some ix -> ix < length (sc_entries c).
Proof.
  induction probes as [|x probes IH]; intros best ix Hb E; cbn [choose_victim] in E.
  - destruct best as [[g i]|]; [|discriminate]. cbn in E. injection E as <-. eauto.
  - destruct (Nat.ltb_spec x (length (sc_entries c))); [|discriminate]. cbn [check] in E. destruct (compute_gap c x) as [g|]; [|discriminate]. cbn [bind] in E.
    eapply IH; [|exact E]. destruct best as [[g0 i0]|]; [destruct (g <? g0)|]; intros g1 i1 E1; injection E1 as <- <-; eauto.
Qed.

Lemma sinv_remove t es1 e es2 : sinv t (es1 ++ e :: es2) -> sinv t (es1 ++ es2).
Proof.
  intros H. destruct (sinv_app _ _ _ H) as [H1 H2]. change (e :: es2) with ([e] ++ es2) in H2. destruct (sinv_app _ _ _ H2) as [_ H3].
  apply sinv_join; auto. intros a b Ha Hb. eapply sinv_cross in H; [apply H|auto|cbn; auto].
Qed.

(** The entries after making room. *)
Definition room (es es' : list (entry S)) : Prop := es' = es \/ exists es1 e es2, es = es1 ++ e :: es2 /\ es' = es1 ++ es2.

Lemma evict_inv c probes c' : evict c probes = Some c' -> sc_buf c' = sc_buf c /\ room (sc_entries c) (sc_entries c') /\ length (sc_entries c') < length (sc_entries c).
Proof.
  unfold evict. destruct (choose_victim c probes None) as [ix|] eqn:E; [|discriminate]. cbn [bind]. intros H; injection H as <-. cbn [sc_buf sc_entries].
  apply choose_victim_bound in E; [|discriminate]. destruct (nth_error (sc_entries c) ix) as [a|] eqn:Ea; [|apply nth_error_None in Ea; lia].
  apply nth_error_split in Ea as (es1 & es2 & E1 & <-). split; auto. rewrite E1.
  rewrite firstn_app_exact by auto. replace (skipn (length es1 + 1) (es1 ++ a :: es2)) with es2.
  2: { change (a :: es2) with ([a] ++ es2). rewrite app_assoc, skipn_app_exact; auto. rewrite app_length. reflexivity. }
  split; [right; eauto|]. rewrite !app_length. cbn. lia.
Qed.

(** Setting a state. *)
Lemma insert_entry_inv t c probes e c' ix : sinv t (sc_entries c) -> line_at t (e_line e) (e_offset e) ->
  insert_entry c probes e = Some (c', ix) -> sc_buf c' = sc_buf c /\ sinv t (sc_entries c') /\
    exists es es1 es2, room (sc_entries c) es /\ es = es1 ++ es2 /\ sc_entries c' = es1 ++ e :: es2 /\ ix = length es1 /\
      (length (sc_entries c) <= CACHE_SIZE -> length (sc_entries c') <= CACHE_SIZE).
Proof.
  intros H Hl. unfold insert_entry.
  assert (G : forall c1, (if CACHE_SIZE <=? length (sc_entries c) then evict c probes else Some c) = Some c1 ->
     sc_buf c1 = sc_buf c /\ room (sc_entries c) (sc_entries c1) /\ (length (sc_entries c) <= CACHE_SIZE -> length (sc_entries c1) < CACHE_SIZE)).
  { intros c1. destruct (Nat.leb_spec CACHE_SIZE (length (sc_entries c))).
    - intros E. apply evict_inv in E as (E1 & E2 & E3). split; auto. split; auto. lia.
    - intros E. injection E as <-. split; auto. split; [now left|auto]. }
  destruct (if CACHE_SIZE <=? length (sc_entries c) then evict c probes else Some c) as [c1|]; [|discriminate]. cbn [bind].
  destruct (G c1 eq_refl) as (Eb & Er & El). clear G.
  assert (H1 : sinv t (sc_entries c1)).
  { destruct Er as [->|(es1 & a & es2 & E1 & ->)]; auto. rewrite E1 in H. eapply sinv_remove; eauto. }
  unfold find_line. destruct (find_cases e_line (sc_entries c1) (e_line e) (sinv_lines _ _ H1)) as [(es1 & a & es2 & E & Ek & -> & A & B)|(es1 & es2 & E & -> & A & B)]; [discriminate|].
  intros E0. injection E0 as <- <-. cbn [sc_buf sc_entries]. split; auto. rewrite E in *. rewrite firstn_app_exact, skipn_app_exact by auto.
  destruct (sinv_app _ _ _ H1) as [H2 H3]. split.
  - apply sinv_join; auto.
    + change (e :: es2) with ([e] ++ es2). apply sinv_join; auto.
      * constructor; [cbn; auto|constructor; auto].
      * intros a b [<-|[]] Hb. rewrite Forall_forall in B. destruct H3 as [_ D]. rewrite Forall_forall in D. exact (line_at_lt_off _ _ _ _ _ Hl (D b Hb) (B b Hb)).
    + intros a b Ha [<-|Hb].
      * rewrite Forall_forall in A. destruct H2 as [_ D]. rewrite Forall_forall in D. exact (line_at_lt_off _ _ _ _ _ (D a Ha) Hl (A a Ha)).
      * now apply (sinv_cross _ _ _ H1).
  - exists (es1 ++ es2), es1, es2. split; auto. split; auto. split; auto. split; auto.
    intros Hc. specialize (El Hc). rewrite app_length in *. cbn [length]. lia.
Qed.

Lemma sc_set_inv t rev p c q src probes n s c' : inv t rev p (sc_buf c) q -> sinv t (sc_entries c) -> source_ok t rev src ->
  sc_set src c probes n s = Some c' ->
  (exists p' q', inv t rev p' (sc_buf c') q') /\ sinv t (sc_entries c') /\
  (n = newlines t + 1 /\ c' = c \/
   exists es1 o es2, sc_entries c' = es1 ++ Entry n o (Some s) :: es2 /\ line_at t n o /\
     forall a, In a (es1 ++ es2) -> In a (sc_entries c)) /\
  (length (sc_entries c) <= CACHE_SIZE -> length (sc_entries c') <= CACHE_SIZE).
Proof.
  intros V H Hs. unfold sc_set, get_entry, find_line.
  destruct (find_cases e_line (sc_entries c) n (sinv_lines _ _ H)) as [(es1 & a & es2 & E & Ek & -> & A & B)|(es1 & es2 & E & -> & A & B)].
  - cbn [bind]. rewrite E, nth_error_app2, Nat.sub_diag by auto. cbn [nth_error bind]. rewrite firstn_app_exact by auto.
    replace (skipn (length es1 + 1) (es1 ++ a :: es2)) with es2.
    2: { change (a :: es2) with ([a] ++ es2). rewrite app_assoc, skipn_app_exact; auto. rewrite app_length. reflexivity. }
    intros E0; injection E0 as <-. cbn [sc_buf sc_entries]. split; [eauto|]. rewrite E in H.
    assert (La : line_at t n (e_offset a)). { destruct H as [_ D]. rewrite Forall_forall in D. rewrite <- Ek. apply D. rewrite in_app_iff; cbn; auto. }
    split; [|split].
    + destruct H as [C D]. constructor; [rewrite map_app in *; cbn in *; auto|]. apply Forall_app in D as [D1 D2]. inversion_clear D2. apply Forall_app. split; auto.
    + right. exists es1, (e_offset a), es2. rewrite Ek. split; auto. split; auto. intros b Hb. rewrite in_app_iff in *. cbn. tauto.
    + rewrite !app_length. cbn [length]. auto.
  - destruct (Nat.eqb_spec n (cc_num_lines (sc_buf c))) as [En|En].
    { cbn [bind]. intros E0; injection E0 as <-. split; [eauto|]. split; auto. split; [|auto]. left. rewrite (i_num _ _ _ _ _ V) in En. auto. }
    destruct (offset_of_line_cached t rev p (sc_buf c) q src n 1 V Hs (le_n 1)) as (b & res & p' & q' & -> & V' & Hr). cbn [bind].
    destruct res as [o|]; [|discriminate].
    assert (Lo : line_at t n o). { destruct Hr as [Hr|[Hr _]]; auto. rewrite (i_num _ _ _ _ _ V) in En. congruence. }
    destruct (insert_entry _ probes _) as [[c1 ix]|] eqn:Ei; [|discriminate]. cbn [bind].
    apply (insert_entry_inv t) in Ei as (Eb & H1 & (es & es3 & es4 & Er & -> & E1 & -> & El)); auto. cbn [sc_buf sc_entries] in *.
    rewrite E1, nth_error_app2, Nat.sub_diag by auto. cbn [nth_error bind]. rewrite firstn_app_exact by auto.
    replace (skipn (length es3 + 1) (es3 ++ Entry n o None :: es4)) with es4.
    2: { change (Entry n o None :: es4) with ([Entry n o (@None S)] ++ es4). rewrite app_assoc, skipn_app_exact; auto. rewrite app_length. reflexivity. }
    intros E0; injection E0 as <-. cbn [sc_buf sc_entries e_line e_offset]. rewrite Eb. split; [eauto|]. rewrite E1 in H1, El. split; [|split].
    + destruct H1 as [C D]. constructor; [rewrite map_app in *; cbn in *; auto|]. apply Forall_app in D as [D1 D2]. inversion_clear D2. apply Forall_app. split; auto.
    + right. exists es3, o, es4. split; auto. split; auto. intros x Hx.
      destruct Er as [Er|(l1 & y & l2 & E3 & E2)]; [now rewrite <- Er|]. rewrite E2 in Hx. rewrite E3, in_app_iff in *. cbn. tauto.
    + rewrite !app_length in *. cbn [length] in *. auto.
Qed.
Lemma sc_set_total t rev p c q src probes n s : inv t rev p (sc_buf c) q -> sinv t (sc_entries c) -> source_ok t rev src -> ~ refuses t rev src ->
  n <= newlines t + 1 -> probes <> [] -> Forall (fun ix => ix < length (sc_entries c)) probes \/ length (sc_entries c) < CACHE_SIZE ->
  exists c', sc_set src c probes n s = Some c'.
Proof.
  intros V H Hs Hnr Hn Hp HF. unfold sc_set, get_entry, find_line.
  destruct (find_cases e_line (sc_entries c) n (sinv_lines _ _ H)) as [(es1 & a & es2 & E & Ek & -> & A & B)|(es1 & es2 & E & -> & A & B)].
  - cbn [bind]. rewrite E, nth_error_app2, Nat.sub_diag by auto. cbn [nth_error bind]. eauto.
  - destruct (Nat.eqb_spec n (cc_num_lines (sc_buf c))) as [En|En]; [cbn [bind]; eauto|].
    rewrite (i_num _ _ _ _ _ V) in En.
    destruct (offset_of_line_cached t rev p (sc_buf c) q src n 1 V Hs (le_n 1)) as (b & res & p' & q' & -> & V' & Hr). cbn [bind].
    destruct res as [o|]; [|exfalso; destruct Hr; [lia|auto]].
    unfold insert_entry. cbn [sc_entries sc_buf].
    assert (G : exists c1, (if CACHE_SIZE <=? length (sc_entries c) then evict (SC b (sc_entries c) (sc_frontier c)) probes else Some (SC b (sc_entries c) (sc_frontier c))) = Some c1 /\
       room (sc_entries c) (sc_entries c1)).
    { destruct (Nat.leb_spec CACHE_SIZE (length (sc_entries c))).
      - destruct HF as [HF|]; [|lia]. destruct (choose_victim_ok t rev p' (SC b (sc_entries c) (sc_frontier c)) q') with (probes := probes) (best := @None (nat * nat)) as (ix & Ex & _); auto; [discriminate|].
        destruct (evict (SC b (sc_entries c) (sc_frontier c)) probes) as [c1|] eqn:Ee; [|unfold evict in Ee; rewrite Ex in Ee; discriminate].
        apply evict_inv in Ee as (_ & Er & _). eauto.
      - eexists. split; [reflexivity|]. now left. }
    destruct G as (c1 & -> & Er). cbn [bind e_line].
    assert (H1 : sinv t (sc_entries c1)).
    { destruct Er as [->|(l1 & a & l2 & E1 & ->)]; auto. rewrite E1 in H. eapply sinv_remove; eauto. }
    unfold find_line. destruct (find_cases e_line (sc_entries c1) n (sinv_lines _ _ H1)) as [(l1 & a & l2 & E1 & Ek & -> & _ & _)|(l1 & l2 & E1 & -> & _ & _)].
    + exfalso. assert (Ha : In a (sc_entries c)).
      { assert (In a (sc_entries c1)) by (rewrite E1, in_app_iff; cbn; auto). destruct Er as [<-|(k1 & z & k2 & -> & E2)]; auto. rewrite E2, in_app_iff in H0. rewrite in_app_iff. cbn. tauto. }
      rewrite E in Ha. apply in_app_iff in Ha as [Ha|Ha]; [rewrite Forall_forall in A; specialize (A a Ha)|rewrite Forall_forall in B; specialize (B a Ha)]; lia.
    + cbn [bind sc_entries]. rewrite E1, firstn_app_exact, skipn_app_exact by auto. rewrite nth_error_app2, Nat.sub_diag by auto. cbn [nth_error bind]. eauto.
Qed.

Theorem sc_history_inv t rev c : sc_history t rev c -> (exists p q, inv t rev p (sc_buf c) q) /\ sinv t (sc_entries c) /\ length (sc_entries c) <= CACHE_SIZE.
Proof.
  induction 1 as [t rev U|t rev c b H ((p & q & V) & Hi & Hl) Q|t rev c src probes n s c' H ((p & q & V) & Hi & Hl) Hs E|t rev c c' H ((p & q & V) & Hi & Hl) E
    |t rev c n c' H ((p & q & V) & Hi & Hl) E|t rev c c' H ((p & q & V) & Hi & Hl) E|t rev c d t' rev' c' H ((p & q & V) & Hi & Hl) He E|t rev c t' rev' c' H ((p & q & V) & Hi & Hl) U E].
  - split; [eexists _, _; now apply inv_new|]. split; [constructor; cbn; auto|cbn; lia].
  - cbn. destruct (cc_query_inv _ _ _ _ _ _ V Q) as (p' & q' & V'). eauto.
  - destruct (sc_set_inv _ _ _ _ _ _ _ _ _ _ V Hi Hs E) as (A & B & _ & D). auto.
  - destruct (truncate_ok t c 0 Hi) as (es1 & es2 & f & E1 & E2 & _ & _). rewrite E in E2. injection E2 as ->. cbn. rewrite E1 in *. split; [eauto|].
    split; [now apply sinv_app in Hi|]. rewrite app_length in Hl. lia.
  - unfold update_frontier in E. destruct (sc_frontier c); [discriminate|]. injection E as <-. cbn. eauto.
  - unfold close_frontier in E. destruct (sc_frontier c); [discriminate|]. injection E as <-. cbn. eauto.
  - destruct (sc_update_ok _ _ _ _ _ _ _ rev' V Hi He) as (c1 & p1 & q1 & E1 & V1 & H1 & _ & L1). rewrite E in E1. injection E1 as <-. split; [eauto|]. split; auto. lia.
  - destruct (sc_replace_ok _ _ _ _ _ t' rev' V Hi U) as (c1 & p1 & q1 & E1 & V1 & H1 & _ & L1). rewrite E in E1. injection E1 as <-. split; [eauto|]. split; auto. lia.
Qed.

(** Reading states. *)
Lemma sc_get_ok t c n : sinv t (sc_entries c) ->
  sc_get c n = match find (fun e => e_line e =? n) (sc_entries c) with Some e => e_state e | None => None end.
Proof.
  intros H. unfold sc_get, find_line.
  assert (N : forall l, Forall (fun a => e_line a < n) l \/ Forall (fun a => n < e_line a) l -> find (fun e : entry S => e_line e =? n) l = None).
  { induction l as [|a l IH]; intros HF; auto. cbn [find]. destruct HF as [HF|HF]; inversion_clear HF; (destruct (Nat.eqb_spec (e_line a) n); [lia|]); auto. }
  assert (Ap : forall l1 l2, find (fun e : entry S => e_line e =? n) l1 = None -> find (fun e : entry S => e_line e =? n) (l1 ++ l2) = find (fun e : entry S => e_line e =? n) l2).
  { induction l1 as [|a l1 IH]; intros l2; cbn [find app]; auto. destruct (_ =? n); [discriminate|auto]. }
  destruct (find_cases e_line (sc_entries c) n (sinv_lines _ _ H)) as [(es1 & a & es2 & E & Ek & -> & A & B)|(es1 & es2 & E & -> & A & B)].
  - rewrite E, nth_error_app2, Nat.sub_diag by auto. cbn [nth_error]. rewrite Ap by auto. cbn [find]. now rewrite Ek, Nat.eqb_refl.
  - rewrite E, Ap by auto. rewrite N by auto. reflexivity.
Qed.
Lemma get_prev_loop_ok (default : S) es : forall ix, ix < length es ->
  (exists a k, k <= ix /\ nth_error es k = Some a /\ (forall j b, k < j <= ix -> nth_error es j = Some b -> e_state b = None) /\
     exists s, e_state a = Some s /\ get_prev_loop default es ix = Some (e_line a, e_offset a, s)) \/
  ((forall j b, j <= ix -> nth_error es j = Some b -> e_state b = None) /\ get_prev_loop default es ix = Some (0, 0, default)).
Proof.
  induction ix as [|ix IH]; intros Hi; match type of Hi with ?i < _ => destruct (nth_error es i) as [a|] eqn:Ea; [|apply nth_error_None in Ea; lia] end; cbn [get_prev_loop]; rewrite Ea; cbn [bind].
  - destruct (e_state a) as [s|] eqn:Es.
    + left. exists a, 0. split; auto. split; auto. split; [lia|]. eauto.
    + right. split; auto. intros j b Hj Hb. replace j with 0 in Hb by lia. congruence.
  - destruct (e_state a) as [s|] eqn:Es.
    + left. exists a, (Datatypes.S ix). split; auto. split; auto. split; [lia|]. eauto.
    + destruct IH as [(a' & k & H1 & H2 & H3 & H4)|[H1 H2]]; [lia| |].
      * left. exists a', k. split; [lia|]. split; auto. split; auto. intros j b Hj Hb. destruct (Nat.eq_dec j (Datatypes.S ix)) as [->|]; [congruence|]. apply (H3 j); auto. lia.
      * right. split; auto. intros j b Hj Hb. destruct (Nat.eq_dec j (Datatypes.S ix)) as [->|]; [congruence|]. apply (H1 j); auto. lia.
Qed.
Lemma get_prev_ok (default : S) t c n : sinv t (sc_entries c) ->
  (exists e s, In e (sc_entries c) /\ e_line e <= n /\ e_state e = Some s /\ get_prev default c n = Some (e_line e, e_offset e, s) /\
     forall e', In e' (sc_entries c) -> e_line e < e_line e' <= n -> e_state e' = None) \/
  (get_prev default c n = Some (0, 0, default) /\ (n = 0 \/ forall e', In e' (sc_entries c) -> e_line e' <= n -> e_state e' = None)).
Proof.
  intros H. pose proof (sinv_aligned _ _ H) as [_ AL]. unfold get_prev. destruct (Nat.ltb_spec 0 n) as [Hn|Hn]; [|right; split; auto; left; lia].
  assert (G : forall es1 ix, length es1 = Datatypes.S ix -> (exists es2, sc_entries c = es1 ++ es2 /\ Forall (fun a => n < e_line a) es2) -> Forall (fun a => e_line a <= n) es1 ->
     (exists e s, In e (sc_entries c) /\ e_line e <= n /\ e_state e = Some s /\ get_prev_loop default (sc_entries c) ix = Some (e_line e, e_offset e, s) /\
       forall e', In e' (sc_entries c) -> e_line e < e_line e' <= n -> e_state e' = None) \/
     (get_prev_loop default (sc_entries c) ix = Some (0, 0, default) /\ (n = 0 \/ forall e', In e' (sc_entries c) -> e_line e' <= n -> e_state e' = None))).
  { intros es1 ix L1 (es2 & E & B) A. rewrite Forall_forall in A, B.
    assert (Pos : forall e', In e' (sc_entries c) -> e_line e' <= n -> exists j, j <= ix /\ nth_error (sc_entries c) j = Some e').
    { intros e' He Hl. rewrite E in He |- *. apply in_app_iff in He as [He|He]; [|specialize (B e' He); lia].
      apply In_nth_error in He as (j & Hj). exists j. assert (j < length es1) by (apply nth_error_Some; congruence). split; [lia|]. rewrite nth_error_app1; auto. }
    destruct (get_prev_loop_ok default (sc_entries c) ix) as [(a & k & H1 & H2 & H3 & (s & Es & Eg))|[H1 H2]]; [rewrite E, app_length; lia| |].
    - left. exists a, s. assert (Ha : In a (sc_entries c)) by (now apply nth_error_In in H2). split; auto.
      assert (e_line a <= n). { apply A. rewrite E in H2. rewrite nth_error_app1 in H2 by lia. now apply nth_error_In in H2. }
      split; auto. split; auto. split; auto. intros e' He [Hl1 Hl2]. destruct (Pos e' He Hl2) as (j & Hj1 & Hj2). apply (H3 j); auto. split; auto.
      destruct (Nat.lt_trichotomy k j) as [|[->|Hjk]]; auto; [assert (e' = a) by congruence; subst; lia|]. destruct (AL j k e' a Hjk Hj2 H2). lia.
    - right. split; auto. right. intros e' He Hl. destruct (Pos e' He Hl) as (j & Hj1 & Hj2). now apply (H1 j). }
  unfold find_line. destruct (find_cases e_line (sc_entries c) n (sinv_lines _ _ H)) as [(es1 & a & es2 & E & Ek & -> & A & B)|(es1 & es2 & E & -> & A & B)].
  - apply (G (es1 ++ [a])); [rewrite app_length; cbn; lia| |].
    + exists es2. rewrite <- app_assoc. auto.
    + apply Forall_app. split; [eapply Forall_impl; [|exact A]; cbv beta; lia|constructor; [lia|constructor]].
  - destruct (length es1) as [|ix] eqn:L1.
    + right. split; auto. right. intros e' He Hl. destruct es1; [|discriminate]. cbn in E. rewrite E in He. rewrite Forall_forall in B. specialize (B e' He). lia.
    + apply (G es1); auto; [eauto|]. eapply Forall_impl; [|exact A]; cbv beta; lia.
Qed.

(** The frontier. *)
Lemma patchup_loop_has next mv ln : forall f np, np = true \/ In ln f -> np = true -> In ln (patchup_loop f ln next mv np).
Proof.
  intros f np _ ->. induction f as [|x f IH]; cbn [patchup_loop]; [now left|]. destruct (x <? ln); [right; auto|now left].
Qed.
Lemma patchup_loop_keeps next mv ln x : x < ln -> forall f np, In x f -> In x (patchup_loop f ln next mv np).
Proof.
  intros Hx. induction f as [|y f IH]; intros np Hin; [destruct Hin|]. destruct Hin as [->|Hin]; cbn [patchup_loop].
  - rewrite (proj2 (Nat.ltb_lt _ _) Hx). now left.
  - destruct (y <? ln); [right; auto|]. destruct np; [right; apply in_app_iff; auto|auto].
Qed.
Lemma truncate_frontier_ok f ln : incr f -> In ln (truncate_frontier f ln) /\ forall x, In x f -> x < ln -> In x (truncate_frontier f ln).
Proof.
  intros Hi. unfold truncate_frontier. destruct (bs_cases f ln Hi) as [(l1 & l2 & -> & -> & A & B)|(l1 & l2 & -> & -> & A & B)].
  - change (ln :: l2) with ([ln] ++ l2). rewrite app_assoc, firstn_app_exact by (rewrite app_length; reflexivity). split; [apply in_app_iff; cbn; auto|].
    intros x Hx Hlt. rewrite !in_app_iff in *. destruct Hx as [[Hx|Hx]|Hx]; auto. specialize (B x Hx). lia.
  - rewrite firstn_app_exact by auto. split; [apply in_app_iff; cbn; auto|]. intros x Hx Hlt. rewrite !in_app_iff in *. destruct Hx as [Hx|Hx]; auto. specialize (B x Hx). lia.
Qed.
Lemma bs_true f x : forall ix, bsearch f x = (true, ix) -> nth_error f ix = Some x.
Proof.
  induction f as [|y f IH]; intros ix; cbn [BreaksModel.bsearch]; [discriminate|]. destruct (Nat.eqb_spec y x); [intros E; injection E as <-; cbn; congruence|].
  destruct (x <? y); [discriminate|]. destruct (bsearch f x) as [b k]. intros E; injection E as -> <-. cbn. auto.
Qed.
Lemma truncate_frontier_has f ln : In ln (truncate_frontier f ln).
Proof.
  unfold truncate_frontier. destruct (bsearch f ln) as [[|] ix] eqn:E; [|apply in_app_iff; cbn; auto].
  apply bs_true in E. revert f E. induction ix as [|ix IH]; intros f E; (destruct f as [|x f]; [discriminate|]); cbn in *; [injection E as ->; auto|right; auto].
Qed.

(** The line from which the edit leaves work to do: that of the last entry at or before it. *)
Definition edit_line (es : list (entry S)) (start ln : nat) : Prop :=
  (ln = 0 /\ (forall e, In e es -> start < e_offset e) \/ exists e, In e es /\ e_offset e <= start /\ ln = e_line e) /\
  forall e, In e es -> e_offset e <= start -> e_line e <= ln.
Lemma edit_line_prefix t es1 es2 b : sinv t (es1 ++ es2) -> Forall (fun a => e_offset a <= b) es1 -> Forall (fun a => b < e_offset a) es2 ->
  edit_line (es1 ++ es2) b (match rev es1 with [] => 0 | e :: _ => e_line e end).
Proof.
  intros H A B. destruct es1 as [|e es1' _] using rev_ind.
  - cbn. split; [left|]; rewrite Forall_forall in B; auto. intros e He Hb. specialize (B e He). lia.
  - rewrite rev_unit. rewrite Forall_forall in A, B. split; [right; exists e; rewrite !in_app_iff; cbn; split; auto; split; auto; apply A; rewrite in_app_iff; cbn; auto|].
    intros a Ha Hb. rewrite <- app_assoc in *. rewrite !in_app_iff in Ha. destruct Ha as [Ha|Ha].
    + apply Nat.lt_le_incl. apply (sinv_cross _ _ _ H); auto. now left.
    + destruct Ha as [[<-|[]]|Ha]; auto. specialize (B a Ha). lia.
Qed.
Lemma patchup_line es1 rest : (match length es1 with 0 => Some 0 | Datatypes.S i => let? e := nth_error (es1 ++ rest) i in Some (e_line e) end) =
  Some (match rev es1 with [] => 0 | e :: _ => @e_line S e end).
Proof.
  destruct es1 as [|e es1' _] using rev_ind; auto. rewrite app_length. cbn [length]. rewrite Nat.add_1_r, rev_unit, <- app_assoc, nth_error_app2, Nat.sub_diag by auto. reflexivity.
Qed.
Lemma truncate_line t c b c' : sinv t (sc_entries c) -> truncate_cache c b = Some c' ->
  exists ln, edit_line (sc_entries c) b ln /\ sc_frontier c' = truncate_frontier (sc_frontier c) ln.
Proof.
  intros H. unfold truncate_cache, find_offset. destruct (find_cases e_offset (sc_entries c) b (si_incr _ _ H)) as [(es1 & e & es2 & E & Ek & -> & A & B)|(es1 & es2 & E & -> & A & B)].
  - rewrite E, nth_error_app2, Nat.sub_diag by auto. cbn [nth_error bind]. intros E1; injection E1 as <-. cbn. exists (e_line e). split; auto.
    rewrite E in H. change (e :: es2) with ([e] ++ es2) in *. rewrite app_assoc in *. pose proof (edit_line_prefix _ _ _ b H) as G. rewrite rev_unit in G. apply G; auto.
    apply Forall_app. split; [eapply Forall_impl; [|exact A]; cbv beta; lia|constructor; [lia|constructor]].
  - assert (A' : Forall (fun a => e_offset a <= b) es1) by (eapply Forall_impl; [|exact A]; cbv beta; lia).
    rewrite E in H. pose proof (edit_line_prefix _ _ _ b H A' B) as G. pose proof (patchup_line es1 es2) as P. rewrite <- E in G, P.
    destruct (length es1) as [|i] eqn:El.
    + cbn [bind]. intros E1; injection E1 as <-. cbn. exists 0. injection P as P. rewrite P. auto.
    + destruct (nth_error (sc_entries c) i) as [e|]; [|discriminate]. cbn [bind] in *. injection P as P. intros E1; injection E1 as <-. cbn. exists (e_line e). rewrite P at 1. auto.
Qed.
Lemma sc_update_frontier t rev p c q d t' rev' c' : inv t rev p (sc_buf c) q -> sinv t (sc_entries c) -> edit_ok t d t' ->
  sc_update c (Some d) (length t') (newlines t' + 1) rev' = Some c' ->
  exists ln, edit_line (sc_entries c) (fst (fst (summary d))) ln /\ In ln (sc_frontier c') /\
    (incr (sc_frontier c) -> forall x, In x (sc_frontier c) -> x < ln -> In x (sc_frontier c')).
Proof.
  intros V H He. unfold sc_update. destruct (update_line_cache c d) as [c1|] eqn:E1; [|discriminate]. cbn [bind].
  destruct (cc_update _ _ _ _ _) as [b|]; [|discriminate]. cbn [bind]. intros E; injection E as <-. cbn [sc_frontier].
  unfold update_line_cache in E1. destruct (summary d) as [[s e] n]. cbn [fst].
  assert (G : truncate_cache c s = Some c1 -> exists ln, edit_line (sc_entries c) s ln /\ In ln (sc_frontier c1) /\
    (incr (sc_frontier c) -> forall x, In x (sc_frontier c) -> x < ln -> In x (sc_frontier c1))).
  { intros Et. destruct (truncate_line _ _ _ _ H Et) as (ln & L & ->). exists ln. split; auto. split; [apply truncate_frontier_has|]. intros Hi. now apply truncate_frontier_ok. }
  assert (P : forall b es rest mv, after_offset c s = length es -> sc_entries c = es ++ rest ->
     Forall (fun a => e_offset a <= s) es -> Forall (fun a => s < e_offset a) rest -> forall rest',
     patchup_frontier (SC b (es ++ rest') (sc_frontier c)) (length es) mv = Some c1 ->
     exists ln, edit_line (sc_entries c) s ln /\ In ln (sc_frontier c1) /\
    (incr (sc_frontier c) -> forall x, In x (sc_frontier c) -> x < ln -> In x (sc_frontier c1))).
  { intros b0 es rest mv _ Ee A B rest'. unfold patchup_frontier. cbn [sc_entries sc_frontier]. rewrite patchup_line. cbn [bind]. intros E; injection E as <-. cbn [sc_frontier].
    rewrite Ee in *. eexists. split; [eapply edit_line_prefix; eauto|]. split; [now apply patchup_loop_has; auto|]. intros _ x Hx Hlt. now apply patchup_loop_keeps. }
  destruct (after_offset_ok t c s H) as (es1 & es2 & Ee & Ea & A & B).
  destruct (as_simple_insert d) as [txt|].
  - destruct (_ && _); [|discriminate]. cbn [check] in E1. unfold line_cache_simple_insert in E1. rewrite Ea in E1. rewrite Ee in E1 at 1. rewrite firstn_app_exact in E1 by auto.
    eapply P; eauto.
  - destruct (is_simple_delete d); [|auto]. destruct (n =? 0); [|discriminate]. cbn [check] in E1. unfold line_cache_simple_delete in E1.
    destruct (_ && _); [|auto]. destruct (str_slice _ _ _); [|discriminate]. cbn [bind] in E1. rewrite Ea in E1.
    destruct (fold_right _ _ _) as [moved|]; [|discriminate]. cbn [bind] in E1. rewrite Ee in E1. rewrite firstn_app_exact in E1 by auto. eapply P; eauto.
Qed.

End State.
