(** C66: what a language server is told. *)
From Coq Require Import List Arith Lia Bool ZifyBool.
From Verif Require Import Base ListLib MultisetProofs TreeModel TreeSpec TreeProofs RopeModel RopeSpec RopeProofs RopeMetric RopeIterModel
  DeltaModel DeltaSpec DeltaProofs2 PropertiesDelta PluginCacheModel PluginCacheSpec PluginCacheProofs PropertiesPluginCache LspModel LspSpec LspProofs.
Import ListNotations.

(** What a server makes of a change is one text at most. *)
Theorem C66_server : forall t ch r r', utf8 t -> changed t ch r -> changed t ch r' -> r' = r.
Proof. exact changed_unique. Qed.
Print Assumptions C66_server.

(** The position of an offset between characters, and the offset of that position. *)
Theorem C66_positions : forall t rev fuel src c o, source_ok t rev src -> ~ refuses t rev src -> length t <= fuel -> cc_history t rev c -> char_boundary t o ->
  exists c' c'' p, get_position_of_offset fuel src o c = Some (c', Ok p) /\ position_of t o p /\ (forall p', position_of t o p' -> p' = p) /\
    offset_of_position fuel src p c' = Some (c'', Ok o) /\ cc_history t rev c''.
Proof.
  intros t rev fuel src c o Src Ref Fu H B. destruct (get_position_ok t rev fuel src Src Ref Fu c o H B) as (c' & p & E & H' & P). destruct (offset_of_position_ok t rev fuel src Src Ref Fu c' o p H' P) as (c'' & E' & H'').
  exists c', c'', p. split; auto. split; auto. split; auto. intros p' P'. exact (position_unique t o p' p P' P).
Qed.
Print Assumptions C66_positions.

(** The place in the text a range of the server is for. Missing: ends beyond the end of a line but the last, see below. *)
Theorem C66_range_partial : forall t rev fuel src c p q a b, source_ok t rev src -> ~ refuses t rev src -> length t <= fuel -> cc_history t rev c ->
  denotes t p a -> denotes t q b -> position_of t a p \/ fst p = newlines t -> position_of t b q \/ fst q = newlines t ->
  exists c', core_range_from_range fuel src (p, q) c = Some (c', Ok (a, b)) /\ cc_history t rev c'.
Proof.
  intros t rev fuel src c p q a b Src Ref Fu H Dp Dq Hp Hq.
  assert (G : forall c p a, cc_history t rev c -> denotes t p a -> position_of t a p \/ fst p = newlines t -> exists c', offset_of_position fuel src p c = Some (c', Ok a) /\ cc_history t rev c').
  { clear c p q a b H Dp Dq Hp Hq. intros c p a H [D|(b & e & k & D1 & D2 & D3 & D4)] Hp; [now apply (offset_of_position_ok t rev)|]. destruct Hp as [Hp|Hp]; [now apply (offset_of_position_ok t rev)|]. now apply (offset_beyond_last t rev fuel src Src Ref Fu c a p b e k). }
  destruct (G c p a H Dp Hp) as (c1 & E1 & H1). destruct (G c1 q b H1 Dq Hq) as (c2 & E2 & H2). exists c2. split; auto. unfold core_range_from_range, try. cbn [fst snd]. rewrite E1. cbn [bind]. rewrite E2. reflexivity.
Qed.
Print Assumptions C66_range_partial.

(** After the text has changed from [t] to [t'] by [d], a server that wants to be told of edits and had [t] has [t']: if the edit
    is an insertion, *)
Section Sync.
Variables (t t' : list nat) (d : delta nat) (rev fuel : nat) (src : source) (c : chunk_cache).
Hypotheses (U : utf8 t) (Ed : edit_ok t d t') (Src : source_ok t' rev src) (Ref : ~ refuses t' rev src) (Fu : length t' <= fuel) (Hc : cc_history t' rev c).
Definition told_right : Prop :=
  exists c' l, get_change_for_sync_kind fuel src Incremental (Some d) c = Some (c', Some l) /\ cc_history t' rev c' /\ server_has t l t'.
Lemma whole_right c1 : cc_history t' rev c1 -> exists c' l, unwrap_whole fuel src c1 = Some (c', Some l) /\ cc_history t' rev c' /\ server_has t l t'.
Proof.
  intros H. destruct (whole_ok t' rev fuel src Src Ref Fu c1 H) as (c' & E & H'). exists c', [Change None t']. unfold unwrap_whole. rewrite E. cbn. split; auto. split; auto. exists (Change None t'). split; auto. split; [reflexivity|]. now intros r ->.
Qed.
Lemma U' : utf8 t'. Proof. now destruct Ed as (_ & _ & _ & ? & _). Qed.
Lemma range_right p q text a e : position_of t a p -> denotes t q e -> a <= e -> t' = firstn a t ++ text ++ skipn e t -> server_has t [Change (Some (p, q)) text] t'.
Proof.
  intros P Q Hae E. eexists. split; [reflexivity|]. assert (C : changed t (Change (Some (p, q)) text) t') by (exists a, e; split; [now left|auto]). split; auto. intros r. now apply changed_unique.
Qed.
Lemma insert_right s : as_simple_insert d = Some s -> told_right.
Proof.
  intros Hs. pose proof Ed as (Hw & Hb & Ha & _). destruct (simple_insert_ok d t t' s Hs Hb Ha) as (i & n & Es & Hi & Et & Hc'). pose proof (cut_boundary t d t' i U Ed Hc') as B.
  assert (Hf : firstn i t' = firstn i t) by (rewrite Et, firstn_app, firstn_firstn, firstn_length, Nat.min_id, Nat.min_l, Nat.sub_diag by lia; cbn; now rewrite app_nil_r).
  assert (Hl : i <= length t') by (rewrite Et, app_length, firstn_length; lia).
  assert (B' : char_boundary t' i). { apply boundary_iff; [apply U'|]. destruct (utf8_cut t i U) as [U1 _]; [now apply boundary_iff|]. pose proof U' as Ut. rewrite Et in Ut |- *. assert (Us : utf8 (s ++ skipn i t)). { apply RopeProofs.utf8_app; [|apply utf8_cut; auto; now apply boundary_iff]. clear - Hs Ed. destruct Ed as (_ & _ & _ & _ & F). unfold as_simple_insert in Hs. destruct (els d) as [|[b e|x] l]; [discriminate| |].
      - destruct (b =? 0); [|discriminate]. destruct l as [|[b1 e1|x] l]; try discriminate. inversion F as [|? ? _ F1]; subst. inversion F1 as [|? ? Fx _]; subst. destruct l as [|[b1 e1|x1] l]; [destruct (_ =? _)|destruct (_ && _)|]; try discriminate; now injection Hs as <-.
      - inversion F as [|? ? Fx _]; subst. destruct l as [|[b1 e1|x1] l]; [destruct (_ =? _)|destruct (_ && _)|]; try discriminate; now injection Hs as <-. }
    replace i with (length (firstn i t)) at 3 by (rewrite firstn_length; lia). now apply utf8_app_cb. }
  destruct (get_position_ok t' rev fuel src Src Ref Fu c i Hc B') as (c1 & p & E1 & H1 & P1). destruct (get_position_ok t' rev fuel src Src Ref Fu c1 i H1 B') as (c2 & q & E2 & H2 & P2).
  pose proof (position_unique _ _ _ _ P2 P1) as ->. exists c2, [Change (Some (p, p)) s]. unfold get_change_for_sync_kind, get_document_content_changes. rewrite Es, Hs. unfold try. rewrite E1. cbn [bind]. rewrite E2. cbn [bind ret]. split; auto. split; auto.
  pose proof (position_prefix t t' i p U Hf Hl B P1) as P. apply (range_right p p s i i); auto. now left.
Qed.
(** if it neither inserts only nor deletes only, *)
Lemma other_right : as_simple_insert d = None -> is_simple_delete d = false -> told_right.
Proof.
  intros H1 H2. destruct (whole_ok t' rev fuel src Src Ref Fu c Hc) as (c' & E & H'). exists c', [Change None t']. unfold get_change_for_sync_kind, get_document_content_changes. destruct (summary d) as [[a e] n]. rewrite H1, H2, E. cbn. split; auto. split; auto. exists (Change None t'). split; auto. split; [reflexivity|]. now intros r ->.
Qed.
Variables (a e : nat) (n : nat).
Hypotheses (Del : is_simple_delete d = true) (Sum : summary d = ((a, e), n)).
Lemma del_facts : as_simple_insert d = None /\ a < e /\ e <= length t /\ t' = firstn a t ++ skipn e t /\ char_boundary t a /\ char_boundary t e /\ char_boundary t' a /\ firstn a t' = firstn a t /\ a <= length t'.
Proof.
  pose proof Ed as (Hw & Hb & Ha & _). destruct (simple_delete_ok d t t' Del Hb Hw Ha) as (N & a' & e' & n' & Es & H1 & H2 & H3 & C1 & C2). rewrite Sum in Es. injection Es as <- <- <-. pose proof (cut_boundary t d t' a U Ed C1) as B1. pose proof (cut_boundary t d t' e U Ed C2) as B2.
  assert (Hf : firstn a t' = firstn a t) by (rewrite H3, firstn_app, firstn_firstn, firstn_length, Nat.min_id, Nat.min_l, Nat.sub_diag by lia; cbn; now rewrite app_nil_r).
  assert (Hl : a <= length t') by (rewrite H3, app_length, firstn_length; lia). repeat (split; auto). apply boundary_iff; [apply U'|]. destruct (utf8_cut t a U) as [U1 _]; [now apply boundary_iff|]. destruct (utf8_cut t e U) as [_ U2]; [now apply boundary_iff|]. rewrite H3. replace a with (length (firstn a t)) at 2 by (rewrite firstn_length; lia). now apply utf8_app_cb.
Qed.
Lemma delete_end_right : length t' < e -> told_right.
Proof.
  intros He. destruct del_facts as (N & _). destruct (get_position_err t' rev fuel src c e Src Hc He) as (c1 & E1 & H1). destruct (whole_right c1 H1) as (c' & l & E & H' & S). exists c', l. unfold get_change_for_sync_kind, get_document_content_changes. rewrite Sum, N, Del. unfold try at 1. rewrite E1. cbn [bind]. auto.
Qed.
Lemma delete_in_line_right m : char_boundary t' e -> ~ In 10 (slice t a e) -> ~ In 10 (slice t' a e) -> units (slice t a e) m -> units (slice t' a e) m -> told_right.
Proof.
  intros Be N1 N2 M1 M2. destruct del_facts as (N & Hae & He & Et & B1 & B2 & B3 & Hf & Hl).
  destruct (get_position_ok t' rev fuel src Src Ref Fu c e Hc Be) as (c1 & q & E1 & H1 & Q). destruct (get_position_ok t' rev fuel src Src Ref Fu c1 a H1 B3) as (c2 & p & E2 & H2 & P). destruct p as [l k].
  pose proof (position_extend t' a e l k U' P Be ltac:(lia) N2) as Q'. rewrite (units_count _ _ M2) in Q'. pose proof (position_unique _ _ _ _ Q Q') as ->.
  assert (m <> 0). { intros ->. apply units_count in M1. assert (0 < count_utf16 (slice t a e)); [|lia]. apply count_pos; [apply utf8_slice; auto; [lia| |]; now apply boundary_iff|]. intros Z. apply (f_equal (@length _)) in Z. rewrite slice_length in Z by lia. cbn in Z. lia. }
  exists c2, [Change (Some ((l, k), (l, k + m))) []]. unfold get_change_for_sync_kind, get_document_content_changes. rewrite Sum, N, Del. unfold try. rewrite E1. cbn [bind snd]. replace (k + m =? 0) with false by lia. cbn [bind ret]. unfold ret. rewrite E2. cbn [bind]. split; auto. split; auto.
  pose proof (position_prefix t t' a (l, k) U Hf Hl B1 P) as P'. apply (range_right _ _ [] a e); [exact P'| |lia|exact Et]. left. rewrite <- (units_count _ _ M1). apply position_extend; auto. lia.
Qed.
Lemma delete_before_newline_right f m : e = S f -> nth_error t' f = Some 10 -> ~ In 10 (slice t a e) -> ~ In 10 (slice t' a f) -> units (slice t a e) (S m) -> units (slice t' a f) m -> told_right.
Proof.
  destruct del_facts as (N & Hae & He & Et & B1 & B2 & B3 & Hf & Hl). intros -> N10' N1 N2 M1 M2.
  assert (Be : char_boundary t' (S f)) by (apply boundary_iff; [apply U'|]; apply (cb_after_nl t' f U' N10')).
  assert (Bf : char_boundary t' f) by (apply boundary_iff; [apply U'|]; unfold is_char_boundary; rewrite N10'; now destruct (f =? 0)).
  destruct (get_position_ok t' rev fuel src Src Ref Fu c (S f) Hc Be) as (c1 & q & E1 & H1 & Q). destruct (get_position_ok t' rev fuel src Src Ref Fu c1 f H1 Bf) as (c2 & q2 & E2 & H2 & Q2). destruct (get_position_ok t' rev fuel src Src Ref Fu c2 a H2 B3) as (c3 & p & E3 & H3 & P).
  assert (Z : snd q = 0).
  { destruct Q as (z & b & L & H & _ & Un). destruct L as ((L1 & L2 & L3) & _ & _ & L4 & _). destruct (Nat.eq_dec b (S f)) as [->|Nb]; [unfold slice in Un; rewrite Nat.sub_diag in Un; apply units_count in Un; cbn in Un; congruence|]. exfalso. apply L4. apply nth_error_In with (n := f - b). rewrite nth_slice. replace (f - b <? z - b) with true by lia. now replace (b + (f - b)) with f by lia. }
  destruct p as [l k]. pose proof (position_extend t' a f l k U' P Bf ltac:(lia) N2) as Q'. rewrite (units_count _ _ M2) in Q'. pose proof (position_unique _ _ _ _ Q2 Q') as ->.
  exists c3, [Change (Some ((l, k), (l, k + m + 1))) []]. unfold get_change_for_sync_kind, get_document_content_changes. rewrite Sum, N, Del. unfold try. rewrite E1. cbn [bind]. rewrite Z. cbn [Nat.eqb]. unfold or_panic. replace (check (1 <=? S f) (Some (S f - 1))) with (Some f) by (cbn; f_equal; lia). cbn [bind]. rewrite E2. cbn [bind ret fst snd]. rewrite E3. cbn [bind]. split; auto. split; auto.
  pose proof (position_prefix t t' a (l, k) U Hf Hl B1 P) as P'. apply (range_right _ _ [] a (S f)); [exact P'| |lia|exact Et]. left.
  replace (k + m + 1) with (k + count_utf16 (slice t a (S f))) by (rewrite (units_count _ _ M1); lia). apply position_extend; auto. lia.
Qed.
End Sync.

(** an insertion, or an edit that is neither an insertion nor a deletion; *)
Theorem C66_edits : forall t t' d rev fuel src c, utf8 t -> edit_ok t d t' -> source_ok t' rev src -> ~ refuses t' rev src -> length t' <= fuel -> cc_history t' rev c ->
  is_simple_delete d = false -> told_right t t' d rev fuel src c.
Proof.
  intros t t' d rev fuel src c U Ed Src Ref Fu Hc Hd. destruct (as_simple_insert d) as [s|] eqn:E; [eapply insert_right; eauto|]. eapply other_right; eauto.
Qed.
Print Assumptions C66_edits.
(** a deletion from [a] to [e]: if the new text ends before [e]; if [e] is in the new text on the same line as [a] and between
    characters, with as many UTF-16 units between, and no newline was deleted; and the same with one unit and a newline between.
    Missing: all others, see below. *)
Theorem C66_delete_partial : forall t t' d rev fuel src c a e n, utf8 t -> edit_ok t d t' -> source_ok t' rev src -> ~ refuses t' rev src -> length t' <= fuel -> cc_history t' rev c ->
  is_simple_delete d = true -> summary d = ((a, e), n) ->
  length t' < e \/
  (exists m, char_boundary t' e /\ ~ In 10 (slice t a e) /\ ~ In 10 (slice t' a e) /\ units (slice t a e) m /\ units (slice t' a e) m) \/
  (exists f m, e = S f /\ nth_error t' f = Some 10 /\ ~ In 10 (slice t a e) /\ ~ In 10 (slice t' a f) /\ units (slice t a e) (S m) /\ units (slice t' a f) m) ->
  told_right t t' d rev fuel src c.
Proof.
  intros t t' d rev fuel src c a e n U Ed Src Ref Fu Hc Hd Hs [H|[(m & H1 & H2 & H3 & H4 & H5)|(f & m & H1 & H2 & H3 & H4 & H5 & H6)]].
  - eapply delete_end_right; eauto.
  - eapply delete_in_line_right; eauto.
  - eapply (delete_before_newline_right t t' d rev fuel src c U Ed Src Ref Fu Hc a e n Hd Hs f m); eauto.
Qed.
Print Assumptions C66_delete_partial.
(** In ASCII text: if what is deleted is on one line, and all of it but one character is left of that line behind it, or of the text. *)
Lemma ascii_units s : Forall (fun b => b < 128) s -> units s (length s).
Proof.
  intros F. exists (map (fun b => [b]) s). split; [split|].
  - induction F; cbn [map]; constructor; auto. cbn. apply Nat.leb_le. lia.
  - clear F. induction s as [|b s IH]; cbn; congruence.
  - clear F. induction s as [|b s IH]; cbn; auto.
Qed.
Lemma ascii_cb t x : Forall (fun b => b < 128) t -> x <= length t -> char_boundary t x.
Proof. intros F H. apply boundary_iff; [now apply ascii_utf8|]. rewrite <- (firstn_skipn x t). replace x with (length (firstn x t)) at 3 by (rewrite firstn_length; lia). apply utf8_app_cb; apply ascii_utf8; [now apply TreeProofs.Forall_firstn|now apply TreeProofs.Forall_skipn]. Qed.
Theorem C66_delete_ascii_partial : forall t t' d rev fuel src c a e n, Forall (fun b => b < 128) t -> edit_ok t d t' -> source_ok t' rev src -> ~ refuses t' rev src -> length t' <= fuel -> cc_history t' rev c ->
  is_simple_delete d = true -> summary d = ((a, e), n) -> ~ In 10 (slice t a e) -> ~ In 10 (slice t e (e + (e - a) - 1)) ->
  told_right t t' d rev fuel src c.
Proof.
  intros t t' d rev fuel src c a e n F Ed Src Ref Fu Hc Hd Hs N1 N2. pose proof (ascii_utf8 t F) as U. edestruct del_facts with (t := t) (t' := t') (d := d) as (_ & Hae & He & Et & _ & _ & _ & _ & Hl); [eassumption ..|].
  apply (C66_delete_partial t t' d rev fuel src c a e n); auto.
  assert (F' : Forall (fun b => b < 128) t') by (rewrite Et; apply Forall_app; split; [now apply TreeProofs.Forall_firstn|now apply TreeProofs.Forall_skipn]).
  assert (Fs : forall u x y, Forall (fun b => b < 128) u -> y <= length u -> units (slice u x y) (y - x)).
  { intros u x y Fu' Hy. rewrite <- (slice_length u x y Hy). apply ascii_units. unfold slice. now apply TreeProofs.Forall_firstn, TreeProofs.Forall_skipn. }
  assert (Es : forall x, a <= x -> slice t' a x = slice t e (e + (x - a))).
  { intros x Hx. unfold slice. replace (e + (x - a) - e) with (x - a) by lia. f_equal. rewrite Et, skipn_app, skipn_all2 by (rewrite firstn_length; lia). rewrite firstn_length, Nat.min_l, Nat.sub_diag by lia. reflexivity. }
  destruct (Nat.lt_ge_cases (length t') e) as [L|L]; [now left|right]. destruct e as [|f]; [lia|].
  assert (Sp : slice t' a (S f) = slice t' a f ++ slice t' f (S f)) by (apply slice_split; lia).
  assert (Nf : ~ In 10 (slice t' a f)) by (rewrite Es by lia; now replace (S f + (f - a)) with (S f + (S f - a) - 1) by lia).
  destruct (nth_error t' f) as [x|] eqn:Ex; [|apply nth_error_None in Ex; lia].
  destruct (Nat.eq_dec x 10) as [->|Nx].
  - right. exists f, (f - a). split; auto. split; auto. split; auto. split; auto. split; [|apply Fs; auto; lia]. replace (S (f - a)) with (S f - a) by lia. apply Fs; auto.
  - left. exists (S f - a). split; [now apply ascii_cb|]. split; auto. split; [|split; apply Fs; auto]. rewrite Sp. intros I. apply in_app_iff in I. destruct I as [I|I]; auto. apply In_nth_error in I. destruct I as [i I]. rewrite nth_slice in I. destruct (i <? S f - f) eqn:Ei; [|discriminate]. replace (f + i) with f in I by lia. congruence.
Qed.
Print Assumptions C66_delete_ascii_partial.
(** A server that wants whole texts, and one that is to be told of edits but of which none is known, get the text; one that
    wants nothing is told nothing. *)
Theorem C66_whole : forall t rev fuel src c k d, source_ok t rev src -> ~ refuses t rev src -> length t <= fuel -> cc_history t rev c ->
  match k with
  | NoSync => get_change_for_sync_kind fuel src k d c = Some (c, None)
  | FullSync => exists c', get_change_for_sync_kind fuel src k d c = Some (c', Some [Change None t]) /\ cc_history t rev c'
  | Incremental => d = None -> exists c', get_change_for_sync_kind fuel src k d c = Some (c', Some [Change None t]) /\ cc_history t rev c'
  end.
Proof.
  intros t rev fuel src c k d Src Ref Fu Hc. destruct (whole_ok t rev fuel src Src Ref Fu c Hc) as (c' & E & H'). destruct k; cbn [get_change_for_sync_kind]; auto.
  - exists c'. unfold unwrap_whole. rewrite E. auto.
  - intros ->. exists c'. cbn [get_document_content_changes]. rewrite E. auto.
Qed.
Print Assumptions C66_whole.

(** ** Where the server gets another text *)
(** The position of the end of a deletion is looked up in the new text, but the server looks for it in the old one. Deleting
    "\n" of "ab\ncd", it is told to delete from (0, 2) to (0, 3): no character of the first line is there, and nothing is
    deleted. Deleting "bc" of "abc\nxyz", it is told to delete from (0, 1) to (1, 1), and has "ayz". *)
Local Definition told (t' : list nat) (d : delta nat) : option (chunk_cache * option (list change)) :=
  get_change_for_sync_kind 20 (core_source 3 (from_leaf rope_ops t') 1) Incremental (Some d) (cc_new (length t') 1 (newlines t' + 1)).
Local Definition join_old : list nat := [97; 98; 10; 99; 100].
Local Definition join_new : list nat := [97; 98; 99; 100].
Local Definition join : delta nat := Delta [Copy 0 2; Copy 3 5] 5.
Local Definition word_old : list nat := [97; 98; 99; 10; 120; 121; 122].
Local Definition word_new : list nat := [97; 10; 120; 121; 122].
Local Definition word : delta nat := Delta [Copy 0 1; Copy 3 7] 7.
Lemma ascii_line_units s : Forall (fun b => b < 128) s -> units s (count_utf16 s).
Proof. intros F. apply utf8_units. now apply ascii_utf8. Qed.
Lemma edit_ascii t d t' : Forall (fun b => b < 128) t -> Forall (fun b => b < 128) t' -> wf_delta d -> base_len d = length t -> apply d t = Some t' ->
  Forall (fun x => match x with Copy b e => b <= length t /\ e <= length t | Insert s => Forall (fun b => b < 128) s end) (els d) -> edit_ok t d t'.
Proof.
  intros F F' W B A H. split; auto. split; auto. split; auto. split; [now apply ascii_utf8|]. eapply Forall_impl; [|exact H]. intros [b e|s]; cbn; [|apply ascii_utf8]. intros []. split; now apply ascii_cb.
Qed.
Ltac asc := repeat constructor; cbn; lia.
Lemma join_ok : edit_ok join_old join join_new.
Proof. apply edit_ascii; try reflexivity; [asc|asc|split; [cbn; lia|repeat constructor; discriminate]|asc]. Qed.
Lemma word_ok : edit_ok word_old word word_new.
Proof. apply edit_ascii; try reflexivity; [asc|asc|split; [cbn; lia|repeat constructor; discriminate]|asc]. Qed.
Lemma ascii_position t o l b e : Forall (fun b => b < 128) t -> line_is t l b e -> b <= o <= e -> position_of t o (l, count_utf16 (slice t b o)).
Proof.
  intros F L H. exists e, b. split; auto. split; auto. assert (o <= length t) by (destruct L as (_ & _ & ? & _); lia). split; [now apply ascii_cb|]. apply ascii_line_units. unfold slice. now apply TreeProofs.Forall_firstn, TreeProofs.Forall_skipn.
Qed.
Ltac line := unfold line_is, line_at; cbn; repeat split; try lia; auto.
Theorem C66_join_refuted :
  exists t d t' c' ch r, utf8 t /\ edit_ok t d t' /\ source_ok t' 1 (core_source 3 (from_leaf rope_ops t') 1) /\ told t' d = Some (c', Some [ch]) /\
    changed t ch r /\ r <> t' /\ r = t.
Proof.
  exists join_old, join, join_new. destruct (told join_new join) as [[c' r]|] eqn:E; [|vm_compute in E; discriminate]. exists c', (Change (Some ((0, 2), (0, 3))) []), join_old.
  split; [apply ascii_utf8; asc|]. split; [exact join_ok|]. split; [apply leaf_src; [apply ascii_utf8; asc|cbn; lia]|]. split; [vm_compute in E; injection E as <- <-; reflexivity|]. split; [|split; [discriminate|reflexivity]].
  exists 2, 2. split; [left; apply (ascii_position join_old 2 0 0 2); [asc|line|lia]|]. split; [|split; [lia|reflexivity]]. right. exists 0, 2, 2. split; [line|]. split; auto. split; [apply ascii_line_units; asc|cbn; lia].
Qed.
Print Assumptions C66_join_refuted.
Theorem C66_word_refuted :
  exists t d t' c' ch r, utf8 t /\ edit_ok t d t' /\ source_ok t' 1 (core_source 3 (from_leaf rope_ops t') 1) /\ told t' d = Some (c', Some [ch]) /\
    changed t ch r /\ r <> t' /\ ~ In 10 (slice t 1 3) /\ t' = firstn 1 t ++ skipn 3 t.
Proof.
  exists word_old, word, word_new. destruct (told word_new word) as [[c' r]|] eqn:E; [|vm_compute in E; discriminate]. exists c', (Change (Some ((0, 1), (1, 1))) []), [97; 121; 122].
  split; [apply ascii_utf8; asc|]. split; [exact word_ok|]. split; [apply leaf_src; [apply ascii_utf8; asc|cbn; lia]|]. split; [vm_compute in E; injection E as <- <-; reflexivity|]. split; [|split; [discriminate|split; [cbn; lia|reflexivity]]].
  exists 1, 5. split; [left; apply (ascii_position word_old 1 0 0 3); [asc|line|lia]|]. split; [|split; [lia|reflexivity]]. left. apply (ascii_position word_old 5 1 4 7); [asc|line|lia].
Qed.
Print Assumptions C66_word_refuted.
(** Deleting "a" of "aé", the end of the deletion is in the middle of the "é" of the new text, and the plugin panics. *)
Local Definition ae : list nat := [97; 195; 169].
Lemma ae_ok : utf8 ae /\ edit_ok ae (Delta [Copy 1 3] 3) [195; 169].
Proof.
  split; [exists [[97]; [195; 169]]; split; [repeat constructor|reflexivity]|]. split; [split; [cbn; lia|repeat constructor; discriminate]|]. split; [reflexivity|]. split; [reflexivity|]. split.
  - exists [[195; 169]]. split; [repeat constructor|reflexivity].
  - constructor; [|constructor]. split; [apply (cb_of _ [[97]] [[195; 169]])|apply (cb_of _ [[97]; [195; 169]] [])]; cbn; repeat constructor.
Qed.
Theorem C66_delete_panic_refuted :
  exists t d t', utf8 t /\ edit_ok t d t' /\ source_ok t' 1 (core_source 3 (from_leaf rope_ops t') 1) /\ told t' d = None.
Proof.
  exists ae, (Delta [Copy 1 3] 3), [195; 169]. destruct ae_ok as [U Ed]. split; auto. split; auto. split; [apply leaf_src; [apply Ed|cbn; lia]|]. vm_compute. reflexivity.
Qed.
Print Assumptions C66_delete_panic_refuted.

(** A position beyond the end of the first line of "ab\ncd" is for the end of that line, but is taken for the start of the next. *)
Theorem C66_beyond_refuted :
  exists t p o o' c', utf8 t /\ denotes t p o /\ source_ok t 1 (core_source 3 (from_leaf rope_ops t) 1) /\
    offset_of_position 20 (core_source 3 (from_leaf rope_ops t) 1) p (cc_new (length t) 1 (newlines t + 1)) = Some (c', Ok o') /\ o' <> o.
Proof.
  exists join_old, (0, 9), 2, 3. destruct (offset_of_position 20 (core_source 3 (from_leaf rope_ops join_old) 1) (0, 9) (cc_new (length join_old) 1 (newlines join_old + 1))) as [[c' r]|] eqn:E; [|vm_compute in E; discriminate].
  exists c'. split; [apply ascii_utf8; asc|]. split; [right; exists 0, 2, 2; split; [line|]; split; auto; split; [apply ascii_line_units; asc|cbn; lia]|]. split; [apply leaf_src; [apply ascii_utf8; asc|cbn; lia]|].
  split; [|discriminate]. vm_compute in E. injection E as <- <-. reflexivity.
Qed.
Print Assumptions C66_beyond_refuted.

(** ** Cases *)
(** From the "é" of "ab\né\nc" to beyond the end of its last line. *)
Example ex_range : exists c', core_range_from_range 20 ex_src ((1, 0), (2, 9)) (cc_new 7 7 3) = Some (c', Ok (3, 7)).
Proof.
  destruct (C66_range_partial ex_text 7 20 ex_src (cc_new 7 7 3) (1, 0) (2, 9) 3 7) as (c' & E & _); [apply ex_src_ok|apply ex_src_ok|cbn; lia|apply (ch_new ex_text 7 ex_utf8)| | | |right; reflexivity|now exists c'].
  - left. exists 5, 3. split; [line|]. split; [lia|]. split; [apply (cb_of _ [[97]; [98]; [10]] [[195; 169]; [10]; [99]]); cbn; repeat constructor|]. exists []. split; [split; [constructor|reflexivity]|reflexivity].
  - right. exists 6, 7, 1. split; [line|]. split; [reflexivity|]. split; [apply ascii_line_units; asc|cbn; lia].
  - left. exists 5, 3. split; [line|]. split; [lia|]. split; [apply (cb_of _ [[97]; [98]; [10]] [[195; 169]; [10]; [99]]); cbn; repeat constructor|]. exists []. split; [split; [constructor|reflexivity]|reflexivity].
Qed.
(** "x\ny" is inserted before the "é" of "ab\né\nc": the server is told to insert it at (1, 0). *)
Example ex_insert_right : told_right ex_text ex_text' ex_edit 8 20 (core_source 3 (from_leaf rope_ops ex_text') 8) (cc_new 10 8 4).
Proof.
  destruct (leaf_src ex_text' 8) as [S1 S2]; [apply ex_edit_ok|cbn; lia|]. apply C66_edits; auto; [exact ex_utf8|exact ex_edit_ok|cbn; lia|apply (ch_new ex_text' 8); apply ex_edit_ok].
Qed.
Example ex_insert_told : option_map snd (told ex_text' ex_edit) = Some (Some [Change (Some ((1, 0), (1, 0))) [120; 10; 121]]).
Proof. vm_compute. reflexivity. Qed.
(** The "b" of "abcd\ne" is deleted, and the "b" of "ab\nc", and "b" and "c" of "abc". *)
Local Definition deletes (t t' : list nat) (d : delta nat) : Prop :=
  told_right t t' d 1 20 (core_source 3 (from_leaf rope_ops t') 1) (cc_new (length t') 1 (newlines t' + 1)).
Lemma deletes_ascii t t' d a e n : Forall (fun b => b < 128) t -> Forall (fun b => b < 128) t' -> length t' <= 20 -> edit_ok t d t' -> is_simple_delete d = true -> summary d = ((a, e), n) ->
  length t' < e \/
  (exists m, char_boundary t' e /\ ~ In 10 (slice t a e) /\ ~ In 10 (slice t' a e) /\ units (slice t a e) m /\ units (slice t' a e) m) \/
  (exists f m, e = S f /\ nth_error t' f = Some 10 /\ ~ In 10 (slice t a e) /\ ~ In 10 (slice t' a f) /\ units (slice t a e) (S m) /\ units (slice t' a f) m) -> deletes t t' d.
Proof.
  intros F F' L Ed D S H. destruct (leaf_src t' 1) as [S1 S2]; [now apply ascii_utf8|lia|].
  exact (C66_delete_partial t t' d 1 20 _ _ a e n (ascii_utf8 t F) Ed S1 S2 L (ch_new t' 1 (ascii_utf8 t' F')) D S H).
Qed.
Ltac del a e n := apply (deletes_ascii _ _ _ a e n); [asc|asc|cbn; lia|apply edit_ascii; [asc|asc|split; [cbn; lia|repeat constructor; discriminate]|reflexivity|reflexivity|asc]|reflexivity|reflexivity|].
Example ex_delete_inside : deletes [97; 98; 99; 100; 10; 101] [97; 99; 100; 10; 101] (Delta [Copy 0 1; Copy 2 6] 6).
Proof.
  del 1 2 0.
  right. left. exists 1. split; [apply ascii_cb; [asc|cbn; lia]|]. split; [cbn; lia|]. split; [cbn; lia|]. split; apply ascii_line_units; asc.
Qed.
Example ex_delete_line_end : deletes [97; 98; 10; 99] [97; 10; 99] (Delta [Copy 0 1; Copy 2 4] 4).
Proof.
  del 1 2 0.
  right. right. exists 1, 0. split; [reflexivity|]. split; [reflexivity|]. split; [cbn; lia|]. split; [cbn; lia|]. split; apply ascii_line_units; asc.
Qed.
(** The "bc" of "abcd\ne" is deleted. *)
Example ex_delete_ascii : deletes [97; 98; 99; 100; 10; 101] [97; 100; 10; 101] (Delta [Copy 0 1; Copy 3 6] 6).
Proof.
  destruct (leaf_src [97; 100; 10; 101] 1) as [S1 S2]; [apply ascii_utf8; asc|cbn; lia|]. unfold deletes.
  refine (C66_delete_ascii_partial [97; 98; 99; 100; 10; 101] [97; 100; 10; 101] (Delta [Copy 0 1; Copy 3 6] 6) 1 20 _ _ 1 3 0 _ _ S1 S2 _ (ch_new _ 1 _) eq_refl eq_refl _ _); [asc|apply edit_ascii; [asc|asc|split; [cbn; lia|repeat constructor; discriminate]|reflexivity|reflexivity|asc]|cbn; lia|apply ascii_utf8; asc|cbn; lia|cbn; lia].
Qed.
Example ex_delete_end : deletes [97; 98; 99] [97] (Delta [Copy 0 1] 3).
Proof.
  del 1 3 0.
  left. cbn. lia.
Qed.
Example ex_delete_told : option_map snd (told [97; 99; 100; 10; 101] (Delta [Copy 0 1; Copy 2 6] 6)) = Some (Some [Change (Some ((0, 1), (0, 2))) []]) /\
  option_map snd (told [97; 10; 99] (Delta [Copy 0 1; Copy 2 4] 4)) = Some (Some [Change (Some ((0, 1), (0, 2))) []]) /\
  option_map snd (told [97] (Delta [Copy 0 1] 3)) = Some (Some [Change None [97]]).
Proof. vm_compute. auto. Qed.
(** The position of the "c" of "ab\né\nc" is (2, 0). *)
Example ex_position : exists c' c'' p, get_position_of_offset 20 ex_src 6 (cc_new 7 7 3) = Some (c', Ok p) /\ p = (2, 0) /\ offset_of_position 20 ex_src p c' = Some (c'', Ok 6).
Proof.
  destruct (C66_positions ex_text 7 20 ex_src (cc_new 7 7 3) 6) as (c' & c'' & p & E & _ & _ & E' & _); [apply ex_src_ok|apply ex_src_ok|cbn; lia|apply (ch_new ex_text 7 ex_utf8)|apply (cb_of _ [[97]; [98]; [10]; [195; 169]; [10]] [[99]]); cbn; repeat constructor|].
  exists c', c'', p. split; auto. split; auto. vm_compute in E. congruence.
Qed.
