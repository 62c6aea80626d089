(** C57: what is shown of a query as the text is edited. *)
From Coq Require Import List Arith Lia Bool ZifyBool.
From Verif Require Import Base ListLib RopeModel RopeSpec RopeProofs RopeMetric FindModel PropertiesFind DeltaModel SelectionModel SelectionProofs PropertiesSelection
  ViewModel PropertiesRope PropertiesDelta PropertiesPluginCache DrawProofs SearchModel SearchSpec SearchProofs PropertiesSearch SearchEdit.
Import ListNotations.
Local Notation region := SelectionModel.region.

(** Text is put in at [a], or the text from [a] to [b] is taken out. *)
Definition one_change (a b : nat) (ins : list nat) : Prop := a = b /\ ins <> [] \/ a < b /\ ins = [].
(** A change for which what is shown is kept up: if text is taken out, as much must follow it as there
    is, and nothing shown may start where it ended. *)
Definition covered_change (t t' : rope) (f : finder) (a b : nat) (ins : list nat) : Prop :=
  char_boundary (rcontent t) a /\ char_boundary (rcontent t) b /\ utf8 ins /\ one_change a b ins /\
  rcontent t' = firstn a (rcontent t) ++ ins ++ skipn b (rcontent t) /\
  (ins = [] -> b <= length (rcontent t') /\ forall e, ~ found (fd_occ f) b e).
(** A query, not whole words and not a regular expression, is looked for in all the text; then the text
    is changed, and the query told of each change. *)
Inductive kept_up lower slow (q : list nat) : rope -> finder -> Prop :=
| ku_search h t f f' slop : rope_wf h t -> plain lower slow f q -> fd_whole f = false -> fd_occ f = [] ->
    update_find lower slow f t 0 (length (rcontent t)) slop = Some f' -> kept_up lower slow q t f'
| ku_edit t f h' t' f' a b ins d : kept_up lower slow q t f -> rope_wf h' t' -> covered_change t t' f a b ins ->
    simple_edit a b ins (length (rcontent t)) = Some d -> update_highlights lower slow f t' d = Some f' -> kept_up lower slow q t' f'.

(** ** Proofs *)
Definition forward (f : finder) : Prop := forall r, In r (fd_occ f) -> r_start r <= r_end r.
Lemma covered_fits (t t' : rope) f a b ins : covered_change t t' f a b ins -> b + length ins <= length (rcontent t').
Proof.
  intros (Ba & Bb & Ui & Hk & Et & Hi). destruct Hk as [[Eab _]|[_ Ei]]; [|rewrite Ei; cbn [length]; specialize (Hi Ei); lia].
  rewrite Et, !app_length, firstn_length, skipn_length. subst b. pose proof (cb_le _ _ (proj2 (boundary_iff _ _ (ViewProofs.cb_utf8 _ _ Ba)) Ba)). lia.
Qed.
Lemma highlights_same lower slow f t (d : delta nat) f' : update_highlights lower slow f t d = Some f' -> same_query f f'.
Proof.
  unfold update_highlights. destruct (fd_string f) as [q|] eqn:Eq; [|intros [= <-]; repeat split; auto]. intros E.
  apply bind_some in E as (o1 & _ & E). apply bind_some in E as (o2 & _ & E). apply bind_some in E as (o3 & _ & E). destruct (summary d) as [[s e] nl]. apply bind_some in E as (rs & _ & E). cbv zeta in E.
  assert (K : forall x, (let? o4 := sel_delete_range o3 s x false in update_find lower slow (with_occ f o4) t match last_region rs with Some r => r_end r | None => 0 end x false) = Some f' -> same_query f f').
  { intros x E'. apply bind_some in E' as (o4 & _ & E'). apply update_same in E'. exact (same_trans f _ _ ltac:(repeat split) E'). }
  destruct (_ || _); [eauto|]. apply bind_some in E as (c & _ & E). apply bind_some in E as ([x c1] & _ & E). destruct x as [x|]; [eauto|].
  destruct (_ =? _); [eauto|]. injection E as <-. repeat split.
Qed.
Lemma kept_inv lower slow q t f : kept_up lower slow q t f -> one_line lower slow (fd_case f) q ->
  (exists h, rope_wf h t) /\ plain lower slow f q /\ fd_whole f = false /\ shows_all lower slow f q t /\ forward f.
Proof.
  induction 1 as [h t f f' slop W P Ew Eo Eu|t f h' t' f' a b ins d K IH W' C Ed Eu]; intros Ho.
  - destruct (C57_whole_text lower slow h t f q slop W P Ew) as (f2 & E2 & Sq & Sh & _). { rewrite Eo. split; [intros i j x y Hij Hx; destruct i; discriminate|intros i e (r & [] & _)]. }
    rewrite Eu in E2. injection E2 as <-. split; [eauto|]. split; [eapply plain_same; eauto|]. split; [destruct Sq as (_ & _ & _ & _ & E5); congruence|]. split; auto.
    pose proof P as (Eq & Er & Hse). destruct (update_ok lower slow f q t h 0 (length (rcontent t)) slop W Eq Er Hse) as (from & T & occ' & E & S' & M' & Hf & HT & P1 & _); auto; try congruence; try lia; [rewrite Eo; exact Logic.I|rewrite Eo; intros ? []|].
    rewrite Eu in E. injection E as ->. intros r Hr. cbn [fd_occ dirtied with_occ] in Hr. rewrite Eo in P1. destruct (P1 r Hr) as [[]|(_ & _ & Er')]. rewrite Er'. cbn [r_start r_end region_new]. apply min_le_max.
  - assert (exists h, rope_wf h t) as (h & W).
    { destruct K; eauto. }
    assert (Sq : same_query f f').
    { eapply highlights_same; eauto. }
    destruct IH as (_ & P & Ew & Sh & Fw); [destruct Sq as (_ & _ & E3 & _); now rewrite <- E3|].
    pose proof (covered_fits _ _ _ _ _ _ C) as Hfit. destruct C as (Ba & Bb & Ui & Hk & Et & Hi).
    destruct (highlights_ok lower slow h h' t t' f q a b ins d W W' P Ew) as (f2 & E2 & Sq2 & Sh2 & Fw2); auto; [destruct Sq as (_ & _ & E3 & _); now rewrite <- E3|intros Ei; now apply Hi|].
    rewrite Eu in E2. injection E2 as <-. split; [eauto|]. split; [eapply plain_same; eauto|]. split; [destruct Sq as (_ & _ & _ & _ & E5); congruence|]. split; auto.
Qed.

(** ** Theorems *)
(** However often the text is changed in these ways, what is shown is what a search of the whole text
    would show: the first match, the first after it, and so on. ([one_line]: no character but the line
    break gives a line break when made lowercase.) Not covered: replacing, taking out the end of the
    text or what is before something shown, several changes at once, whole words, and expressions. *)
Theorem C57_edits_partial lower slow q t f : kept_up lower slow q t f -> one_line lower slow (fd_case f) q ->
  fd_string f = Some q /\ shows_all lower slow f q t.
Proof. intros K Ho. destruct (kept_inv lower slow q t f K Ho) as (_ & (Eq & _) & _ & Sh & _). auto. Qed.
Print Assumptions C57_edits_partial.
(** And none of these changes makes it panic. *)
Theorem C57_edits_total_partial lower slow q t f h' t' a b ins : kept_up lower slow q t f -> one_line lower slow (fd_case f) q -> rope_wf h' t' -> covered_change t t' f a b ins ->
  exists d f', simple_edit a b ins (length (rcontent t)) = Some d /\ apply d (rcontent t) = Some (rcontent t') /\ update_highlights lower slow f t' d = Some f' /\ kept_up lower slow q t' f' /\ fd_case f' = fd_case f.
Proof.
  intros K Ho W' C. destruct (kept_inv lower slow q t f K Ho) as ((h & W) & P & Ew & Sh & Fw). pose proof C as (Ba & Bb & Ui & Hk & Et & Hi).
  assert (Hab : a <= b) by (destruct Hk as [[-> _]|[? _]]; lia). assert (Hb : b <= length (rcontent t)) by (apply cb_le; apply boundary_iff; auto; apply (rope_utf8 h t W)).
  destruct (C04_simple_edit (rcontent t) ins a b Hab Hb) as (d & Ed & _ & _ & Ea).
  destruct (highlights_ok lower slow h h' t t' f q a b ins d W W' P Ew) as (f' & E2 & Sq & _); auto; [eapply covered_fits; eauto|intros Ei; now apply Hi|].
  exists d, f'. split; auto. split; [now rewrite Et|]. split; auto. split; [eapply ku_edit; eauto|apply Sq].
Qed.
Print Assumptions C57_edits_total_partial.

(** A case: "ab" in "a-b ab\nab". The "-" is taken out, which makes another; then "x" is put into the second. *)
Definition two_changes (tx tx1 tx2 : list nat) (f : finder) (a1 b1 : nat) (i1 : list nat) (a2 b2 : nat) (i2 : list nat) :=
  let? t := rope_from tx in let? f0 := update_find lower_w slow_w f t 0 (length tx) true in
  let? d1 := simple_edit a1 b1 i1 (length tx) in let? t1 := rope_from tx1 in let? f1 := update_highlights lower_w slow_w f0 t1 d1 in
  let? d2 := simple_edit a2 b2 i2 (length tx1) in let? t2 := rope_from tx2 in let? f2 := update_highlights lower_w slow_w f1 t2 d2 in
  Some (places (fd_occ f0), places (fd_occ f1), places (fd_occ f2)).
Lemma two_at tx tx1 tx2 f a1 b1 i1 a2 b2 i2 x y z : utf8 tx -> utf8 tx1 -> utf8 tx2 -> two_changes tx tx1 tx2 f a1 b1 i1 a2 b2 i2 = Some (x, y, z) ->
  exists h h1 h2 t t1 t2 f0 f1 f2 d1 d2, rope_wf h t /\ rope_wf h1 t1 /\ rope_wf h2 t2 /\ rcontent t = tx /\ rcontent t1 = tx1 /\ rcontent t2 = tx2 /\
    update_find lower_w slow_w f t 0 (length tx) true = Some f0 /\ simple_edit a1 b1 i1 (length tx) = Some d1 /\ update_highlights lower_w slow_w f0 t1 d1 = Some f1 /\
    simple_edit a2 b2 i2 (length tx1) = Some d2 /\ update_highlights lower_w slow_w f1 t2 d2 = Some f2 /\ places (fd_occ f0) = x /\ places (fd_occ f1) = y /\ places (fd_occ f2) = z.
Proof.
  intros U U1 U2 E. unfold two_changes in E. apply bind_some in E as (t & Et & E). apply bind_some in E as (f0 & E0 & E). apply bind_some in E as (d1 & Ed1 & E). apply bind_some in E as (t1 & Et1 & E).
  apply bind_some in E as (f1 & E1 & E). apply bind_some in E as (d2 & Ed2 & E). apply bind_some in E as (t2 & Et2 & E). apply bind_some in E as (f2 & E2 & E).
  apply rope_at in Et as ((h & W) & C); auto. apply rope_at in Et1 as ((h1 & W1) & C1); auto. apply rope_at in Et2 as ((h2 & W2) & C2); auto.
  exists h, h1, h2, t, t1, t2, f0, f1, f2, d1, d2. repeat (split; [auto; fail|]). split; [congruence|]. split; congruence.
Qed.
Lemma not_at rs i e l : places rs = l -> Forall (fun p => fst p <> i) l -> ~ found rs i e.
Proof. intros <- F (r & Hr & Hi & _). rewrite Forall_forall in F. apply (F (rmin r, rmax r)); auto. apply (in_map (fun r => (lo r, hi r)) _ _ Hr). Qed.
Lemma ascii_char s i : Forall (fun b => b < 128) s -> i <= length s -> char_boundary s i.
Proof.
  intros F Hi. assert (K : forall l, Forall (fun b => b < 128) l -> Forall (fun c => utf8_char c = true) (map (fun b => [b]) l) /\ l = concat (map (fun b => [b]) l)).
  { induction 1 as [|b l Hb _ [I1 I2]]; [split; constructor|]. cbn [map concat app]. split; [constructor; auto; cbn; lia|now rewrite <- I2]. }
  rewrite <- (firstn_skipn i s) in F. apply Forall_app in F as [F1 F2]. destruct (K _ F1) as [K1 K2]. destruct (K _ F2) as [K3 K4].
  exists (map (fun b => [b]) (firstn i s)), (map (fun b => [b]) (skipn i s)). split; [now apply Forall_app|]. split; [rewrite concat_app, <- K2, <- K4; symmetry; apply firstn_skipn|]. rewrite <- K2, firstn_length. lia.
Qed.
Example C57_edits_case : exists t t1 t2 f f1 f2, let q := [97; 98] in
  kept_up lower_w slow_w q t f /\ rcontent t = [97; 45; 98; 32; 97; 98; 10; 97; 98] /\ places (fd_occ f) = [(4, 6); (7, 9)] /\ covered_change t t1 f 1 2 [] /\
  kept_up lower_w slow_w q t1 f1 /\ rcontent t1 = [97; 98; 32; 97; 98; 10; 97; 98] /\ places (fd_occ f1) = [(0, 2); (3, 5); (6, 8)] /\ covered_change t1 t2 f1 4 4 [120] /\
  kept_up lower_w slow_w q t2 f2 /\ rcontent t2 = [97; 98; 32; 97; 120; 98; 10; 97; 98] /\ places (fd_occ f2) = [(0, 2); (7, 9)].
Proof.
  assert (U : forall l, forallb (fun b => b <? 128) l = true -> Forall (fun b => b < 128) l) by (intros l H; apply Forall_forall; intros b Hb; rewrite forallb_forall in H; specialize (H b Hb); lia).
  assert (U8 : forall l, forallb (fun b => b <? 128) l = true -> utf8 l) by (intros; now apply PropertiesPluginCache.ascii_utf8, U).
  destruct (two_at [97; 45; 98; 32; 97; 98; 10; 97; 98] [97; 98; 32; 97; 98; 10; 97; 98] [97; 98; 32; 97; 120; 98; 10; 97; 98] (exact_query [97; 98] false) 1 2 [] 4 4 [120]
    [(4, 6); (7, 9)] [(0, 2); (3, 5); (6, 8)] [(0, 2); (7, 9)]) as (h & h1 & h2 & t & t1 & t2 & f0 & f1 & f2 & d1 & d2 & W & W1 & W2 & C & C1 & C2 & E0 & Ed1 & E1 & Ed2 & E2 & P0 & P1 & P2); [now apply U8|now apply U8|now apply U8|vm_compute; reflexivity|].
  exists t, t1, t2, f0, f1, f2. cbv zeta.
  assert (K0 : kept_up lower_w slow_w [97; 98] t f0). { apply (ku_search lower_w slow_w [97; 98] h t (exact_query [97; 98] false) f0 true); auto; [apply exact_plain; [now apply U8|discriminate]|]. now rewrite C. }
  assert (V1 : covered_change t t1 f0 1 2 []).
  { unfold covered_change. rewrite C, C1. split; [apply ascii_char; [now apply U|cbn; lia]|]. split; [apply ascii_char; [now apply U|cbn; lia]|]. split; [now apply U8|]. split; [right; split; auto; lia|]. split; [reflexivity|].
    intros _. split; [cbn; lia|]. intros e. eapply not_at; eauto. repeat constructor; cbn; lia. }
  assert (K1 : kept_up lower_w slow_w [97; 98] t1 f1) by (eapply ku_edit; eauto; now rewrite C).
  assert (V2 : covered_change t1 t2 f1 4 4 [120]).
  { unfold covered_change. rewrite C1, C2. split; [apply ascii_char; [now apply U|cbn; lia]|]. split; [apply ascii_char; [now apply U|cbn; lia]|]. split; [now apply U8|]. split; [left; split; auto; discriminate|]. split; [reflexivity|discriminate]. }
  assert (K2 : kept_up lower_w slow_w [97; 98] t2 f2) by (eapply ku_edit; eauto; now rewrite C1).
  auto 15.
Qed.
