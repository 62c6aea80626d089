(** Outdenting, tabs, duplicate lines. *)
From Coq Require Import List Arith Lia Bool ZifyBool.
From Verif Require Import Base ListLib MultisetProofs DeltaModel DeltaSpec DeltaProofs DeltaProofs2 PropertiesDelta TreeModel TreeSpec TreeProofs MetricProofs CursorModel CursorProofs CursorBoundary
  RopeModel RopeSpec RopeProofs RopeMetric RopeIterModel RopeCursor RopeIterProofs FindModel FindProofs SelectionModel SelectionProofs PropertiesSelection WordModel WordProofs PropertiesWord EditOpsModel EditOpsSpec EditOpsProofs EditOpsLines.
Import ListNotations.
Local Notation concat := List.concat.
Local Notation region := SelectionModel.region.
Local Notation edit := (nat * nat * list nat)%type.
Local Notation clen cs := (length (concat cs)).

Lemma firstn_plus {A} (l : list A) : forall n m, firstn (n + m) l = firstn n l ++ firstn m (skipn n l).
Proof. induction l as [|x l IH]; intros [|n] m; cbn; auto; [now destruct m|]. now rewrite IH. Qed.
Lemma bytes_eqb_ok a : forall b, bytes_eqb a b = true <-> a = b.
Proof.
  induction a as [|x a IH]; intros [|y b]; cbn; try (split; congruence). rewrite andb_true_iff, IH, Nat.eqb_eq. split; [intros [-> ->]; auto|intros E; injection E; auto].
Qed.
Lemma chars_unique t cs1 cs2 : chars_of t cs1 -> chars_of t cs2 -> cs1 = cs2.
Proof. intros [F1 E1] [F2 E2]. rewrite <- (chars_f_ok cs1 F1 (length t)), <- (chars_f_ok cs2 F2 (length t)) by (subst; auto; rewrite <- E2; auto). congruence. Qed.
Lemma edited_skip (base : list nat) k o eds : k <= o -> o <= length base -> sorted_edits o eds (length base) -> slice base k o ++ edited o eds base = edited k eds base.
Proof.
  intros H1 H2 S. destruct eds as [|[[a b] t] eds]; cbn [edited].
  - unfold slice. rewrite <- (firstn_skipn (o - k) (skipn k base)) at 2. f_equal. rewrite skipn_skipn. f_equal. lia.
  - destruct S as (S1 & S2 & S3). rewrite app_assoc. f_equal. unfold slice. replace (a - k) with ((o - k) + (a - o)) by lia. rewrite firstn_plus. f_equal. f_equal. rewrite skipn_skipn. f_equal. lia.
Qed.

Section White.
Context (white : list nat -> bool).
Lemma find_white cs : Forall uchar cs -> forall f pos col, find_non_white white f (concat cs) pos = Some col ->
  exists ws rest, cs = ws ++ rest /\ Forall (fun c => white c = true) ws /\ col = pos + clen ws.
Proof.
  induction 1 as [|c cs H F IH]; intros f pos col E; [destruct f; discriminate|].
  destruct f; [discriminate|]. cbn [concat] in E. destruct (first_char_of c (concat cs) H) as (b & t & -> & E1 & E2). cbn [find_non_white app] in E. cbn [app] in E1, E2. rewrite E1, E2 in E.
  destruct (white (b :: t)) eqn:Wh.
  - apply IH in E as (ws & rest & -> & Fw & ->). exists ((b :: t) :: ws), rest. split; auto. split; [constructor; auto|]. cbn [concat]. rewrite app_length.
    destruct (char_shape _ H) as (b' & t' & Eb & _ & _ & El & _). injection Eb as <- <-. lia.
  - injection E as <-. exists [], ((b :: t) :: cs). auto.
Qed.
Lemma find_first ws : forall c cs f pos, Forall uchar (ws ++ c :: cs) -> Forall (fun c => white c = true) ws -> white c = false -> length ws < f ->
  find_non_white white f (concat (ws ++ c :: cs)) pos = Some (pos + clen ws).
Proof.
  induction ws as [|w ws IH]; intros c cs f pos F Fw Wc Hf; (destruct f as [|f]; [lia|]); cbn [app concat] in *; inversion F as [|? ? Hc F']; subst.
  - destruct (first_char_of c (concat cs) Hc) as (b & t & -> & E1 & E2). cbn [find_non_white app] in *. rewrite E1, Wc. f_equal. cbn. lia.
  - inversion Fw as [|? ? Ww Fw']; subst. destruct (first_char_of w (concat (ws ++ c :: cs)) Hc) as (b & t & -> & E1 & E2). cbn [find_non_white app] in *. rewrite E1, E2, Ww. cbn [length] in Hf. rewrite IH by (auto; lia).
    f_equal. cbn [concat app length]. rewrite app_length. destruct (char_shape _ Hc) as (b' & t' & Eb & _ & _ & El & _). injection Eb as <- <-.
    cbn [length] in El. lia.
Qed.
Lemma not_white ws c cs t : Forall uchar (ws ++ c :: cs) -> white c = false -> white_text white t -> t <> concat (ws ++ c :: cs).
Proof.
  intros F Wc (vs & Fv & ->) E. assert (H : vs = ws ++ c :: cs). { apply (chars_unique (concat vs)); split; auto. apply (Forall_impl _ (fun _ H => proj1 H) Fv). }
  subst vs. apply Forall_app in Fv as [_ Fv]. inversion Fv as [|? ? [_ Hc] _]; subst. congruence.
Qed.
Lemma char_nl c : utf8_char c = true -> c <> [10] -> ~ In 10 c.
Proof.
  intros H N I1. destruct (char_shape c H) as (b & t & -> & _ & _ & _ & _ & _ & B & T). destruct I1 as [->|I1].
  - rewrite B in N; auto.
  - rewrite Forall_forall in T. exact (T _ I1 eq_refl).
Qed.
End White.

Section Rope.
Context (r : rope) (h : nat) (W : rope_wf h r).
Notation s := (rcontent r).
Local Notation bd := (char_boundary s).
Local Notation run := (@run_edits nat).
Local Notation len_eq := (len_r r h W).
Local Notation fu := (tree_fuel r).

Lemma slice_chars o e : bd o -> bd e -> o <= e -> exists m, chars_of (slice s o e) m.
Proof.
  intros B1 B2 L. apply (bd_iff r h W) in B1. destruct B2 as (c1 & c2 & F & E & ->).
  assert (H : scut (concat c1) o).
  { destruct (Nat.eq_dec o (clen c1)) as [->|]; [apply cb_len|]. unfold scut in *. rewrite E, concat_app in B1. rewrite cb_left in B1 by lia. auto. }
  apply Forall_app in F as [F1 F2]. destruct (cb_chars c1 F1 o H) as (a & m & -> & ->). exists m. apply Forall_app in F1 as [_ F1]. split; auto.
  rewrite E. unfold slice. rewrite !concat_app, !app_length, <- app_assoc. rewrite skipn_app_exact by auto. rewrite firstn_app_exact by lia. reflexivity.
Qed.
Lemma slice_cat a b c : a <= b -> b <= c -> slice s a c = slice s a b ++ slice s b c.
Proof. intros. unfold slice. replace (c - a) with ((b - a) + (c - b)) by lia. rewrite firstn_plus. f_equal. f_equal. rewrite skipn_skipn. f_equal. lia. Qed.

(** ** Outdenting *)
Section Graphemes.
Context (gb : nat -> bool) (G : grapheme_bounds s gb).
Context (white : list nat -> bool).
Lemma gb_bd o : gb o = true -> bd o.
Proof. apply G. Qed.

Definition dedent (tab : list nat) (o e : nat) : Prop :=
  o <= e <= o + length tab /\ bd e /\ newlines (firstn e s) = newlines (firstn o s) /\ white_text white (slice s o e) /\
  (slice s o (o + length tab) = tab -> ~ In 10 tab -> gb (o + length tab) = true -> e = o + length tab) /\
  (forall w c t, skipn o s = w ++ c ++ t -> white_text white w -> ~ In 10 w -> utf8_char c = true -> white c = false -> c <> [10] ->
     length (w ++ c) <= length tab -> gb (o + length w) = true -> gb (o + length (w ++ c)) = true -> e = o + length w).
Lemma dedent_line tab o : white_text white tab -> starts_line s o ->
  exists e, dedent tab o e /\
  ((exists q leading, line_col_to_offset gb r (newlines (firstn o s)) (length tab) = Some q /\ o <= q /\ slice_to_cow r o q = Some leading /\
    ((bytes_eqb leading tab = true /\ e = q) \/
     (bytes_eqb leading tab = false /\ exists col, find_non_white white (length leading) leading 0 = Some col /\ line_col_to_offset gb r (newlines (firstn o s)) col = Some e) \/
     (bytes_eqb leading tab = false /\ find_non_white white (length leading) leading 0 = None /\ e = o)))).
Proof.
  intros Wt So. destruct (to_offset r h W gb G o (length tab) So) as (q & Eq & Hq & Gq & Nq & Fq). pose proof (gb_bd _ Gq) as Bq. pose proof (start_bd r h W o So) as Bo.
  pose proof (slice_to_cow_ok r h W o q ltac:(lia) (proj1 (bd_iff r h W _) Bo) (proj1 (bd_iff r h W _) Bq)) as El.
  assert (Full : slice s o (o + length tab) = tab -> ~ In 10 tab -> gb (o + length tab) = true -> q = o + length tab).
  { intros Es Ni Hg. cut (o + length tab <= q); [lia|]. apply Fq; auto. symmetry. apply (same_line r); [lia|]. intros p Hp N. apply Ni.
    rewrite <- Es. apply nth_error_In with (n := p - o). unfold slice. rewrite nth_error_firstn. rewrite nth_error_skipn. replace (o + (p - o)) with p by lia. replace (p - o <? o + length tab - o) with true by lia. exact N. }
  assert (Part : forall w c t, skipn o s = w ++ c ++ t -> white_text white w -> ~ In 10 w -> utf8_char c = true -> white c = false -> c <> [10] ->
     length (w ++ c) <= length tab -> gb (o + length w) = true -> gb (o + length (w ++ c)) = true ->
     bytes_eqb (slice s o q) tab = false /\ find_non_white white (length (slice s o q)) (slice s o q) 0 = Some (length w) /\ newlines (firstn (o + length w) s) = newlines (firstn o s)).
  { intros w c t Es Ww Nw Hc Wc Nc Lc Gw Gc. pose proof (char_nl c Hc Nc) as Nc'. destruct Ww as (ws & Fws & ->).
    assert (Nl : forall p, o <= p < o + length (concat ws ++ c) -> nth_error s p <> Some 10).
    { intros p Hp N. assert (Hn : nth_error (skipn o s) (p - o) = Some 10) by (rewrite nth_error_skipn; replace (o + (p - o)) with p by lia; auto).
      rewrite Es, app_assoc, nth_error_app1 in Hn by lia. apply nth_error_In in Hn. apply in_app_or in Hn as [Hn|Hn]; auto. }
    assert (Lq : o + length (concat ws ++ c) <= q). { apply Fq; auto; [lia|]. symmetry. apply (same_line r); auto. lia. }
    pose proof (bd_le r h W _ Bq) as Hqs.
    assert (Eu : exists u, slice s o q = (concat ws ++ c) ++ u).
    { unfold slice. rewrite Es, app_assoc. exists (firstn (q - o - length (concat ws ++ c)) t). rewrite firstn_app. f_equal. apply firstn_all2. lia. }
    destruct Eu as (u & Eu). destruct (slice_chars (o + length (concat ws ++ c)) q (gb_bd _ Gc) Bq Lq) as (us & Fus & Eus).
    assert (u = concat us).
    { rewrite <- Eus. rewrite (slice_cat o (o + length (concat ws ++ c)) q) in Eu by lia. apply app_inv_head_iff with (l := concat ws ++ c). rewrite <- Eu. f_equal.
      unfold slice. rewrite Es, app_assoc, firstn_app_exact by lia. reflexivity. }
    subst u. assert (Ex : slice s o q = concat (ws ++ c :: us)) by (rewrite concat_app; cbn [concat]; now rewrite app_assoc).
    assert (Fx : Forall uchar (ws ++ c :: us)). { apply Forall_app. split; [|constructor; auto]. apply (Forall_impl _ (fun _ H => proj1 H) Fws). }
    split; [|split].
    - destruct (bytes_eqb _ _) eqn:C; auto. apply bytes_eqb_ok in C. exfalso. apply (not_white white ws c us tab); auto. congruence.
    - rewrite Ex. rewrite find_first; auto; [apply (Forall_impl _ (fun _ H => proj2 H) Fws)|]. rewrite concat_app, app_length. cbn [concat]. rewrite app_length. destruct (char_shape c Hc) as (b & t0 & -> & _). cbn [length].
      assert (length ws <= length (concat ws)). { clear - Fws. induction Fws as [|w ws [H _] F IH]; cbn; [lia|]. destruct (char_shape w H) as (b & t0 & -> & _). cbn. rewrite app_length. lia. } lia.
    - symmetry. apply (same_line r); [lia|]. intros p Hp. apply Nl. rewrite app_length. lia. }
  destruct (bytes_eqb (slice s o q) tab) eqn:Eb.
  - apply bytes_eqb_ok in Eb. exists q. split.
    + split; [lia|]. split; auto. split; [auto|]. split; [now rewrite Eb|]. split; auto. intros w c t Es Ww Nw Hc Wc Nc Lc Gw Gc. destruct (Part w c t Es Ww Nw Hc Wc Nc Lc Gw Gc) as [C _]. exfalso.
 discriminate C.
    + exists q, (slice s o q). split; auto. split; [lia|]. split; auto. left. split; auto. now apply bytes_eqb_ok.
  - assert (Ne : slice s o (o + length tab) = tab -> ~ In 10 tab -> gb (o + length tab) = true -> False).
    { intros Es Ni Hg. pose proof (Full Es Ni Hg). subst q. assert (bytes_eqb (slice s o (o + length tab)) tab = true) by now apply bytes_eqb_ok. congruence. }
    destruct (find_non_white white (length (slice s o q)) (slice s o q) 0) as [col|] eqn:Ef.
    + destruct (slice_chars o q Bo Bq ltac:(lia)) as (m & Fm & Em). rewrite Em in Ef. destruct (find_white white m Fm _ _ _ Ef) as (ws & rest & -> & Fw & Ecol). cbn [Nat.add] in Ecol.
      destruct (to_offset r h W gb G o col So) as (e & Ee & He & Ge & Nge & Me). pose proof (gb_bd _ Ge) as Be.
      assert (Hcol : o + col <= q).
      { pose proof (f_equal (@length nat) Em) as L. rewrite EditOpsProofs.slice_length in L by (pose proof (bd_le r h W _ Bq); lia). rewrite concat_app, app_length in L. lia. }
      exists e. split.
      * split; [lia|]. split; auto. split; auto. split; [|split; [intros; exfalso; auto|]].
        2: { intros w c t Es Ww Nw Hc Wc Nc Lc Gw Gc. destruct (Part w c t Es Ww Nw Hc Wc Nc Lc Gw Gc) as (_ & C & Ln). injection C as C. rewrite C in *. cut (o + length w <= e); [lia|]. apply Me; auto. }
        destruct (slice_chars o e Bo Be ltac:(lia)) as (m1 & Fm1 & Em1). destruct (slice_chars e q Be Bq ltac:(lia)) as (m2 & Fm2 & Em2).
        assert (Hm : ws ++ rest = m1 ++ m2).
        { apply (chars_unique (slice s o q)); split; auto; [apply Forall_app; auto|]. rewrite (slice_cat o e q) by lia. now rewrite concat_app, Em1, Em2. }
        assert (Hl : clen m1 <= clen ws). { rewrite <- Em1, EditOpsProofs.slice_length by (pose proof (bd_le r h W _ Be); lia). lia. }
        exists m1. split; auto. apply Forall_app in Fm as [Fws _].
        assert (Hpre : exists k, ws = m1 ++ k).
        { clear - Hm Hl Fws Fm1. revert ws Hm Hl Fws. induction m1 as [|c m1 IH]; intros ws Hm Hl Fws; [now exists ws|]. inversion Fm1; subst. destruct ws as [|d ws].
          { cbn [concat length] in Hl. rewrite app_length in Hl. destruct (char_shape c ltac:(assumption)) as (b & t & -> & _). cbn in Hl. lia. }
          cbn [app] in Hm. injection Hm as -> Hm. inversion Fws; subst. destruct (IH ltac:(auto) ws Hm) as (k & ->); auto; [|now exists k]. cbn [concat] in Hl. rewrite !app_length in Hl. lia. }
        destruct Hpre as (k & ->). apply Forall_app in Fw as [Fw _]. rewrite Forall_forall in *. intros c Hc. auto.
      * exists q, (slice s o q). split; auto. split; [lia|]. split; auto. right. left. split; auto. exists col. split; auto. now rewrite Em.
    + exists o. split.
      * split; [lia|]. split; auto. split; auto. split; [exists []; split; [constructor|]; unfold slice; now rewrite Nat.sub_diag|]. split; [intros; exfalso; auto|].
        intros w c t Es Ww Nw Hc Wc Nc Lc Gw Gc. destruct (Part w c t Es Ww Nw Hc Wc Nc Lc Gw Gc) as (_ & C & _). discriminate C.
      * exists q, (slice s o q). split; auto. split; [lia|]. split; auto.
Qed.
Lemma outdent_run tab os : white_text white tab -> Forall (starts_line s) os -> exists es eds, Forall2 (dedent tab) os es /\
  (forall b, outdent_loop gb r white tab (map (fun o => newlines (firstn o s)) os) b = run b eds) /\
  Forall (ed_ok r) eds /\
  (increasing os -> forall k, (forall o, In o os -> k <= o) -> k <= length s ->
    sorted_edits k eds (length s) /\ edited k eds s = edited k (map (fun p => (fst p, snd p, [])) (combine os es)) s).
Proof.
  intros Wt. induction 1 as [|o os So F (es & eds & D & R & Ok & Srt)].
  { exists [], []. split; [constructor|]. split; [reflexivity|]. split; [constructor|]. intros _ k _ Hk. split; auto. }
  destruct (dedent_line tab o Wt So) as (e & De & q & leading & E1 & Lq & E2 & Hc). pose proof De as (De1 & De2 & De3 & _).
  pose proof (start_bd r h W o So) as Bo. pose proof (bd_le r h W _ De2) as Le.
  assert (Next : increasing (o :: os) -> increasing os /\ forall p, In p os -> e <= p).
  { intros I1. apply increasing_tail in I1 as [I1 I2]. split; auto. intros p Hp. rewrite Forall_forall in F. specialize (F p Hp). destruct (Nat.le_gt_cases e p) as [|Hlt]; auto. exfalso.
    pose proof (start_lt r p o F (I2 p Hp)). pose proof (newlines_mono r p e ltac:(lia)). lia. }
  assert (Del : (forall b, outdent_loop gb r white tab (map (fun o => newlines (firstn o s)) (o :: os)) b = let? b1 := db_delete b o e in outdent_loop gb r white tab (map (fun o => newlines (firstn o s)) os) b1) ->
    exists es eds, Forall2 (dedent tab) (o :: os) es /\ (forall b, outdent_loop gb r white tab (map (fun o => newlines (firstn o s)) (o :: os)) b = run b eds) /\ Forall (ed_ok r) eds /\
    (increasing (o :: os) -> forall k, (forall p, In p (o :: os) -> k <= p) -> k <= length s ->
      sorted_edits k eds (length s) /\ edited k eds s = edited k (map (fun p => (fst p, snd p, [])) (combine (o :: os) es)) s)).
  { intros Hd. exists (e :: es), ((o, e, []) :: eds). split; [constructor; auto|]. split; [|split; [constructor; auto; split; auto|]].
    - intros b. rewrite Hd, run_edits_cons. unfold db_replace. destruct (db_delete b o e); cbn [bind]; auto.
    - intros I1 k Hk Lk. apply Next in I1 as [I1 I2]. destruct (Srt I1 e I2 Le) as [S1 S2]. cbn [combine map fst snd edited sorted_edits]. split; [split; [apply Hk; now left|split; auto; lia]|]. now rewrite S2. }
  destruct Hc as [(Eb & ->)|[(Eb & col & Ef & Ee)|(Eb & Ef & ->)]].
  - apply Del. intros b. cbn [map outdent_loop]. rewrite (to_offset_0 r h W gb G o So). cbn [bind]. rewrite E1. cbn [bind]. replace (q <? o) with false by lia. rewrite E2. cbn [bind]. rewrite Eb. reflexivity.
  - apply Del. intros b. cbn [map outdent_loop]. rewrite (to_offset_0 r h W gb G o So). cbn [bind]. rewrite E1. cbn [bind]. replace (q <? o) with false by lia. rewrite E2. cbn [bind]. rewrite Eb, Ef, Ee. cbn [bind].
    replace (e <? o) with false by lia. reflexivity.
  - exists (o :: es), eds. split; [constructor; auto|]. split; [|split; auto].
    + intros b. cbn [map outdent_loop]. rewrite (to_offset_0 r h W gb G o So). cbn [bind]. rewrite E1. cbn [bind]. replace (q <? o) with false by lia. rewrite E2. cbn [bind]. rewrite Eb, Ef. cbn [bind]. auto.
    + intros I1 k Hk Lk. apply Next in I1 as [I1 I2]. destruct (Srt I1 o I2 Le) as [S1 S2].
      assert (Lko : k <= o) by (apply Hk; now left).
      destruct (Srt I1 k ltac:(intros p Hp; specialize (I2 p Hp); lia) Lk) as [S3 S4]. split; auto.
      cbn [combine map fst snd edited app]. rewrite <- S2. now rewrite edited_skip.
Qed.
Lemma outdent_ok tab os : white_text white tab -> Forall (starts_line s) os -> increasing os -> exists d es,
  outdent gb r white (map (fun o => newlines (firstn o s)) os) tab = Some d /\ Forall2 (dedent tab) os es /\
  makes d s (edited 0 (map (fun p => (fst p, snd p, [])) (combine os es)) s).
Proof.
  intros Wt F I1. destruct (outdent_run tab os Wt F) as (es & eds & D & R & Ok & Srt). destruct (Srt I1 0 ltac:(intros; lia) ltac:(lia)) as [S1 S2].
  destruct (edits_make r h W eds S1 Ok) as (b & E & M). exists (db_build b), es. unfold outdent. rewrite R, E. split; auto. split; auto. now rewrite <- S2.
Qed.
End Graphemes.
End Rope.
