(** Tabs and duplicate lines. *)
From Coq Require Import List Arith Lia Bool ZifyBool.
From Verif Require Import Base ListLib MultisetProofs DeltaModel DeltaSpec DeltaProofs DeltaProofs2 PropertiesDelta TreeModel TreeSpec TreeProofs MetricProofs CursorModel CursorProofs CursorBoundary
  RopeModel RopeSpec RopeProofs RopeMetric RopeIterModel RopeCursor RopeIterProofs FindModel FindProofs SelectionModel SelectionProofs PropertiesSelection WordModel WordProofs PropertiesWord EditOpsModel EditOpsSpec EditOpsProofs EditOpsLines EditOpsMore.
Import ListNotations.
Local Notation concat := List.concat.
Local Notation region := SelectionModel.region.
Local Notation edit := (nat * nat * list nat)%type.
Local Notation clen cs := (length (concat cs)).

Section Rope.
Context (r : rope) (h : nat) (W : rope_wf h r).
Notation s := (rcontent r).
Local Notation bd := (char_boundary s).
Local Notation run := (@run_edits nat).
Local Notation len_eq := (len_r r h W).
Local Notation fu := (tree_fuel r).

Lemma run_app eds1 eds2 : forall b, run b (eds1 ++ eds2) = let? b1 := run b eds1 in run b1 eds2.
Proof.
  induction eds1 as [|[[x y] t] eds IH]; intros b; [reflexivity|]. cbn [app]. rewrite !run_edits_cons. destruct (db_replace b x y t); cbn [bind]; auto.
Qed.
Definition last_end (k : nat) (eds : list edit) : nat := fold_left (fun _ x => snd (fst x)) eds k.
Lemma sorted_app eds1 : forall k eds2 n, sorted_edits (last_end k eds1) eds2 n -> (last_end k eds1 <= n -> sorted_edits k eds1 n) -> sorted_edits k (eds1 ++ eds2) n.
Proof.
  induction eds1 as [|[[x y] t] eds IH]; intros k eds2 n H1 H2; [exact H1|]. cbn [last_end fold_left fst snd] in *. fold (last_end y eds) in *. cbn [app sorted_edits].
  assert (L : last_end y eds <= n). { clear - H1. revert H1. generalize (last_end y eds). induction eds2 as [|[[a b] c] l IH]; intros k H; cbn in H; auto. destruct H as (? & ? & ?). apply IH in H1. lia. }
  destruct (H2 L) as (S1 & S2 & S3). split; auto.
Qed.
Lemma last_end_le eds : forall k n, sorted_edits k eds n -> k <= last_end k eds <= n.
Proof. induction eds as [|[[x y] t] eds IH]; intros k n H; cbn in *; [lia|]. destruct H as (S1 & S2 & S3). apply IH in S3. unfold last_end in S3. lia. Qed.

(** ** Tabs *)
Section Graphemes.
Context (gb : nat -> bool) (G : grapheme_bounds s gb).
Lemma tab_text_ok cfg n : (translate_tabs cfg = true -> n <= 32) -> get_tab_text cfg (Some n) = Some (tab_of (translate_tabs cfg) n).
Proof. intros H. unfold get_tab_text, n_spaces, tab_of. destruct (translate_tabs cfg); auto. rewrite (proj2 (Nat.leb_le n 32)); auto. Qed.
Lemma tab_text_default cfg : (translate_tabs cfg = true -> tab_size cfg <= 32) -> get_tab_text cfg None = Some (tab_of (translate_tabs cfg) (tab_size cfg)).
Proof. intros H. rewrite <- (tab_text_ok cfg (tab_size cfg) H). reflexivity. Qed.
(** The lines of one region. *)
Lemma range_starts x : bd (lo x) -> bd (hi x) -> exists os, get_line_range r x = Some (map (fun o => newlines (firstn o s)) os) /\
  increasing os /\ Forall (starts_line s) os /\ (forall o, In o os <-> lies_on s x o) /\ (1 < length os <-> several_lines s x).
Proof.
  intros B1 B2. destruct (line_range r h W x B1 B2) as (n & m & E & M & En & Lm & Hin).
  assert (Sq : forall m n, sorted_from n (seq n m)).
  { clear. induction m; intros n; [exact Logic.I|]. split; auto. }
  destruct (starts_ok r h W (seq n m) n (Sq m n)) as (os & Eo & I1 & F). { intros y Hy. apply in_seq in Hy. lia. }
  exists os. rewrite Eo. split; auto. split; auto. split; auto. pose proof F as F'. rewrite Forall_forall in F'.
  assert (Hio : forall o, In o os <-> lies_on s x o).
  { intros o. split.
    - intros Ho. apply Hin; auto. rewrite <- Eo. now apply (in_map (fun o => newlines (firstn o s))).
    - intros L. pose proof L as [So _]. apply Hin in L; auto. rewrite <- Eo in L. apply in_map_iff in L as (o' & N & Ho'). assert (o' = o); [|now subst].
      pose proof (start_le r o o' So ltac:(lia)). pose proof (start_le r o' o (F' o' Ho') ltac:(lia)). lia. }
  split; auto.
  assert (Lm2 : length os = m) by (rewrite <- (map_length (fun o => newlines (firstn o s)) os), Eo; apply seq_length). rewrite Lm2. split.
  - intros H1. destruct (start_of r h W (n + 1) ltac:(lia)) as (o & _ & So & No). exists o. split; auto.
    assert (L : lies_on s x o). { apply Hin; auto. rewrite No. apply in_seq. lia. } destruct L as [_ [[L _]|L]]; auto. exfalso. pose proof (newlines_mono r o (lo x) L). lia.
  - intros (o & So & L). assert (L' : lies_on s x o) by (split; auto). apply Hin in L'; auto. apply in_seq in L'. pose proof (start_lt r o (lo x) So ltac:(lia)). lia.
Qed.
Lemma tab_region_ok cfg x : 0 < tab_size cfg -> (translate_tabs cfg = true -> tab_size cfg <= 32) -> bd (lo x) -> bd (hi x) ->
  exists es, tab_edits s (translate_tabs cfg) (tab_size cfg) x es /\ Forall (ed_ok r) es /\
    (forall b, tab_region gb r cfg (tab_of (translate_tabs cfg) (tab_size cfg)) x b = run b es) /\
    (forall k, k <= lo x -> (several_lines s x -> forall o, line_at r (lo x) o -> k <= o) -> sorted_edits k es (length s) /\ last_end k es <= hi x).
Proof.
  intros T1 T2 B1 B2. destruct (range_starts x B1 B2) as (os & E & I1 & F & Hin & Hlen). pose proof (lo_hi x) as Hlx.
  unfold tab_region. rewrite E. cbn [bind]. rewrite map_length. destruct (Nat.ltb_spec 1 (length os)) as [Hl|Hl].
  - pose proof (proj1 Hlen Hl) as Sv. exists (map (fun o => (o, o, tab_of (translate_tabs cfg) (tab_size cfg))) os). split; [left; split; auto; exists os; auto|].
    assert (Ok : forall k, (forall o, In o os -> k <= o) -> k <= length s -> sorted_edits k (map (fun o => (o, o, tab_of (translate_tabs cfg) (tab_size cfg))) os) (length s) /\
       Forall (ed_ok r) (map (fun o => (o, o, tab_of (translate_tabs cfg) (tab_size cfg))) os)).
    { apply (tab_lines_sorted r h W (fun o => o)); auto. intros o Ho. split; auto. split; auto. apply (start_bd r h W). rewrite Forall_forall in F. auto. }
    split; [apply (Ok 0); [intros; lia|lia]|]. split; [intros b; now apply (tab_lines_run r h W gb G)|].
    intros k Hk Hs. split.
    + apply Ok; [|pose proof (bd_le r h W _ B1); lia]. intros o Ho. apply Hin in Ho as [So [[L N]|L]]; [|lia]. apply Hs; auto. split; auto.
    + assert (Gen : forall l k, k <= hi x -> (forall o, In o l -> o <= hi x) -> last_end k (map (fun o => (o, o, tab_of (translate_tabs cfg) (tab_size cfg))) l) <= hi x).
      { clear. unfold last_end. induction l; intros k Hk H; cbn; auto. apply IHl; [apply H; now left|]. intros. apply H. now right. }
      apply Gen; [lia|]. intros o Ho. apply Hin in Ho as [_ [[L _]|L]]; lia.
  - assert (Sv : ~ several_lines s x) by (intros C; apply Hlen in C; lia).
    assert (Bs : bd (r_start x)). { unfold lo, hi in *. destruct (Nat.le_ge_cases (r_start x) (r_end x)); [rewrite Nat.min_l in B1 by auto; auto|rewrite Nat.max_l in B2 by auto; auto]. }
    destruct (to_line_col r h W (r_start x) Bs) as (o & -> & (So & Lo & No) & _). cbn [bind]. replace (tab_size cfg =? 0) with false by lia.
    rewrite tab_text_ok by (intros; pose proof (T2 ltac:(auto)); lia). cbn [bind].
    eexists. split; [right; split; auto; exists (r_start x - o); split; [|reflexivity]|].
    + split; [lia|]. replace (r_start x - (r_start x - o)) with o by lia. split; auto.
    + split; [constructor; [split; auto|constructor]|]. split; [intros b; rewrite run_edits_cons; rewrite <- lo_min, <- hi_max; destruct (db_replace _ _ _ _); reflexivity|].
      intros k Hk _. cbn. pose proof (bd_le r h W _ B2). auto.
Qed.
Definition lines_apart (rs : list region) : Prop :=
  forall i j a b o, i < j -> nth_error rs i = Some a -> nth_error rs j = Some b -> several_lines s b -> line_at r (lo b) o -> hi a <= o.
Lemma tab_loop_ok cfg : 0 < tab_size cfg -> (translate_tabs cfg = true -> tab_size cfg <= 32) -> forall rs k, sel_from r k rs -> lines_apart rs ->
  exists ess, Forall2 (tab_edits s (translate_tabs cfg) (tab_size cfg)) rs ess /\ Forall (ed_ok r) (concat ess) /\
    (forall b, tab_loop gb r cfg (tab_of (translate_tabs cfg) (tab_size cfg)) rs b = run b (concat ess)) /\
    (forall k', k' <= k -> k <= length s -> (forall a o, In a rs -> several_lines s a -> line_at r (lo a) o -> k' <= o) -> sorted_edits k' (concat ess) (length s)).
Proof.
  intros T1 T2. induction rs as [|x rs IH]; intros k H Ha.
  { exists []. split; [constructor|]. split; [constructor|]. split; [reflexivity|]. intros. cbn. lia. }
  pose proof (sel_from_cons r _ _ _ H) as (H1 & H2 & H3 & H4). destruct (tab_region_ok cfg x T1 T2 H2 H3) as (es & E1 & F1 & R1 & S1).
  destruct (IH (hi x) H4) as (ess & E2 & F2 & R2 & S2). { intros i j a b o Hij Hi Hj. apply (Ha (S i) (S j)); auto. lia. }
  exists (es :: ess). split; [constructor; auto|]. cbn [concat]. split; [apply Forall_app; auto|]. split.
  - intros b. cbn [tab_loop]. rewrite R1, run_app. destruct (run b es); cbn [bind]; auto.
  - intros k' Hk Hl Hs. destruct (S1 k' ltac:(lia)) as [S1a S1b]; [intros; apply (Hs x); auto; now left|]. pose proof (last_end_le es k' _ S1a). apply sorted_app; auto.
    apply S2; auto; [now apply (bd_le r h W)|]. intros a o Hia Sa La. apply In_nth_error in Hia as [j Hj]. pose proof (Ha 0 (S j) x a o ltac:(lia) eq_refl Hj Sa La). lia.
Qed.
Lemma insert_tab_ok cfg rs : 0 < tab_size cfg -> (translate_tabs cfg = true -> tab_size cfg <= 32) -> selects s rs -> lines_apart rs ->
  exists d ess, insert_tab gb r rs cfg = Some d /\ Forall2 (tab_edits s (translate_tabs cfg) (tab_size cfg)) rs ess /\ makes d s (edited 0 (concat ess) s).
Proof.
  intros T1 T2 H Ha. destruct (tab_loop_ok cfg T1 T2 rs 0 (selects_from r rs H) Ha) as (ess & E & F & R & S). unfold insert_tab. rewrite tab_text_default by auto. cbn [bind].
  destruct (edits_make r h W (concat ess)) as (b & Eb & M); auto; [apply S; try lia|]. exists (db_build b), ess. rewrite R, Eb. auto.
Qed.
End Graphemes.

(** ** Duplicate lines *)
Fixpoint pairs_from (k : nat * nat) (l : list (nat * nat)) : Prop := match l with [] => True | x :: l' => pair_lt k x /\ pairs_from x l' end.
Lemma pairs_from_inc k l : pairs_from k l -> pairs_increasing l.
Proof. revert k. induction l as [|x l IH]; intros k H; [exact Logic.I|]. destruct H as [H1 H2]. destruct l as [|y l]; [exact Logic.I|]. split; [apply H2|]. eapply IH; eauto. Qed.
Lemma inc_pairs_from x l : pairs_increasing (x :: l) -> pairs_from x l.
Proof. revert x. induction l as [|y l IH]; intros x H; [exact Logic.I|]. destruct H as [H1 H2]. split; auto. Qed.
Lemma pair_insert_ok x l : forall k, pairs_from k l -> pair_lt k x -> pairs_from k (pair_insert x l) /\ forall y, In y (pair_insert x l) <-> y = x \/ In y l.
Proof.
  induction l as [|y l IH]; intros k H Hk; cbn [pair_insert].
  { split; [cbn; auto|]. intros y. cbn. intuition. }
  destruct H as [H1 H2]. destruct ((fst x <? fst y) || (fst x =? fst y) && (snd x <? snd y)) eqn:E1; [|destruct ((fst x =? fst y) && (snd x =? snd y)) eqn:E2].
  - split; [cbn [pairs_from]; split; auto; split; auto; unfold pair_lt; lia|]. intros z. cbn. intuition.
  - assert (x = y) as -> by (destruct x, y; cbn in *; f_equal; lia). split; [split; auto|]. intros z. cbn. intuition.
  - destruct (IH y H2) as [I1 I2]; [unfold pair_lt; lia|]. split; [split; auto|]. intros z. cbn [In]. rewrite I2. tauto.
Qed.
(** As [pairs_from], with no least element. *)
Lemma pair_insert_inc x l : pairs_increasing l -> pairs_increasing (pair_insert x l) /\ forall y, In y (pair_insert x l) <-> y = x \/ In y l.
Proof.
  intros H. destruct l as [|y l]. { split; [exact Logic.I|]. intros z. cbn. intuition. }
  cbn [pair_insert]. apply inc_pairs_from in H. destruct ((fst x <? fst y) || (fst x =? fst y) && (snd x <? snd y)) eqn:E1; [|destruct ((fst x =? fst y) && (snd x =? snd y)) eqn:E2].
  - split.
    + cbn [pairs_increasing]. split; [unfold pair_lt; lia|]. destruct l as [|z l]; [exact Logic.I|]. destruct H as [Ha Hb]. split; auto. apply (pairs_from_inc y (z :: l)). split; auto.
    + intros z. cbn. intuition.
  - assert (x = y) as -> by (destruct x, y; cbn in *; f_equal; lia). split; [|intros z; cbn; intuition].
    destruct l as [|z l]; [exact Logic.I|]. destruct H as [Ha Hb]. split; auto. apply (pairs_from_inc y (z :: l)). split; auto.
  - destruct (pair_insert_ok x l y H) as [I1 I2]; [unfold pair_lt; lia|]. split; [|intros z; cbn [In]; rewrite I2; tauto].
    destruct (pair_insert x l) as [|z q] eqn:Ei; [exact Logic.I|]. destruct I1 as [Ia Ib]. split; auto. apply (pairs_from_inc y (z :: q)). split; auto.
Qed.
Lemma line_break_start o : o <= length s -> (line_break s o <-> starts_line s o /\ 0 < o).
Proof. intros H. unfold line_break, starts_line, NL. split; [intros [H1 H2]; auto|intros [[_ [->|H1]] H2]; [lia|auto]]. Qed.
Lemma dup_region x : bd (lo x) -> bd (hi x) -> exists o q c, offset_to_line_col r (rmin x) = Some (newlines (firstn (lo x) s), lo x - o) /\
  offset_of_line fu r (newlines (firstn (lo x) s)) = Some o /\ line_at r (lo x) o /\
  (if is_caret x then c_new r o else let? (last_line, _) := offset_to_line_col r (rmax x) in let? line_end := offset_of_line fu r last_line in c_new r line_end) = Some c /\
  line_at r (hi x) q /\ c_pos c = q /\ rvalid r c.
Proof.
  intros B1 B2. destruct (to_line_col r h W (lo x) B1) as (o & E1 & L1 & O1). destruct (to_line_col r h W (hi x) B2) as (q & E2 & L2 & O2). rewrite is_caret_ok, <- lo_min, <- hi_max.
  pose proof (bd_le r h W _ B2) as Hle. destruct (Nat.eqb_spec (lo x) (hi x)) as [E|E].
  - rewrite <- E in *. destruct (rnew_ok h r o W ltac:(pose proof L1 as (_ & ? & _); lia)) as (c & Ec & P & V). exists o, o, c. auto 8.
  - destruct (rnew_ok h r q W ltac:(pose proof L2 as (_ & ? & _); lia)) as (c & Ec & P & V). exists o, q, c. rewrite E2. cbn [bind]. rewrite O2. cbn [bind]. auto 8.
Qed.
Lemma dup_next x q c : hi x <= length s -> line_at r (hi x) q -> c_pos c = q -> rvalid r c -> exists e c', c_next rope_ops r lines_metric c = Some (e, c') /\
  match e with
  | Some e => starts_line s e /\ hi x < e /\ forall p, hi x < p < e -> ~ starts_line s p
  | None => forall e, starts_line s e -> e <= hi x
  end.
Proof.
  intros Hl (S1 & S2 & S3) P V. destruct (next_ok rope_ops _ _ _ _ _ rope_leaf_spec rope_text_spec _ _ _ lines_bound r h W c V) as (e & c' & E & He); [now left|].
  exists e, c'. split; auto. rewrite P in He. destruct e as [e|].
  - destruct He as (_ & H1 & H2 & H3 & _). change (content (fun s => s) r) with s in *. apply line_break_start in H2 as [H2 H2']; [|lia]. split; auto.
    assert (hi x < e). { destruct (Nat.le_gt_cases e (hi x)); auto. exfalso. apply (S3 e); auto. lia. }
    split; auto. intros p Hp Sp. apply (H3 p); [lia|]. apply line_break_start; [lia|]. split; auto. lia.
  - destruct He as (_ & _ & H3). change (content (fun s => s) r) with s in *. intros e Se. destruct (Nat.le_gt_cases e (hi x)); auto. exfalso. pose proof Se as [Le _]. apply (H3 e); [lia|]. apply line_break_start; auto. split; auto. lia.
Qed.
Lemma dup_lines_ok rs : (forall x, In x rs -> bd (lo x) /\ bd (hi x)) -> forall acc, pairs_increasing acc ->
  exists ls, dup_lines r rs acc = Some ls /\ pairs_increasing ls /\ forall o e, In (o, e) ls <-> In (o, e) acc \/ exists x, In x rs /\ line_block s x o e.
Proof.
  induction rs as [|x rs IH]; intros B acc Ha; cbn [dup_lines].
  { exists acc. split; auto. split; auto. intros o e. split; auto. intros [|(x & [] & _)]; auto. }
  destruct (B x (or_introl eq_refl)) as [B1 B2]. destruct (dup_region x B1 B2) as (o & q & c & E1 & E2 & L1 & E3 & L2 & P & V). rewrite E1. cbn [bind]. rewrite E2. cbn [bind]. rewrite E3. cbn [bind].
  destruct (dup_next x q c (bd_le r h W _ B2) L2 P V) as (e & c' & -> & He). cbn [bind].
  assert (Uo : forall o', (starts_line s o' /\ o' <= lo x /\ (forall p, o' < p <= lo x -> ~ starts_line s p)) -> o' = o).
  { intros o' (A1 & A2 & A3). destruct L1 as (C1 & C2 & C3). destruct (Nat.lt_trichotomy o o') as [Hl|[|Hl]]; auto; exfalso; [apply (C3 o'); auto; lia|apply (A3 o); auto; lia]. }
  destruct e as [e|].
  - destruct (pair_insert_inc (o, e) acc Ha) as [A1 A2]. destruct (IH (fun z Hz => B z (or_intror Hz)) _ A1) as (ls & E & Sl & Hls). exists ls. split; auto. split; auto.
    intros o' e'. rewrite Hls, A2. split.
    + intros [[H|H]|(z & Hz & Hb)].
      * injection H as -> ->. right. exists x. split; [now left|]. split; auto.
      * now left.
      * right. exists z. split; [now right|auto].
    + intros [H|(z & [<-|Hz] & Hb)]; auto; [|right; eauto]. left. left. destruct Hb as [Hb1 (A3 & A4 & A5)]. rewrite (Uo o' Hb1). f_equal. destruct He as (C1 & C2 & C3).
      destruct (Nat.lt_trichotomy e e') as [Hl|[|Hl]]; auto; exfalso; [apply (A5 e); auto; lia|apply (C3 e'); auto; lia].
  - destruct (IH (fun z Hz => B z (or_intror Hz)) _ Ha) as (ls & E & Sl & Hls). exists ls. split; auto. split; auto. intros o' e'. rewrite Hls. split.
    + intros [H|(z & Hz & Hb)]; auto. right. exists z. split; [now right|auto].
    + intros [H|(z & [<-|Hz] & Hb)]; auto; [|right; eauto]. exfalso. destruct Hb as [_ (A3 & A4 & _)]. specialize (He e' A3). lia.
Qed.
Definition dup_text (ending : list nat) (p : nat * nat) : list nat := slice s (fst p) (snd p) ++ (if snd p =? length s then ending else []).
Definition dup_edits (ending : list nat) (p : nat * nat) : list edit := (fst p, fst p, slice s (fst p) (snd p)) :: if snd p =? length s then [(fst p, fst p, ending)] else [].
Lemma dup_run ending ls : Forall (fun p => bd (fst p) /\ bd (snd p) /\ fst p <= snd p) ls -> forall b, dup_insert r ending ls b = run b (flat_map (dup_edits ending) ls).
Proof.
  induction 1 as [|[o e] ls (H1 & H2 & H3) F IH]; intros b; [reflexivity|]. cbn [dup_insert flat_map dup_edits fst snd app] in *.
  rewrite (slice_to_cow_ok r h W o e H3) by (now apply (bd_iff r h W)). cbn [bind]. rewrite run_edits_cons. rewrite len_eq. destruct (db_replace b o o (slice s o e)); cbn [bind]; auto.
  destruct (e =? length s); cbn [bind app]; auto. rewrite run_edits_cons. destruct (db_replace _ _ _ _); cbn [bind]; auto.
Qed.
Lemma dup_sorted ending ls : Forall (fun p => bd (fst p) /\ bd (snd p) /\ fst p <= snd p) ls -> pairs_increasing ls -> forall k, k <= length s -> (forall p, In p ls -> k <= fst p) ->
  sorted_edits k (flat_map (dup_edits ending) ls) (length s) /\ Forall (ed_ok r) (flat_map (dup_edits ending) ls) /\
  edited k (flat_map (dup_edits ending) ls) s = edited k (map (fun p => (fst p, fst p, dup_text ending p)) ls) s.
Proof.
  induction 1 as [|[o e] ls (H1 & H2 & H3) F IH]; intros Hi k Hk Hl; [cbn; auto|]. cbn [fst snd] in *.
  assert (I1 : pairs_increasing ls /\ forall p, In p ls -> o <= fst p).
  { apply inc_pairs_from in Hi. split; [eapply pairs_from_inc; eauto|]. clear - Hi. change o with (fst (o, e)). revert Hi. generalize (o, e). clear. induction ls as [|y l IH]; intros x H p Hp; [destruct Hp|].
    destruct H as [Ha Hb]. destruct Hp as [<-|Hp]; [unfold pair_lt in Ha; lia|]. specialize (IH y Hb p Hp). unfold pair_lt in Ha. lia. }
  destruct I1 as [I1 I2]. destruct (IH I1 o (bd_le r h W _ H1) I2) as (S1 & S2 & S3). pose proof (Hl (o, e) (or_introl eq_refl)) as Lk. cbn [fst] in Lk.
  assert (So : slice s o o = []) by (unfold slice; now rewrite Nat.sub_diag).
  cbn [flat_map dup_edits fst snd app map edited dup_text]. unfold dup_text. cbn [fst snd]. destruct (e =? length s); cbn [app sorted_edits edited].
  - split; [auto 8|]. split; [constructor; [split; auto|constructor; [split; auto|auto]]|]. rewrite S3, So. cbn [app]. now rewrite <- !app_assoc.
  - split; [auto 8|]. split; [constructor; [split; auto|auto]|]. now rewrite S3, app_nil_r.
Qed.
Lemma duplicate_ok rs cfg : (forall x, In x rs -> bd (lo x) /\ bd (hi x)) -> exists d ls, duplicate_line r rs cfg = Some d /\ pairs_increasing ls /\
  (forall o e, In (o, e) ls <-> exists x, In x rs /\ line_block s x o e) /\
  makes d s (edited 0 (map (fun p => (fst p, fst p, dup_text (line_ending cfg) p)) ls) s).
Proof.
  intros B. destruct (dup_lines_ok rs B [] Logic.I) as (ls & E & Sl & Hls).
  assert (F : Forall (fun p => bd (fst p) /\ bd (snd p) /\ fst p <= snd p) ls).
  { apply Forall_forall. intros [o e] Hp. apply Hls in Hp as [[]|(x & Hx & (A1 & A2 & _) & (A3 & A4 & _))]. cbn. split; [now apply (start_bd r h W)|]. split; [now apply (start_bd r h W)|]. pose proof (lo_hi x). lia. }
  destruct (dup_sorted (line_ending cfg) ls F Sl 0 ltac:(lia) ltac:(intros; lia)) as (S1 & S2 & S3). destruct (edits_make r h W _ S1 S2) as (b & Eb & M).
  exists (db_build b), ls. unfold duplicate_line. rewrite E. cbn [bind]. rewrite dup_run by auto. rewrite Eb. split; auto. split; auto. split; [|now rewrite <- S3].
  intros o e. rewrite Hls. split; [intros [[]|]; auto|auto].
Qed.
End Rope.
