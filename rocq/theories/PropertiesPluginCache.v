(** C35, C36, C51: the text cache, the state cache and the frontier of a plugin. *)
From Coq Require Import List Arith Lia Bool ZifyBool.
From Verif Require Import Base ListLib MultisetProofs TreeModel TreeSpec TreeProofs RopeModel RopeSpec RopeProofs RopeMetric RopeIterModel
  DeltaModel DeltaSpec PluginCacheModel PluginCacheSpec PluginCacheProofs.
Import ListNotations.

(** ** C35: the text cache *)
(** The core answers every request that makes sense, rightly and with at most as many bytes as
    asked for, and refuses the others; it does not panic. *)
Theorem C35_server h r fuel start u max_size : rope_wf h r -> h + 1 < fuel -> 4 <= max_size ->
  (request_ok (rcontent r) start u -> exists resp, plugin_get_data fuel r start u max_size = Some (Some resp) /\
     answers (rcontent r) start u resp /\ length (r_chunk resp) <= max_size) /\
  (~ request_ok (rcontent r) start u -> plugin_get_data fuel r start u max_size = Some None).
Proof. intros W Hf Hm. exact (server_ok h r fuel start u max_size W Hf Hm). Qed.
Print Assumptions C35_server.

(** So the core's buffer [r] at revision [rev] is a right source, that does not refuse. *)
Definition core_source (fuel : nat) (r : rope) (rev : nat) : source :=
  fun start u max_size rev' =>
    if rev' =? rev then match plugin_get_data fuel r start u max_size with Some x => x | None => None end else None.
Lemma chunk_size_4 : 4 <= CHUNK_SIZE.
Proof. apply Nat.leb_le. reflexivity. Qed.
Theorem C35_core_source h r fuel rev : rope_wf h r -> h + 1 < fuel ->
  source_ok (rcontent r) rev (core_source fuel r rev) /\ ~ refuses (rcontent r) rev (core_source fuel r rev).
Proof.
  intros W Hf. split.
  - intros start u resp. unfold core_source. rewrite Nat.eqb_refl. destruct (server_ok h r fuel start u CHUNK_SIZE W Hf chunk_size_4) as [A B]. intros E.
    assert (R : request_ok (rcontent r) start u).
    { destruct u; cbn; [destruct (Nat.le_gt_cases start (length (rcontent r))); auto|destruct (Nat.le_gt_cases start (newlines (rcontent r) + 1)); auto];
        exfalso; rewrite B in E by (cbn; lia); discriminate. }
    split; auto. destruct (A R) as (resp' & E' & H & _). rewrite E' in E. injection E as <-. exact H.
  - intros (start & u & R & E). unfold core_source in E. rewrite Nat.eqb_refl in E. destruct (server_ok h r fuel start u CHUNK_SIZE W Hf chunk_size_4) as [A _].
    destruct (A R) as (resp' & E' & _). rewrite E' in E. discriminate.
Qed.
Print Assumptions C35_core_source.

(** After any fetches and edits the cache holds a run of the text as it now is, exactly its
    newlines, the line it starts on, and the sizes of the text. *)
Theorem C35_contents t rev c : cc_history t rev c -> agrees t rev c.
Proof. intros H. destruct (cc_history_inv _ _ _ H) as (p & q & V). eapply inv_agrees; eauto. Qed.
Print Assumptions C35_contents.

(** Being told of an edit does not panic. *)
Theorem C35_update t rev c d t' rev' : cc_history t rev c -> edit_ok t d t' ->
  exists c', cc_update c (Some d) (length t') (newlines t' + 1) rev' = Some c' /\ agrees t' rev' c'.
Proof.
  intros H He. destruct (cc_history_inv _ _ _ H) as (p & q & V). destruct (cc_update_ok _ _ _ _ _ _ _ rev' V He) as (c' & p' & q' & E & V').
  exists c'. split; auto. eapply inv_agrees; eauto.
Qed.
Print Assumptions C35_update.

(** The queries do not panic, end after as many fetches as there are bytes, and answer as the
    text would. They fail only if there is no such line or offset, or the core refuses. *)
Theorem C35_get_line t rev c src n fuel : cc_history t rev c -> source_ok t rev src -> length t <= fuel ->
  exists c' res, get_line fuel src c n = Some (c', res) /\ cc_history t rev c' /\
    match res with Ok l => is_line t n l | Err => newlines t < n \/ refuses t rev src end.
Proof.
  intros H Hs Hf. destruct (cc_history_inv _ _ _ H) as (p & q & V). destruct (get_line_ok _ _ _ _ _ _ n fuel V Hs Hf) as (c' & res & p' & q' & E & V' & R).
  exists c', res. split; auto. split; auto. eapply ch_query; eauto. eapply cq_line; eauto.
Qed.
Print Assumptions C35_get_line.
Theorem C35_get_region t rev c src b e fuel : cc_history t rev c -> source_ok t rev src -> length t <= fuel ->
  b <= e -> e <= length t -> char_boundary t b -> char_boundary t e ->
  exists c' res, get_region fuel src c b e = Some (c', res) /\ cc_history t rev c' /\
    match res with Ok s => s = slice t b e | Err => refuses t rev src end.
Proof.
  intros H Hs Hf Hbe He Cb Ce. destruct (cc_history_inv _ _ _ H) as (p & q & V). destruct (get_region_ok _ _ _ _ _ _ b e fuel V Hs Hf Hbe He Cb Ce) as (c' & res & p' & q' & E & V' & R).
  exists c', res. split; auto. split; auto. eapply ch_query; eauto. eapply cq_region; eauto.
Qed.
Print Assumptions C35_get_region.
Theorem C35_get_document t rev c src fuel : cc_history t rev c -> source_ok t rev src -> length t <= fuel ->
  exists c' res, get_document fuel src c = Some (c', res) /\ cc_history t rev c' /\
    match res with Ok s => s = t | Err => refuses t rev src end.
Proof.
  intros H Hs Hf. destruct (cc_history_inv _ _ _ H) as (p & q & V).
  destruct (get_document_loop_ok t rev src Hs fuel p c q [] 0 V) as (c' & res & p' & q' & E & V' & R); try lia; auto.
  { apply boundary_iff; [apply V|apply cb_0]. }
  exists c', res. split; auto. split; auto. eapply ch_query; eauto. eapply cq_document; eauto.
Qed.
Print Assumptions C35_get_document.
(** One fetch is enough here. *)
Theorem C35_offset_of_line t rev c src n : cc_history t rev c -> source_ok t rev src ->
  exists c' res, cc_offset_of_line 1 src c n = Some (c', res) /\ cc_history t rev c' /\
    match res with Ok o => line_or_end t n o | Err => newlines t + 1 < n \/ refuses t rev src end.
Proof.
  intros H Hs. destruct (cc_history_inv _ _ _ H) as (p & q & V). destruct (offset_of_line_cached _ _ _ _ _ _ n 1 V Hs (le_n 1)) as (c' & res & p' & q' & E & V' & R).
  exists c', res. split; auto. split; auto. eapply ch_query; eauto. eapply cq_offset_of_line; eauto.
Qed.
Print Assumptions C35_offset_of_line.
Theorem C35_line_of_offset t rev c src o : cc_history t rev c -> source_ok t rev src ->
  exists c' res, cc_line_of_offset src c o = Some (c', res) /\ cc_history t rev c' /\
    match res with Ok n => o <= length t /\ (char_boundary t o -> n = newlines (firstn o t)) | Err => length t < o \/ refuses t rev src end.
Proof.
  intros H Hs. destruct (cc_history_inv _ _ _ H) as (p & q & V). destruct (line_of_offset_cached _ _ _ _ _ _ o V Hs) as (c' & res & p' & q' & E & V' & R).
  exists c', res. split; auto. split; auto. eapply ch_query; eauto. eapply cq_line_of_offset; eauto.
Qed.
Print Assumptions C35_line_of_offset.

(** *** A case: a three line text in the core, an edit, and queries around it *)
Definition ex_text : list nat := [97; 98; 10; 195; 169; 10; 99].  (* "ab\né\nc" *)
Definition ex_rope : rope := from_leaf rope_ops ex_text.
Definition ex_src : source := core_source 3 ex_rope 7.
Lemma ascii_utf8 t : Forall (fun b => b < 128) t -> utf8 t.
Proof.
  intros H. exists (map (fun b => [b]) t). split.
  - induction H; cbn [map]; constructor; auto. cbn. apply Nat.leb_le. lia.
  - clear H. induction t as [|b t IH]; cbn; congruence.
Qed.
Lemma ex_utf8 : utf8 ex_text.
Proof. exists [[97]; [98]; [10]; [195; 169]; [10]; [99]]. split; [repeat constructor|reflexivity]. Qed.
Lemma leaf_wf t : utf8 t -> length t <= 1024 -> rope_wf 0 (from_leaf rope_ops t) /\ rcontent (from_leaf rope_ops t) = t.
Proof. intros U L. apply (from_leaf_wf rope_ops (fun s => s) leafV scut compute_info rope_leaf_spec t). now split. Qed.
Lemma leaf_src t rev : utf8 t -> length t <= 1024 ->
  source_ok t rev (core_source 3 (from_leaf rope_ops t) rev) /\ ~ refuses t rev (core_source 3 (from_leaf rope_ops t) rev).
Proof.
  intros U L. destruct (leaf_wf t U L) as [W E]. pose proof (C35_core_source 0 _ 3 rev W) as H. rewrite E in H. apply H. lia.
Qed.
Lemma ex_src_ok : source_ok ex_text 7 ex_src /\ ~ refuses ex_text 7 ex_src.
Proof. apply leaf_src; [exact ex_utf8|cbn; lia]. Qed.
(** "x\ny" is inserted before the "é". *)
Definition ex_edit : delta nat := Delta [Copy 0 3; Insert [120; 10; 121]; Copy 3 7] 7.
Definition ex_text' : list nat := [97; 98; 10; 120; 10; 121; 195; 169; 10; 99].
Lemma cb_of t cs1 cs2 : t = List.concat (cs1 ++ cs2) -> Forall (fun c => utf8_char c = true) (cs1 ++ cs2) -> char_boundary t (length (List.concat cs1)).
Proof. intros -> H. exists cs1, cs2. auto. Qed.
Lemma ex_edit_ok : edit_ok ex_text ex_edit ex_text'.
Proof.
  unfold edit_ok. split; [split; [cbn; lia|repeat constructor; discriminate]|]. split; [reflexivity|]. split; [reflexivity|]. split.
  - exists [[97]; [98]; [10]; [120]; [10]; [121]; [195; 169]; [10]; [99]]. split; [repeat constructor|reflexivity].
  - assert (A : forall x, In x [0; 3; 7] -> char_boundary ex_text x).
    { intros x [<-|[<-|[<-|[]]]]; [apply (cb_of _ [] [[97]; [98]; [10]; [195; 169]; [10]; [99]])|apply (cb_of _ [[97]; [98]; [10]] [[195; 169]; [10]; [99]])|
        apply (cb_of _ [[97]; [98]; [10]; [195; 169]; [10]; [99]] [])]; cbn; repeat constructor. }
    constructor; [split; apply A; cbn; auto|]. constructor; [apply ascii_utf8; repeat constructor; lia|]. constructor; [split; apply A; cbn; auto|constructor].
Qed.
Definition ex_cache : option chunk_cache := let? (c, _) := get_line 7 ex_src (cc_new 7 7 3) 1 in Some c.
Example C35_case :
  (exists c, ex_cache = Some c /\ cc_history ex_text 7 c) /\
  (let? c := ex_cache in
   let? c' := cc_update c (Some ex_edit) 10 4 8 in
   let src := core_source 3 (from_leaf rope_ops ex_text') 8 in
   let? (c1, l) := get_line 10 src c' 2 in
   let? (c2, s) := get_region 10 src c1 2 6 in
   let? (c3, d) := get_document 10 src c2 in
   let? (c4, o) := cc_offset_of_line 1 src c3 3 in
   let? (c5, n) := cc_line_of_offset src c4 8 in
   Some (cc_contents c, cc_offset c, cc_contents c', cc_line_offsets c', l, s, d, o, n)) =
  Some ([195; 169; 10; 99], 3, [120; 10; 121; 195; 169; 10; 99], [2; 6], Ok [121; 195; 169; 10], Ok [10; 120; 10; 121], Ok ex_text', Ok 9, Ok 2).
Proof.
  split; [|vm_compute; reflexivity].
  destruct (C35_get_line ex_text 7 (cc_new 7 7 3) ex_src 1 7) as (c & res & E & H & _).
  - exact (ch_new ex_text 7 ex_utf8).
  - apply ex_src_ok.
  - cbn. lia.
  - exists c. split; auto. unfold ex_cache. now rewrite E.
Qed.

(** If the end of the region is past the end of the text, [get_region] asks the core for the
    empty text at its end for ever. *)
Theorem C35_get_region_past_end_refuted :
  exists t rev c src, cc_history t rev c /\ source_ok t rev src /\ ~ refuses t rev src /\
    get_region_turn src c 0 (length t + 1) = Some (inl c) /\
    forall fuel, get_region fuel src c 0 (length t + 1) = None.
Proof.
  pose (t := [97]). assert (U : utf8 t) by (apply ascii_utf8; repeat constructor; lia).
  destruct (leaf_src t 7 U) as [S1 S2]; [cbn; lia|]. set (src := core_source 3 (from_leaf rope_ops t) 7) in *.
  destruct (C35_get_line t 7 (cc_new 1 7 1) src 0 1 (ch_new t 7 U) S1 (le_n 1)) as (c & res & E & H & _).
  exists t, 7, c, src. split; auto. split; auto. split; auto.
  assert (Ec : c = CC 0 [97] 0 0 [] 1 1 7).
  { assert (E1 : get_line 1 src (cc_new 1 7 1) 0 = Some (CC 0 [97] 0 0 [] 1 1 7, Ok [97])) by (vm_compute; reflexivity). congruence. }
  assert (T : get_region_turn src c 0 (length t + 1) = Some (inl c)) by (rewrite Ec; vm_compute; reflexivity).
  split; auto. intros fuel. unfold get_region. rewrite Ec at 1 2 3 4. cbn [cc_contents cc_offset orb Nat.ltb Nat.leb Nat.add length].
  induction fuel as [|fuel IH]; cbn [get_region_loop]; rewrite T; cbn [bind]; auto.
Qed.
Print Assumptions C35_get_region_past_end_refuted.

(** ** C36: the state cache *)
Section C36.
Context {S : Type}.

(** After any queries, sets and edits the cached states are at starts of lines, and their line
    numbers and offsets increase. There are not too many. *)
Theorem C36_aligned t rev (c : state_cache S) : sc_history t rev c -> aligned t (sc_entries c) /\ length (sc_entries c) <= CACHE_SIZE.
Proof. intros H. destruct (sc_history_inv _ _ _ H) as (_ & Hi & Hl). split; auto. now apply sinv_aligned. Qed.
(** Its text agrees, so all of C35 holds of it. *)
Theorem C36_text t rev (c : state_cache S) : sc_history t rev c -> agrees t rev (sc_buf c).
Proof. intros H. destruct (sc_history_inv _ _ _ H) as ((p & q & V) & _). eapply inv_agrees; eauto. Qed.

(** Being told of an edit does not panic. Each state kept is one from before: it was at or
    before the start of the edit, and has not moved; or it was after the end of the edit, and
    has moved with the text. *)
Theorem C36_update t rev (c : state_cache S) d t' rev' : sc_history t rev c -> edit_ok t d t' ->
  exists c', sc_update c (Some d) (length t') (newlines t' + 1) rev' = Some c' /\ aligned t' (sc_entries c') /\
    let '((start, end_), new_len) := summary d in
    forall a', In a' (sc_entries c') -> exists a, In a (sc_entries c) /\ e_state a' = e_state a /\
      (e_offset a <= start /\ a' = a \/ end_ < e_offset a /\ e_offset a' = e_offset a - (end_ - start) + new_len).
Proof.
  intros H He. destruct (sc_history_inv _ _ _ H) as ((p & q & V) & Hi & Hl). destruct (sc_update_ok _ _ _ _ _ _ _ rev' V Hi He) as (c' & p' & q' & E & V' & Hi' & Hf & _).
  exists c'. split; auto. split; [now apply sinv_aligned|]. destruct (summary d) as [[start end_] n]. exact Hf.
Qed.
(** A text that comes without a delta leaves at most the state of line 0. *)
Theorem C36_replace t rev (c : state_cache S) t' rev' : sc_history t rev c -> utf8 t' ->
  exists c', sc_update c None (length t') (newlines t' + 1) rev' = Some c' /\
    forall a, In a (sc_entries c') -> In a (sc_entries c) /\ e_line a = 0 /\ e_offset a = 0.
Proof.
  intros H U. destruct (sc_history_inv _ _ _ H) as ((p & q & V) & Hi & Hl). destruct (sc_replace_ok _ _ _ _ _ t' rev' V Hi U) as (c' & p' & q' & E & _ & _ & Hf & _). eauto.
Qed.

(** Setting the state of a line does not panic while the core answers and the random choices
    are in range; that line then has the state, and every other line the state it had or none.
    (There is no setting the state of the line after the last.) *)
Theorem C36_set t rev (c : state_cache S) src probes n s : sc_history t rev c -> source_ok t rev src -> ~ refuses t rev src ->
  n <= newlines t + 1 -> probes <> [] -> Forall (fun ix => ix < length (sc_entries c)) probes \/ length (sc_entries c) < CACHE_SIZE ->
  exists c', sc_set src c probes n s = Some c' /\ sc_history t rev c' /\
    (n <= newlines t -> sc_get c' n = Some s) /\
    forall m, m <> n -> sc_get c' m = sc_get c m \/ sc_get c' m = None.
Proof.
  intros H Hs Hr Hn Hp HF. destruct (sc_history_inv _ _ _ H) as ((p & q & V) & Hi & Hl).
  destruct (sc_set_total _ _ _ _ _ _ probes n s V Hi Hs Hr Hn Hp HF) as (c' & E). exists c'. split; auto. split; [eapply sh_set; eauto|].
  destruct (sc_set_inv _ _ _ _ _ _ _ _ _ _ V Hi Hs E) as (_ & Hi' & Hc & _).
  destruct Hc as [[-> ->]|(es1 & o & es2 & Ee & Lo & Hin)]; [split; [lia|auto]|].
  pose proof (sinv_aligned _ _ Hi') as [_ AL]. split.
  - intros _. rewrite (sc_get_ok t) by auto. destruct (List.find _ (sc_entries c')) as [e|] eqn:Ef.
    + apply find_some in Ef as [I1 E1]. apply Nat.eqb_eq in E1. assert (In (Entry n o (Some s)) (sc_entries c')) as I2 by (rewrite Ee, in_app_iff; cbn; auto).
      apply In_nth_error in I1 as (i & I1). apply In_nth_error in I2 as (j & I2).
      destruct (Nat.lt_trichotomy i j) as [L|[->|L]]; [destruct (AL i j _ _ L I1 I2) as [L1 _]; cbn in L1; lia| |destruct (AL j i _ _ L I2 I1) as [L1 _]; cbn in L1; lia].
      rewrite I1 in I2. injection I2 as ->. reflexivity.
    + assert (In (Entry n o (Some s)) (sc_entries c')) as I2 by (rewrite Ee, in_app_iff; cbn; auto). pose proof (find_none _ _ Ef _ I2) as F. cbn in F. rewrite Nat.eqb_refl in F. discriminate.
  - intros m Hm. rewrite !(sc_get_ok t) by auto. destruct (List.find _ (sc_entries c')) as [e|] eqn:Ef; [|now right]. left.
    apply find_some in Ef as [I1 E1]. apply Nat.eqb_eq in E1.
    assert (Ie : In e (sc_entries c)). { apply Hin. rewrite Ee in I1. rewrite in_app_iff in *. destruct I1 as [I1|[<-|I1]]; auto. cbn in E1. congruence. }
    destruct (List.find (fun e => e_line e =? m) (sc_entries c)) as [e'|] eqn:Ef.
    + apply find_some in Ef as [I2 E2]. apply Nat.eqb_eq in E2. f_equal. pose proof (sinv_aligned _ _ Hi) as [_ AL'].
      apply In_nth_error in Ie as (i & Ie). apply In_nth_error in I2 as (j & I2).
      destruct (Nat.lt_trichotomy i j) as [L|[->|L]]; [destruct (AL' i j _ _ L Ie I2); lia| |destruct (AL' j i _ _ L I2 Ie); lia].
      congruence.
    + pose proof (find_none _ _ Ef _ Ie) as F. cbn in F. rewrite E1, Nat.eqb_refl in F. discriminate.
Qed.

(** The state to go on from at a line is that of the last line at or before it that has one,
    with the offset of its start; the default at line 0 if there is none. *)
Theorem C36_get_prev (default : S) t rev c n : sc_history t rev c ->
  exists l o s, get_prev default c n = Some (l, o, s) /\ line_at t l o /\ l <= n /\
    ((forall m, l < m <= n -> sc_get c m = None) /\ (sc_get c l = Some s \/ (l, s) = (0, default) /\ sc_get c 0 = None) \/
     n = 0 /\ (l, o, s) = (0, 0, default)).
Proof.
  intros H. destruct (sc_history_inv _ _ _ H) as ((p & q & V) & Hi & Hl). pose proof (sinv_aligned _ _ Hi) as [AL1 AL2].
  assert (Get : forall m, (forall e', In e' (sc_entries c) -> e_line e' = m -> e_state e' = None) -> sc_get c m = None).
  { intros m Hm. rewrite (sc_get_ok t) by auto. destruct (List.find _ _) as [e'|] eqn:Ef; auto. apply find_some in Ef as [I1 E1]. apply Nat.eqb_eq in E1. auto. }
  destruct (get_prev_ok default t c n Hi) as [(e & s & Ie & Le & Es & E & Hmax)|[E Hn]].
  - exists (e_line e), (e_offset e), s. split; auto. split; auto. split; auto. left. split.
    + intros m Hm. apply Get. intros e' Ie' E'. apply Hmax; auto. lia.
    + left. rewrite (sc_get_ok t) by auto. destruct (List.find _ _) as [e'|] eqn:Ef.
      * apply find_some in Ef as [I2 E2]. apply Nat.eqb_eq in E2. rewrite <- Es. f_equal.
        apply In_nth_error in Ie as (i & Ie). apply In_nth_error in I2 as (j & I2).
        destruct (Nat.lt_trichotomy i j) as [L|[->|L]]; [destruct (AL2 i j _ _ L Ie I2); lia| |destruct (AL2 j i _ _ L I2 Ie); lia]. congruence.
      * pose proof (find_none _ _ Ef _ Ie) as F. cbn in F. rewrite Nat.eqb_refl in F. discriminate.
  - exists 0, 0, default. split; auto. split; [apply line_at_0|]. split; [lia|]. destruct Hn as [->|Hn]; [right; auto|]. left. split.
    + intros m Hm. apply Get. intros e' Ie' E'. apply Hn; auto. lia.
    + right. split; auto. apply Get. intros e' Ie' E'. apply Hn; auto. lia.
Qed.

(** ** C51: the frontier *)
(** After an edit there is work to do from the last line with an entry at or before the edit,
    or from line 0 if there is none; work to do before that line is kept, if the frontier was
    increasing. Missing: work to do after the edit is not always kept, see
    [C51_pending_lost_refuted]. *)
Theorem C51_edit_pending_partial t rev (c : state_cache S) d t' rev' c' : sc_history t rev c -> edit_ok t d t' ->
  sc_update c (Some d) (length t') (newlines t' + 1) rev' = Some c' ->
  exists ln, In ln (sc_frontier c') /\ ln <= newlines (firstn (fst (fst (summary d))) t) /\
    (ln = 0 \/ exists e, In e (sc_entries c) /\ e_line e = ln) /\
    (forall e, In e (sc_entries c) -> e_offset e <= fst (fst (summary d)) -> e_line e <= ln) /\
    ((forall i j x y, i < j -> nth_error (sc_frontier c) i = Some x -> nth_error (sc_frontier c) j = Some y -> x < y) ->
     forall x, In x (sc_frontier c) -> x < ln -> In x (sc_frontier c')).
Proof.
  intros H He E. destruct (sc_history_inv _ _ _ H) as ((p & q & V) & Hi & Hl).
  destruct (sc_update_frontier _ _ _ _ _ _ _ _ _ V Hi He E) as (ln & (L1 & L2) & Hin & Hk). exists ln. split; auto. split; [|split; [|split; [auto|]]].
  - destruct L1 as [[-> _]|(e & Ie & Oe & ->)]; [lia|]. destruct Hi as [_ D]. rewrite Forall_forall in D. destruct (D e Ie) as (D1 & D2 & _). rewrite <- D2.
    set (s := fst (fst (summary d))) in *. replace (firstn (e_offset e) t) with (firstn (e_offset e) (firstn s t)) by (rewrite firstn_firstn; f_equal; lia).
    apply newlines_firstn_le.
  - destruct L1 as [[-> _]|(e & Ie & Oe & ->)]; [now left|right; eauto].
  - intros Hinc. apply Hk. clear -Hinc. induction (sc_frontier c) as [|x f IH]; cbn [incr]; auto. split.
    + apply Forall_forall. intros y Hy. apply In_nth_error in Hy as (j & Hj). apply (Hinc 0 (Datatypes.S j)); auto. lia.
    + apply IH. intros i j a b Hij Ha Hb. apply (Hinc (Datatypes.S i) (Datatypes.S j)); auto. lia.
Qed.
End C36.
Print Assumptions C36_aligned.
Print Assumptions C36_text.
Print Assumptions C36_update.
Print Assumptions C36_replace.
Print Assumptions C36_set.
Print Assumptions C36_get_prev.
Print Assumptions C51_edit_pending_partial.

(** *** A case: six lines, states for all of them, and three edits *)
Definition lines6 (a b c : list nat) : list nat := [48; 10] ++ a ++ [10] ++ b ++ [10; 51; 10] ++ c ++ [10; 53].
Definition t0 := lines6 [49] [50] [52].
Definition set_all (c : state_cache nat) : option (state_cache nat) :=
  let src := core_source 3 (from_leaf rope_ops t0) 7 in
  let? c := sc_set src c [0] 1 101 in let? c := sc_set src c [0] 2 102 in let? c := sc_set src c [0] 3 103 in
  let? c := sc_set src c [0] 4 104 in sc_set src c [0] 5 105.
Definition ins_x (b len : nat) : delta nat := Delta [Copy 0 b; Insert [120]; Copy b len] len.
Definition t1 := lines6 [49] [50] [120; 52].
Definition t2 := lines6 [49] [120; 50] [120; 52].
Definition t3 := lines6 [120; 49] [120; 50] [120; 52].
Definition sc1 := let? c := set_all (sc_new 11 7 6) in sc_update c (Some (ins_x 8 11)) 12 6 8.
Definition sc2 := let? c := sc1 in sc_update c (Some (ins_x 4 12)) 13 6 9.
Definition sc3 := let? c := sc2 in sc_update c (Some (ins_x 2 13)) 14 6 10.

Lemma ascii_cb t x : Forall (fun b => b < 128) t -> x <= length t -> char_boundary t x.
Proof.
  intros H Hx. exists (map (fun b => [b]) (firstn x t)), (map (fun b => [b]) (skipn x t)). rewrite <- map_app, firstn_skipn.
  assert (C : forall l, List.concat (map (fun b : nat => [b]) l) = l) by (induction l; cbn; congruence). rewrite !C, firstn_length_le by auto. split; auto.
  clear -H. induction H; cbn [map]; constructor; auto. cbn. apply Nat.leb_le. lia.
Qed.
Lemma ins_x_ok t b t' : Forall (fun b => b < 128) t -> 0 < b -> b < length t -> t' = firstn b t ++ 120 :: skipn b t -> edit_ok t (ins_x b (length t)) t'.
Proof.
  intros H H0 Hb ->. unfold edit_ok, ins_x. split; [split; [cbn; lia|repeat constructor; discriminate]|]. split; [reflexivity|]. split; [|split].
  - unfold apply. cbn [els apply_els]. rewrite (proj2 (Nat.leb_le 0 b)), (proj2 (Nat.leb_le b (length t))), (Nat.leb_refl (length t)) by lia. cbn [andb bind].
    unfold slice. rewrite Nat.sub_0_r, app_nil_r, (firstn_all2 (skipn b t)) by (rewrite skipn_length; lia). reflexivity.
  - apply ascii_utf8. rewrite <- (firstn_skipn b t), Forall_app in H. destruct H. apply Forall_app. split; auto. constructor; [lia|auto].
  - constructor; [split; apply ascii_cb; auto; lia|]. constructor; [apply ascii_utf8; repeat constructor; lia|]. constructor; [split; apply ascii_cb; auto; lia|constructor].
Qed.
Definition ascii t := Forall (fun b => b < 128) t.
Lemma t_ascii : ascii t0 /\ ascii t1 /\ ascii t2 /\ ascii t3.
Proof. repeat split; unfold ascii, t0, t1, t2, t3, lines6; cbn [app]; repeat (constructor; [lia|]); constructor. Qed.
Lemma set_all_history : exists c, set_all (sc_new 11 7 6) = Some c /\ sc_history t0 7 c.
Proof.
  destruct (leaf_src t0 7 (ascii_utf8 _ (proj1 t_ascii))) as [S1 S2]; [cbn; lia|].
  assert (G : forall (c : state_cache nat) n s, sc_history t0 7 c -> n <= 6 -> length (sc_entries c) < 6 -> exists c', sc_set (core_source 3 (from_leaf rope_ops t0) 7) c [0] n s = Some c' /\
     sc_history t0 7 c' /\ length (sc_entries c') <= length (sc_entries c) + 1).
  { intros c n s H Hn Hl. destruct (C36_set t0 7 c _ [0] n s H S1 S2) as (c' & E & H' & _); auto; [discriminate|right; unfold CACHE_SIZE; lia|].
    exists c'. split; auto. split; auto. destruct (sc_history_inv _ _ _ H) as ((p & q & V) & Hi & _). revert E. unfold sc_set.
    destruct (get_entry _ _ _ _) as [[c1 x]|] eqn:Eg; [|discriminate]. cbn [bind].
    assert (length (sc_entries c1) <= length (sc_entries c) + 1).
    { unfold get_entry in Eg. destruct (find_line c n) as [[|] ix]; [injection Eg as <- <-; lia|]. destruct (_ =? _); [injection Eg as <- <-; lia|].
      destruct (cc_offset_of_line _ _ _ _) as [[b [o|]]|]; try discriminate. cbn [bind] in Eg. unfold insert_entry in Eg. cbn [sc_entries] in Eg.
      rewrite (proj2 (Nat.leb_gt CACHE_SIZE (length (sc_entries c)))) in Eg by (unfold CACHE_SIZE; lia). cbn [bind] in Eg. destruct (find_line _ _) as [[|] i2]; [discriminate|]. cbn in Eg. injection Eg as <- <-. cbn [sc_entries].
      rewrite app_length. cbn [length]. rewrite <- (firstn_skipn i2 (sc_entries c)) at 3. rewrite app_length. lia. }
    destruct x as [ix|]; [|intros E; injection E as <-; lia]. destruct (nth_error _ ix) as [e|] eqn:En; [|discriminate]. cbn [bind]. intros E; injection E as <-. cbn [sc_entries].
    assert (ix < length (sc_entries c1)) by (apply nth_error_Some; congruence). rewrite app_length, firstn_length_le by lia. cbn [length]. rewrite skipn_length. lia. }
  unfold set_all.
  destruct (G (sc_new 11 7 6) 1 101) as (c1 & -> & H1 & L1); [exact (sh_new t0 7 (ascii_utf8 _ (proj1 t_ascii)))|lia|cbn; lia|]. cbn [sc_new sc_entries length] in L1. cbn [bind].
  destruct (G c1 2 102) as (c2 & -> & H2 & L2); auto; try lia. cbn [bind]. destruct (G c2 3 103) as (c3 & -> & H3 & L3); auto; try lia. cbn [bind].
  destruct (G c3 4 104) as (c4 & -> & H4 & L4); auto; try lia. cbn [bind]. destruct (G c4 5 105) as (c5 & -> & H5 & L5); auto; try lia. eauto.
Qed.
Lemma sc_histories : exists c c', sc2 = Some c /\ sc_history t2 9 c /\ sc3 = Some c' /\ sc_history t3 10 c' /\
  sc_update c (Some (ins_x 2 13)) (length t3) (newlines t3 + 1) 10 = Some c'.
Proof.
  destruct t_ascii as (A0 & A1 & A2 & A3). destruct set_all_history as (c & E & H).
  destruct (C36_update t0 7 c (ins_x 8 11) t1 8 H) as (c1 & E1 & _); [apply (ins_x_ok t0 8); auto; cbn; lia|].
  assert (H1 : sc_history t1 8 c1) by (eapply sh_edit; [exact H|apply (ins_x_ok t0 8); auto; cbn; lia|exact E1]).
  destruct (C36_update t1 8 c1 (ins_x 4 12) t2 9 H1) as (c2 & E2 & _); [apply (ins_x_ok t1 4); auto; cbn; lia|].
  assert (H2 : sc_history t2 9 c2) by (eapply sh_edit; [exact H1|apply (ins_x_ok t1 4); auto; cbn; lia|exact E2]).
  destruct (C36_update t2 9 c2 (ins_x 2 13) t3 10 H2) as (c3 & E3 & _); [apply (ins_x_ok t2 2); auto; cbn; lia|].
  assert (H3 : sc_history t3 10 c3) by (eapply sh_edit; [exact H2|apply (ins_x_ok t2 2); auto; cbn; lia|exact E3]).
  unfold sc3, sc2, sc1. rewrite E. cbn [bind]. change (sc_update c (Some (ins_x 8 11)) 12 6 8 = Some c1) in E1. rewrite E1. cbn [bind].
  change (sc_update c1 (Some (ins_x 4 12)) 13 6 9 = Some c2) in E2. rewrite E2. cbn [bind]. exists c2, c3. split; [reflexivity|]. split; [auto|]. split; [exact E3|]. split; [auto|exact E3].
Qed.
Example C36_case :
  (let? c := sc3 in let? x := get_prev 0 c 4 in
   Some (map (fun e => (e_line e, e_offset e, e_state e)) (sc_entries c), sc_get c 2, sc_get c 0, x)) =
  Some ([(1, 2, Some 101); (2, 5, Some 102); (3, 8, Some 103); (4, 10, Some 104); (5, 13, Some 105)], Some 102, None, (4, 10, 104)).
Proof. vm_compute. reflexivity. Qed.

Lemma f2 : (let? c := sc2 in Some (sc_frontier c)) = Some [2; 4].
Proof. vm_compute. reflexivity. Qed.
Lemma f3 : (let? c := sc3 in Some (sc_frontier c, map (fun e => (e_line e, e_state e)) (sc_entries c))) =
     Some ([1; 2], [(1, Some 101); (2, Some 102); (3, Some 103); (4, Some 104); (5, Some 105)]).
Proof. vm_compute. reflexivity. Qed.
(** With states for all lines, work to do from lines 2 and 4, and no newline inserted, an
    insertion in line 1 leaves work to do from lines 1 and 2 only: the state of line 5 is never
    computed again, though line 4 has changed. *)
Theorem C51_pending_lost_refuted :
  exists t rev (c : state_cache nat) d t' rev' c', sc_history t rev c /\ edit_ok t d t' /\
    sc_update c (Some d) (length t') (newlines t' + 1) rev' = Some c' /\ newlines t' = newlines t /\
    sc_frontier c = [2; 4] /\ sc_frontier c' = [1; 2] /\
    map (fun e => (e_line e, e_state e)) (sc_entries c') = [(1, Some 101); (2, Some 102); (3, Some 103); (4, Some 104); (5, Some 105)].
Proof.
  destruct sc_histories as (c & c' & E & H & E' & _ & Eu). exists t2, 9, c, (ins_x 2 13), t3, 10, c'. split; auto.
  destruct t_ascii as (A0 & A1 & A2 & A3). split; [apply (ins_x_ok t2 2); auto; cbn; lia|].
  split; [exact Eu|]. split; [reflexivity|].
  pose proof f2 as F. rewrite E in F. cbn [bind] in F. injection F as F. split; auto.
  pose proof f3 as F'. rewrite E' in F'. cbn [bind] in F'. injection F' as F1 F2. auto.
Qed.
Print Assumptions C51_pending_lost_refuted.
