(** Facts about all reachable engines. *)
From Coq Require Import List Arith Bool Lia ZifyBool Permutation.
From Verif Require Import Base ListLib MultisetModel MultisetSpec MultisetProofs SpreadFacts
  DeltaModel DeltaSpec ExpandProofs SynthProofs DeltaProofs DeltaProofs2 RebaseFacts
  EngineModel EngineSpec EngineFacts EngineInv EngineGc EngineGc2.
Import ListNotations.

Lemma find_last_app_hit p l x : p x = true -> find_last p (l ++ [x]) = Some (length l).
Proof. intros H. induction l as [|y l IH]; cbn [app find_last length]; [now rewrite H|]. now rewrite IH. Qed.

Section Hist.
Context {A : Type} (tok : rev_id -> nat).
Implicit Types (e : engine A) (u : list A).

Lemma empty_inv : exists e, @empty_engine A = Some e /\ Inv e [] 0 /\ revs e <> [] /\ text e = [] /\
  undone_groups e = [] /\ get_head_rev_id e = Some (RevId 0 0 0) /\ length (revs e) = 1 /\
  (forall s, ids_ok (Engine s (rev_id_counter e) (text e) (tombstones e) (deletes_from_union e)
                    (undone_groups e) (revs e))).
Proof.
  unfold empty_engine. destruct (subset_new_ok 0) as (s & -> & C & F). cbn [bind].
  assert (Hi : forall s0, ids_ok (Engine s0 1 (@nil A) [] s [] [Rev (RevId 0 0 0) 0 (Undo [] s)])).
  { split; cbn; [repeat constructor; intros []|]. intros r [<-|[]] _. cbn. lia. }
  eexists. split; [reflexivity|]. cbn [revs text undone_groups rev_id_counter tombstones deletes_from_union].
  split.
  { constructor; cbn [revs text undone_groups deletes_from_union tombstones chain r_edit length hist rev app];
      rewrite ?F; auto; try discriminate.
    - unfold unstep. cbn [r_edit fst snd]. rewrite F. repeat split; constructor.
    - cbn. repeat split; auto. unfold has_group. cbn. discriminate.
    }
  repeat (split; [solve [auto|discriminate|reflexivity]|]). exact Hi.
Qed.

Lemma session_inv e0 s e : empty_engine = Some e0 -> set_session_id e0 s = Some e ->
  Inv e [] 0 /\ text e = [] /\ undone_groups e = [].
Proof.
  intros H1 H2. destruct empty_inv as (e1 & E & I & _ & T & U & _ & L & Hi). rewrite E in H1. injection H1 as <-.
  unfold set_session_id in H2. rewrite L in H2. cbn [Nat.eqb] in H2. injection H2 as <-.
  cbn [text undone_groups]. split; [|auto]. destruct I. constructor; cbn [revs text tombstones deletes_from_union undone_groups]; auto.
Qed.

(** ** Editing the head *)
Lemma head_index e id : get_head_rev_id e = Some id -> exists l r, revs e = l ++ [r] /\ r_id r = id /\
  find_rev_token tok e (tok id) = Some (length l) /\ find_rev e id = Some (length l).
Proof.
  unfold get_head_rev_id. destruct (last_rev (revs e)) as [r|] eqn:E; [|discriminate]. cbn [bind]. intros [= <-].
  apply last_rev_split in E as (l & E). exists l, r. repeat split; auto.
  - unfold find_rev_token. rewrite E. apply find_last_app_hit. apply Nat.eqb_refl.
  - unfold find_rev. rewrite E. apply find_last_app_hit. now apply rev_id_eqb_eq.
Qed.

Lemma counts_head e l r : revs e = l ++ [r] -> counts_at e (length l) = flat (deletes_from_union e) /\
  skipn (length l + 1) (revs e) = [].
Proof.
  intros E. assert (Q : skipn (length l + 1) (revs e) = []).
  { rewrite E. apply skipn_all2. rewrite app_length. cbn. lia. }
  split; auto. unfold counts_at. now rewrite Q.
Qed.

Lemma edit_text (d : delta A) D u : wf_delta d -> base_len d = zeros D -> length D = length u ->
  let w := rebase_script true (ins_script 0 (els d) (base_len d)) D in
  kept (zipw Nat.add (spread false D (marks w))
         (spread false (spread false (del_counts 0 (els d) (base_len d)) D) (marks w))) (fill w u) =
  resolve (kept D u) (denote (els d)) /\
  kept (spread true D (marks w)) (fill w u) = kept D u.
Proof.
  intros W Hb L w.
  assert (Hki : keeps (ins_script 0 (els d) (base_len d)) = zeros D).
  { rewrite ins_script_keeps by apply W. lia. }
  assert (Hk : keeps w = length D) by (apply keeps_rebase; auto).
  assert (Ldc : length (del_counts 0 (els d) (base_len d)) = zeros D).
  { rewrite del_counts_length by apply W. lia. }
  assert (Lkt : length (kept D u) = base_len d) by (rewrite kept_length; lia).
  split.
  - rewrite kept_add.
    2,3: rewrite spread_length, marks_length, fill_length; rewrite ?zeros_marks; rewrite ?spread_length; lia.
    rewrite <- fill_shrink by lia. unfold w at 3. rewrite shrink_rebase by auto.
    rewrite kept_spread_comm by (rewrite zeros_marks; rewrite ?spread_length; lia).
    rewrite kept_spread, marks_shrink by lia. unfold w at 1. rewrite shrink_rebase by auto.
    rewrite <- Lkt.
    pose proof (factor_apply (els d) 0 (kept D u)) as Q. cbn [skipn] in Q. apply Q. rewrite Lkt. apply W.
  - rewrite kept_spread_true; [|rewrite zeros_marks; lia|rewrite marks_length, fill_length; lia].
    rewrite kept_marks_fill by lia. reflexivity.
Qed.

Lemma head_edit_ok e u n0 id p g d : Inv e u n0 -> get_head_rev_id e = Some id -> wf_delta d ->
  base_len d = length (text e) ->
  exists e' u', try_edit_rev tok e p g (tok id) d = Some (e', Ok tt) /\ Inv e' u' n0 /\
    undone_groups e' = undone_groups e /\ session e' = session e /\ 
    get_head_rev_id e' = Some (next_rev_id e) /\
    (if mem g (undone_groups e) then text e' = text e else apply d (text e) = Some (text e')).
Proof.
  intros I Hh W Hb. destruct (head_index e id Hh) as (l & r & El & Er & Hf & _).
  destruct (counts_head e l r El) as [Hc Hs].
  pose proof (i_len e u n0 I) as LU. pose proof (i_text e u n0 I) as Et.
  assert (Hb' : base_len d = zeros (flat (deletes_from_union e))) by (rewrite Hb, Et, kept_length; auto).
  pose proof (edit_ok tok e u n0 p g (tok id) d _ I W Hf) as H. cbv zeta in H. rewrite Hc, Hs in H.
  rewrite <- Hb', Nat.eqb_refl in H. cbn [rb carry] in H.
  destruct H as (e' & ins & dels & H1 & H2 & H3 & _ & _ & _ & _ & _ & H4 & _ & H5 & H6 & mx & H7).
  eexists e', _. split; [exact H1|]. split; [exact H2|]. split; [auto|]. split; [auto|]. split.
  { unfold get_head_rev_id, last_rev. rewrite H7, rev_app_distr. reflexivity. }
  pose proof (edit_text d (flat (deletes_from_union e)) u W Hb' LU) as [T1 T2].
  rewrite (i_text _ _ _ H2), H6, Et. destruct (mem g (undone_groups e)); auto.
  rewrite T1. apply apply_ok; auto. rewrite kept_length; auto.
Qed.

Lemma new_inv s : exists e u, engine_new tok s = Some e /\ Inv e u 0 /\ text e = s /\ undone_groups e = [].
Proof.
  destruct empty_inv as (e0 & E & I & Hn & Ht & Hu & Hh & _). unfold engine_new. rewrite E. cbn [bind].
  destruct s as [|x s].
  - exists e0, []. auto.
  - rewrite Hh. cbn [bind].
    destruct (builder_ok (@nil A) [(0, 0, x :: s)]) as (b & Eb & J1 & _ & J3 & J4 & _); [cbn; lia|].
    change (simple_edit 0 0 (x :: s) 0) with (simple_edit 0 0 (x :: s) (length (@nil A))).
    rewrite simple_edit_builder. rewrite Eb. cbn [bind].
    destruct (head_edit_ok e0 [] 0 _ 0 0 (db_build b) I Hh J1) as (e' & u' & H1 & H2 & H3 & _ & _ & H4).
    { rewrite J3, Ht. reflexivity. }
    unfold edit_rev. rewrite H1. cbn [bind snd fst]. exists e', u'. split; [reflexivity|]. split; [exact H2|]. split.
    + rewrite Hu in H4. cbn [mem existsb] in H4. rewrite Ht, J4 in H4. cbn in H4. rewrite app_nil_r in H4. congruence.
    + congruence.
Qed.

(** ** Moves *)
Lemma move_inv e u n0 e' : Inv e u n0 -> move tok e e' -> exists u', Inv e' u' n0.
Proof.
  intros I H. destruct H as [e p g t d e' res W H|e G e' H].
  - destruct (find_rev_token tok e t) as [ix|] eqn:Ef.
    + pose proof (edit_ok tok e u n0 p g t d _ I W Ef) as K. cbv zeta in K. destruct (_ =? _).
      * destruct K as (e1 & ins & dels & H1 & H2 & _). rewrite H in H1. injection H1 as <- _. eauto.
      * rewrite H in K. injection K as -> _. eauto.
    + unfold try_edit_rev, mk_new_rev in H. rewrite Ef in H. cbn [bind] in H. injection H as -> _. eauto.
  - destruct (undo_ok e u n0 G I) as (e1 & H1 & H2 & _). rewrite H in H1. injection H1 as <-. eauto.
Qed.

Lemma reachable_inv e : reachable tok e -> exists u n0, Inv e u n0.
Proof.
  induction 1 as [s e H|e0 s e H0 H|e e' _ (u & n0 & I) H|e gs e' _ (u & n0 & I) Hs H].
  - destruct (new_inv s) as (e1 & u & E & I & _). rewrite H in E. injection E as <-. eauto.
  - destruct (session_inv e0 s e H0 H) as (I & _). eauto.
  - destruct (move_inv e u n0 e' I H) as (u' & I'). eauto.
  - destruct (gc_inv_ok e u n0 gs I Hs) as (e1 & G & n0' & H1 & _ & H2 & _). rewrite H in H1. injection H1 as <-. eauto.
Qed.

(** ** Old revisions *)
Lemma unplay_ext l : forall c U V, same_groups U V ->
  fst (unplay true l (c, U)) = fst (unplay true l (c, V)).
Proof.
  induction l as [|r l IH]; intros c U V H; auto. cbn [unplay]. unfold unstep. cbn [fst snd].
  destruct (r_edit r) as [p g ins del|tg bx].
  - rewrite H. apply IH. exact H.
  - apply IH. intros g. rewrite !mem_symdiff. now rewrite H.
Qed.
Lemma unplay_app l1 l2 s : unplay true (l1 ++ l2) s = unplay true l2 (unplay true l1 s).
Proof. revert s; induction l1; intros; cbn; auto. Qed.
Lemma carry_app b l1 l2 c : carry b (l1 ++ l2) c = carry b l2 (carry b l1 c).
Proof. revert c; induction l1; intros; cbn; auto. Qed.

Lemma cur_counts_length e u n0 ix : Inv e u n0 -> ix < length (revs e) -> length (cur_counts_at e ix) = length u.
Proof. intros I H. destruct (cur_index_ok e u n0 ix I H) as (D & _ & _ & <- & L). exact L. Qed.

(** A move keeps the old revisions, in order, and what they show. *)
Lemma move_keeps e u n0 e' : Inv e u n0 -> move tok e e' -> exists u' l,
  Inv e' u' n0 /\ revs e' = revs e ++ l /\ length l <= 1 /\ session e' = session e /\
  forall ix, ix < length (revs e) -> kept (cur_counts_at e' ix) u' = kept (cur_counts_at e ix) u.
Proof.
  intros I H. destruct H as [e p g t d e' res W H|e G e' H].
  - assert (Q : e' = e -> exists u' l,
      Inv e' u' n0 /\ revs e' = revs e ++ l /\ length l <= 1 /\ session e' = session e /\
      forall ix, ix < length (revs e) -> kept (cur_counts_at e' ix) u' = kept (cur_counts_at e ix) u).
    { intros ->. exists u, []. rewrite app_nil_r. cbn. auto. }
    destruct (find_rev_token tok e t) as [ix|] eqn:Ef.
    + pose proof (edit_ok tok e u n0 p g t d _ I W Ef) as K. cbv zeta in K. destruct (_ =? _).
      2:{ rewrite H in K. injection K as -> _. auto. }
      clear Q. destruct K as (e1 & ins & dels & H1 & H2 & K1 & Ci & Fi & Cd & Fd & Ld & Es & _ & Eu & ED & mx & Er).
      rewrite H in H1. injection H1 as <- _. set (w := rb _ _ _) in *.
      eexists _, _. split; [exact H2|]. split; [exact Er|]. split; [cbn; lia|]. split; [auto|].
      intros jx Hj. unfold cur_counts_at, counts_at. rewrite Er.
      rewrite skipn_app. replace (jx + 1 - length (revs e)) with 0 by lia. cbn [skipn].
      set (sk := skipn (jx + 1) (revs e)). rewrite rev_app_distr. cbn [rev app unplay].
      rewrite carry_app. cbn [carry r_edit]. rewrite Fi.
      assert (Eun : unstep true (Rev (next_rev_id e) mx (Edit p g ins dels)) (flat (deletes_from_union e'), undone_groups e') =
         (flat (deletes_from_union e), undone_groups e)).
      { unfold unstep. cbn [r_edit fst snd]. rewrite Eu, ED. pose proof (i_len e u n0 I).
        f_equal. destruct (mem g (undone_groups e)).
        - rewrite Fi. apply kept_spread. rewrite zeros_marks. lia.
        - rewrite Fd, Fi, unstep_expand; auto; rewrite ?zeros_marks, ?marks_length; lia. }
      rewrite Eun. fold (counts_at e jx). fold (cur_counts_at e jx).
      pose proof (cur_counts_length e u n0 jx I Hj) as Lj. unfold cur_counts_at, counts_at in Lj. fold sk in Lj.
      rewrite kept_spread_true; [|rewrite zeros_marks; lia|rewrite marks_length, fill_length; lia].
      rewrite kept_marks_fill by lia. reflexivity.
    + apply Q. unfold try_edit_rev, mk_new_rev in H. rewrite Ef in H. cbn [bind] in H. now injection H as -> _.
  - destruct (undo_ok e u n0 G I) as (e1 & H1 & H2 & H3 & H4 & H5 & _ & mx & bx & Er & Eb).
    rewrite H in H1. injection H1 as <-.
    exists u. eexists. split; [exact H2|]. split; [exact Er|]. split; [cbn; lia|]. split; [auto|].
    intros jx Hj. f_equal. unfold cur_counts_at, counts_at. rewrite Er.
    rewrite skipn_app. replace (jx + 1 - length (revs e)) with 0 by lia. cbn [skipn].
    rewrite rev_app_distr. cbn [rev app unplay]. rewrite carry_app. cbn [carry r_edit]. f_equal.
    unfold unstep. cbn [r_edit fst snd]. rewrite Eb, lxor_cancel.
    2:{ rewrite (i_len e u n0 I), (i_len e' u n0 H2). reflexivity. }
    apply unplay_ext. intros g. rewrite H4, !mem_symdiff. now destruct (mem g G), (mem g (undone_groups e)).
Qed.

Lemma moves_keep e e' : moves tok e e' -> forall u n0, Inv e u n0 -> exists u' l,
  Inv e' u' n0 /\ revs e' = revs e ++ l /\ session e' = session e /\
  forall ix, ix < length (revs e) -> kept (cur_counts_at e' ix) u' = kept (cur_counts_at e ix) u.
Proof.
  induction 1 as [e|e1 e2 e3 _ IH Hm]; intros u n0 I.
  - exists u, []. rewrite app_nil_r. auto.
  - destruct (IH u n0 I) as (u2 & l2 & I2 & E2 & S2 & K2).
    destruct (move_keeps e2 u2 n0 e3 I2 Hm) as (u3 & l3 & I3 & E3 & _ & S3 & K3).
    exists u3, (l2 ++ l3). rewrite app_assoc, <- E2. split; [auto|]. split; [auto|]. split; [congruence|].
    intros ix Hx. rewrite K3, K2; auto. rewrite E2, app_length. lia.
Qed.

(** Token lookup. *)
Lemma find_token_nth e t ix : find_rev_token tok e t = Some ix ->
  exists r, nth_error (revs e) ix = Some r /\ tok (r_id r) = t.
Proof.
  intros H. apply find_last_nth in H as (r & H1 & H2). exists r. split; auto. now apply Nat.eqb_eq.
Qed.
Lemma find_last_None p l : find_last p l = None -> forall x, In x l -> p x = false.
Proof.
  induction l as [|y l IH]; cbn [find_last]; [intros _ x []|]. destruct (find_last p l); [discriminate|].
  destruct (p y) eqn:E; [discriminate|]. intros _ x [<-|Hx]; auto.
Qed.
Lemma find_last_unique p l i x : nth_error l i = Some x -> p x = true ->
  (forall j y, nth_error l j = Some y -> p y = true -> j = i) -> find_last p l = Some i.
Proof.
  intros H1 H2 H3. destruct (find_last p l) as [j|] eqn:E.
  - apply find_last_nth in E as (y & E1 & E2). f_equal. eauto.
  - apply nth_error_In in H1. rewrite (find_last_None p l E x H1) in H2. discriminate.
Qed.

Lemma find_token_stable e l r ix : NoDup (map r_id (revs e ++ l)) ->
  (forall a b, In a (revs e ++ l) -> In b (revs e ++ l) -> tok (r_id a) = tok (r_id b) -> r_id a = r_id b) ->
  nth_error (revs e) ix = Some r ->
  find_last (fun x => tok (r_id x) =? tok (r_id r)) (revs e ++ l) = Some ix.
Proof.
  intros Hn Hd Hr.
  assert (Hr' : nth_error (revs e ++ l) ix = Some r).
  { rewrite nth_error_app1; auto. apply nth_error_Some. congruence. }
  eapply find_last_unique; eauto; [apply Nat.eqb_refl|].
  intros j y Hy Ey. apply Nat.eqb_eq in Ey.
  assert (E : r_id y = r_id r) by (apply Hd; auto; eapply nth_error_In; eauto).
  rewrite NoDup_nth_error in Hn. apply Hn.
  - rewrite map_length. apply nth_error_Some. congruence.
  - rewrite (map_nth_error _ _ _ Hy), (map_nth_error _ _ _ Hr'). congruence.
Qed.

Lemma get_rev_ok e u n0 t ix : Inv e u n0 -> find_rev_token tok e t = Some ix ->
  get_rev tok e t = Some (Some (kept (cur_counts_at e ix) u)).
Proof.
  intros I H. unfold get_rev. rewrite H. rewrite (rev_content_ok e u n0 ix I); auto. eapply find_last_lt; eauto.
Qed.

Lemma get_rev_inv e u n0 t c : Inv e u n0 -> get_rev tok e t = Some (Some c) ->
  exists ix, find_rev_token tok e t = Some ix /\ ix < length (revs e) /\ c = kept (cur_counts_at e ix) u.
Proof.
  intros I. unfold get_rev. destruct (find_rev_token tok e t) as [ix|] eqn:E; [|discriminate].
  assert (ix < length (revs e)) by (eapply find_last_lt; eauto).
  rewrite (rev_content_ok e u n0 ix I) by auto. cbn [bind]. intros [= <-]. eauto.
Qed.

Lemma head_text_ok e u n0 l r : Inv e u n0 -> revs e = l ++ [r] -> kept (cur_counts_at e (length l)) u = text e.
Proof.
  intros I E. unfold cur_counts_at. destruct (counts_head e l r E) as [-> ->]. cbn. symmetry. apply I.
Qed.

Lemma delta_rev_head_ok e u n0 t ix : Inv e u n0 -> find_rev_token tok e t = Some ix ->
  exists d, try_delta_rev_head tok e t = Some (Ok d) /\ wf_delta d /\ base_len d = zeros (cur_counts_at e ix) /\
    apply d (kept (cur_counts_at e ix) u) = Some (text e) /\
    denote (els d) = between 0 (cur_counts_at e ix) (flat (deletes_from_union e)) u.
Proof.
  intros I H. unfold try_delta_rev_head. rewrite H.
  assert (Hi : ix < length (revs e)) by (eapply find_last_lt; eauto).
  destruct (cur_index_ok e u n0 ix I Hi) as (D & -> & C & F & L). cbn [bind].
  pose proof (i_len e u n0 I) as LU. pose proof (i_can e u n0 I) as CU.
  rewrite (i_text e u n0 I), (i_tomb e u n0 I), shuffle_tombstones_ok by auto. cbn [bind].
  destruct (synthesize_apply D (deletes_from_union e) u C CU L LU) as (d & E & W & B & Ea).
  destruct (synthesize_ok D (deletes_from_union e) u C CU L LU) as (d2 & E2 & K). rewrite E in E2. injection E2 as <-.
  rewrite E. cbn [bind]. exists d. rewrite <- F. destruct K as (K1 & K2 & K3 & K4). split; [auto|]. split; [auto|]. split; [auto|]. split; auto.
Qed.
End Hist.
