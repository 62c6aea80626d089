(** C11-C16, C18, C19: the engine.  [reachable tok e] (EngineSpec.v): some sequence of
    calls produces [e].  [tok], the hash that names revisions, is any function. *)
From Coq Require Import List Arith Bool Lia ZifyBool.
From Verif Require Import Base ListLib MultisetModel MultisetSpec MultisetProofs SpreadFacts
  DeltaModel DeltaSpec ExpandProofs SynthProofs DeltaProofs DeltaProofs2 RebaseFacts
  EngineModel EngineSpec EngineFacts EngineInv EngineGc EngineGc2 EngineHist EngineConc
  EngineSim EngineDoc EnginePrio.
Import ListNotations.

(** A history for the examples: text [1;2;3;4], then an edit of group 1 at the head, one
    of group 2 against the first revision, an undo of group 1. *)
Definition ex_tok (r : rev_id) : nat := num r.
Definition ex_ins : delta nat := Delta [Copy 0 1; Insert [10; 11]; Copy 3 4] 4.
Definition ex_conc : delta nat := Delta [Copy 0 2; Insert [20]; Copy 2 3] 4.
Definition ex_calls (e0 : engine nat) : option (engine nat) :=
  let? e1 := edit_rev ex_tok e0 1 1 1 ex_ins in
  let? e2 := edit_rev ex_tok e1 1 2 1 ex_conc in
  undo e2 [1].
Definition ex0 : engine nat := Eval vm_compute in match engine_new ex_tok [1; 2; 3; 4] with Some e => e | None => Engine (0, 0) 0 [] [] [] [] [] end.
Definition ex1 : engine nat := Eval vm_compute in match edit_rev ex_tok ex0 1 1 1 ex_ins with Some e => e | None => ex0 end.
Definition ex2 : engine nat := Eval vm_compute in match edit_rev ex_tok ex1 1 2 1 ex_conc with Some e => e | None => ex0 end.
Definition ex3 : engine nat := Eval vm_compute in match undo ex2 [1] with Some e => e | None => ex0 end.
Lemma wf_ex_ins : wf_delta ex_ins.
Proof. split; cbn; [lia|]. repeat constructor; discriminate. Qed.
Lemma wf_ex_conc : wf_delta ex_conc.
Proof. split; cbn; [lia|]. repeat constructor; discriminate. Qed.
Lemma ex0_reachable : reachable ex_tok ex0.
Proof. apply (reach_new ex_tok [1; 2; 3; 4]). now vm_compute. Qed.
Lemma ex1_move : move ex_tok ex0 ex1.
Proof. apply (move_edit ex_tok ex0 1 1 1 ex_ins ex1 (Ok tt)); [apply wf_ex_ins|now vm_compute]. Qed.
Lemma ex2_move : move ex_tok ex1 ex2.
Proof. apply (move_edit ex_tok ex1 1 2 1 ex_conc ex2 (Ok tt)); [apply wf_ex_conc|now vm_compute]. Qed.
Lemma ex3_move : move ex_tok ex2 ex3.
Proof. apply (move_undo ex_tok ex2 [1]). now vm_compute. Qed.
Lemma ex3_moves : moves ex_tok ex0 ex3.
Proof. eauto using moves_refl, moves_step, ex1_move, ex2_move, ex3_move. Qed.
Lemma ex3_reachable : reachable ex_tok ex3.
Proof. eauto using reach_move, ex0_reachable, ex1_move, ex2_move, ex3_move. Qed.
Example ex_texts : get_head ex0 = [1; 2; 3; 4] /\ get_head ex1 = [1; 10; 11; 4] /\
  get_head ex2 = [1; 10; 11; 20] /\ get_head ex3 = [1; 2; 20; 3].
Proof. now vm_compute. Qed.

Section Props.
Context {A : Type} (tok : rev_id -> nat).
Implicit Types e : engine A.

(** *** C11 *)
Theorem C11_new (s : list A) : exists e, engine_new tok s = Some e /\ get_head e = s.
Proof. destruct (new_inv tok s) as (e & u & H & _ & Ht & _). eauto. Qed.

(** An edit against the head, in a group that is not undone, applies the delta exactly.
    (In a group that is undone it leaves the text as it is; redo shows it.) *)
Theorem C11_head_edit e id p g (d : delta A) :
  reachable tok e -> get_head_rev_id e = Some id -> wf_delta d -> base_len d = length (get_head e) ->
  exists e', edit_rev tok e p g (tok id) d = Some e' /\ reachable tok e' /\
    (mem g (undone_groups e) = false -> apply d (get_head e) = Some (get_head e')) /\
    (mem g (undone_groups e) = true -> get_head e' = get_head e).
Proof.
  intros Hr Hh W Hb. destruct (reachable_inv tok e Hr) as (u & n0 & I).
  destruct (head_edit_ok tok e u n0 id p g d I Hh W Hb) as (e' & u' & H1 & H2 & H3 & H4 & H5 & H6).
  exists e'. unfold edit_rev. rewrite H1. cbn [bind snd fst]. split; [auto|]. split.
  - eapply reach_move; eauto. eapply move_edit; eauto.
  - split; intros E; rewrite E in H6; auto.
Qed.

(** *** C12 *)
(** Whatever the engine says a revision's text is, it says after any later edits and
    undos.  (Hash collisions aside: [distinct_tokens].) *)
Theorem C12_revisions_stable e e' t c :
  reachable tok e -> moves tok e e' -> distinct_tokens tok e' ->
  get_rev tok e t = Some (Some c) -> get_rev tok e' t = Some (Some c).
Proof.
  intros Hr Hm Hd Hg. destruct (reachable_inv tok e Hr) as (u & n0 & I).
  destruct (moves_keep tok e e' Hm u n0 I) as (u' & l & I' & El & _ & K).
  destruct (get_rev_inv tok e u n0 t c I Hg) as (ix & Hf & Hi & ->).
  destruct (find_token_nth tok e t ix Hf) as (r & Hn & <-).
  rewrite (get_rev_ok tok e' u' n0 (tok (r_id r)) ix I'); [now rewrite K|].
  unfold find_rev_token. rewrite El. apply find_token_stable; auto.
  - rewrite <- El. apply I'.
  - rewrite <- El. exact Hd.
Qed.

(** Every held revision can be read, and the head revision's text is the buffer. *)
Theorem C12_revisions_readable e r : reachable tok e -> In r (revs e) ->
  exists c, get_rev tok e (tok (r_id r)) = Some (Some c).
Proof.
  intros Hr Hin. destruct (reachable_inv tok e Hr) as (u & n0 & I).
  destruct (find_rev_token tok e (tok (r_id r))) as [ix|] eqn:E.
  - eexists. apply (get_rev_ok tok e u n0 _ ix I E).
  - unfold find_rev_token in E. pose proof (find_last_None _ _ E r Hin) as K. cbn in K. rewrite Nat.eqb_refl in K. discriminate.
Qed.
Theorem C12_head_revision e id : reachable tok e -> get_head_rev_id e = Some id ->
  get_rev tok e (tok id) = Some (Some (get_head e)).
Proof.
  intros Hr Hh. destruct (reachable_inv tok e Hr) as (u & n0 & I).
  destruct (head_index tok e id Hh) as (l & r & El & Er & Hf & _).
  rewrite (get_rev_ok tok e u n0 _ _ I Hf). rewrite (head_text_ok e u n0 l r I El). reflexivity.
Qed.

(** *** C13 *)
Theorem C13_delta_to_head e t c : reachable tok e -> get_rev tok e t = Some (Some c) ->
  exists d, try_delta_rev_head tok e t = Some (Ok d) /\ wf_delta d /\ base_len d = length c /\
    apply d c = Some (get_head e).
Proof.
  intros Hr Hg. destruct (reachable_inv tok e Hr) as (u & n0 & I).
  destruct (get_rev_inv tok e u n0 t c I Hg) as (ix & Hf & Hi & ->).
  destruct (delta_rev_head_ok tok e u n0 t ix I Hf) as (d & H1 & H2 & H3 & H4 & _).
  exists d. split; [auto|]. split; [auto|]. split; [|auto]. rewrite H3, kept_length; auto.
  now rewrite (cur_counts_length e u n0 ix I Hi).
Qed.
Theorem C13_missing e t : get_rev tok e t = Some None ->
  try_delta_rev_head tok e t = Some (Err (MissingRevision t)).
Proof.
  unfold get_rev, try_delta_rev_head. destruct (find_rev_token tok e t) as [i|]; [|auto].
  destruct (rev_content_for_index e i); discriminate.
Qed.

(** *** C14 *)
(** [al] lists the characters the engine knows, each with its presence in the text [c] of
    the base revision and in the head text; it does not depend on the edit, and it is the
    correspondence that the revision-to-head delta reports.  An edit against that revision
    inserts its characters among them in one order, compatible with what it did to [c]; it
    deletes what it deleted in [c]; every other character stays. *)
Theorem C14_concurrent_edit e t c : reachable tok e -> get_rev tok e t = Some (Some c) ->
  exists (al : list (cell A)),
    base_text al = c /\ head_text al = get_head e /\
    (exists d, try_delta_rev_head tok e t = Some (Ok d) /\ denote (els d) = head_from_base 0 al) /\
    forall p g d, wf_delta d -> base_len d = length c ->
      exists e' nl, edit_rev tok e p g t d = Some e' /\ reachable tok e' /\
        olds nl = al /\ deletes_base nl /\ base_after 0 nl = denote (els d) /\
        get_head e' = (if mem g (undone_groups e) then get_head e else head_after nl).
Proof.
  intros Hr Hg. destruct (reachable_inv tok e Hr) as (u & n0 & I).
  destruct (get_rev_inv tok e u n0 t c I Hg) as (ix & Hf & Hi & ->).
  pose proof (cur_counts_length e u n0 ix I Hi) as Lb.
  destruct (concurrent_ok tok e u n0 t ix I Hf) as (H1 & H2 & H3 & H4).
  eexists. split; [exact H1|]. split; [exact H2|]. split.
  - destruct (delta_rev_head_ok tok e u n0 t ix I Hf) as (d & K1 & _ & _ & _ & K2). exists d. split; [auto|]. now rewrite H3.
  - intros p g d W Hb. rewrite kept_length in Hb by lia. destruct (H4 p g d W Hb) as (e' & nl & K1 & K2 & K3 & K4 & K5).
    exists e', nl. unfold edit_rev. rewrite K1. cbn [bind snd fst]. split; [auto|]. split.
    + eapply reach_move; eauto. eapply move_edit; eauto.
    + auto.
Qed.

(** Two concurrent insertions at one place: the edit of lower priority goes first, and
    the same edit of higher priority goes last (see [C14_priority_order] below). *)

(** *** C15 *)
(** The engine implements a document ([doc], EngineSpec.v): a list of characters, each with
    the group that inserted it and the groups that deleted it.  [R] relates the two.
    What is shown is decided by [visible] alone, an edit adds its characters and its
    deletions to the document, and undo changes nothing but the set of undone groups. *)
Theorem C15_engine_implements_document : exists R : engine A -> doc A -> Prop,
  (forall s, exists e, engine_new tok s = Some e /\ undone_groups e = [] /\
     R e (map (fun x => (x, (Some 0, []))) s)) /\
  (forall e0 sid e, empty_engine = Some e0 -> set_session_id e0 sid = Some e -> R e []) /\
  (forall e, reachable tok e -> exists s, R e s) /\
  (forall e s, R e s -> get_head e = shown (undone_groups e) s) /\
  (forall e s p g t d base, R e s -> get_rev tok e t = Some (Some base) -> wf_delta d ->
     base_len d = length base ->
     exists e' l, edit_rev tok e p g t d = Some e' /\ undone_groups e' = undone_groups e /\
       doc_before l = s /\ doc_base l = base /\ doc_deletes_base l /\
       doc_effect 0 l = denote (els d) /\ R e' (doc_after g l) /\
       (forall id, get_head_rev_id e = Some id -> tok id = t -> doc_at_head (undone_groups e) l)) /\
  (forall e s G, R e s -> exists e', undo e G = Some e' /\ undone_groups e' = G /\ R e' s) /\
  (forall e s gs, R e s -> gc_safe (revs e) (undone_groups e) gs ->
     exists e' s', gc e gs = Some e' /\ undone_groups e' = undone_groups e /\ R e' s' /\
       forall V, (forall g, In g gs -> (In g V <-> In g (undone_groups e))) -> shown V s' = shown V s).
Proof.
  exists tracks. split; [exact (tracks_new tok)|]. split; [exact tracks_empty|].
  split; [exact (tracks_reachable tok)|]. split; [exact tracks_head|]. split; [|split].
  - intros e s p g t d base Ht Hg W Hb.
    destruct (tracks_edit tok e s p g t d base Ht Hg W Hb) as (e' & l & H1 & H2 & H3 & H4 & H5 & H6 & H7 & H8).
    exists e', l. unfold edit_rev. rewrite H1. cbn [bind snd fst]. auto 10.
  - intros e s G Ht. destruct (tracks_undo e s G Ht) as (e' & H1 & H2 & H3). eauto.
  - intros e s gs Ht Hs. destruct (tracks_gc e s gs Ht Hs) as (e' & s' & H1 & H2 & H3 & H4). exists e', s'. auto.
Qed.

(** So undo depends on the last set only, returning to a set returns to its text, and
    undoing what is undone already changes nothing. *)
Theorem C15_undo_total e G : reachable tok e -> exists e', undo e G = Some e' /\ reachable tok e' /\ undone_groups e' = G.
Proof.
  intros Hr. destruct (tracks_reachable tok e Hr) as (s & Hs). destruct (tracks_undo e s G Hs) as (e' & H1 & _ & H2).
  exists e'. split; [auto|]. split; [|auto]. eapply reach_move; eauto. eapply move_undo; eauto.
Qed.
Lemma undo_shown e s G e' : tracks e s -> undo e G = Some e' -> tracks e' s /\ get_head e' = shown G s.
Proof.
  intros Hs H. destruct (tracks_undo e s G Hs) as (e1 & H1 & H2 & H3). rewrite H in H1. injection H1 as <-.
  split; auto. rewrite (tracks_head _ _ H2). now rewrite H3.
Qed.
Theorem C15_last_undo_wins e G1 G2 e1 e2 e3 : reachable tok e ->
  undo e G1 = Some e1 -> undo e1 G2 = Some e2 -> undo e G2 = Some e3 -> get_head e2 = get_head e3.
Proof.
  intros Hr H1 H2 H3. destruct (tracks_reachable tok e Hr) as (s & Hs).
  destruct (undo_shown e s G1 e1 Hs H1) as [Hs1 _]. destruct (undo_shown e1 s G2 e2 Hs1 H2) as [_ ->].
  destruct (undo_shown e s G2 e3 Hs H3) as [_ ->]. reflexivity.
Qed.
Lemma shown_ext U V (s : doc A) : same_groups U V -> shown U s = shown V s.
Proof.
  intros H. unfold shown. f_equal. apply filter_ext. intros [x [i ds]]. unfold visible. cbn [fst snd].
  f_equal; [destruct i; auto; now rewrite H|]. clear i. induction ds as [|g ds IH]; cbn; auto. now rewrite H, IH.
Qed.
Theorem C15_undo_same_set e G e' : reachable tok e -> (forall g, In g G <-> In g (undone_groups e)) ->
  undo e G = Some e' -> get_head e' = get_head e.
Proof.
  intros Hr HG H. destruct (tracks_reachable tok e Hr) as (s & Hs). destruct (undo_shown e s G e' Hs H) as [_ ->].
  rewrite (tracks_head e s Hs). apply shown_ext. intros g. specialize (HG g). rewrite <- !mem_In in HG.
  destruct (mem g G), (mem g (undone_groups e)); auto; [symmetry|]; now apply HG.
Qed.
Theorem C15_undo_redo e G1 G2 e1 e2 : reachable tok e ->
  undo e G1 = Some e1 -> (forall g, In g G2 <-> In g (undone_groups e)) -> undo e1 G2 = Some e2 ->
  get_head e2 = get_head e.
Proof.
  intros Hr H1 HG H2. destruct (C15_undo_total e G2 Hr) as (e3 & H3 & _).
  rewrite (C15_last_undo_wins e G1 G2 e1 e2 e3 Hr H1 H2 H3). eapply C15_undo_same_set; eauto.
Qed.

(** Undoing edits made in new groups restores the text from before them. *)
Lemma mention_edit g ins : forall o del, length o = zeros ins -> length del = length ins ->
  forall q h, In q (edit_origins g o ins del) -> (fst q = Some h \/ In h (snd q)) ->
  h = g \/ exists q0, In q0 o /\ (fst q0 = Some h \/ In h (snd q0)).
Proof.
  induction ins as [|i ins IH]; intros o [|x del] H1 H2 q h Hq Hh; cbn [edit_origins length] in *; try contradiction.
  rewrite zeros_cons in H1. destruct (i =? 0); cbn [Nat.add] in H1.
  - destruct o as [|c o]; [discriminate|]. cbn in H1. destruct Hq as [<-|Hq].
    + destruct (x =? 0); cbn [fst snd In] in Hh.
      * right. exists c. cbn. auto.
      * destruct Hh as [Hh|[Hh|Hh]]; auto; right; exists c; cbn; auto.
    + destruct (IH o del ltac:(lia) ltac:(lia) q h Hq Hh) as [?|(q0 & ? & ?)]; auto. right. exists q0. cbn. auto.
  - destruct Hq as [<-|Hq].
    + destruct (x =? 0); cbn [fst snd In] in Hh.
      * destruct Hh as [[= <-]|[]]; auto.
      * destruct Hh as [[= <-]|[<-|[]]]; auto.
    + apply (IH o del H1 ltac:(lia) q h Hq Hh).
Qed.
Lemma mention_origins l : forall n m o, chain n l m -> length o = n ->
  forall q h, In q (origins l o) -> (fst q = Some h \/ In h (snd q)) ->
  (exists r p ins del, In r l /\ r_edit r = Edit p h ins del) \/
  exists q0, In q0 o /\ (fst q0 = Some h \/ In h (snd q0)).
Proof.
  induction l as [|[id mx [p g ins del|tg bx]] l IH]; intros n m o Hc Ho q h Hq Hh; cbn [origins chain r_edit] in *.
  - right. eauto.
  - destruct Hc as (I1 & I2 & I3 & I4 & I5).
    destruct (IH _ _ (edit_origins g o (flat ins) (flat del)) I5 ltac:(apply edit_origins_length; lia) q h Hq Hh) as [(r & p' & i' & d' & K1 & K2)|(q0 & K1 & K2)].
    + left. exists r, p', i', d'. cbn. auto.
    + destruct (mention_edit g (flat ins) o (flat del) ltac:(lia) ltac:(lia) q0 h K1 K2) as [->|K]; auto.
      left. eexists _, p, ins, del. cbn. eauto.
  - destruct Hc as (_ & _ & Hc). destruct (IH _ _ o Hc Ho q h Hq Hh) as [(r & p' & i' & d' & K1 & K2)|K]; auto.
    left. exists r, p', i', d'. cbn. auto.
Qed.
Lemma shown_undone_edit V g (l : list (dcell A)) : mem g V = true -> shown V (doc_after g l) = shown V (doc_before l).
Proof.
  intros Hg. unfold shown. set (f := fun c : A * origin => visible V (snd c)).
  induction l as [|[x|[x [i ds]] b del] l IH]; cbn [doc_after doc_before filter map]; auto.
  - assert (f (x, (Some g, [])) = false) as -> by (unfold f, visible; cbn [fst snd]; now rewrite Hg). exact IH.
  - assert (f (x, (i, if del then g :: ds else ds)) = f (x, (i, ds))) as ->.
    { unfold f, visible. cbn [fst snd]. destruct del; auto. cbn [forallb]. now rewrite Hg. }
    destruct (f _); cbn [map fst]; now rewrite IH.
Qed.
Lemma edits_in_shown G e e' : edits_in tok G e e' -> forall s, tracks e s ->
  exists s', tracks e' s' /\ undone_groups e' = undone_groups e /\
    forall V, (forall g, mem g G = true -> mem g V = true) -> shown V s' = shown V s.
Proof.
  induction 1 as [e|e1 e2 e3 p g t d res _ IH W Hg H]; intros s Hs.
  - eauto.
  - destruct (IH s Hs) as (s2 & T2 & U2 & K).
    pose proof H as H0. unfold try_edit_rev in H0.
    destruct (get_rev tok e2 t) as [[base|]|] eqn:Er.
    + destruct (Nat.eq_dec (base_len d) (length base)) as [Hb|Hb].
      * destruct (tracks_edit tok e2 s2 p g t d base T2 Er W Hb) as (e' & l & H1 & H2 & H3 & _ & _ & _ & H4 & _).
        rewrite H in H1. injection H1 as <- _. exists (doc_after g l). split; [auto|]. split; [congruence|].
        intros V HV. rewrite shown_undone_edit by auto. rewrite H3. auto.
      * destruct T2 as (u & n0 & I & E). destruct (get_rev_inv tok e2 u n0 t base I Er) as (ix & Hf & Hi & Eb).
        pose proof (edit_ok tok e2 u n0 p g t d ix I W Hf) as K2. cbv zeta in K2.
        destruct (for_index_ok e2 u n0 ix I Hi) as (Dc & _ & _ & FD & Hch). rewrite FD in Hch.
        assert (Z : length base = zeros (counts_at e2 ix)).
        { rewrite Eb, kept_length by (now rewrite (cur_counts_length e2 u n0 ix I Hi)). unfold cur_counts_at.
          eapply zeros_carry; eauto. }
        rewrite <- Z in K2. destruct (base_len d =? length base) eqn:Ez; [lia|]. rewrite H in K2. injection K2 as -> _.
        exists s2. split; [exists u, n0; auto|]. auto.
    + unfold mk_new_rev in H0. unfold get_rev in Er. destruct (find_rev_token tok e2 t) as [i|].
      * destruct (rev_content_for_index e2 i); discriminate.
      * cbn [bind] in H0. injection H0 as -> _. eauto.
    + exfalso. unfold get_rev in Er. destruct (find_rev_token tok e2 t) as [i|] eqn:Ef; [|discriminate].
      destruct T2 as (u & n0 & I & _). rewrite (rev_content_ok e2 u n0 i I) in Er by (eapply find_last_lt; eauto). discriminate.
Qed.
Theorem C15_undo_new_edits e e' e'' G : reachable tok e -> edits_in tok G e e' ->
  (forall g, In g G -> ~ In g (undone_groups e) /\ ~ uses_group e g) ->
  undo e' (undone_groups e ++ G) = Some e'' -> get_head e'' = get_head e.
Proof.
  intros Hr He HG H. destruct (reachable_inv tok e Hr) as (u & n0 & I).
  set (s := docof e n0 u). assert (Hs : tracks e s) by (exists u, n0; auto).
  destruct (edits_in_shown G e e' He s Hs) as (s' & T & _ & K).
  destruct (undo_shown e' s' _ e'' T H) as [_ ->]. rewrite K.
  2:{ intros g Hg. apply mem_In. apply in_or_app. right. now apply mem_In. }
  rewrite (tracks_head e s Hs). unfold shown. f_equal. apply filter_ext_in. intros [x q] Hq. cbn [snd].
  assert (Hm : forall h, fst q = Some h \/ In h (snd q) -> mem h (undone_groups e ++ G) = mem h (undone_groups e)).
  { intros h Hh. apply in_combine_r in Hq.
    destruct (mention_origins (revs e) n0 (length u) (repeat (None, []) n0) (i_chain _ _ _ I) (repeat_length _ _) q h Hq Hh) as [(r & p & ins & del & K1 & K2)|(q0 & K1 & K2)].
    - unfold mem. rewrite existsb_app. fold (mem h (undone_groups e)). fold (mem h G).
      destruct (mem h G) eqn:E; [|apply orb_false_r]. apply mem_In in E. destruct (HG h E) as [_ []]. exists r, p, ins, del. auto.
    - apply repeat_spec in K1. subst q0. cbn in K2. destruct K2 as [?|[]]. discriminate. }
  unfold visible. f_equal.
  - destruct (fst q) as [h|] eqn:E; auto. rewrite Hm; auto.
  - assert (Hm' : forall h, In h (snd q) -> mem h (undone_groups e ++ G) = mem h (undone_groups e)) by auto.
    clear -Hm'. revert Hm'. induction (snd q) as [|h ds IH]; intros Hm; cbn [forallb]; auto. rewrite Hm by (cbn; auto).
    rewrite IH; auto. intros k Hk. apply Hm. cbn. auto.
Qed.

(** *** C16 *)
(** A safe collection ([gc_safe], EngineSpec.v) never fails, keeps the text, and no later
    head edits or undos, as long as they do not toggle a collected group, can tell. *)
Theorem C16_gc_invisible e gs : reachable tok e -> gc_safe (revs e) (undone_groups e) gs ->
  exists e', gc e gs = Some e' /\ reachable tok e' /\ get_head e' = get_head e /\
    get_head_rev_id e' = get_head_rev_id e /\
    forall calls, Forall (leaves gs (undone_groups e)) calls ->
      exists f f', run_calls tok e calls = Some f /\ run_calls tok e' calls = Some f' /\
        get_head f' = get_head f /\ get_head_rev_id f' = get_head_rev_id f.
Proof.
  intros Hr Hs. destruct (reachable_inv tok e Hr) as (u & n0 & I).
  destruct (gc_inv_ok e u n0 gs I Hs) as (e' & H & n0' & R & LH & I' & Et & ED & Eu & Es & Ec & Eh & _ & HV).
  exists e'. split; [auto|]. split; [eapply reach_gc; eauto|]. split; [auto|]. split; [auto|].
  intros calls Hc. assert (Hsim : sim gs (undone_groups e) e e').
  { exists u, n0, n0', H. split; [auto|]. split; [auto|]. split; [auto|]. split; [intros ? ?; auto|]. auto 10. }
  destruct (sim_calls tok gs (undone_groups e) calls e e' Hsim Hc) as (f & f' & F1 & F2 & F3).
  exists f, f'. split; [auto|]. split; [auto|]. split; [apply (sim_text _ _ _ _ F3)|].
  destruct F3 as (? & ? & ? & ? & F). apply F.
Qed.

(** *** C18 *)
(** Every call with a well-formed delta is decided by the revision and the length, and a
    refusal changes nothing. *)
Theorem C18_edit_outcome e p g t (d : delta A) : reachable tok e -> wf_delta d ->
  match get_rev tok e t with
  | Some None => try_edit_rev tok e p g t d = Some (e, Err (MissingRevision t))
  | Some (Some c) =>
      if base_len d =? length c then exists e', try_edit_rev tok e p g t d = Some (e', Ok tt)
      else try_edit_rev tok e p g t d = Some (e, Err (MalformedDelta (length c) (base_len d)))
  | None => False
  end.
Proof.
  intros Hr W. destruct (reachable_inv tok e Hr) as (u & n0 & I).
  destruct (get_rev tok e t) as [[c|]|] eqn:Er.
  - destruct (get_rev_inv tok e u n0 t c I Er) as (ix & Hf & Hi & Eb).
    pose proof (edit_ok tok e u n0 p g t d ix I W Hf) as K2. cbv zeta in K2.
    destruct (for_index_ok e u n0 ix I Hi) as (Dc & _ & _ & FD & Hch). rewrite FD in Hch.
    assert (Z : length c = zeros (counts_at e ix)).
    { rewrite Eb, kept_length by (now rewrite (cur_counts_length e u n0 ix I Hi)). unfold cur_counts_at.
      eapply zeros_carry; eauto. }
    rewrite <- Z in K2. destruct (base_len d =? length c); [|exact K2].
    destruct K2 as (e' & ins & dels & K & _). eauto.
  - unfold try_edit_rev, mk_new_rev. unfold get_rev in Er. destruct (find_rev_token tok e t) as [i|]; [|reflexivity].
    destruct (rev_content_for_index e i); discriminate.
  - unfold get_rev in Er. destruct (find_rev_token tok e t) as [i|] eqn:Ef; [|discriminate].
    rewrite (rev_content_ok e u n0 i I) in Er by (eapply find_last_lt; eauto). discriminate.
Qed.

(** *** C19 *)
Theorem C19_ids_unique e : reachable tok e -> NoDup (map r_id (revs e)).
Proof. intros Hr. destruct (reachable_inv tok e Hr) as (u & n0 & I). apply I. Qed.
Theorem C19_head_found e : reachable tok e ->
  exists id i, get_head_rev_id e = Some id /\ find_rev e id = Some i /\ S i = length (revs e) /\
    find_rev_token tok e (tok id) = Some i.
Proof.
  intros Hr. destruct (reachable_inv tok e Hr) as (u & n0 & I).
  destruct (last_rev_ex (revs e) (i_ne e u n0 I)) as (r & El & _).
  assert (Hh : get_head_rev_id e = Some (r_id r)) by (unfold get_head_rev_id; now rewrite El).
  destruct (head_index tok e (r_id r) Hh) as (l & r' & E & E' & Hf & _). exists (r_id r), (length l).
  split; [auto|]. split.
  - unfold find_rev. rewrite E. apply find_last_app_hit. rewrite <- E'. now apply rev_id_eqb_eq.
  - split; [|auto]. rewrite E, app_length. cbn. lia.
Qed.
(** A new revision's identifier was never held before. *)
Theorem C19_new_id_fresh e e' : reachable tok e -> move tok e e' ->
  e' = e \/ exists r, revs e' = revs e ++ [r] /\ ~ In (r_id r) (map r_id (revs e)).
Proof.
  intros Hr Hm. destruct (reachable_inv tok e Hr) as (u & n0 & I).
  pose proof (next_id_fresh e (i_ids _ _ _ I)) as Hf.
  destruct Hm as [e p g t d e' res W H|e G e' H].
  - destruct (find_rev_token tok e t) as [ix|] eqn:Ef.
    + pose proof (edit_ok tok e u n0 p g t d _ I W Ef) as K. cbv zeta in K. destruct (_ =? _).
      * destruct K as (e1 & ins & dels & H1 & _ & _ & _ & _ & _ & _ & _ & _ & _ & _ & _ & mx & K).
        rewrite H in H1. injection H1 as <- _. right. eexists. split; [exact K|exact Hf].
      * rewrite H in K. injection K as -> _. auto.
    + unfold try_edit_rev, mk_new_rev in H. rewrite Ef in H. cbn [bind] in H. injection H as -> _. auto.
  - destruct (undo_ok e u n0 G I) as (e1 & H1 & _ & _ & _ & _ & _ & mx & bx & K & _). rewrite H in H1. injection H1 as <-.
    right. eexists. split; [exact K|exact Hf].
Qed.

Lemma subset_eqb_eq a b : subset_eqb a b = true <-> a = b.
Proof.
  revert b; induction a as [|[l1 c1] a IH]; intros [|[l2 c2] b]; cbn; split; intros H; try discriminate; auto.
  - apply andb_true_iff in H as [H1 H2]. apply IH in H2 as ->. repeat f_equal; lia.
  - injection H as -> -> ->. rewrite !Nat.eqb_refl. cbn. now apply IH.
Qed.
Lemma find_rev_nth e r i : NoDup (map r_id (revs e)) -> nth_error (revs e) i = Some r ->
  find_rev e (r_id r) = Some i.
Proof.
  intros Hn Hr. unfold find_rev. eapply find_last_unique; eauto; [now apply rev_id_eqb_eq|].
  intros j y Hy Ey. apply rev_id_eqb_eq in Ey. rewrite NoDup_nth_error in Hn. apply Hn.
  - rewrite map_length. apply nth_error_Some. congruence.
  - rewrite (map_nth_error _ _ _ Hy), (map_nth_error _ _ _ Hr). congruence.
Qed.
(** The equivalence check never fails, and revisions it equates have the same text. *)
Theorem C19_equivalent_sound e a b : reachable tok e -> distinct_tokens tok e ->
  exists x, is_equivalent_revision e a b = Some x /\
    (x = true -> exists c, get_rev tok e (tok a) = Some (Some c) /\ get_rev tok e (tok b) = Some (Some c)).
Proof.
  intros Hr Hd. destruct (reachable_inv tok e Hr) as (u & n0 & I).
  assert (K : forall id, match find_rev e id with
    | None => True
    | Some i => exists s, deletes_from_cur_union_for_index e i = Some s /\ canonical s /\ flat s = cur_counts_at e i /\
        get_rev tok e (tok id) = Some (Some (kept (flat s) u)) end).
  { intros id. destruct (find_rev e id) as [i|] eqn:E; auto. unfold find_rev in E.
    apply find_last_nth in E as (r & E1 & E2). apply rev_id_eqb_eq in E2. subst id.
    assert (Hi : i < length (revs e)) by (apply nth_error_Some; congruence).
    destruct (cur_index_ok e u n0 i I Hi) as (s & K1 & K2 & K3 & _). exists s. split; [auto|]. split; [auto|]. split; [auto|].
    rewrite K3. apply (get_rev_ok tok e u n0 _ i I). unfold find_rev_token.
    rewrite <- (app_nil_r (revs e)). apply find_token_stable; auto; rewrite app_nil_r; auto. apply I. }
  unfold is_equivalent_revision. pose proof (K a) as Ka. pose proof (K b) as Kb. clear K.
  destruct (find_rev e a) as [i|], (find_rev e b) as [j|].
  - destruct Ka as (s1 & -> & C1 & F1 & G1), Kb as (s2 & -> & C2 & F2 & G2). cbn [bind]. eexists. split; [reflexivity|].
    intros E. apply subset_eqb_eq in E. subst s2. eauto.
  - destruct Ka as (s1 & -> & _). cbn [bind]. eexists. split; [reflexivity|]. discriminate.
  - destruct Kb as (s1 & -> & _). cbn [bind]. eexists. split; [reflexivity|]. discriminate.
  - cbn [bind]. eexists. split; [reflexivity|]. discriminate.
Qed.
(** Undo and redo back to the same set: the new revision is equivalent to the old one. *)
Theorem C19_undo_redo_equivalent e G1 G2 e1 e2 id id2 : reachable tok e ->
  (forall g, In g G2 <-> In g (undone_groups e)) ->
  undo e G1 = Some e1 -> undo e1 G2 = Some e2 ->
  get_head_rev_id e = Some id -> get_head_rev_id e2 = Some id2 ->
  id <> id2 /\ is_equivalent_revision e2 id id2 = Some true.
Proof.
  intros Hr HG H1 H2 Hi Hi2. destruct (reachable_inv tok e Hr) as (u & n0 & I).
  destruct (undo_ok e u n0 G1 I) as (e1' & K1 & I1 & D1 & U1 & S1 & C1 & m1 & b1 & R1 & F1). rewrite H1 in K1. injection K1 as <-.
  destruct (undo_ok e1 u n0 G2 I1) as (e2' & K2 & I2 & D2 & U2 & S2 & C2 & m2 & b2 & R2 & F2). rewrite H2 in K2. injection K2 as <-.
  destruct (head_index tok e id Hi) as (l & r & El & Er & _).
  assert (Erev : revs e2 = revs e ++ [Rev (next_rev_id e) m1 (Undo (symdiff (undone_groups e) G1) b1);
     Rev (next_rev_id e1) m2 (Undo (symdiff (undone_groups e1) G2) b2)]) by (rewrite R2, R1, <- app_assoc; reflexivity).
  assert (Eid2 : id2 = next_rev_id e1).
  { unfold get_head_rev_id, last_rev in Hi2. rewrite Erev, rev_app_distr in Hi2. cbn in Hi2. congruence. }
  assert (Hn : NoDup (map r_id (revs e2))) by apply I2.
  assert (N1 : nth_error (revs e2) (length l) = Some r).
  { rewrite Erev, El, <- app_assoc, nth_error_app2, Nat.sub_diag; auto. }
  assert (N2 : nth_error (revs e2) (S (length (revs e))) = Some (Rev (next_rev_id e1) m2 (Undo (symdiff (undone_groups e1) G2) b2))).
  { rewrite Erev, nth_error_app2 by lia. replace (S (length (revs e)) - length (revs e)) with 1 by lia. reflexivity. }
  subst id id2. split.
  { intros E. pose proof (proj1 (NoDup_nth_error (map r_id (revs e2))) Hn (length l) (S (length (revs e)))) as K.
    rewrite (map_nth_error _ _ _ N1), (map_nth_error _ _ _ N2) in K. cbn in K. rewrite E in K.
    assert (length l < length (map r_id (revs e2))) by (rewrite map_length; apply nth_error_Some; congruence).
    specialize (K H eq_refl). rewrite El, app_length in K. cbn in K. lia. }
  pose proof (find_rev_nth e2 _ _ Hn N1) as P1. pose proof (find_rev_nth e2 _ _ Hn N2) as P2. cbn [r_id] in P2.
  unfold is_equivalent_revision. rewrite P1, P2.
  assert (L1 : length l < length (revs e2)) by (apply nth_error_Some; congruence).
  assert (L2 : S (length (revs e)) < length (revs e2)) by (apply nth_error_Some; congruence).
  destruct (cur_index_ok e2 u n0 _ I2 L1) as (s1 & -> & Cs1 & Fs1 & _).
  destruct (cur_index_ok e2 u n0 _ I2 L2) as (s2 & -> & Cs2 & Fs2 & _). cbn [bind]. f_equal. apply subset_eqb_eq.
  apply flat_inj; auto. rewrite Fs1, Fs2.
  assert (ED : flat (deletes_from_union e2) = flat (deletes_from_union e)).
  { rewrite (i_replay _ _ _ I2), (i_replay _ _ _ I), U2, Erev, replay_app. unfold replay at 1. cbn [fold_left]. unfold step. cbn [r_edit].
    apply replay_ext. intros g. specialize (HG g). rewrite <- !mem_In in HG.
    destruct (mem g G2), (mem g (undone_groups e)); auto; [symmetry|]; now apply HG. }
  unfold cur_counts_at, counts_at.
  replace (skipn (length l + 1) (revs e2)) with [Rev (next_rev_id e) m1 (Undo (symdiff (undone_groups e) G1) b1);
     Rev (next_rev_id e1) m2 (Undo (symdiff (undone_groups e1) G2) b2)].
  2:{ rewrite Erev, El. rewrite skipn_app. rewrite skipn_all2 by (rewrite app_length; cbn; lia).
      rewrite app_length. cbn [length]. now rewrite Nat.sub_diag. }
  rewrite (skipn_all2 (revs e2)) by (rewrite Erev, app_length; cbn; lia).
  cbn [rev app unplay carry r_edit]. unfold unstep. cbn [r_edit fst snd].
  assert (X : forall a b : list nat, length a = length b -> zipw Nat.lxor b (zipw Nat.lxor a b) = a).
  { clear. induction a as [|x a IH]; intros [|y b] H; try discriminate; auto. rewrite !zipw_cons. f_equal.
    - rewrite (Nat.lxor_comm x y), <- Nat.lxor_assoc, Nat.lxor_nilpotent, Nat.lxor_0_l. reflexivity.
    - apply IH. now injection H. }
  assert (L : length (flat (deletes_from_union e)) = length u) by apply I.
  assert (L1' : length (flat (deletes_from_union e1)) = length u) by apply I1.
  assert (L2' : length (flat (deletes_from_union e2)) = length u) by apply I2.
  rewrite F2, X by lia. rewrite F1, X by lia. congruence.
Qed.
End Props.
Print Assumptions C11_new.
Print Assumptions C11_head_edit.
Print Assumptions C12_revisions_stable.
Print Assumptions C12_revisions_readable.
Print Assumptions C12_head_revision.
Print Assumptions C13_delta_to_head.
Print Assumptions C13_missing.
Print Assumptions C14_concurrent_edit.
Print Assumptions C15_engine_implements_document.
Print Assumptions C15_undo_total.
Print Assumptions C15_last_undo_wins.
Print Assumptions C15_undo_same_set.
Print Assumptions C15_undo_redo.
Print Assumptions C15_undo_new_edits.
Print Assumptions C16_gc_invisible.
Print Assumptions C18_edit_outcome.
Print Assumptions C19_ids_unique.
Print Assumptions C19_head_found.
Print Assumptions C19_new_id_fresh.
Print Assumptions C19_equivalent_sound.
Print Assumptions C19_undo_redo_equivalent.

(** *** Examples and limits *)
Section Order.
Context {A : Type} (tok : rev_id -> nat).
(** Two insertions made at the same place against the same revision: the one of lower
    priority comes first; equal priorities keep the order of arrival. *)
Theorem C14_priority_order (e : engine A) id p1 g1 p2 g2 i s1 s2 :
  reachable tok e -> get_head_rev_id e = Some id -> tok id <> tok (next_rev_id e) ->
  i <= length (get_head e) -> s1 <> [] -> s2 <> [] ->
  mem g1 (undone_groups e) = false -> mem g2 (undone_groups e) = false ->
  exists d1 d2 e1 e2,
    simple_edit i i s1 (length (get_head e)) = Some d1 /\
    simple_edit i i s2 (length (get_head e)) = Some d2 /\
    edit_rev tok e p1 g1 (tok id) d1 = Some e1 /\ edit_rev tok e1 p2 g2 (tok id) d2 = Some e2 /\
    get_head e2 = firstn i (get_head e) ++ (if p1 <=? p2 then s1 ++ s2 else s2 ++ s1)
                    ++ skipn i (get_head e).
Proof.
  intros Hr Hh Ht Hi N1 N2 M1 M2. destruct (reachable_inv tok e Hr) as (u & n0 & I).
  destruct (priority_ok tok e u n0 id p1 g1 p2 g2 i s1 s2 I Hh Ht Hi N1 N2 M1 M2) as (d1 & d2 & e1 & e2 & H1 & H2 & H3 & H4 & H5).
  exists d1, d2, e1, e2. unfold edit_rev. rewrite H3. cbn [bind snd fst]. rewrite H4. cbn [bind snd fst]. auto 10.
Qed.
End Order.
Print Assumptions C14_priority_order.

(** C11, C14: the hypotheses hold of [ex3], with a tombstone where the edit lands. *)
Example ex_c11 : get_head_rev_id ex3 = Some (RevId 1 0 4) /\ length (get_head ex3) = 4 /\
  mem 7 (undone_groups ex3) = false /\ mem 1 (undone_groups ex3) = true /\ wf_delta ex_ins /\
  base_len ex_ins = 4 /\ tombstones ex3 <> [].
Proof. do 4 (split; [now vm_compute|]). split; [apply wf_ex_ins|]. now vm_compute. Qed.
(** C12, C13: revision 1 is held by [ex3], and its text differs from the head's. *)
Lemma ex3_tokens : distinct_tokens ex_tok ex3.
Proof.
  intros a b Ha Hb. vm_compute in Ha, Hb.
  destruct Ha as [<-|[<-|[<-|[<-|[<-|[]]]]]]; destruct Hb as [<-|[<-|[<-|[<-|[<-|[]]]]]]; cbn; congruence.
Qed.
Example ex_c12 : get_rev ex_tok ex0 1 = Some (Some [1; 2; 3; 4]) /\
  get_rev ex_tok ex3 1 = Some (Some [1; 2; 3; 4]) /\ get_rev ex_tok ex3 2 = Some (Some [1; 10; 11; 4]) /\
  get_rev ex_tok ex3 3 = Some (Some [1; 10; 11; 20]) /\ get_head ex3 = [1; 2; 20; 3] /\
  get_rev ex_tok ex3 9 = Some None.
Proof. now vm_compute. Qed.
(** C15: undo then redo; undo of the edits of groups 1 and 2 made since [ex0]. *)
Example ex_c15_edits : edits_in ex_tok [1; 2] ex0 ex2 /\ ~ In 1 (undone_groups ex0) /\
  ~ uses_group ex0 1 /\ ~ uses_group ex0 2.
Proof.
  split; [|split; [vm_compute; tauto|]].
  - eapply (edits_step ex_tok [1; 2] ex0 ex1 ex2 1 2 1 ex_conc (Ok tt)); try apply wf_ex_conc; try now vm_compute.
    eapply (edits_step ex_tok [1; 2] ex0 ex0 ex1 1 1 1 ex_ins (Ok tt)); try apply wf_ex_ins; try now vm_compute. constructor.
  - split; intros (r & p & ins & del & Hr & E); vm_compute in Hr; destruct Hr as [<-|[<-|[]]]; cbn in E; discriminate.
Qed.
Example ex_c15 : option_map get_head (undo ex3 []) = Some [1; 10; 11; 20] /\
  option_map get_head (undo ex2 [1; 2]) = Some [1; 2; 3; 4] /\
  option_map get_head (undo ex3 [0]) = Some [10; 11; 20] /\
  option_map get_head (undo ex3 [2]) = Some [1; 10; 11; 4].
Proof. now vm_compute. Qed.
(** C16: collecting the undone group 1 of [ex3], or the prefix 0 of it, is safe. *)
Fixpoint gc_safeb (U gs : list nat) (pre l : list revision) : bool :=
  match l with
  | [] => true
  | r :: l' =>
      match l', r_edit r with
      | _ :: _, Edit _ g ins _ =>
          negb (mem g gs && negb (mem g U) && negb (is_empty ins)) ||
          forallb (fun r => match r_edit r with Edit _ h _ _ => mem h gs | Undo _ _ => true end) pre
      | _, _ => true
      end && gc_safeb U gs (pre ++ [r]) l'
  end.
Lemma gc_safe_dec l U gs : gc_safeb U gs [] l = true -> gc_safe l U gs.
Proof.
  intros H.
  assert (K : forall l2 pre, gc_safeb U gs pre l2 = true -> forall l1 id mx p g ins del l3,
    l2 = l1 ++ Rev id mx (Edit p g ins del) :: l3 -> l3 <> [] -> mem g gs = true -> mem g U = false ->
    is_empty ins = false -> forall r, In r (pre ++ l1) -> match r_edit r with Edit _ h _ _ => mem h gs = true | Undo _ _ => True end).
  { induction l2 as [|r l2 IH]; intros pre Hg l1 id mx p g ins del l3 E N M1 M2 M3 r0 Hr; [destruct l1; discriminate|].
    cbn [gc_safeb] in Hg. apply andb_true_iff in Hg as [Hg1 Hg2]. destruct l1 as [|r1 l1]; cbn [app] in E; injection E as -> ->.
    - rewrite app_nil_r in Hr. destruct l3; [congruence|]. cbn [r_edit] in Hg1. rewrite M1, M2, M3 in Hg1. cbn in Hg1.
      rewrite forallb_forall in Hg1. specialize (Hg1 r0 Hr). destruct (r_edit r0); auto.
    - eapply (IH (pre ++ [r1]) Hg2 l1); eauto. rewrite <- app_assoc. exact Hr. }
  intros l1 id mx p g ins del l2 E N M1 M2 M3 r Hr. eapply (K l [] H l1); eauto.
Qed.
Example ex_c16_undone : gc_safe (revs ex3) (undone_groups ex3) [1] /\
  option_map get_head (gc ex3 [1]) = Some [1; 2; 20; 3] /\ option_map revs (gc ex3 [1]) <> Some (revs ex3).
Proof. split; [apply gc_safe_dec; now vm_compute|]. split; [now vm_compute|]. now vm_compute. Qed.
Example ex_c16_prefix : gc_safe (revs ex3) (undone_groups ex3) [0] /\
  option_map get_head (gc ex3 [0]) = Some [1; 2; 20; 3].
Proof. split; [apply gc_safe_dec; now vm_compute|]. now vm_compute. Qed.
Example ex_c16_later : Forall (leaves [1] (undone_groups ex3)) [EditHead 0 5 ex_ins; UndoTo [1; 2]; UndoTo [1; 5]].
Proof.
  apply Forall_cons; [exact wf_ex_ins|]. repeat (apply Forall_cons; [|]); try apply Forall_nil;
  cbn; intros g [<-|[]]; split; cbn; auto.
Qed.

(** Collecting a visible group in the middle of the history is not safe: [gc] keeps the
    text, but the engine panics when it next looks at its history. *)
Definition collected (o : option (engine nat)) : engine nat := match o with Some e => e | None => ex0 end.
Theorem C16_unsafe_collection_breaks : exists e e' : engine nat, reachable ex_tok e /\
  gc e [1] = Some e' /\ get_head e' = get_head e /\ undo e [0] <> None /\ undo e' [0] = None.
Proof.
  exists ex2, (collected (gc ex2 [1])). split; [eauto using reach_move, ex0_reachable, ex1_move, ex2_move|].
  now vm_compute.
Qed.
Print Assumptions C16_unsafe_collection_breaks.

(** *** C18 *)
(** Deltas that are not well-formed are not rejected.  An empty insertion (as a plugin may
    send) and an insertion after a copy that reaches past the base panic; copies out of
    order are accepted and lose text. *)
Theorem C18_ill_formed_refuted :
  exists e : engine nat, reachable ex_tok e /\ get_head e = [1; 2; 3; 4] /\
    try_edit_rev ex_tok e 0 1 1 (Delta [Copy 0 4; Insert []] 4) = None /\
    try_edit_rev ex_tok e 0 1 1 (Delta [Copy 0 9; Insert [7]] 4) = None /\
    (exists e', try_edit_rev ex_tok e 0 1 1 (Delta [Copy 2 4; Copy 0 2] 4) = Some (e', Ok tt) /\
       apply (Delta [Copy 2 4; Copy 0 2] 4) (get_head e) = Some [3; 4; 1; 2] /\ get_head e' = []).
Proof.
  exists ex0. split; [apply ex0_reachable|]. do 3 (split; [now vm_compute|]).
  exists (collected (edit_rev ex_tok ex0 0 1 1 (Delta [Copy 2 4; Copy 0 2] 4))). now vm_compute.
Qed.
Print Assumptions C18_ill_formed_refuted.
Example ex_c18 : try_edit_rev ex_tok ex3 0 1 9 ex_ins = Some (ex3, Err (MissingRevision 9)) /\
  try_edit_rev ex_tok ex3 0 1 1 (Delta [Copy 0 3] 3) = Some (ex3, Err (MalformedDelta 4 3)).
Proof. now vm_compute. Qed.
(** *** C19 *)
Definition ex4 : engine nat := Eval vm_compute in collected (undo ex3 []).
Example ex_c19 : undo ex2 [1] = Some ex3 /\ undo ex3 [] = Some ex4 /\ undone_groups ex2 = [] /\
  is_equivalent_revision ex4 (RevId 1 0 3) (RevId 1 0 5) = Some true /\
  is_equivalent_revision ex4 (RevId 1 0 3) (RevId 1 0 4) = Some false.
Proof. now vm_compute. Qed.
