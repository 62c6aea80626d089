(** An engine implements a document. *)
From Coq Require Import List Arith Bool Lia ZifyBool.
From Verif Require Import Base ListLib MultisetModel MultisetSpec MultisetProofs SpreadFacts
  DeltaModel DeltaSpec ExpandProofs SynthProofs DeltaProofs DeltaProofs2 RebaseFacts
  EngineModel EngineSpec EngineFacts EngineInv EngineGc EngineGc2 EngineHist EngineConc.
Import ListNotations.

Section Doc.
Context {A : Type} (tok : rev_id -> nat).
Implicit Types (e : engine A) (u : list A) (w : list (option A)).

Fixpoint dweave w (s : doc A) (cb dl : list nat) : list (dcell A) :=
  match w with
  | [] => []
  | Some x :: w' => Fresh x :: dweave w' s cb dl
  | None :: w' =>
      match s, cb, dl with
      | c :: s', b :: cb', k :: dl' => Was c (b =? 0) (negb (k =? 0)) :: dweave w' s' cb' dl'
      | _, _, _ => []
      end
  end.

Lemma dweave_before w : forall s cb dl, keeps w = length s -> length cb = length s -> length dl = length s ->
  doc_before (dweave w s cb dl) = s.
Proof.
  induction w as [|[x|] w IH]; intros s cb dl H1 H2 H3; cbn [dweave doc_before].
  - now destruct s.
  - apply IH; auto.
  - rewrite keeps_None in H1. destruct s as [|c s], cb as [|b cb], dl as [|k dl]; try discriminate. cbn in *.
    rewrite IH by lia. reflexivity.
Qed.
Lemma dweave_base w : forall u o cb dl, keeps w = length u -> length o = length u -> length cb = length u -> length dl = length u ->
  doc_base (dweave w (combine u o) cb dl) = kept cb u.
Proof.
  induction w as [|[x|] w IH]; intros u o cb dl H1 H2 H3 H4; cbn [dweave doc_base].
  - destruct u; [|discriminate]. destruct cb; [auto|discriminate].
  - apply IH; auto.
  - rewrite keeps_None in H1. destruct u as [|c u], o as [|q o], cb as [|b cb], dl as [|k dl]; try discriminate.
    cbn [length] in *. cbn [combine doc_base kept fst]. destruct (b =? 0); rewrite IH by lia; reflexivity.
Qed.
Lemma dweave_effect w : forall k s cb dl, keeps w = length s -> length cb = length s -> length dl = length s ->
  doc_effect k (dweave w s cb dl) = bd k (shrink_script w cb) (kept cb dl).
Proof.
  induction w as [|[x|] w IH]; intros k s cb dl H1 H2 H3; cbn [dweave doc_effect shrink_script bd]; auto.
  - rewrite keeps_Some_cons in H1. now rewrite IH.
  - rewrite keeps_None in H1. destruct s as [|c s], cb as [|b cb], dl as [|d dl]; try discriminate.
    cbn [length] in *. cbn [doc_effect kept]. destruct (b =? 0).
    + cbn [bd]. rewrite IH by lia. now destruct (d =? 0).
    + apply IH; lia.
Qed.
Lemma dweave_deletes w : forall s cb dl, keeps w = length s -> length cb = length s ->
  length dl = length s -> disj cb dl -> doc_deletes_base (dweave w s cb dl).
Proof.
  unfold doc_deletes_base. induction w as [|[x|] w IH]; intros s cb dl H1 H2 H3 Hd; cbn [dweave]; [constructor|..].
  - constructor; auto.
  - rewrite keeps_None in H1. destruct s as [|c s], cb as [|b cb], dl as [|d dl]; try discriminate.
    cbn [length] in *. rewrite disj_cons in Hd. constructor.
    + destruct (b =? 0) eqn:E; auto. lia.
    + apply IH; auto; try lia. tauto.
Qed.
Lemma dweave_after g w : forall u o cb dl, keeps w = length u -> length o = length u -> length cb = length u -> length dl = length u ->
  doc_after g (dweave w (combine u o) cb dl) =
  combine (fill w u) (edit_origins g o (marks w) (spread false dl (marks w))).
Proof.
  induction w as [|[x|] w IH]; intros u o cb dl H1 H2 H3 H4; auto.
  - rewrite keeps_Some_cons in H1. cbn [dweave doc_after fill marks map spread edit_origins Nat.eqb combine].
    fold (marks w). rewrite IH; auto.
  - rewrite keeps_None in H1. destruct u as [|c u], o as [|[i ds] o], cb as [|b cb], dl as [|k dl]; try discriminate.
    cbn [length] in *. cbn [combine dweave doc_after fill marks map spread edit_origins Nat.eqb].
    fold (marks w). rewrite IH by lia. cbn [fst snd]. destruct (k =? 0); reflexivity.
Qed.
Lemma dweave_head U w : forall u o c dl, keeps w = length u -> length o = length u -> length c = length u ->
  length dl = length u -> agrees U o c -> doc_at_head U (dweave w (combine u o) c dl).
Proof.
  unfold doc_at_head, agrees. induction w as [|[x|] w IH]; intros u o c dl H1 H2 H3 H4 Ha; cbn [dweave]; [constructor|..].
  - constructor; auto.
  - rewrite keeps_None in H1. destruct u as [|x u], o as [|q o], c as [|b c], dl as [|k dl]; try discriminate.
    cbn [length map] in *. injection Ha as Ha0 Ha. cbn [combine]. constructor.
    + cbn [snd]. congruence.
    + apply IH; auto; lia.
Qed.

Definition docof e (n0 : nat) u : doc A := combine u (origins (revs e) (repeat (None, []) n0)).
Definition tracks e (s : doc A) : Prop := exists u n0, Inv e u n0 /\ s = docof e n0 u.

Lemma shown_combine U u o : shown U (combine u o) = visible_text U u o.
Proof. reflexivity. Qed.
Lemma tracks_shown e s U : tracks e s -> exists u n0, Inv e u n0 /\ s = docof e n0 u /\
  shown U s = kept (replay U (revs e) (repeat 0 n0)) u.
Proof.
  intros (u & n0 & I & ->). exists u, n0. split; [auto|]. split; [auto|].
  unfold docof. rewrite shown_combine. apply provenance_ok; auto.
Qed.
Lemma tracks_head e s : tracks e s -> get_head e = shown (undone_groups e) s.
Proof.
  intros H. destruct (tracks_shown e s (undone_groups e) H) as (u & n0 & I & _ & ->).
  rewrite <- (i_replay _ _ _ I). apply I.
Qed.
Lemma tracks_reachable e : reachable tok e -> exists s, tracks e s.
Proof. intros H. destruct (reachable_inv tok e H) as (u & n0 & I). exists (docof e n0 u), u, n0. auto. Qed.

Lemma origins_app l1 : forall l2 o, origins (l1 ++ l2) o = origins l2 (origins l1 o).
Proof. induction l1; intros; cbn [app origins]; auto. Qed.

Lemma tracks_undo e s G : tracks e s -> exists e', undo e G = Some e' /\ tracks e' s /\ undone_groups e' = G.
Proof.
  intros (u & n0 & I & ->).
  destruct (undo_ok e u n0 G I) as (e' & R1 & J1 & D1 & U1 & S1 & C1 & mx1 & bx1 & Er1 & _).
  exists e'. split; [auto|]. split; [|auto]. exists u, n0. split; [auto|].
  unfold docof. rewrite Er1, origins_app. reflexivity.
Qed.

Lemma tracks_edit e s p g t d base : tracks e s -> get_rev tok e t = Some (Some base) -> wf_delta d ->
  base_len d = length base ->
  exists e' l, try_edit_rev tok e p g t d = Some (e', Ok tt) /\ undone_groups e' = undone_groups e /\
    doc_before l = s /\ doc_base l = base /\ doc_deletes_base l /\ doc_effect 0 l = denote (els d) /\
    tracks e' (doc_after g l) /\
    (forall id, get_head_rev_id e = Some id -> tok id = t -> doc_at_head (undone_groups e) l).
Proof.
  intros (u & n0 & I & ->) Hg W Hb. destruct (get_rev_inv tok e u n0 t base I Hg) as (ix & Hf & Hi & ->).
  pose proof (cur_counts_length e u n0 ix I Hi) as Lb. pose proof (i_len e u n0 I) as LU.
  rewrite kept_length in Hb by lia.
  destruct (for_index_ok e u n0 ix I Hi) as (Dc & _ & _ & FD & Hch). rewrite FD in Hch.
  pose proof (edit_ok tok e u n0 p g t d ix I W Hf) as K. cbv zeta in K.
  assert (Hcc : cur_counts_at e ix = carry true (skipn (ix + 1) (revs e)) (counts_at e ix)) by reflexivity.
  set (later := skipn (ix + 1) (revs e)) in *. set (c := counts_at e ix) in *.
  assert (Hb' : base_len d = zeros c).
  { rewrite Hb, Hcc. eapply zeros_carry; eauto. }
  rewrite <- Hb', Nat.eqb_refl in K.
  set (w0 := rebase_script true (ins_script 0 (els d) (base_len d)) c) in *.
  set (dc := del_counts 0 (els d) (base_len d)) in *.
  set (w := rb later (p, session e) w0) in *.
  set (dl := carry false later (spread false dc c)) in *.
  destruct K as (e' & ins & dels & H1 & H2 & H3 & Ci & Fi & Cd & Fd & Ld & _ & _ & Eu & ED & mx & Er).
  assert (Ldc : length dc = zeros c) by (unfold dc; rewrite del_counts_length by apply W; lia).
  assert (Kis : keeps (ins_script 0 (els d) (base_len d)) = zeros c) by (rewrite ins_script_keeps by apply W; lia).
  assert (Ldl : length dl = length u).
  { unfold dl. eapply carry_length; eauto. apply spread_length. lia. }
  destruct (provenance_ok e u n0 (undone_groups e) I) as [_ Lo].
  set (o := origins (revs e) (repeat (None, []) n0)) in *.
  assert (Ls : length (docof e n0 u) = length u) by (unfold docof; rewrite combine_length; fold o; lia).
  exists e', (dweave w (docof e n0 u) (cur_counts_at e ix) dl). split; [exact H1|]. split; [auto|].
  split; [apply dweave_before; lia|].
  split; [apply dweave_base; auto; lia|].
  split. { apply dweave_deletes; try lia. rewrite Hcc. unfold dl. eapply disj_carry; eauto.
    - apply spread_length; lia.
    - apply disj_base; lia. }
  split.
  { rewrite dweave_effect by lia. rewrite Hcc. unfold dl.
    unfold w. rewrite (shrink_rb later (p, session e) (length c) (length u)); auto; [|apply keeps_rebase; auto].
    rewrite (kept_carry later (length c) (length u)); auto; [|apply spread_length; lia].
    unfold w0. rewrite shrink_rebase by auto. rewrite kept_spread by auto. unfold dc.
    apply bd_denote. apply W. }
  split.
  { exists (fill w u), n0. split; [auto|]. unfold docof at 2. rewrite Er, origins_app. cbn [origins r_edit]. fold o.
    rewrite Fi, Fd. apply dweave_after; auto; lia. }
  intros id Hid Ht. subst t. destruct (head_index tok e id Hid) as (l0 & r0 & El & _ & Hf' & _).
  rewrite Hf in Hf'. injection Hf' as ->. destruct (counts_head e l0 r0 El) as [Hc Hs].
  assert (Hcd : cur_counts_at e (length l0) = flat (deletes_from_union e)).
  { unfold cur_counts_at. rewrite Hc, Hs. reflexivity. }
  rewrite Hcd. apply dweave_head; auto; try lia. rewrite (i_replay _ _ _ I).
  destruct (agrees_replay (undone_groups e) (revs e) n0 (length u) (repeat (None, []) n0) (repeat 0 n0)) as [K1 K2];
    try apply repeat_length; [apply I|apply agrees_base|]. exact K1.
Qed.

Lemma tracks_gc e s gs : tracks e s -> gc_safe (revs e) (undone_groups e) gs ->
  exists e' s', gc e gs = Some e' /\ tracks e' s' /\ undone_groups e' = undone_groups e /\
    forall V, (forall g, In g gs -> (In g V <-> In g (undone_groups e))) -> shown V s' = shown V s.
Proof.
  intros (u & n0 & I & ->) Hs.
  destruct (gc_inv_ok e u n0 gs I Hs) as (e' & H & n0' & R & LH & I' & Et & ED & Eu & _ & _ & _ & _ & HV).
  exists e', (docof e' n0' (kept H u)). split; [auto|]. split; [exists (kept H u), n0'; auto|]. split; [auto|].
  intros V Hv. unfold docof. rewrite !shown_combine.
  destruct (provenance_ok e u n0 V I) as [-> _]. destruct (provenance_ok e' _ n0' V I') as [-> _].
  destruct (HV V) as [<- Hcov].
  { intros g Hg. apply mem_In in Hg. specialize (Hv g Hg). rewrite <- !mem_In in Hv.
    destruct (mem g V), (mem g (undone_groups e)); auto; [symmetry|]; now apply Hv. }
  apply gc_text; auto.
  rewrite LH. eapply replay_length; [apply I|apply repeat_length].
Qed.

Lemma tracks_empty e0 sid e : empty_engine = Some e0 -> set_session_id e0 sid = Some e -> tracks e [].
Proof.
  intros H0 H. destruct (session_inv e0 sid e H0 H) as (I & _). exists [], 0. split; [exact I|]. reflexivity.
Qed.
Lemma fresh_only g l s : doc_before l = [] -> doc_effect 0 l = map inr s ->
  doc_after g l = map (fun x : A => (x, (Some g, []))) s.
Proof.
  revert s. induction l as [|[x|c b del] l IH]; intros s Hb He; cbn in *.
  - destruct s; [auto|discriminate].
  - destruct s as [|y s]; [discriminate|]. cbn in He. injection He as -> He. cbn. rewrite (IH s); auto.
  - discriminate.
Qed.
Lemma tracks_new s : exists e, engine_new tok s = Some e /\ undone_groups e = [] /\
  tracks e (map (fun x => (x, (Some 0, []))) s).
Proof.
  destruct (@empty_inv A) as (e0 & E & I & Hn & Ht & Hu & Hh & _). unfold engine_new. rewrite E. cbn [bind].
  assert (T0 : tracks e0 []) by (exists [], 0; split; [exact I|reflexivity]).
  destruct s as [|x s].
  - exists e0. auto.
  - rewrite Hh. cbn [bind].
    destruct (builder_ok (@nil A) [(0, 0, x :: s)]) as (b & Eb & J1 & _ & J3 & J4 & _); [cbn; lia|].
    change (simple_edit 0 0 (x :: s) 0) with (simple_edit 0 0 (x :: s) (length (@nil A))).
    rewrite simple_edit_builder. rewrite Eb. cbn [bind].
    assert (Hden : denote (els (db_build b)) = map inr (x :: s)).
    { cbn in Eb. injection Eb as <-. cbn. now rewrite app_nil_r. }
    match goal with |- context [tok ?i] => destruct (tracks_edit e0 [] 0 0 (tok i) (db_build b) [] T0) as (e' & l & H1 & H2 & H3 & _ & _ & H4 & H5 & _) end; auto.
    { cbn in E. injection E as <-. cbn in *. unfold get_rev, find_rev_token. cbn. rewrite Nat.eqb_refl. reflexivity. }
    unfold edit_rev. rewrite H1. cbn [bind snd fst]. exists e'. split; [reflexivity|]. split; [congruence|].
    rewrite <- (fresh_only 0 l (x :: s)); auto. congruence.
Qed.
End Doc.
