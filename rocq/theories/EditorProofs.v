(** The editor's undo bookkeeping over the engine refines the list of versions. *)
From Coq Require Import List Arith Bool Lia ZifyBool Sorted NArith.
From Verif Require Import Base ListLib MultisetModel MultisetSpec MultisetProofs SpreadFacts
  DeltaModel DeltaSpec ExpandProofs SynthProofs DeltaProofs DeltaProofs2 RebaseFacts
  EngineModel EngineSpec EngineFacts EngineInv EngineGc EngineGc2 EngineHist EngineConc
  EngineSim EngineDoc EnginePrio PropertiesEngine EditorModel EditorSpec.
Import ListNotations.

(** ** Lists *)
Lemma sorted_nodup l : StronglySorted lt l -> NoDup l.
Proof.
  induction 1 as [|a l _ IH F]; constructor; auto. intros Hin. rewrite Forall_forall in F. specialize (F a Hin). lia.
Qed.
Lemma sorted_app (R : nat -> nat -> Prop) l1 l2 : StronglySorted R (l1 ++ l2) <->
  StronglySorted R l1 /\ StronglySorted R l2 /\ forall a b, In a l1 -> In b l2 -> R a b.
Proof.
  induction l1 as [|x l1 IH]; cbn [app].
  - split; [intros H; split; [constructor|split; auto; contradiction]|tauto].
  - split.
    + intros H. apply StronglySorted_inv in H as [H F]. apply IH in H as (H1 & H2 & H3).
      rewrite Forall_forall in F. split; [|split; auto].
      * constructor; auto. apply Forall_forall. intros y Hy. apply F, in_or_app. auto.
      * intros a b [<-|Ha] Hb; auto. apply F, in_or_app. auto.
    + intros (H1 & H2 & H3). apply StronglySorted_inv in H1 as [H1 F]. constructor.
      * apply IH. split; auto. split; auto. intros a b Ha Hb. apply H3; cbn; auto.
      * rewrite Forall_forall in *. intros y Hy. apply in_app_or in Hy as [Hy|Hy]; auto. apply H3; cbn; auto.
Qed.
Lemma sorted_filter {B} (f : B -> bool) (g : B -> nat) l : StronglySorted le (map g l) -> StronglySorted le (map g (filter f l)).
Proof.
  induction l as [|x l IH]; cbn [filter map]; intros H; auto. apply StronglySorted_inv in H as [H F].
  destruct (f x); auto. cbn [map]. constructor; auto. rewrite Forall_forall in *. intros y Hy. apply F.
  apply in_map_iff in Hy as (z & <- & Hz). apply filter_In in Hz. apply in_map. tauto.
Qed.
Lemma firstn_skipn_disjoint (l : list nat) n g : NoDup l -> In g (firstn n l) -> ~ In g (skipn n l).
Proof.
  intros Hn H1 H2. rewrite <- (firstn_skipn n l) in Hn. revert Hn H1 H2. generalize (firstn n l) (skipn n l).
  induction l0 as [|x a IH]; cbn; intros b Hn H1 H2; [contradiction|]. apply NoDup_cons_iff in Hn as [N1 N2].
  destruct H1 as [->|H1]; [apply N1, in_or_app; auto|eauto].
Qed.
Lemma in_firstn_skipn (l : list nat) n g : In g l <-> In g (firstn n l) \/ In g (skipn n l).
Proof. rewrite <- (firstn_skipn n l) at 1. apply in_app_iff. Qed.
Lemma in_skipn_le (l : list nat) n m g : n <= m -> In g (skipn m l) -> In g (skipn n l).
Proof. intros H Hi. replace m with (n + (m - n)) in Hi by lia. rewrite <- skipn_skipn in Hi. rewrite (in_firstn_skipn _ (m - n)). auto. Qed.
Lemma last_app1 {B} (l : list B) x d : last (l ++ [x]) d = x.
Proof. apply last_last. Qed.
Lemma last_app' (l1 l2 : list nat) d : l2 <> [] -> last (l1 ++ l2) d = last l2 d.
Proof.
  intros H. destruct (exists_last H) as (l & x & ->). rewrite app_assoc, !last_app1. reflexivity.
Qed.
Lemma amend_len {B} (l : list B) x : 0 < length l -> length (removelast l ++ [x]) = length l.
Proof.
  intros H. destruct l as [|y l]; [cbn in H; lia|]. destruct (exists_last (l:=y :: l)) as (l' & z & ->); [discriminate|].
  rewrite removelast_last, !app_length. reflexivity.
Qed.
Lemma mem_false g l : mem g l = false <-> ~ In g l.
Proof. rewrite <- mem_In. destruct (mem g l); split; congruence. Qed.
Lemma in_set_minus g a b : In g (set_minus a b) <-> In g a /\ ~ In g b.
Proof. unfold set_minus. rewrite filter_In, negb_true_iff, mem_false. reflexivity. Qed.

(** ** The edits an engine holds *)
Definition edit_ids (l : list revision) : list (rev_id * nat) :=
  flat_map (fun r => match r_edit r with Edit _ g _ _ => [(r_id r, g)] | Undo _ _ => [] end) l.
Lemma edit_ids_app a b : edit_ids (a ++ b) = edit_ids a ++ edit_ids b.
Proof. apply flat_map_app. Qed.
Lemma edit_ids_in l id g : In (id, g) (edit_ids l) <-> exists r p ins del, In r l /\ r_id r = id /\ r_edit r = Edit p g ins del.
Proof.
  unfold edit_ids. rewrite in_flat_map. split.
  - intros (r & Hr & H). destruct (r_edit r) as [p h ins del|] eqn:E; cbn in H; [|contradiction].
    destruct H as [[= <- <-]|[]]. exists r, p, ins, del. auto.
  - intros (r & p & ins & del & Hr & <- & E). exists r. rewrite E. cbn. auto.
Qed.
Lemma gc_revs_ids l ret gs : forall G out out', gc_revs l ret gs G out = Some out' ->
  edit_ids out' = filter (fun p => rev_id_eqb (fst p) ret || negb (mem (snd p) gs)) (edit_ids (rev l)) ++ edit_ids out.
Proof.
  induction l as [|r l IH]; intros G out out' H; cbn [gc_revs rev] in *.
  - injection H as <-. reflexivity.
  - rewrite edit_ids_app, filter_app, <- app_assoc. cbn [edit_ids flat_map]. rewrite app_nil_r.
    destruct (r_edit r) as [p g ins del|tg bx] eqn:Er; cbn [filter fst snd].
    + destruct (if is_empty ins then _ else _) as [G'|]; cbn [bind] in H; [|discriminate].
      destruct (rev_id_eqb (r_id r) ret || negb (mem g gs)).
      * destruct (if is_empty G then _ else _) as [[i x]|]; cbn [bind] in H; [|discriminate].
        rewrite (IH _ _ _ H). cbn [edit_ids flat_map r_edit r_id app]. reflexivity.
      * rewrite (IH _ _ _ H). reflexivity.
    + destruct (rev_id_eqb (r_id r) ret).
      * destruct (if is_empty G then _ else _) as [bx'|]; cbn [bind] in H; [|discriminate].
        rewrite (IH _ _ _ H). reflexivity.
      * rewrite (IH _ _ _ H). reflexivity.
Qed.

Section Proofs.
Context {A : Type} (tok : rev_id -> nat).
Implicit Types (e : engine A) (ed : editor A) (s : doc A) (vs : list (list A)).

Lemma gc_ids e gs e' id : gc e gs = Some e' -> get_head_rev_id e = Some id ->
  edit_ids (revs e') = filter (fun p => rev_id_eqb (fst p) id || negb (mem (snd p) gs)) (edit_ids (revs e)).
Proof.
  unfold gc, get_head_rev_id. intros H Hid. destruct (empty_subset_before_first_rev e) as [g0|]; cbn [bind] in H; [|discriminate].
  destruct (last_rev (revs e)) as [la|]; cbn [bind] in *; [|discriminate]. injection Hid as <-.
  destruct (gc_loop _ _ _ _ _) as [G|]; cbn [bind] in H; [|discriminate].
  destruct (if is_empty G then _ else _) as [[tm dl]|]; cbn [bind] in H; [|discriminate].
  destruct (gc_revs _ _ _ _ _) as [rs|] eqn:Eg; cbn [bind] in H; [|discriminate]. injection H as <-. cbn [revs].
  rewrite (gc_revs_ids _ _ _ _ _ _ Eg), rev_involutive. apply app_nil_r.
Qed.
Lemma edit_ids_edit e p g t (d : delta A) e' : reachable tok e -> wf_delta d -> try_edit_rev tok e p g t d = Some (e', Ok tt) ->
  edit_ids (revs e') = edit_ids (revs e) ++ [(next_rev_id e, g)] /\ get_head_rev_id e' = Some (next_rev_id e).
Proof.
  intros Hr W H. destruct (reachable_inv tok e Hr) as (u & n0 & I).
  destruct (find_rev_token tok e t) as [ix|] eqn:Ef.
  - pose proof (edit_ok tok e u n0 p g t d _ I W Ef) as K. cbv zeta in K. destruct (_ =? _).
    + destruct K as (e1 & ins & dels & H1 & _ & _ & _ & _ & _ & _ & _ & _ & _ & _ & _ & mx & K).
      rewrite H in H1. injection H1 as <-. rewrite K, edit_ids_app. split; [reflexivity|].
      unfold get_head_rev_id, last_rev. rewrite K, rev_app_distr. reflexivity.
    + rewrite H in K. discriminate.
  - unfold try_edit_rev, mk_new_rev in H. rewrite Ef in H. cbn [bind] in H. discriminate.
Qed.
Lemma edit_ids_undo e G e' : reachable tok e -> undo e G = Some e' ->
  edit_ids (revs e') = edit_ids (revs e) /\ get_head_rev_id e' = Some (next_rev_id e).
Proof.
  intros Hr H. destruct (reachable_inv tok e Hr) as (u & n0 & I).
  destruct (undo_ok e u n0 G I) as (e1 & H1 & _ & _ & _ & _ & _ & mx & bx & K & _). rewrite H in H1. injection H1 as <-.
  rewrite K, edit_ids_app. split; [apply app_nil_r|]. unfold get_head_rev_id, last_rev. rewrite K, rev_app_distr. reflexivity.
Qed.
Lemma next_id_new e id g : reachable tok e -> In (id, g) (edit_ids (revs e)) -> id <> next_rev_id e.
Proof.
  intros Hr H E. destruct (reachable_inv tok e Hr) as (u & n0 & I). apply (next_id_fresh e (i_ids _ _ _ I)).
  apply edit_ids_in in H as (r & p & ins & del & Hr' & <- & _). rewrite <- E. now apply in_map.
Qed.
Lemma shown_used e s U V : tracks e s -> (forall id g, In (id, g) (edit_ids (revs e)) -> (In g U <-> In g V)) -> shown U s = shown V s.
Proof.
  intros (u & n0 & I & ->) HU. unfold shown. f_equal. apply filter_ext_in. intros [x q] Hq. cbn [snd]. apply in_combine_r in Hq.
  assert (Hm : forall h, fst q = Some h \/ In h (snd q) -> mem h U = mem h V).
  { intros h Hh.
    destruct (mention_origins (revs e) n0 (length u) (repeat (None, []) n0) (i_chain _ _ _ I) (repeat_length _ _) q h Hq Hh) as [(r & p & ins & del & K1 & K2)|(q0 & K1 & K2)].
    - assert (K : In h U <-> In h V) by (apply (HU (r_id r)), edit_ids_in; exists r, p, ins, del; auto).
      rewrite <- !mem_In in K. destruct (mem h U), (mem h V); intuition congruence.
    - apply repeat_spec in K1. subst q0. cbn in K2. destruct K2 as [?|[]]. discriminate. }
  unfold visible. f_equal.
  - destruct (fst q) as [h|] eqn:E; auto. rewrite Hm; auto.
  - assert (Hm' : forall h, In h (snd q) -> mem h U = mem h V) by auto.
    clear -Hm'. revert Hm'. induction (snd q) as [|h ds IH]; intros Hm; cbn [forallb]; auto. rewrite Hm by (cbn; auto).
    rewrite IH; auto. intros k Hk. apply Hm. cbn. auto.
Qed.

(** ** The invariant *)
(** The groups undone when version [k] is on screen. *)
Definition undone_at ed (k : nat) : list nat :=
  skipn (S k) (live_undos ed) ++ filter (fun g => negb (mem g (live_undos ed))) (undone_groups (eng ed)).
Record Core ed s vs (h : nat) : Prop := {
  c_reach : reachable tok (eng ed);
  c_tracks : tracks (eng ed) s;
  c_cur : cur_undo ed = S h;
  c_h : h < length vs;
  c_len : length (live_undos ed) = length vs;
  c_vs : forall k, k < length vs -> nth k vs [] = shown (undone_at ed k) s;
  c_sorted : StronglySorted lt (live_undos ed);
  c_live : forall g, In g (live_undos ed) -> g < undo_group_id ed;
  c_last : S (last (live_undos ed) 0) = undo_group_id ed;
  c_gcs : forall g, In g (gc_groups ed) -> g < undo_group_id ed /\ ~ In g (live_undos ed);
  c_E : forall g, In g (undone_groups (eng ed)) -> g < undo_group_id ed;
  c_undos : forall g, In g (undos ed) -> g < undo_group_id ed;
  c_liveE : forall g, In g (live_undos ed) -> (In g (undone_groups (eng ed)) <-> In g (skipn (S h) (live_undos ed)));
  c_same : forall g, In g (live_undos ed) \/ In g (gc_groups ed) -> (In g (undos ed) <-> In g (undone_groups (eng ed)));
  c_prefix : forall g, In g (gc_groups ed) -> ~ In g (undone_groups (eng ed)) -> forall k, In k (live_undos ed) -> g < k;
  c_used : forall id g, In (id, g) (edit_ids (revs (eng ed))) -> In g (live_undos ed) \/ In g (gc_groups ed);
  c_order : StronglySorted le (map snd (edit_ids (revs (eng ed)))) }.
(** The newest edit can still be undone. *)
Definition Head ed : Prop := forall id g, In (id, g) (edit_ids (revs (eng ed))) -> get_head_rev_id (eng ed) = Some id -> In g (live_undos ed).

Lemma in_undone_at ed k g : In g (undone_at ed k) <->
  In g (skipn (S k) (live_undos ed)) \/ (~ In g (live_undos ed) /\ In g (undone_groups (eng ed))).
Proof. unfold undone_at. rewrite in_app_iff, filter_In, negb_true_iff, mem_false. tauto. Qed.
Lemma in_skipn_live (l : list nat) n g : In g (skipn n l) -> In g l.
Proof. intros H. apply (in_firstn_skipn l n). auto. Qed.
Lemma core_text ed s vs h : Core ed s vs h -> get_head (eng ed) = nth h vs [].
Proof.
  intros C. rewrite (tracks_head _ _ (c_tracks _ _ _ _ C)), (c_vs _ _ _ _ C _ (c_h _ _ _ _ C)). apply shown_ext.
  intros g. assert (K : In g (undone_groups (eng ed)) <-> In g (undone_at ed h)).
  { rewrite in_undone_at. destruct (in_dec Nat.eq_dec g (live_undos ed)) as [Hi|Hi].
    - rewrite (c_liveE _ _ _ _ C g Hi). tauto.
    - split; [tauto|]. intros [H|H]; [|tauto]. now apply in_skipn_live in H. }
  rewrite <- !mem_In in K. destruct (mem g (undone_groups (eng ed))), (mem g (undone_at ed h)); intuition congruence.
Qed.

Lemma last_in (l : list nat) d : l <> [] -> In (last l d) l.
Proof. induction l as [|x [|y l] IH]; intros H; [congruence|cbn; auto|]. right. apply IH. discriminate. Qed.

(** ** A new group *)
Lemma core_push e lr gid live cur un gcs f t lt fl s vs h f' t' lt' fl' :
  Core (Editor e lr gid live cur un gcs f t lt fl) s vs h ->
  Core (Editor e lr (gid + 1) (firstn cur live ++ [gid]) (cur + 1) un (gcs ++ skipn cur live) f' t' lt' fl') s
    (firstn (S h) vs ++ [nth h vs []]) (S h).
Proof.
  intros C. pose proof C as [C1 C2 C3 C4 C5 C6 C7 C8 C9 C10 C11 C12 C13 C14 C15 C16 C17].
  cbn [eng live_undos cur_undo undos gc_groups undo_group_id] in *. subst cur.
  pose proof (sorted_nodup _ C7) as ND.
  assert (Lf : length (firstn (S h) live) = S h) by (rewrite firstn_length; lia).
  assert (Hn : forall g, In g live -> g <> gid) by (intros g Hg; specialize (C8 g Hg); lia).
  assert (HE : forall g, In g (undone_groups e) -> g <> gid) by (intros g Hg; specialize (C11 g Hg); lia).
  assert (Hf : forall g, In g (firstn (S h) live) -> In g live) by (intros g Hg; apply (in_firstn_skipn live (S h)); auto).
  assert (Hs : forall g, In g (skipn (S h) live) -> In g live) by (intros g Hg; apply (in_firstn_skipn live (S h)); auto).
  assert (HU : forall g, In g live \/ In g gcs -> g <> gid).
  { intros g [Hg|Hg]; auto. destruct (C10 g Hg). lia. }
  constructor; cbn [eng live_undos cur_undo undos gc_groups undo_group_id].
  - auto.
  - auto.
  - lia.
  - rewrite app_length, firstn_length. cbn [length]. lia.
  - rewrite !app_length, !firstn_length. cbn [length]. lia.
  - intros k Hk. rewrite app_length, firstn_length in Hk. cbn [length] in Hk.
    assert (Hv : nth k (firstn (S h) vs ++ [nth h vs []]) [] = nth (if k =? S h then h else k) vs []).
    { destruct (k =? S h) eqn:Ek.
      - rewrite app_nth2; rewrite firstn_length; [|lia]. replace (k - Nat.min (S h) (length vs)) with 0 by lia. reflexivity.
      - rewrite app_nth1 by (rewrite firstn_length; lia). rewrite <- (firstn_skipn (S h) vs) at 2. rewrite app_nth1; auto. rewrite firstn_length. lia. }
    rewrite Hv, C6 by (destruct (k =? S h) eqn:?; lia). apply (shown_used e); auto.
    intros id g Hg. specialize (C16 id g Hg). pose proof (HU g C16) as Hu. rewrite !in_undone_at. cbn [eng live_undos].
    rewrite !in_app_iff. cbn [In]. rewrite skipn_app, in_app_iff, Lf.
    destruct (k =? S h) eqn:Ek.
    + assert (k = S h) as -> by lia. rewrite (skipn_all2 (firstn (S h) live)) by lia. replace (S (S h) - S h) with 1 by lia. cbn [skipn In].
      destruct (in_dec Nat.eq_dec g live) as [Hi|Hi].
      * pose proof (firstn_skipn_disjoint live (S h) g ND) as Hd. specialize (C13 g Hi). apply (in_firstn_skipn live (S h)) in Hi as Hi2. assert (gid <> g) by congruence. tauto.
      * split; [|intuition]. intros [H|H]; [apply Hs in H; tauto|]. right. split; [|tauto]. intros [H1|[H1|[]]]; [apply Hf in H1; tauto|congruence].
    + assert (Hk2 : S k <= S h) by lia. replace (S k - S h) with 0 by lia. cbn [skipn In].
      assert (Hsk : In g (skipn (S k) live) <-> In g (skipn (S k) (firstn (S h) live)) \/ In g (skipn (S h) live)).
      { rewrite <- (firstn_skipn (S h) live) at 1. rewrite skipn_app, in_app_iff, Lf. replace (S k - S h) with 0 by lia. reflexivity. }
      destruct (in_dec Nat.eq_dec g live) as [Hi|Hi].
      * pose proof (firstn_skipn_disjoint live (S h) g ND) as Hd. specialize (C13 g Hi). apply (in_firstn_skipn live (S h)) in Hi as Hi2.
        assert (In g (skipn (S k) (firstn (S h) live)) -> In g (firstn (S h) live)) by apply in_skipn_live. 
        assert (gid <> g) by congruence. tauto.
      * assert (~ In g (firstn (S h) live)) by intuition. assert (~ In g (skipn (S h) live)) by intuition.
        assert (In g (skipn (S k) (firstn (S h) live)) -> In g (firstn (S h) live)) by apply in_skipn_live.
        assert (gid <> g) by congruence. tauto.
  - apply sorted_app. split; [|split].
    + rewrite <- (firstn_skipn (S h) live) in C7. now apply sorted_app in C7.
    + repeat constructor.
    + intros a b Ha [<-|[]]. apply C8. auto.
  - intros g Hg. apply in_app_or in Hg as [Hg|[<-|[]]]; [|lia]. specialize (C8 g (Hf g Hg)). lia.
  - rewrite last_app1. lia.
  - intros g Hg. apply in_app_or in Hg as [Hg|Hg].
    + destruct (C10 g Hg) as [K1 K2]. split; [lia|]. rewrite in_app_iff. intros [K|[K|[]]]; [auto|lia].
    + pose proof (C8 g (Hs g Hg)). split; [lia|]. rewrite in_app_iff. intros [K|[K|[]]]; [|lia].
      now apply (firstn_skipn_disjoint live (S h) g ND K).
  - intros g Hg. specialize (C11 g Hg). lia.
  - intros g Hg. specialize (C12 g Hg). lia.
  - intros g Hg. rewrite skipn_app, Lf, (skipn_all2 (firstn _ _)) by lia. replace (S (S h) - S h) with 1 by lia. cbn [skipn app In].
    split; [|contradiction]. intros HEg. apply in_app_or in Hg as [Hg|[Hg|[]]].
    + apply (firstn_skipn_disjoint live (S h) g ND Hg). apply C13; auto.
    + apply (HE g HEg). auto.
  - intros g Hg. rewrite !in_app_iff in Hg. destruct Hg as [[Hg|[<-|[]]]|[Hg|Hg]]; [apply C14; auto| |apply C14; auto|apply C14; auto].
    split; intros K; [specialize (C12 _ K)|specialize (C11 _ K)]; lia.
  - intros g Hg HEg k Hk. apply in_app_or in Hg as [Hg|Hg].
    + apply in_app_or in Hk as [Hk|[<-|[]]]; [apply C15; auto|]. destruct (C10 g Hg). lia.
    + exfalso. apply HEg, C13; auto.
  - intros id g Hg. rewrite !in_app_iff. destruct (C16 id g Hg) as [K|K]; [|auto]. apply (in_firstn_skipn live (S h)) in K. tauto.
  - auto.
Qed.
Lemma core_drop e lr gid g0 live cur un gcs f t lt fl s v vs h :
  Core (Editor e lr gid (g0 :: live) (S cur) un gcs f t lt fl) s (v :: vs) (S h) -> vs <> [] ->
  Core (Editor e lr gid live cur un (gcs ++ [g0]) f t lt fl) s vs h.
Proof.
  intros C Hvs. pose proof C as [C1 C2 C3 C4 C5 C6 C7 C8 C9 C10 C11 C12 C13 C14 C15 C16 C17].
  cbn [eng live_undos cur_undo undos gc_groups undo_group_id] in *.
  pose proof (sorted_nodup _ C7) as ND. apply StronglySorted_inv in C7 as [C7 F]. rewrite Forall_forall in F.
  assert (N0 : ~ In g0 live) by (inversion ND; auto).
  assert (E0 : ~ In g0 (undone_groups e)).
  { intros K. apply C13 in K; [|cbn; auto]. rewrite skipn_cons in K. now apply in_skipn_live in K. }
  assert (L : length live = length vs) by (cbn in C5; lia).
  constructor; cbn [eng live_undos cur_undo undos gc_groups undo_group_id].
  - auto.
  - auto.
  - lia.
  - cbn in C4. lia.
  - auto.
  - intros k Hk. specialize (C6 (S k)). cbn [nth length] in C6. rewrite C6 by lia. apply shown_ext. intros g.
    assert (K : In g (undone_at (Editor e lr gid (g0 :: live) (S cur) un gcs f t lt fl) (S k)) <-> In g (undone_at (Editor e lr gid live cur un (gcs ++ [g0]) f t lt fl) k)).
    { rewrite !in_undone_at. cbn [eng live_undos In]. rewrite skipn_cons. destruct (Nat.eq_dec g0 g) as [->|]; [|tauto].
      assert (In g (skipn (S k) live) -> In g live) by apply in_skipn_live. tauto. }
    rewrite <- !mem_In in K. destruct (mem g _), (mem g (undone_at (Editor e lr gid live cur un (gcs ++ [g0]) f t lt fl) k)); intuition congruence.
  - auto.
  - intros g Hg. apply C8. cbn. auto.
  - destruct live as [|x live]; [destruct vs; [congruence|discriminate]|exact C9].
  - intros g Hg. apply in_app_or in Hg as [Hg|[<-|[]]].
    + destruct (C10 g Hg) as [K1 K2]. split; auto. intros K. apply K2. cbn. auto.
    + split; auto. apply C8. cbn. auto.
  - auto.
  - auto.
  - intros g Hg. rewrite C13 by (cbn; auto). rewrite skipn_cons. reflexivity.
  - intros g Hg. apply C14. rewrite in_app_iff in Hg. cbn in *. tauto.
  - intros g Hg HEg k Hk. apply in_app_or in Hg as [Hg|[<-|[]]]; [|auto]. apply C15; cbn; auto.
  - intros id g Hg. rewrite in_app_iff. cbn. destruct (C16 id g Hg) as [[K|K]|K]; auto.
  - auto.
Qed.

Lemma new_group ed s vs h : Core ed s vs h -> length vs <= 20 -> force_group ed = false ->
  breaks_undo_group (this_type ed) (last_type ed) = true ->
  exists ed1, calculate_undo_group ed = Some (ed1, undo_group_id ed) /\
    let vs1 := keep_twenty (firstn (S h) vs ++ [nth h vs []]) in
    Core ed1 s vs1 (length vs1 - 1) /\ length vs1 <= 20 /\ last (live_undos ed1) 0 = undo_group_id ed /\
    eng ed1 = eng ed /\ last_rev_id ed1 = last_rev_id ed /\
    force_group ed1 = force_group ed /\ this_type ed1 = this_type ed /\ last_type ed1 = last_type ed /\ in_flight ed1 = in_flight ed.
Proof.
  intros C Hm Hf Hb. unfold calculate_undo_group. rewrite Hf, Hb. cbn [negb orb]. rewrite andb_false_r.
  destruct ed as [e lr gid live cur un gcs f t lt fl]. cbn [eng live_undos cur_undo undos gc_groups undo_group_id last_rev_id force_group this_type last_type in_flight] in *.
  subst f. pose proof (c_cur _ _ _ _ C) as Hc. pose proof (c_len _ _ _ _ C) as Hl. pose proof (c_h _ _ _ _ C) as Hh. cbn [live_undos cur_undo] in *.
  assert (cur <=? length live = true) as -> by lia. cbn [check].
  pose proof (core_push _ _ _ _ _ _ _ _ _ _ _ _ _ _ false t lt fl C) as P.
  assert (Lp : length (firstn (S h) vs ++ [nth h vs []]) = S (S h)) by (rewrite app_length, firstn_length; cbn [length]; lia).
  assert (Ll : length (firstn cur live ++ [gid]) = S (S h)) by (rewrite app_length, firstn_length; cbn [length]; lia).
  set (vs0 := firstn (S h) vs ++ [nth h vs []]) in *. rewrite Ll. unfold MAX_UNDOS.
  destruct (S (S h) <=? 20) eqn:E20.
  - eexists. split; [reflexivity|]. unfold keep_twenty. rewrite Lp. replace (S (S h) - 20) with 0 by lia. cbn [skipn]. rewrite Lp.
    cbn [eng live_undos cur_undo undos gc_groups undo_group_id last_rev_id force_group this_type last_type in_flight].
    replace (S (S h) - 1) with (S h) by lia. split; [auto|]. split; [lia|]. split; [apply last_app1|]. auto 10.
  - destruct (firstn cur live ++ [gid]) as [|g0 live1] eqn:El; [discriminate|].
    eexists. split; [reflexivity|]. unfold keep_twenty. rewrite Lp. replace (S (S h) - 20) with 1 by lia.
    destruct vs0 as [|v vs1] eqn:Ev; [discriminate|]. cbn [skipn].
    cbn [eng live_undos cur_undo undos gc_groups undo_group_id last_rev_id force_group this_type last_type in_flight].
    cbn [length] in Lp, Ll.
    assert (Hh1 : exists h', h = S h') by (exists (h - 1); lia). destruct Hh1 as (h1 & ->).
    replace (length vs1 - 1) with (S h1) by lia. split.
    { rewrite (Nat.add_1_r cur) in P. eapply core_drop; [exact P|]. destruct vs1; [discriminate|congruence]. }
    split; [lia|]. split; [|auto 10]. destruct live1 as [|x live1]; [discriminate|].
    change (last (g0 :: x :: live1) 0 = gid). rewrite <- El. apply last_app1.
Qed.

(** ** An edit in the newest group *)
Lemma edit_newest ed s vs h d head t' p : Core ed s vs h -> S h = length vs -> wf_delta d -> get_head_rev_id (eng ed) = Some head ->
  edited d (nth h vs []) = Some t' ->
  exists e' s', edit_rev tok (eng ed) p (last (live_undos ed) 0) (tok head) d = Some e' /\
    Core (set_eng ed e') s' (removelast vs ++ [t']) h /\ Head (set_eng ed e') /\
    get_head_rev_id e' = Some (next_rev_id (eng ed)) /\ (exists r, revs e' = revs (eng ed) ++ [r]).
Proof.
  intros C Eh W Hhd Ht. unfold edited in Ht. destruct (base_len d =? _) eqn:Eb; [|discriminate]. cbn [check] in Ht.
  pose proof (core_text _ _ _ _ C) as Ecur. rewrite <- Ecur in Eb, Ht.
  pose proof C as [C1 C2 C3 C4 C5 C6 C7 C8 C9 C10 C11 C12 C13 C14 C15 C16 C17].
  set (g := last (live_undos ed) 0) in *.
  assert (Lne : live_undos ed <> []) by (intros K; rewrite K in C5; cbn in C5; lia).
  assert (Gin : In g (live_undos ed)) by (now apply last_in).
  assert (SkE : skipn (S h) (live_undos ed) = []) by (apply skipn_all2; lia).
  assert (GE : ~ In g (undone_groups (eng ed))).
  { intros K. apply C13 in K; auto. rewrite SkE in K. destruct K. }
  destruct (C11_head_edit tok (eng ed) head p g d C1 Hhd W) as (e' & H1 & H2 & H3 & _); [lia|].
  specialize (H3 (proj2 (mem_false g _) GE)).
  assert (H0 : try_edit_rev tok (eng ed) p g (tok head) d = Some (e', Ok tt)).
  { unfold edit_rev in H1. destruct (try_edit_rev tok (eng ed) p g (tok head) d) as [[e1 [[]|er]]|]; cbn [bind snd fst] in H1; congruence. }
  destruct (tracks_edit tok (eng ed) s p g (tok head) d (get_head (eng ed)) C2) as (e1 & l & K1 & K2 & K3 & _ & _ & _ & K4 & _); auto; [now apply C12_head_revision|lia|].
  rewrite H0 in K1. injection K1 as <-.
  destruct (edit_ids_edit (eng ed) p g (tok head) d e' C1 W H0) as [Hids Hid].
  assert (Et : get_head e' = t') by congruence.
  assert (Lr : length (removelast vs) = h).
  { pose proof (app_removelast_last [] (l:=vs)) as Q. destruct vs as [|v vs]; [cbn in C4; lia|].
    specialize (Q ltac:(discriminate)). apply (f_equal (@length _)) in Q. rewrite app_length in Q. cbn [length] in Q, Eh |- *. lia. }
  exists e', (doc_after g l). split; [auto|]. split; [|split; [|split; [auto|]]].
  - constructor; cbn [set_eng eng live_undos cur_undo undos gc_groups undo_group_id]; rewrite ?K2; auto.
    + rewrite app_length, Lr. cbn [length]. lia.
    + rewrite app_length, Lr. cbn [length]. lia.
    + intros k Hk. rewrite app_length, Lr in Hk. cbn [length] in Hk.
      assert (HU : undone_at (set_eng ed e') k = undone_at ed k) by (unfold undone_at; cbn [set_eng eng live_undos]; now rewrite K2). rewrite HU.
      destruct (Nat.eq_dec k h) as [->|Hne].
      * rewrite app_nth2 by lia. rewrite Lr, Nat.sub_diag. cbn [nth]. rewrite <- Et, (tracks_head _ _ K4), K2. apply shown_ext. intros x.
        assert (K : In x (undone_groups (eng ed)) <-> In x (undone_at ed h)).
        { rewrite in_undone_at, SkE. cbn [In]. destruct (in_dec Nat.eq_dec x (live_undos ed)) as [Hi|Hi]; [|tauto].
          specialize (C13 x Hi). rewrite SkE in C13. cbn in C13. tauto. }
        rewrite <- !mem_In in K. destruct (mem x (undone_groups (eng ed))), (mem x (undone_at ed h)); intuition congruence.
      * rewrite app_nth1 by lia. rewrite shown_undone_edit.
        2:{ apply mem_In, in_undone_at. left. unfold g. clear -Hk Hne C5 Eh Lne.
            rewrite <- (firstn_skipn (S k) (live_undos ed)) at 1.
            assert (Q : skipn (S k) (live_undos ed) <> []) by (intros K; apply (f_equal (@length _)) in K; rewrite skipn_length in K; cbn [length] in K; lia).
            rewrite (last_app' (firstn (S k) (live_undos ed)) _ 0 Q). now apply last_in. }
        rewrite K3. rewrite <- C6 by lia. rewrite (app_removelast_last [] (l:=vs)) at 2 by (intros K; rewrite K in C4; cbn in C4; lia).
        now rewrite app_nth1 by lia.
    + intros id x Hx. rewrite Hids in Hx. apply in_app_or in Hx as [Hx|[[= <- <-]|[]]]; eauto.
    + rewrite Hids, map_app. apply sorted_app. split; [auto|]. split; [repeat constructor|].
      intros a b Ha [<-|[]]. cbn [snd]. apply in_map_iff in Ha as ([id x] & <- & Hx). cbn [snd].
      apply C16 in Hx as [Hx|Hx]; [specialize (C8 x Hx)|destruct (C10 x Hx)]; lia.
  - intros id x Hx Hd. cbn [set_eng eng live_undos] in *. rewrite Hids in Hx. rewrite Hid in Hd. injection Hd as <-.
    apply in_app_or in Hx as [Hx|[[= <-]|[]]]; auto. now apply next_id_new in Hx.
  - destruct (C19_new_id_fresh tok (eng ed) e' C1) as [E|(r & E & _)]; [eapply move_edit; eauto| |eauto].
    exfalso. subst e'. clear -Hids. apply (f_equal (@length _)) in Hids. rewrite app_length in Hids. cbn in Hids. lia.
Qed.
(** ** Undo and redo *)
Lemma move_here ed s vs h h' un' t' : Core ed s vs h -> Head ed -> h' < length vs ->
  (forall g, In g un' -> g < undo_group_id ed) ->
  (forall g, In g (live_undos ed) -> (In g un' <-> In g (skipn (S h') (live_undos ed)))) ->
  (forall g, In g (gc_groups ed) -> (In g un' <-> In g (undos ed))) ->
  exists e', undo (eng ed) un' = Some e' /\
    let ed' := Editor e' (last_rev_id ed) (undo_group_id ed) (live_undos ed) (S h') un' (gc_groups ed) (force_group ed) t' (last_type ed) (in_flight ed) in
    Core ed' s vs h' /\ Head ed' /\ get_head_rev_id e' = Some (next_rev_id (eng ed)) /\ (exists r, revs e' = revs (eng ed) ++ [r]).
Proof.
  intros C Hd Hh Hlt Hlv Hgc. pose proof C as [C1 C2 C3 C4 C5 C6 C7 C8 C9 C10 C11 C12 C13 C14 C15 C16 C17].
  destruct (tracks_undo (eng ed) s un' C2) as (e' & H1 & H2 & H3).
  destruct (edit_ids_undo (eng ed) un' e' C1 H1) as [Hids Hid].
  assert (R : reachable tok e') by (eapply reach_move; eauto; eapply move_undo; eauto).
  exists e'. split; [auto|]. cbv zeta. split; [|split; [|split; [auto|]]].
  - constructor; cbn [eng live_undos cur_undo undos gc_groups undo_group_id]; rewrite ?H3, ?Hids; auto.
    + intros k Hk. rewrite C6 by auto. apply (shown_used (eng ed)); auto. intros id g Hg. rewrite !in_undone_at. cbn [eng live_undos]. rewrite H3.
      apply C16 in Hg as [Hg|Hg]; [tauto|]. destruct (C10 g Hg) as [_ Hn]. specialize (Hgc g Hg). specialize (C14 g (or_intror Hg)). tauto.
    + intros g Hg. reflexivity.
    + intros g Hg Hn k Hk. apply C15; auto. rewrite <- (C14 g (or_intror Hg)), <- (Hgc g Hg). auto.
  - intros id g Hg Hi. cbn [eng live_undos] in *. rewrite Hids in Hg. rewrite Hid in Hi. injection Hi as <-. now apply next_id_new in Hg.
  - destruct (C19_new_id_fresh tok (eng ed) e' C1) as [E|(r & E & _)]; [eapply move_undo; eauto| |eauto].
    exfalso. subst e'. destruct (reachable_inv tok (eng ed) C1) as (u & n0 & I).
    destruct (undo_ok (eng ed) u n0 un' I) as (e1 & K1 & _ & _ & _ & _ & _ & mx & bx & K & _). rewrite H1 in K1. injection K1 as <-.
    apply (f_equal (@length _)) in K. rewrite app_length in K. cbn in K. lia.
Qed.
Lemma do_undo_ok ed s vs h : Core ed s vs (S h) -> Head ed -> exists e' ed', do_undo ed = Some ed' /\
  ed' = Editor e' (last_rev_id ed) (undo_group_id ed) (live_undos ed) (S h) (undos ed') (gc_groups ed) (force_group ed) TUndo (last_type ed) (in_flight ed) /\
  Core ed' s vs h /\ Head ed' /\ get_head_rev_id e' = Some (next_rev_id (eng ed)) /\ (exists r, revs e' = revs (eng ed) ++ [r]) /\ move tok (eng ed) e'.
Proof.
  intros C Hd. pose proof C as [C1 C2 C3 C4 C5 C6 C7 C8 C9 C10 C11 C12 C13 C14 C15 C16 C17].
  unfold do_undo. rewrite C3. replace (1 <? S (S h)) with true by lia. replace (S (S h) - 1) with (S h) by lia.
  destruct (nth_error (live_undos ed) (S h)) as [g|] eqn:En; [|apply nth_error_None in En; lia]. cbn [bind].
  pose proof (sorted_nodup _ C7) as ND. assert (Hin : In g (live_undos ed)) by (eapply nth_error_In; eauto).
  assert (Esk : skipn (S h) (live_undos ed) = g :: skipn (S (S h)) (live_undos ed)).
  { clear -En. revert En. generalize (S h). induction (live_undos ed) as [|x l IH]; intros [|n] H; cbn in H; try discriminate.
    - injection H as ->. reflexivity.
    - rewrite !skipn_cons. auto. }
  assert (Hng : ~ In g (skipn (S (S h)) (live_undos ed))).
  { rewrite <- (firstn_skipn (S h) (live_undos ed)), Esk in ND. apply NoDup_remove_2 in ND. intros K. apply ND, in_or_app. auto. }
  assert (Hnu : ~ In g (undos ed)) by (rewrite (C14 g (or_introl Hin)), (C13 g Hin); auto).
  rewrite (proj2 (mem_false g (undos ed)) Hnu). cbn [negb check]. unfold update_undos. cbn [eng undos set_eng].
  destruct (move_here ed s vs (S h) h (g :: undos ed) TUndo C Hd) as (e' & H1 & H2 & H3 & H4 & H5); [lia| | | |].
  - intros x [<-|Hx]; auto.
  - intros x Hx. rewrite Esk. cbn [In]. rewrite (C14 x (or_introl Hx)), (C13 x Hx). reflexivity.
  - intros x Hx. cbn [In]. split; [|auto]. intros [<-|K]; auto. destruct (C10 g Hx). tauto.
  - rewrite H1. cbn [bind]. exists e'. eexists. split; [reflexivity|]. cbn [set_eng eng last_rev_id undo_group_id live_undos cur_undo undos gc_groups force_group this_type last_type in_flight].
    split; [auto|]. split; [auto|]. split; [auto|]. split; [auto|]. split; [auto|]. eapply move_undo; eauto.
Qed.
Lemma do_redo_ok ed s vs h : Core ed s vs h -> S h < length vs -> Head ed -> exists e' ed', do_redo ed = Some ed' /\
  ed' = Editor e' (last_rev_id ed) (undo_group_id ed) (live_undos ed) (S (S h)) (undos ed') (gc_groups ed) (force_group ed) TRedo (last_type ed) (in_flight ed) /\
  Core ed' s vs (S h) /\ Head ed' /\ get_head_rev_id e' = Some (next_rev_id (eng ed)) /\ (exists r, revs e' = revs (eng ed) ++ [r]) /\ move tok (eng ed) e'.
Proof.
  intros C Hh Hd. pose proof C as [C1 C2 C3 C4 C5 C6 C7 C8 C9 C10 C11 C12 C13 C14 C15 C16 C17].
  unfold do_redo. rewrite C3. replace (S h <? length (live_undos ed)) with true by lia.
  destruct (nth_error (live_undos ed) (S h)) as [g|] eqn:En; [|apply nth_error_None in En; lia]. cbn [bind].
  pose proof (sorted_nodup _ C7) as ND. assert (Hin : In g (live_undos ed)) by (eapply nth_error_In; eauto).
  assert (Esk : skipn (S h) (live_undos ed) = g :: skipn (S (S h)) (live_undos ed)).
  { clear -En. revert En. generalize (S h). induction (live_undos ed) as [|x l IH]; intros [|n] H; cbn in H; try discriminate.
    - injection H as ->. reflexivity.
    - rewrite !skipn_cons. auto. }
  assert (Hng : ~ In g (skipn (S (S h)) (live_undos ed))).
  { rewrite <- (firstn_skipn (S h) (live_undos ed)), Esk in ND. apply NoDup_remove_2 in ND. intros K. apply ND, in_or_app. auto. }
  assert (Hu : In g (undos ed)) by (rewrite (C14 g (or_introl Hin)), (C13 g Hin), Esk; cbn; auto).
  rewrite (proj2 (mem_In g (undos ed)) Hu). cbn [negb check]. unfold update_undos. cbn [eng undos set_eng].
  destruct (move_here ed s vs h (S h) (set_minus (undos ed) [g]) TRedo C Hd) as (e' & H1 & H2 & H3 & H4 & H5); [lia| | | |].
  - intros x Hx. apply in_set_minus in Hx. apply C12. tauto.
  - intros x Hx. rewrite in_set_minus. cbn [In]. rewrite (C14 x (or_introl Hx)), (C13 x Hx), Esk. cbn [In]. split; [tauto|].
    intros K. split; [auto|]. intros [->|[]]. auto.
  - intros x Hx. rewrite in_set_minus. cbn [In]. split; [tauto|]. intros K. split; auto. intros [->|[]]. destruct (C10 x Hx). tauto.
  - rewrite H1. cbn [bind]. exists e'. eexists. split; [reflexivity|]. cbn [set_eng eng last_rev_id undo_group_id live_undos cur_undo undos gc_groups force_group this_type last_type in_flight].
    rewrite Nat.add_1_r. split; [auto|]. split; [auto|]. split; [auto|]. split; [auto|]. split; [auto|]. eapply move_undo; eauto.
Qed.

(** ** Collection *)
Lemma core_gc_safe ed s vs h : Core ed s vs h -> gc_safe (revs (eng ed)) (undone_groups (eng ed)) (gc_groups ed).
Proof.
  intros C. pose proof C as [C1 C2 C3 C4 C5 C6 C7 C8 C9 C10 C11 C12 C13 C14 C15 C16 C17].
  intros l1 id mx p g ins del l2 El _ Hg Hu _ r Hr. destruct (r_edit r) as [p' k ins' del'|] eqn:Er; auto.
  apply mem_In in Hg. apply mem_false in Hu. apply mem_In.
  assert (Hk : In (r_id r, k) (edit_ids (revs (eng ed)))).
  { apply edit_ids_in. exists r, p', ins', del'. split; auto. rewrite El. apply in_or_app. auto. }
  destruct (C16 _ _ Hk) as [K|K]; auto. exfalso. pose proof (C15 g Hg Hu k K) as Hlt.
  rewrite El, edit_ids_app, map_app in C17. apply sorted_app in C17 as (_ & _ & C17).
  assert (k <= g); [|lia]. apply C17.
  - apply in_map_iff. exists (r_id r, k). split; auto. apply edit_ids_in. exists r, p', ins', del'. auto.
  - cbn. auto.
Qed.
Lemma gc_undos_ok ed s vs h : Core ed s vs h -> Head ed -> exists e' s' ed', gc_undos ed = Some ed' /\
  ed' = Editor e' (last_rev_id ed) (undo_group_id ed) (live_undos ed) (cur_undo ed) (undos ed') (gc_groups ed') (force_group ed) (this_type ed) (last_type ed) (in_flight ed) /\
  Core ed' s' vs h /\ Head ed' /\ get_head_rev_id e' = get_head_rev_id (eng ed).
Proof.
  intros C Hd. destruct ed as [e lr gid live cur un gcs f t lt fl].
  unfold gc_undos. cbn [eng last_rev_id undo_group_id live_undos cur_undo undos gc_groups force_group this_type last_type in_flight].
  destruct fl as [|fl]; [destruct gcs as [|g0 gcs0]|]; try (eexists _, s, _; split; [reflexivity|]; cbn [eng undos gc_groups]; auto; fail).
  set (gcs := g0 :: gcs0) in *. pose proof (core_gc_safe _ _ _ _ C) as Hs. cbn [eng gc_groups] in Hs.
  pose proof C as [C1 C2 C3 C4 C5 C6 C7 C8 C9 C10 C11 C12 C13 C14 C15 C16 C17].
  cbn [eng live_undos cur_undo undos gc_groups undo_group_id] in *.
  destruct (tracks_gc e s gcs C2 Hs) as (e' & s' & H1 & H2 & H3 & H4).
  destruct (reachable_inv tok e C1) as (u & n0 & I).
  destruct (gc_inv_ok e u n0 gcs I Hs) as (e1 & ? & ? & R1 & _ & _ & _ & _ & _ & _ & _ & R2 & _). rewrite H1 in R1. injection R1 as <-.
  destruct (C19_head_found tok e C1) as (id & ? & Hid & _).
  pose proof (gc_ids e gcs e' id H1 Hid) as Hids. rewrite H1. cbn [bind].
  exists e', s'. eexists. split; [reflexivity|]. cbn [eng undos gc_groups]. split; [reflexivity|]. 
  assert (Hu : forall i g, In (i, g) (edit_ids (revs e')) -> In (i, g) (edit_ids (revs e)) /\ In g live).
  { intros i g Hg. rewrite Hids in Hg. apply filter_In in Hg as [Hg Hk]. cbn [fst snd] in Hk. split; auto.
    apply orb_true_iff in Hk as [Hk|Hk].
    - apply rev_id_eqb_eq in Hk. subst i. apply (Hd id g); auto.
    - apply negb_true_iff, mem_false in Hk. destruct (C16 i g Hg); tauto. }
  split; [|split; [|auto]].
  - constructor; cbn [eng live_undos cur_undo undos gc_groups undo_group_id]; rewrite ?H3; auto.
    + eapply reach_gc; eauto.
    + intros k Hk. rewrite C6 by auto. unfold undone_at. cbn [eng live_undos]. rewrite H3. symmetry. apply H4.
      intros g Hg. destruct (C10 g Hg) as [_ Hn]. rewrite in_app_iff, filter_In, negb_true_iff, mem_false.
      assert (In g (skipn (S k) live) -> In g live) by apply in_skipn_live. tauto.
    + intros g [].
    + intros g Hg. apply in_set_minus in Hg. apply C12. tauto.
    + intros g [Hg|[]]. rewrite in_set_minus, (C14 g (or_introl Hg)). split; [tauto|]. intros K. split; auto. intros Hn. destruct (C10 g Hn). auto.
    + intros g [].
    + intros i g Hg. apply Hu in Hg. tauto.
    + rewrite Hids. now apply sorted_filter.
  - intros i g Hg _. cbn [eng live_undos] in *. apply Hu in Hg. tauto.
Qed.

(** ** Committing *)
Lemma last_index e id : get_head_rev_id e = Some id -> exists r, In r (revs e) /\ r_id r = id.
Proof.
  unfold get_head_rev_id, last_rev. intros H. destruct (rev (revs e)) as [|r l] eqn:E; cbn [bind] in H; [discriminate|].
  injection H as <-. exists r. split; auto. apply in_rev. rewrite E. cbn. auto.
Qed.
Lemma commit_ok ed head : reachable tok (eng ed) -> get_head_rev_id (eng ed) = Some head -> head <> last_rev_id ed ->
  (exists r, In r (revs (eng ed)) /\ r_id r = last_rev_id ed) ->
  exists d t, commit_delta tok ed = Some (Editor (eng ed) head (undo_group_id ed) (live_undos ed) (cur_undo ed) (undos ed) (gc_groups ed) (force_group ed) (this_type ed) (last_type ed) (in_flight ed), Some (d, t)) /\
    get_rev tok (eng ed) (tok (last_rev_id ed)) = Some (Some t) /\ wf_delta d /\ base_len d = length t /\ apply d t = Some (get_head (eng ed)).
Proof.
  intros Hr Hh Hne (r & Hin & Eid). unfold commit_delta. rewrite Hh. cbn [bind].
  destruct (rev_id_eqb head (last_rev_id ed)) eqn:E; [apply rev_id_eqb_eq in E; congruence|].
  destruct (C12_revisions_readable tok (eng ed) r Hr Hin) as (c & Hc). rewrite Eid in Hc.
  destruct (C13_delta_to_head tok (eng ed) _ c Hr Hc) as (d & H1 & H2 & H3 & H4). rewrite H1, Hc. cbn [bind].
  exists d, c. auto.
Qed.
(** ** One input *)
Definition same_core ed ed' : Prop := eng ed' = eng ed /\ live_undos ed' = live_undos ed /\ cur_undo ed' = cur_undo ed /\
  undos ed' = undos ed /\ gc_groups ed' = gc_groups ed /\ undo_group_id ed' = undo_group_id ed.
Lemma core_same ed ed' s vs h : same_core ed ed' -> Core ed s vs h -> Core ed' s vs h.
Proof.
  intros (E1 & E2 & E3 & E4 & E5 & E6) []. constructor; unfold undone_at in *; rewrite ?E1, ?E2, ?E3, ?E4, ?E5, ?E6; auto.
Qed.
Lemma head_same ed ed' : same_core ed ed' -> Head ed -> Head ed'.
Proof. intros (E1 & E2 & _) H. unfold Head in *. rewrite E1, E2. exact H. Qed.
Ltac same := repeat (split; [reflexivity|]); reflexivity.

Definition clean ed : Prop := get_head_rev_id (eng ed) = Some (last_rev_id ed).
Lemma found_ok ed e' : clean ed -> (exists r, revs e' = revs (eng ed) ++ [r]) -> exists r, In r (revs e') /\ r_id r = last_rev_id ed.
Proof.
  intros H (r & E). apply last_index in H as (x & Hx & Ex). exists x. split; auto. rewrite E. apply in_or_app. auto.
Qed.
Lemma fresh_head ed : reachable tok (eng ed) -> clean ed -> next_rev_id (eng ed) <> last_rev_id ed.
Proof.
  intros Hr H E. destruct (reachable_inv tok (eng ed) Hr) as (u & n0 & I). apply last_index in H as (x & Hx & Ex).
  apply (next_id_fresh (eng ed) (i_ids _ _ _ I)). rewrite E, <- Ex. now apply in_map.
Qed.

Lemma update_plugins_ok ed s vs h n : Core ed s vs h -> Head ed -> exists ed' s', update_plugins ed n = Some ed' /\
  Core ed' s' vs h /\ Head ed' /\ get_head_rev_id (eng ed') = get_head_rev_id (eng ed) /\ last_rev_id ed' = last_rev_id ed /\
  this_type ed' = Other /\ last_type ed' = this_type ed /\ force_group ed' = force_group ed /\ in_flight ed' = in_flight ed + n.
Proof.
  intros C Hd. unfold update_plugins, dec_revs_in_flight. cbn [add_in_flight in_flight].
  replace (in_flight ed + S n) with (S (in_flight ed + n)) by lia.
  cbn [eng last_rev_id undo_group_id live_undos cur_undo undos gc_groups force_group this_type last_type in_flight].
  match goal with |- context [gc_undos ?x] => destruct (gc_undos_ok x s vs h) as (e' & s' & ed' & H1 & H2 & H3 & H4 & H5) end.
  - eapply core_same; [|exact C]. same.
  - eapply head_same; [|exact Hd]. same.
  - rewrite H1. cbn [bind]. exists (update_edit_type ed'), s'. split; [reflexivity|]. split; [eapply core_same; [|exact H3]; same|].
    split; [eapply head_same; [|exact H4]; same|]. rewrite H2. cbn [update_edit_type eng last_rev_id this_type last_type force_group in_flight]. rewrite H5. auto 10.
Qed.
Lemma after_edit_ok ed s vs h n head : Core ed s vs h -> Head ed -> get_head_rev_id (eng ed) = Some head -> head <> last_rev_id ed ->
  (exists r, In r (revs (eng ed)) /\ r_id r = last_rev_id ed) ->
  exists ed' s' d t, after_edit tok ed n = Some (ed', Some (d, t)) /\
    Core ed' s' vs h /\ Head ed' /\ clean ed' /\
    this_type ed' = Other /\ last_type ed' = this_type ed /\ force_group ed' = force_group ed /\ in_flight ed' = in_flight ed + n /\
    get_rev tok (eng ed) (tok (last_rev_id ed)) = Some (Some t) /\ wf_delta d /\ base_len d = length t /\ apply d t = Some (get_head (eng ed)).
Proof.
  intros C Hd Hh Hne Hf. destruct (commit_ok ed head (c_reach _ _ _ _ C) Hh Hne Hf) as (d & t & H1 & H2).
  unfold after_edit. rewrite H1. cbn [bind]. match goal with |- context [update_plugins ?x _] => set (ed1 := x) in * end.
  destruct (update_plugins_ok ed1 s vs h n) as (ed' & s' & K1 & K2 & K3 & K4 & K5 & K6 & K7 & K8 & K9).
  - eapply core_same; [|exact C]. same.
  - eapply head_same; [|exact Hd]. same.
  - rewrite K1. cbn [bind]. exists ed', s', d, t. split; [reflexivity|]. split; [auto|]. split; [auto|]. split.
    { unfold clean. rewrite K4, K5. exact Hh. }
    auto 10.
Qed.
Lemma after_edit_clean ed n : clean ed -> after_edit tok ed n = Some (ed, None).
Proof.
  intros H. unfold after_edit, commit_delta. rewrite H. cbn [bind]. now rewrite (proj2 (rev_id_eqb_eq _ _) eq_refl).
Qed.

(** What the user sees is what the timeline says. *)
Definition Sim ed (sp : timeline A) : Prop :=
  (exists s, Core ed s (versions sp) (here sp)) /\ Head ed /\ length (versions sp) <= 20 /\ clean ed /\
  this_type ed = Other /\ last_type ed = kind sp /\ force_group ed = false /\ in_flight ed = pending sp /\
  (S (here sp) < length (versions sp) -> kind sp = TUndo \/ kind sp = TRedo \/ kind sp = Other).

Lemma keep_app (x : list (list A)) c : keep_twenty (x ++ [c]) = skipn (length x + 1 - 20) x ++ [c].
Proof.
  unfold keep_twenty. rewrite app_length. cbn [length]. rewrite skipn_app.
  replace (length x + 1 - 20 - length x) with 0 by lia. reflexivity.
Qed.
Lemma keep_amend (x : list (list A)) c t : removelast (keep_twenty (x ++ [c])) ++ [t] = keep_twenty (x ++ [t]).
Proof. rewrite !keep_app, removelast_last. reflexivity. Qed.
Lemma keep_len (x : list (list A)) c : 0 < length (keep_twenty (x ++ [c])).
Proof. rewrite keep_app, app_length. cbn [length]. lia. Qed.
Lemma keep_nth (x : list (list A)) c : nth (length (keep_twenty (x ++ [c])) - 1) (keep_twenty (x ++ [c])) [] = c.
Proof. rewrite keep_app, app_length. cbn [length]. rewrite app_nth2 by lia. now rewrite Nat.add_sub, Nat.sub_diag. Qed.

Lemma breaks_ok b k : b <> TUndo -> b <> TRedo -> breaks_undo_group b k = negb (groups_with b k).
Proof. destruct b, k; intros H1 H2; try reflexivity; congruence. Qed.
Lemma groups_kind b k : groups_with b k = true -> k <> TUndo /\ k <> TRedo /\ k <> Other.
Proof. destruct b, k; cbn; intros; repeat split; discriminate. Qed.

(** Recording an edit, by the newest group or by a new one. *)
Lemma add_delta_ok ed s vs h d t' : Core ed s vs h -> length vs <= 20 -> clean ed -> wf_delta d ->
  edited d (nth h vs []) = Some t' ->
  (if force_group ed || negb (breaks_undo_group (this_type ed) (last_type ed)) then S h = length vs else True) ->
  let vs' := if force_group ed || negb (breaks_undo_group (this_type ed) (last_type ed)) then removelast vs ++ [t']
             else keep_twenty (firstn (S h) vs ++ [t']) in
  exists ed' s', add_delta tok ed d = Some ed' /\ Core ed' s' vs' (length vs' - 1) /\ Head ed' /\ length vs' <= 20 /\
    get_head_rev_id (eng ed') = Some (next_rev_id (eng ed)) /\ (exists r, revs (eng ed') = revs (eng ed) ++ [r]) /\
    move tok (eng ed) (eng ed') /\
    last_rev_id ed' = last_rev_id ed /\ force_group ed' = force_group ed /\ this_type ed' = this_type ed /\ last_type ed' = this_type ed /\ in_flight ed' = in_flight ed.
Proof.
  intros C Hm Hc W Ht Hj. cbv zeta. unfold add_delta. unfold clean in Hc. rewrite Hc. cbn [bind].
  assert (Mv : forall p g e e', edit_rev tok e p g (tok (last_rev_id ed)) d = Some e' -> move tok e e').
  { intros p g e e' H. unfold edit_rev in H. destruct (try_edit_rev tok e p g _ d) as [[e1 r]|] eqn:E; cbn [bind snd fst] in H; [|discriminate].
    apply (move_edit tok e p g (tok (last_rev_id ed)) d e' r W). destruct r; congruence. }
  destruct (force_group ed || negb (breaks_undo_group (this_type ed) (last_type ed))) eqn:Ej.
  - assert (calculate_undo_group ed = Some (ed, last (live_undos ed) 0)) as ->.
    { unfold calculate_undo_group. rewrite Ej. pose proof (c_len _ _ _ _ C) as L. destruct (live_undos ed); [cbn in L; lia|reflexivity]. }
    cbn [bind]. change (eng (set_last_type ed (this_type ed))) with (eng ed).
    destruct (edit_newest ed s vs h d (last_rev_id ed) t' (N.to_nat 65536) C Hj W Hc Ht) as (e' & s' & H1 & H2 & H3 & H4 & H5).
    rewrite H1. cbn [bind]. eexists _, s'. split; [reflexivity|].
    assert (L : length (removelast vs ++ [t']) = length vs).
    { apply amend_len. lia. }
    rewrite L. replace (length vs - 1) with h by lia.
    split; [eapply core_same; [|exact H2]; same|]. split; [eapply head_same; [|exact H3]; same|].
    split; [auto|]. split; [auto|]. split; [auto|]. split; [eapply Mv; eauto|]. auto 10.
  - apply orb_false_iff in Ej as [Ef Eb]. apply negb_false_iff in Eb.
    destruct (new_group ed s vs h C Hm Ef Eb) as (ed1 & G1 & G2 & G3 & G4 & G5 & G6 & G7 & G8 & G9 & G10). rewrite G1. cbn [bind].
    set (vs1 := keep_twenty (firstn (S h) vs ++ [nth h vs []])) in *.
    change (eng (set_last_type ed1 (this_type ed1))) with (eng ed1).
    destruct (edit_newest ed1 s vs1 (length vs1 - 1) d (last_rev_id ed) t' (N.to_nat 65536) G2) as (e' & s' & H1 & H2 & H3 & H4 & H5).
    + pose proof (keep_len (firstn (S h) vs) (nth h vs [])). fold vs1 in H. lia.
    + auto.
    + congruence.
    + unfold vs1. now rewrite keep_nth.
    + rewrite G4 in H1. rewrite H1. cbn [bind]. eexists _, s'. split; [reflexivity|]. unfold vs1 in H2. rewrite keep_amend in H2.
      assert (L : length (keep_twenty (firstn (S h) vs ++ [t'])) = length vs1).
      { unfold vs1. rewrite !keep_app, !app_length. reflexivity. }
      rewrite L. split; [eapply core_same; [|exact H2]; same|]. split; [eapply head_same; [|exact H3]; same|].
      split; [auto|]. rewrite G5 in *. split; [auto|]. split; [auto|]. split; [eapply Mv; eauto|].
      cbn [set_eng set_last_type last_rev_id force_group this_type last_type in_flight]. auto 10.
Qed.

(** What a committed input tells the views: the change from the text before it to the text after it. *)
Definition reports (r : option (delta A * list A)) (before after : list A) : Prop :=
  match r with Some (d, t) => t = before /\ wf_delta d /\ base_len d = length before /\ apply d before = Some after | None => after = before end.

Lemma reports_ok e e1 id t : reachable tok e -> move tok e e1 -> get_head_rev_id e = Some id -> distinct_tokens tok e1 ->
  get_rev tok e1 (tok id) = Some (Some t) -> t = get_head e.
Proof.
  intros Hr Hm Hid Hd Hg. pose proof (C12_head_revision tok e id Hr Hid) as K.
  pose proof (C12_revisions_stable tok e e1 _ _ Hr (moves_step tok _ _ _ (moves_refl tok e) Hm) Hd K) as K2. congruence.
Qed.

Lemma event_ok ed sp ev n sp' : Sim ed sp -> proper_event ev -> live sp (IEvent ev n) = Some sp' ->
  exists ed' r, do_edit tok ed ev n = Some (ed', r) /\ Sim ed' sp' /\
    (forall ed1, dispatch_event tok ed ev = Some ed1 -> distinct_tokens tok (eng ed1) -> reports r (get_buffer ed) (get_buffer ed')).
Proof.
  intros ((s & C) & Hd & Hm & Hc & Ht & Hk & Hf & Hp & Hu) P H. unfold do_edit.
  destruct ev as [b a d| | |]; cbn [live] in H.
  - destruct P as (W & P1 & P2). destruct (edited d (on_screen sp)) as [t'|] eqn:Ed; cbn [bind] in H; [|discriminate]. injection H as <-.
    assert (C0 : Core (set_this_type ed b) s (versions sp) (here sp)) by (eapply core_same; [|exact C]; same).
    assert (Hj : force_group (set_this_type ed b) || negb (breaks_undo_group (this_type (set_this_type ed b)) (last_type (set_this_type ed b))) = groups_with b (kind sp)).
    { cbn [set_this_type force_group this_type last_type]. rewrite Hf, Hk, breaks_ok by auto. now rewrite negb_involutive. }
    destruct (add_delta_ok (set_this_type ed b) s (versions sp) (here sp) d t' C0 Hm Hc W Ed) as (ed1 & s1 & H1 & H2 & H3 & H4 & H5 & H6 & H7 & H8 & H9 & H10 & H11 & H12).
    { rewrite Hj. destruct (groups_with b (kind sp)) eqn:Eg; auto. apply groups_kind in Eg as (G1 & G2 & G3).
      pose proof (c_h _ _ _ _ C). destruct (Nat.eq_dec (S (here sp)) (length (versions sp))); auto. destruct (Hu ltac:(lia)) as [?|[?|?]]; congruence. }
    rewrite Hj in H2, H4. cbn [dispatch_event]. rewrite H1. cbn [bind].
    set (vs' := if groups_with b (kind sp) then _ else _) in *.
    cbn [set_this_type eng last_rev_id force_group in_flight] in *.
    destruct (after_edit_ok (set_this_type ed1 a) s1 vs' (length vs' - 1) n (next_rev_id (eng ed))) as (ed2 & s2 & d2 & t2 & K1 & K2 & K3 & K4 & K5 & K6 & K7 & K8 & K9 & K10 & K11 & K12).
    + eapply core_same; [|exact H2]; same.
    + eapply head_same; [|exact H3]; same.
    + exact H5.
    + cbn [set_this_type last_rev_id]. rewrite H8. apply fresh_head; auto. apply C.
    + cbn [set_this_type eng last_rev_id]. rewrite H8. apply found_ok; auto.
    + rewrite K1. exists ed2. eexists. split; [reflexivity|]. split.
      * set (sp1 := tell (set_kind (if groups_with b (kind sp) then amend sp t' else push sp t') a) n).
        assert (V1 : versions sp1 = vs') by (unfold sp1, vs', tell, set_kind, amend, push; cbn [versions]; destruct (groups_with b (kind sp)); reflexivity).
        assert (Hh1 : here sp1 = length vs' - 1).
        { unfold sp1, vs', tell, set_kind, amend, push; cbn [here versions]. destruct (groups_with b (kind sp)) eqn:Eg; [|reflexivity].
          cbn [here]. apply groups_kind in Eg as (G1 & G2 & G3). pose proof (c_h _ _ _ _ C) as Hlt.
          rewrite amend_len by lia.
          destruct (Nat.eq_dec (S (here sp)) (length (versions sp))); [lia|]. destruct (Hu ltac:(lia)) as [?|[?|?]]; congruence. }
        unfold Sim. rewrite V1, Hh1. split; [eauto|]. split; [auto|]. split; [auto|]. split; [auto|]. split; [auto|].
        split; [rewrite K6; unfold sp1; destruct (groups_with b (kind sp)); reflexivity|].
        split; [rewrite K7; cbn [set_this_type force_group]; congruence|].
        split; [rewrite K8; cbn [set_this_type in_flight]; unfold sp1; destruct (groups_with b (kind sp)); cbn [tell set_kind amend push pending]; congruence|].
        pose proof (c_h _ _ _ _ H2). lia.
      * intros ed0 [= <-] Hdis. cbn [set_this_type eng last_rev_id] in *. rewrite H8 in K9. unfold reports, get_buffer.
        assert (t2 = get_head (eng ed)) as -> by (eapply reports_ok; eauto; apply C).
        rewrite (core_text _ _ _ _ K2). rewrite <- (core_text _ _ _ _ H2). auto.
  - injection H as <-. cbn [dispatch_event bind]. rewrite after_edit_clean by exact Hc. eexists _, _. split; [reflexivity|].
    split.
    + unfold Sim. cbn [set_kind versions here kind pending update_edit_type force_group in_flight this_type last_type eng last_rev_id].
      split; [exists s; eapply core_same; [|exact C]; same|]. split; [eapply head_same; [|exact Hd]; same|]. auto 10.
    + intros ed1 _ _. reflexivity.
  - cbn [dispatch_event]. destruct (0 <? here sp) eqn:E0; injection H as <-.
    + destruct sp as [vs h k p]. cbn [versions here kind pending] in *. destruct h as [|h]; [discriminate|].
      destruct (do_undo_ok ed s vs h C Hd) as (e' & ed1 & H1 & H2 & H3 & H4 & H5 & H6 & H7). rewrite H1. cbn [bind].
      destruct (after_edit_ok ed1 s vs h n (next_rev_id (eng ed)) H3 H4) as (ed2 & s2 & d2 & t2 & K1 & K2 & K3 & K4 & K5 & K6 & K7 & K8 & K9 & K10 & K11 & K12).
      * rewrite H2. exact H5.
      * rewrite H2. cbn [last_rev_id]. apply fresh_head; auto. apply C.
      * rewrite H2. cbn [last_rev_id eng]. apply found_ok; auto.
      * rewrite K1. eexists _, _. split; [reflexivity|]. replace (S h - 1) with h by lia. split.
        { unfold Sim. cbn [versions here kind pending]. split; [eauto|]. split; [auto|]. split; [auto|]. split; [auto|]. split; [auto|].
          rewrite K6, K7, K8, H2. cbn [this_type force_group in_flight]. rewrite Hp. auto 10. }
        { intros ed0 [= <-] Hdis. rewrite H2 in K9, Hdis. cbn [eng last_rev_id] in *. unfold reports, get_buffer.
          assert (t2 = get_head (eng ed)) as -> by (eapply reports_ok; eauto; apply C).
          rewrite (core_text _ _ _ _ K2). rewrite <- (core_text _ _ _ _ H3). auto. }
    + assert (do_undo ed = Some ed) as ->.
      { unfold do_undo. rewrite (c_cur _ _ _ _ C). replace (1 <? S (here sp)) with false by lia. reflexivity. }
      cbn [bind]. rewrite after_edit_clean by exact Hc. eexists _, _. split; [reflexivity|]. split; [|reflexivity].
      unfold Sim. eauto 12.
  - cbn [dispatch_event]. destruct (S (here sp) <? length (versions sp)) eqn:E0; injection H as <-.
    + destruct sp as [vs h k p]. cbn [versions here kind pending] in *.
      destruct (do_redo_ok ed s vs h C ltac:(lia) Hd) as (e' & ed1 & H1 & H2 & H3 & H4 & H5 & H6 & H7). rewrite H1. cbn [bind].
      destruct (after_edit_ok ed1 s vs (S h) n (next_rev_id (eng ed)) H3 H4) as (ed2 & s2 & d2 & t2 & K1 & K2 & K3 & K4 & K5 & K6 & K7 & K8 & K9 & K10 & K11 & K12).
      * rewrite H2. exact H5.
      * rewrite H2. cbn [last_rev_id]. apply fresh_head; auto. apply C.
      * rewrite H2. cbn [last_rev_id eng]. apply found_ok; auto.
      * rewrite K1. eexists _, _. split; [reflexivity|]. split.
        { unfold Sim. cbn [versions here kind pending]. split; [eauto|]. split; [auto|]. split; [auto|]. split; [auto|]. split; [auto|].
          rewrite K6, K7, K8, H2. cbn [this_type force_group in_flight]. rewrite Hp. auto 10. }
        { intros ed0 [= <-] Hdis. rewrite H2 in K9, Hdis. cbn [eng last_rev_id] in *. unfold reports, get_buffer.
          assert (t2 = get_head (eng ed)) as -> by (eapply reports_ok; eauto; apply C).
          rewrite (core_text _ _ _ _ K2). rewrite <- (core_text _ _ _ _ H3). auto. }
    + assert (do_redo ed = Some ed) as ->.
      { unfold do_redo. rewrite (c_cur _ _ _ _ C). pose proof (c_len _ _ _ _ C). replace (S (here sp) <? length (live_undos ed)) with false by lia. reflexivity. }
      cbn [bind]. rewrite after_edit_clean by exact Hc. eexists _, _. split; [reflexivity|]. split; [|reflexivity].
      unfold Sim. eauto 12.
Qed.
Lemma play_events_ok evs : forall ed s (sp sp' : timeline A), Core ed s (versions sp) (here sp) -> length (versions sp) <= 20 ->
  S (here sp) = length (versions sp) -> force_group ed = true -> clean ed -> Forall proper_event evs -> amend_all sp evs = Some sp' ->
  exists ed' s' l, play_events tok ed evs = Some ed' /\ Core ed' s' (versions sp') (here sp') /\ length (versions sp') <= 20 /\
    S (here sp') = length (versions sp') /\ (has_edit evs = true \/ Head ed -> Head ed') /\ clean ed' /\
    revs (eng ed') = revs (eng ed) ++ l /\ in_flight ed' = in_flight ed /\ pending sp' = pending sp.
Proof.
  induction evs as [|ev evs IH]; intros ed s sp sp' C Hm Hs Hf Hc P H; cbn [amend_all play_events] in *.
  - injection H as <-. exists ed, s, []. split; [auto|]. split; [auto|]. split; [auto|]. split; [auto|].
    split; [intros [K|K]; [discriminate|auto]|]. split; [auto|]. rewrite app_nil_r. auto.
  - inversion P as [|x y P1 P2]; subst x y. destruct ev as [b a d| | |]; try discriminate.
    + destruct P1 as (W & _). destruct (edited d (on_screen sp)) as [t'|] eqn:Ed; cbn [bind] in H; [|discriminate].
      assert (C0 : Core (set_this_type ed b) s (versions sp) (here sp)) by (eapply core_same; [|exact C]; same).
      assert (Hj : force_group (set_this_type ed b) || negb (breaks_undo_group (this_type (set_this_type ed b)) (last_type (set_this_type ed b))) = true).
      { cbn [set_this_type force_group]. now rewrite Hf. }
      destruct (add_delta_ok (set_this_type ed b) s (versions sp) (here sp) d t' C0 Hm Hc W Ed) as (ed1 & s1 & H1 & H2 & H3 & H4 & H5 & H6 & H7 & H8 & H9 & H10 & H11 & H12).
      { rewrite Hj. auto. }
      rewrite Hj in H2, H4. cbn [dispatch_event]. rewrite H1. cbn [bind]. cbn [set_this_type eng last_rev_id force_group in_flight] in *.
      destruct (commit_ok (set_this_type ed1 a) (next_rev_id (eng ed))) as (d2 & t2 & K1 & _).
      * apply (c_reach _ _ _ _ H2).
      * exact H5.
      * cbn [set_this_type last_rev_id]. rewrite H8. apply fresh_head; auto. apply C.
      * cbn [set_this_type eng last_rev_id]. rewrite H8. apply found_ok; auto.
      * rewrite K1. cbn [bind]. match goal with |- context [play_events tok ?x evs] => set (ed2 := x) in * end.
        rewrite amend_len in H2, H4 by lia.
        destruct (IH ed2 s1 (amend sp t') sp') as (ed' & s' & l & J1 & J2 & J3 & J4 & J5 & J6 & J7 & J8 & J9); auto.
        -- cbn [amend versions here]. replace (here sp) with (length (versions sp) - 1) by lia. eapply core_same; [|exact H2]; same.
        -- cbn [amend versions]. rewrite amend_len; lia.
        -- cbn [amend versions here]. rewrite amend_len; lia.
        -- exact (eq_trans H9 Hf).
        -- destruct H6 as (r & H6). exists ed', s', (r :: l). split; [auto|]. split; [auto|]. split; [auto|]. split; [auto|].
           split. { intros _. apply J5. right. eapply head_same; [|exact H3]; same. }
           split; [auto|]. split; [rewrite J7; cbn [ed2 eng set_this_type]; rewrite H6, <- app_assoc; reflexivity|].
           split; [rewrite J8; exact H12|exact J9].
    + cbn [dispatch_event bind]. unfold commit_delta. cbn [update_edit_type eng last_rev_id]. unfold clean in Hc. rewrite Hc. cbn [bind].
      rewrite (proj2 (rev_id_eqb_eq _ _) eq_refl). cbn [bind].
      destruct (IH (update_edit_type ed) s sp sp') as (ed' & s' & l & J1 & J2 & J3 & J4 & J5 & J6 & J7 & J8 & J9); auto.
      * eapply core_same; [|exact C]; same.
      * exists ed', s', l. split; [auto|]. split; [auto|]. split; [auto|]. split; [auto|]. split; [|auto].
        intros [K|K]; apply J5; auto.
Qed.

Lemma input_ok ed sp i sp' : Sim ed sp -> proper i -> live sp i = Some sp' ->
  exists ed', run_input tok ed i = Some ed' /\ Sim ed' sp'.
Proof.
  intros S0 P H. destruct i as [ev n|evs n|].
  - destruct (event_ok ed sp ev n sp' S0 P H) as (ed' & r & H1 & H2 & _). cbn [run_input]. rewrite H1. cbn [bind fst]. eauto.
  - cbn [live proper] in *. destruct (has_edit evs) eqn:Ee; cbn [check] in H; [|discriminate].
    destruct (amend_all (push sp (on_screen sp)) evs) as [sp1|] eqn:Ea; cbn [bind] in H; [|discriminate]. injection H as <-.
    destruct S0 as ((s & C) & Hd & Hm & Hc & Ht & Hk & Hf & Hp & Hu). cbn [run_input]. unfold play_recording. pose proof Hc as Hc0. unfold clean in Hc0. rewrite Hc0. cbn [bind].
    destruct (new_group (update_edit_type ed) s (versions sp) (here sp)) as (ed1 & G1 & G2 & G3 & G4 & G5 & G6 & G7 & G8 & G9 & G10).
    { eapply core_same; [|exact C]; same. }
    { auto. } { auto. }
    { cbn [update_edit_type this_type last_type]. reflexivity. }
    rewrite G1. cbn [bind]. fold (on_screen sp) in *.
    destruct (play_events_ok evs (set_force_group ed1 true) s (push sp (on_screen sp)) sp1) as (ed2 & s2 & l & J1 & J2 & J3 & J4 & J5 & J6 & J7 & J8 & J9); auto.
    { cbn [push versions here]. eapply core_same; [|exact G2]; same. }
    { cbn [push versions here]. pose proof (keep_len (firstn (S (here sp)) (versions sp)) (on_screen sp)). lia. }
    { unfold clean. cbn [set_force_group eng last_rev_id]. rewrite G5, G6. exact Hc. }
    rewrite J1. cbn [bind]. cbn [update_edit_type set_force_group eng] in *.
    destruct (last_index _ _ Hc) as (r0 & R1 & R2).
    destruct (C12_revisions_readable tok (eng ed2) r0) as (c0 & Rc). { apply J2. } { rewrite J7, G5. cbn [update_edit_type eng]. apply in_or_app. auto. }
    rewrite R2 in Rc. destruct (C13_delta_to_head tok (eng ed2) _ c0 (c_reach _ _ _ _ J2) Rc) as (d0 & Dd & _). rewrite Dd. cbn [bind].
    match goal with |- context [update_plugins ?x n] => set (ed3 := x) in * end.
    destruct (update_plugins_ok ed3 s2 (versions sp1) (here sp1) n) as (ed4 & s4 & K1 & K2 & K3 & K4 & K5 & K6 & K7 & K8 & K9).
    { eapply core_same; [|exact J2]; same. }
    { eapply head_same; [|exact (J5 (or_introl Ee))]; same. }
    rewrite K1. cbn [bind]. assert (Hc4 : clean ed4) by (unfold clean; rewrite K4, K5; exact J6).
    rewrite after_edit_clean by exact Hc4. cbn [bind fst]. exists ed4. split; [auto|].
    unfold Sim. cbn [tell set_kind versions here kind pending]. split; [eauto|]. split; [auto|]. split; [auto|]. split; [auto|]. split; [auto|].
    split; [exact K7|]. split; [exact K8|]. split; [|lia].
    rewrite K9. cbn [ed3 update_edit_type set_force_group in_flight] in *. rewrite J9. cbn [push pending]. lia.
  - cbn [live] in H. destruct (pending sp) as [|p] eqn:Ep; [discriminate|]. injection H as <-.
    destruct S0 as ((s & C) & Hd & Hm & Hc & Ht & Hk & Hf & Hp & Hu). cbn [run_input]. unfold do_plugin_update, dec_revs_in_flight. rewrite Hp, Ep.
    match goal with |- context [gc_undos ?x] => destruct (gc_undos_ok x s (versions sp) (here sp)) as (e' & s' & ed' & H1 & H2 & H3 & H4 & H5) end.
    { eapply core_same; [|exact C]; same. }
    { eapply head_same; [|exact Hd]; same. }
    exists ed'. split; [exact H1|]. unfold Sim. cbn [versions here kind pending]. split; [eauto|]. split; [auto|]. split; [auto|].
    cbn [eng last_rev_id undo_group_id live_undos cur_undo undos gc_groups force_group this_type last_type in_flight] in *.
    split. { unfold clean. rewrite H2. cbn [eng last_rev_id]. rewrite H5. exact Hc. }
    rewrite H2. cbn [this_type last_type force_group in_flight]. auto 10.
Qed.
Lemma inputs_ok l : forall ed sp sp', Sim ed sp -> Forall proper l -> live_all sp l = Some sp' ->
  exists ed', run_inputs tok ed l = Some ed' /\ Sim ed' sp'.
Proof.
  induction l as [|i l IH]; intros ed sp sp' S0 P H; cbn [live_all run_inputs] in *.
  - injection H as <-. eauto.
  - inversion P as [|x y P1 P2]; subst x y. destruct (live sp i) as [sp1|] eqn:E; cbn [bind] in H; [|discriminate].
    destruct (input_ok ed sp i sp1 S0 P1 E) as (ed1 & H1 & S1). rewrite H1. cbn [bind]. eauto.
Qed.
Lemma opened_ok (t : list A) : exists ed, with_text tok t = Some ed /\ Sim ed (opened t).
Proof.
  destruct (tracks_new tok t) as (e & E & U & T). unfold with_text. rewrite E. cbn [bind].
  assert (R : reachable tok e) by (eapply reach_new; eauto).
  destruct (C19_head_found tok e R) as (id & i & Hid & _). rewrite Hid. cbn [bind]. eexists. split; [reflexivity|].
  assert (Hids : forall i0 g, In (i0, g) (edit_ids (revs e)) -> g = 0).
  { unfold engine_new in E. destruct empty_engine as [e0|] eqn:E0; cbn [bind] in E; [|discriminate].
    assert (Em : edit_ids (revs e0) = []) by (cbn in E0; injection E0 as <-; reflexivity).
    destruct t as [|x t]; [injection E as <-; rewrite Em; contradiction|].
    destruct (@empty_inv A) as (e00 & E00 & I & _ & Ht & _ & Hh & _). rewrite E0 in E00. injection E00 as <-.
    rewrite Hh in E. cbn [bind] in E. destruct (simple_edit _ _ _ _) as [d|] eqn:Es; cbn [bind] in E; [|discriminate].
    unfold edit_rev in E. match type of E with context [try_edit_rev tok e0 ?p ?g ?t' d] => destruct (try_edit_rev tok e0 p g t' d) as [[e1 [[]|er]]|] eqn:Et end; cbn [bind snd fst] in E; try discriminate.
    injection E as ->. intros i0 g Hg.
    destruct (builder_ok (@nil A) [(0, 0, x :: t)]) as (b & Eb & J1 & _); [cbn; lia|].
    change (simple_edit 0 0 (x :: t) 0) with (simple_edit 0 0 (x :: t) (length (@nil A))) in Es. rewrite simple_edit_builder, Eb in Es. cbn [bind] in Es. injection Es as <-.
    assert (R0 : reachable tok e0) by (apply (reach_new tok []); unfold engine_new; now rewrite E0).
    destruct (edit_ids_edit e0 _ _ _ _ e R0 J1 Et) as [Hi _]. rewrite Hi, Em in Hg. destruct Hg as [[= _ <-]|[]]. reflexivity. }
  assert (Hor : StronglySorted le (map snd (edit_ids (revs e)))).
  { revert Hids. induction (edit_ids (revs e)) as [|[i0 g0] l IH]; intros K; cbn [map]; constructor.
    - apply IH. intros a b Hab. apply (K a b). cbn. auto.
    - apply Forall_forall. intros y Hy. apply in_map_iff in Hy as ([a b] & <- & Hy). cbn [snd].
      rewrite (K i0 g0) by (cbn; auto). lia. }
  unfold Sim. cbn [opened versions here kind pending this_type last_type force_group in_flight length].
  split.
  { eexists. constructor; cbn [eng live_undos cur_undo undos gc_groups undo_group_id length]; rewrite ?U; auto.
    - exact T.
    - intros k Hk. assert (k = 0) as -> by lia. unfold undone_at. cbn [eng live_undos]. rewrite U. cbn [skipn filter app nth].
      destruct (C11_new tok t) as (e2 & E2 & H2). rewrite E in E2. injection E2 as <-. transitivity (get_head e); [auto|]. now rewrite (tracks_head _ _ T), U.
    - repeat constructor.
    - intros g [<-|[]]. lia.
    - intros g [].
    - intros g [].
    - intros g [].
    - intros g Hg. cbn. tauto.
    - intros g Hg. reflexivity.
    - intros g [].
    - intros i0 g Hg. left. apply Hids in Hg. cbn. auto. }
  split; [intros i0 g Hg _; apply Hids in Hg; cbn; auto|]. split; [lia|]. split; [exact Hid|]. repeat (split; [reflexivity|]). lia.
Qed.
End Proofs.
