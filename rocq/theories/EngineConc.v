(** Concurrent edits and provenance of characters. *)
From Coq Require Import List Arith Bool Lia ZifyBool.
From Verif Require Import Base ListLib MultisetModel MultisetSpec MultisetProofs SpreadFacts
  DeltaModel DeltaSpec ExpandProofs SynthProofs DeltaProofs DeltaProofs2 RebaseFacts
  EngineModel EngineSpec EngineFacts EngineInv EngineGc EngineGc2 EngineHist.
Import ListNotations.

(** ** Cells *)
Section Cells.
Context {A : Type}.
Implicit Types (w : list (option A)) (u : list A).

Fixpoint mkcells u (cb c : list nat) : list (cell A) :=
  match u, cb, c with
  | x :: u', b :: cb', h :: c' => Cell x (b =? 0) (h =? 0) :: mkcells u' cb' c'
  | _, _, _ => []
  end.
Fixpoint weave w (al : list (cell A)) (dl : list nat) : list (ncell A) :=
  match w with
  | [] => []
  | Some x :: w' => New x :: weave w' al dl
  | None :: w' =>
      match al, dl with
      | c :: al', k :: dl' => Old c (negb (k =? 0)) :: weave w' al' dl'
      | _, _ => []
      end
  end.
Fixpoint bd (k : nat) w (dc : list nat) : list (nat + A) :=
  match w with
  | [] => []
  | Some x :: w' => inr x :: bd k w' dc
  | None :: w' =>
      match dc with [] => [] | c :: dc' => (if c =? 0 then [inl k] else []) ++ bd (S k) w' dc' end
  end.

Lemma mkcells_base u : forall cb c, length cb = length u -> length c = length u -> base_text (mkcells u cb c) = kept cb u.
Proof.
  unfold base_text. induction u as [|x u IH]; intros [|b cb] [|h c]; cbn [length]; intros H1 H2; try lia; auto.
  cbn [mkcells filter kept in_base]. destruct (b =? 0); cbn [map ch]; rewrite IH by lia; reflexivity.
Qed.
Lemma mkcells_head u : forall cb c, length cb = length u -> length c = length u -> head_text (mkcells u cb c) = kept c u.
Proof.
  unfold head_text. induction u as [|x u IH]; intros [|b cb] [|h c]; cbn [length]; intros H1 H2; try lia; auto.
  cbn [mkcells filter kept in_head]. destruct (h =? 0); cbn [map ch]; rewrite IH by lia; reflexivity.
Qed.
Lemma mkcells_between u : forall k cb c, length cb = length u -> length c = length u ->
  head_from_base k (mkcells u cb c) = between k cb c u.
Proof.
  induction u as [|x u IH]; intros k [|b cb] [|h c]; cbn [length]; intros H1 H2; try lia; auto.
  cbn [mkcells head_from_base between in_head in_base ch]. rewrite IH by lia. reflexivity.
Qed.
Lemma mkcells_length u : forall cb c, length cb = length u -> length c = length u -> length (mkcells u cb c) = length u.
Proof. induction u as [|x u IH]; intros [|b cb] [|h c]; cbn; intros H1 H2; try lia. rewrite IH; lia. Qed.

Lemma weave_olds w : forall al dl, keeps w = length al -> length dl = length al -> olds (weave w al dl) = al.
Proof.
  induction w as [|[x|] w IH]; intros al dl H1 H2; cbn [weave olds].
  - destruct al; [auto|discriminate].
  - apply IH; auto.
  - rewrite keeps_None in H1. destruct al as [|c al], dl as [|k dl]; try discriminate. cbn in H1, H2.
    cbn [olds]. rewrite IH by lia. reflexivity.
Qed.

Lemma weave_base w : forall k u cb c dl, keeps w = length u -> length cb = length u -> length c = length u ->
  length dl = length u ->
  base_after k (weave w (mkcells u cb c) dl) = bd k (shrink_script w cb) (kept cb dl).
Proof.
  induction w as [|[x|] w IH]; intros k u cb c dl H1 H2 H3 H4; cbn [weave base_after shrink_script bd]; auto.
  - rewrite keeps_Some_cons in H1. now rewrite IH.
  - rewrite keeps_None in H1. destruct u as [|x u], cb as [|b cb], c as [|h c], dl as [|d dl]; try discriminate.
    cbn [length] in *. cbn [mkcells base_after in_base kept]. destruct (b =? 0).
    + cbn [bd]. rewrite IH by lia. now destruct (d =? 0).
    + apply IH; lia.
Qed.

Lemma bd_app k w1 w2 d1 d2 : keeps w1 = length d1 -> bd k (w1 ++ w2) (d1 ++ d2) = bd k w1 d1 ++ bd (k + length d1) w2 d2.
Proof.
  revert k d1; induction w1 as [|[x|] w1 IH]; intros k d1 H; cbn [app bd].
  - destruct d1; [|discriminate]. cbn [app length bd]. now rewrite Nat.add_0_r.
  - rewrite IH; auto.
  - rewrite keeps_None in H. destruct d1 as [|c d1]; [discriminate|]. cbn [app length] in *. rewrite IH by lia.
    rewrite <- app_assoc. replace (k + S (length d1)) with (S k + length d1) by lia. reflexivity.
Qed.
Lemma bd_Some k (s : list A) w d : bd k (map Some s ++ w) d = map inr s ++ bd k w d.
Proof. induction s; cbn; auto. now f_equal. Qed.
Lemma bd_kept k n : bd k (repeat None n) (repeat 0 n) = map inl (seq k n).
Proof. revert k; induction n; intros; cbn; auto. now f_equal. Qed.
Lemma bd_gone k n : bd k (repeat None n) (repeat 1 n) = [].
Proof. revert k; induction n; intros; cbn; auto. Qed.

Lemma bd_denote l : forall pos n, sorted_copies pos l n ->
  bd pos (ins_script pos l n) (del_counts pos l n) = denote l.
Proof.
  induction l as [|[b e|s] l IH]; intros pos n H; cbn [ins_script del_counts denote sorted_copies] in *.
  - apply bd_gone.
  - destruct H as (H1 & H2 & H3). replace (e - pos) with ((b - pos) + (e - b)) by lia.
    rewrite repeat_app, <- app_assoc. rewrite bd_app by (rewrite keeps_repeat, repeat_length; reflexivity).
    rewrite bd_gone, repeat_length. cbn [app]. rewrite bd_app by (rewrite keeps_repeat, repeat_length; reflexivity).
    rewrite bd_kept, repeat_length. replace (pos + (b - pos)) with b by lia. f_equal.
    replace (b + (e - b)) with e by lia. apply IH. exact H3.
  - rewrite bd_Some. now rewrite IH.
Qed.

Lemma weave_head w : forall u cb c dl, keeps w = length u -> length cb = length u -> length c = length u ->
  length dl = length u ->
  head_after (weave w (mkcells u cb c) dl) =
  kept (zipw Nat.add (spread false c (marks w)) (spread false dl (marks w))) (fill w u).
Proof.
  induction w as [|[x|] w IH]; intros u cb c dl H1 H2 H3 H4; cbn [weave head_after]; auto.
  - rewrite keeps_Some_cons in H1. cbn [marks map spread fill]. rewrite zipw_cons. cbn [Nat.add kept Nat.eqb].
    fold (marks w). now rewrite IH.
  - rewrite keeps_None in H1. destruct u as [|x u], cb as [|b cb], c as [|h c], dl as [|d dl]; try discriminate.
    cbn [length] in *. cbn [mkcells head_after in_head ch marks map spread fill]. rewrite zipw_cons. cbn [kept].
    fold (marks w). rewrite IH by lia. destruct h, d; reflexivity.
Qed.

(** The deleted characters are visible in the base. *)
Definition disj (a b : list nat) : Prop := Forall (fun p => fst p = 0 \/ snd p = 0) (combine a b).
Lemma disj_cons x a y b : disj (x :: a) (y :: b) <-> (x = 0 \/ y = 0) /\ disj a b.
Proof.
  unfold disj. cbn. split.
  - intros H. inversion H; subst. auto.
  - intros [? ?]. constructor; auto.
Qed.
Lemma disj_base dc c : length dc = zeros c -> disj c (spread false dc c).
Proof.
  revert dc; induction c as [|k c IH]; intros dc H; [constructor|]. rewrite zeros_cons in H. destruct k; cbn [Nat.eqb] in H.
  - destruct dc as [|x dc]; [discriminate|]. cbn [spread]. rewrite disj_cons. split; auto.
  - cbn [spread]. rewrite disj_cons. split; auto.
Qed.
Lemma disj_spread m : forall c x, length c = zeros m -> length x = zeros m -> disj c x ->
  disj (spread true c m) (spread false x m).
Proof.
  induction m as [|k m IH]; intros c x H1 H2 Hd; [constructor|]. rewrite zeros_cons in *.
  destruct k; cbn [Nat.eqb Nat.add] in *.
  - destruct c as [|c0 c], x as [|x0 x]; try discriminate. cbn in H1, H2. rewrite disj_cons in Hd.
    cbn [spread]. rewrite disj_cons. split; [tauto|]. apply IH; tauto || lia.
  - cbn [spread]. rewrite disj_cons. split; auto.
Qed.
Lemma weave_deletes w : forall u cb c dl, keeps w = length u -> length cb = length u -> length c = length u ->
  length dl = length u -> disj cb dl -> deletes_base (weave w (mkcells u cb c) dl).
Proof.
  unfold deletes_base. induction w as [|[x|] w IH]; intros u cb c dl H1 H2 H3 H4 Hd; cbn [weave]; [constructor|..].
  - constructor; auto.
  - rewrite keeps_None in H1. destruct u as [|x u], cb as [|b cb], c as [|h c], dl as [|d dl]; try discriminate.
    cbn [length] in *. rewrite disj_cons in Hd. cbn [mkcells]. constructor.
    + destruct (d =? 0) eqn:E; cbn [negb]; auto. cbn [in_base]. lia.
    + apply IH; auto; try lia. tauto.
Qed.

Lemma shrink_rebase_spread after m : forall w c, keeps w = zeros m -> length c = zeros m ->
  shrink_script (rebase_script after w m) (spread true c m) = shrink_script w c.
Proof.
  induction m as [|k m IH]; intros w c H1 H2.
  - cbn [rebase_script spread]. change (zeros []) with 0 in *. destruct c; [auto|discriminate].
  - rewrite zeros_cons in *. destruct k; cbn [Nat.eqb Nat.add rebase_script spread] in *.
    + destruct c as [|c0 c]; [discriminate|]. cbn in H2.
      destruct (span_spec w) as (s & r & -> & -> & [->|(r' & ->)]); rewrite keeps_app, keeps_Some in H1.
      * discriminate.
      * rewrite keeps_None in H1. rewrite !shrink_script_Some. cbn [tl shrink_script]. rewrite IH by lia. reflexivity.
    + destruct after.
      * cbn [shrink_script Nat.eqb]. apply IH; auto.
      * destruct (span_spec w) as (s & r & -> & -> & Hr). rewrite keeps_app, keeps_Some in H1.
        rewrite !shrink_script_Some. cbn [shrink_script Nat.eqb]. rewrite IH by auto. reflexivity.
Qed.

Lemma shrink_rb l p : forall n m w c, chain n l m -> keeps w = n -> length c = n ->
  shrink_script (rb l p w) (carry true l c) = shrink_script w c.
Proof.
  induction l as [|[id mx [pri g ins del|tg bx]] l IH]; intros n m w c Hc H1 H2; cbn [rb carry chain r_edit r_id] in *; auto.
  - destruct Hc as (I1 & I2 & I3 & I4 & I5).
    rewrite (IH _ _ _ _ I5); [|apply keeps_rebase; lia|apply spread_length; lia].
    apply shrink_rebase_spread; lia.
  - destruct Hc as (_ & _ & ?). eapply IH; eauto.
Qed.
End Cells.

Lemma carry_length b l : forall n m c, chain n l m -> length c = n -> length (carry b l c) = m.
Proof.
  induction l as [|[id mx [pri g ins del|tg bx]] l IH]; intros n m c Hc H2; cbn [carry chain r_edit] in *.
  - lia.
  - destruct Hc as (I1 & I2 & I3 & I4 & I5). eapply IH; eauto. apply spread_length; lia.
  - destruct Hc as (_ & _ & ?). eapply IH; eauto.
Qed.
Lemma kept_spread_tf m : forall c x, length c = zeros m -> length x = zeros m ->
  kept (spread true c m) (spread false x m) = kept c x.
Proof.
  induction m as [|k m IH]; intros c x H1 H2; rewrite ?zeros_cons in *; cbn [spread kept].
  - destruct c, x; cbn in *; auto; discriminate.
  - destruct k; cbn [Nat.eqb Nat.add] in *.
    + destruct c as [|c0 c], x as [|x0 x]; try discriminate. cbn in H1, H2. cbn [kept].
      rewrite IH by lia. reflexivity.
    + cbn [spread kept Nat.eqb]. apply IH; auto.
Qed.
Lemma kept_carry l : forall n m c x, chain n l m -> length c = n -> length x = n ->
  kept (carry true l c) (carry false l x) = kept c x.
Proof.
  induction l as [|[id mx [pri g ins del|tg bx]] l IH]; intros n m c x Hc H1 H2; cbn [carry chain r_edit] in *; auto.
  - destruct Hc as (I1 & I2 & I3 & I4 & I5). rewrite (IH _ _ _ _ I5); [|apply spread_length; lia..].
    apply kept_spread_tf; lia.
  - destruct Hc as (_ & _ & ?). eapply IH; eauto.
Qed.
Lemma disj_carry l : forall n m c x, chain n l m -> length c = n -> length x = n -> disj c x ->
  disj (carry true l c) (carry false l x).
Proof.
  induction l as [|[id mx [pri g ins del|tg bx]] l IH]; intros n m c x Hc H1 H2 Hd; cbn [carry chain r_edit] in *; auto.
  - destruct Hc as (I1 & I2 & I3 & I4 & I5). eapply IH; eauto; try (apply spread_length; lia).
    apply disj_spread; auto; lia.
  - destruct Hc as (_ & _ & ?). eapply IH; eauto.
Qed.

Lemma zeros_spread_true m : forall c, length c = zeros m -> zeros (spread true c m) = zeros c.
Proof.
  induction m as [|k m IH]; intros c H; rewrite ?zeros_cons in *; cbn [spread].
  - now destruct c.
  - destruct k; cbn [Nat.eqb Nat.add] in *.
    + destruct c as [|x c]; [discriminate|]. cbn in H. rewrite !zeros_cons. rewrite IH; lia.
    + rewrite zeros_cons. cbn [Nat.eqb]. now rewrite IH.
Qed.
Lemma zeros_carry l : forall n m c, chain n l m -> length c = n -> zeros (carry true l c) = zeros c.
Proof.
  induction l as [|[id mx [pri g ins del|tg bx]] l IH]; intros n m c Hc H; cbn [carry chain r_edit] in *; auto.
  - destruct Hc as (I1 & I2 & I3 & I4 & I5). rewrite (IH _ _ _ I5) by (apply spread_length; lia).
    apply zeros_spread_true. lia.
  - destruct Hc as (_ & _ & ?). eapply IH; eauto.
Qed.

Section Conc.
Context {A : Type} (tok : rev_id -> nat).
Implicit Types (e : engine A) (u : list A).

Theorem concurrent_ok e u n0 t ix : Inv e u n0 -> find_rev_token tok e t = Some ix ->
  let al := mkcells u (cur_counts_at e ix) (flat (deletes_from_union e)) in
  base_text al = kept (cur_counts_at e ix) u /\ head_text al = text e /\
  head_from_base 0 al = between 0 (cur_counts_at e ix) (flat (deletes_from_union e)) u /\
  forall p g d, wf_delta d -> base_len d = zeros (cur_counts_at e ix) ->
    exists e' nl, try_edit_rev tok e p g t d = Some (e', Ok tt) /\
      olds nl = al /\ deletes_base nl /\ base_after 0 nl = denote (els d) /\
      text e' = (if mem g (undone_groups e) then text e else head_after nl).
Proof.
  intros I Hf al. assert (Hi : ix < length (revs e)) by (eapply find_last_lt; eauto).
  pose proof (cur_counts_length e u n0 ix I Hi) as Lb. pose proof (i_len e u n0 I) as LU.
  split; [apply mkcells_base; lia|]. split; [unfold al; rewrite mkcells_head by lia; symmetry; apply I|].
  split; [apply mkcells_between; lia|].
  intros p g d W Hb.
  destruct (for_index_ok e u n0 ix I Hi) as (Dc & _ & _ & FD & Hch). rewrite FD in Hch.
  pose proof (edit_ok tok e u n0 p g t d ix I W Hf) as K. cbv zeta in K.
  set (later := skipn (ix + 1) (revs e)) in *. set (c := counts_at e ix) in *.
  assert (Hb' : base_len d = zeros c).
  { rewrite Hb. unfold cur_counts_at. fold later. fold c.
    eapply zeros_carry; eauto. }
  rewrite <- Hb', Nat.eqb_refl in K.
  set (w0 := rebase_script true (ins_script 0 (els d) (base_len d)) c) in *.
  set (dc := del_counts 0 (els d) (base_len d)) in *.
  set (w := rb later (p, session e) w0) in *.
  set (dl := carry false later (spread false dc c)) in *.
  destruct K as (e' & ins & dels & H1 & H2 & H3 & _ & _ & _ & _ & _ & _ & _ & Eu & ED & _).
  assert (Ldc : length dc = zeros c) by (unfold dc; rewrite del_counts_length by apply W; lia).
  assert (Kis : keeps (ins_script 0 (els d) (base_len d)) = zeros c) by (rewrite ins_script_keeps by apply W; lia).
  assert (Ldl : length dl = length u).
  { unfold dl. eapply carry_length; eauto. apply spread_length. lia. }
  exists e', (weave w al dl). split; [exact H1|].
  assert (La : length al = length u) by (apply mkcells_length; lia).
  split; [apply weave_olds; lia|]. split.
  { apply weave_deletes; try lia. unfold cur_counts_at, dl. fold later. fold c. eapply disj_carry; eauto.
    - apply spread_length; lia.
    - apply disj_base; lia. }
  split.
  - unfold al. rewrite weave_base by lia. unfold cur_counts_at, dl. fold later. fold c.
    unfold w. rewrite (shrink_rb later (p, session e) (length c) (length u)); auto; [|apply keeps_rebase; auto].
    rewrite (kept_carry later (length c) (length u)); auto; [|apply spread_length; lia].
    unfold w0. rewrite shrink_rebase by auto. rewrite kept_spread by auto. unfold dc.
    apply bd_denote. apply W.
  - rewrite (i_text _ _ _ H2), ED. destruct (mem g (undone_groups e)).
    + rewrite kept_spread_true; [|rewrite zeros_marks; lia|rewrite marks_length, fill_length; lia].
      rewrite kept_marks_fill by lia. symmetry. apply I.
    + symmetry. apply weave_head; lia.
Qed.
End Conc.

(** ** Provenance *)
Lemma edit_origins_length g ins : forall o del, length o = zeros ins -> length del = length ins ->
  length (edit_origins g o ins del) = length ins.
Proof.
  induction ins as [|i ins IH]; intros o [|x del] H1 H2; cbn [edit_origins length] in *; auto; try lia.
  rewrite zeros_cons in H1. destruct (i =? 0); cbn [Nat.add] in H1.
  - destruct o as [|c o]; [discriminate|]. cbn in H1. cbn [length]. rewrite IH; lia.
  - cbn [length]. rewrite IH; lia.
Qed.
Definition agrees (U : list nat) (o : list origin) (c : list nat) : Prop :=
  map (visible U) o = map (fun k => k =? 0) c.

Lemma agrees_step U g ins : forall o c del, length o = zeros ins -> length c = zeros ins -> length del = length ins ->
  agrees U o c ->
  agrees U (edit_origins g o ins del)
    (if mem g U then spread true c ins else zipw Nat.add (spread false c ins) del).
Proof.
  unfold agrees. induction ins as [|i ins IH]; intros o c [|x del] H1 H2 H3 Ha; cbn [length] in *; try lia.
  - cbn. destruct (mem g U); reflexivity.
  - rewrite zeros_cons in *. destruct i; cbn [Nat.eqb Nat.add edit_origins] in *.
    + destruct o as [|q o], c as [|k c]; try discriminate. cbn [length map] in *. injection Ha as Ha0 Ha.
      specialize (IH o c del ltac:(lia) ltac:(lia) ltac:(lia) Ha).
      assert (Hv : visible U (if x =? 0 then q else (fst q, g :: snd q)) = (k =? 0) && ((x =? 0) || mem g U)).
      { destruct (x =? 0); cbn [orb]; [now rewrite andb_true_r|]. unfold visible in *. cbn [fst snd forallb].
        rewrite <- Ha0. destruct (mem g U); cbn; rewrite ?andb_true_r, ?andb_false_r; auto. }
      rewrite Hv. destruct (mem g U); cbn [spread]; rewrite ?zipw_cons; cbn [map]; rewrite IH; f_equal.
      * now rewrite orb_true_r, andb_true_r.
      * rewrite orb_false_r. lia.
    + specialize (IH o c del H1 H2 ltac:(lia) Ha). cbn [map].
      assert (Hv : visible U (if x =? 0 then (Some g, []) else (Some g, [g])) = negb (mem g U) && (x =? 0)).
      { destruct (x =? 0); unfold visible; cbn [fst snd forallb]; destruct (mem g U); reflexivity. }
      cbv beta zeta; cbn [fst snd]. rewrite Hv. destruct (mem g U); cbn [spread]; rewrite ?zipw_cons; cbn [map]; rewrite IH; reflexivity.
Qed.

Lemma agrees_replay U l : forall n m o c, chain n l m -> length o = n -> length c = n -> agrees U o c ->
  agrees U (origins l o) (replay U l c) /\ length (origins l o) = m.
Proof.
  induction l as [|[id mx [pri g ins del|tg bx]] l IH]; intros n m o c Hc H1 H2 Ha; cbn [origins chain r_edit] in *.
  - unfold replay. cbn [fold_left]. split; auto. lia.
  - destruct Hc as (I1 & I2 & I3 & I4 & I5). rewrite replay_cons. apply (IH _ _ _ _ I5).
    + apply edit_origins_length; lia.
    + unfold step. cbn [r_edit]. destruct (mem g U); rewrite ?zipw_length; rewrite ?spread_length; lia.
    + unfold step. cbn [r_edit]. apply agrees_step; auto; lia.
  - destruct Hc as (_ & _ & Hc). rewrite replay_cons. unfold step at 1. cbn [r_edit]. eapply IH; eauto.
Qed.

Lemma agrees_text {A} U (u : list A) : forall o c, length o = length u -> length c = length u ->
  agrees U o c -> visible_text U u o = kept c u.
Proof.
  unfold visible_text, agrees. induction u as [|x u IH]; intros [|q o] [|k c]; cbn [length]; intros H1 H2 Ha; try lia; auto.
  cbn [map] in Ha. injection Ha as Ha0 Ha. cbn [combine filter snd kept]. rewrite Ha0.
  destruct (k =? 0); cbn [map fst]; rewrite (IH o c) by (auto; lia); reflexivity.
Qed.

Lemma agrees_base U n : agrees U (repeat (None, []) n) (repeat 0 n).
Proof. unfold agrees. rewrite !map_repeat. reflexivity. Qed.

Lemma provenance_ok {A} (e : engine A) u n0 U : Inv e u n0 ->
  visible_text U u (origins (revs e) (repeat (None, []) n0)) = kept (replay U (revs e) (repeat 0 n0)) u /\
  length (origins (revs e) (repeat (None, []) n0)) = length u.
Proof.
  intros I. destruct (agrees_replay U (revs e) n0 (length u) (repeat (None, []) n0) (repeat 0 n0)) as [H1 H2];
    try apply repeat_length; [apply I|apply agrees_base|].
  split; auto. apply agrees_text; auto. eapply replay_length; [apply I|apply repeat_length].
Qed.
