(** C34, C53: the layers of styles of a buffer. *)
From Coq Require Import List Arith Lia Bool ZifyBool Sorted.
From Verif Require Import Base ListLib TreeModel TreeSpec DeltaModel DeltaSpec DeltaProofs2 PropertiesDelta SpansModel SpansSpec SpansProofs PropertiesSpans LayersModel LayersSpec LayersProofs.
Import ListNotations.

Section C34.
Context {St M : Type} (st_eqb : St -> St -> bool) (st_merge : St -> St -> St) (m_def : M) (m_apply : M -> M -> M) (to_style : M -> St).
Context (st_eqb_ok : forall x y, st_eqb x y = true -> x = y).
Notation theme := (list nat -> M).
Notation layer := (layer St M).
Notation layers := (layers St M).
Notation fits := (fits st_merge).
Notation upd := (update_layer st_eqb st_merge).
Implicit Types (ls : layers).

(** A new buffer has no text and its layers fit. *)
Theorem C34_new : fits 0 (layers_default : layers).
Proof.
  unfold layers_default. split; [constructor|]. split; [constructor|]. cbn [ls_merged ls_layers]. destruct (new_val (T:=St) 0) as (t & E & H & V). vm_compute in E. injection E as <-. split; [exact H|]. intros i. apply V.
Qed.
(** A plugin puts spans over an interval of the text: this never fails, the layers fit the text,
    and the plugin's layer has those scopes there. *)
Theorem C34_update_layer ls p s e sp n : fits n ls -> sound sp (e - s) -> s <= e -> e <= n ->
  (forall i x, val sp i = Some x -> exists k, lm_get (ls_layers ls) p = Some k /\ x < length (ly_lookup k)) ->
  exists ls', upd ls p s e sp = Some ls' /\ fits n ls' /\
    (existsb (Nat.eqb p) (ls_deleted ls) = false -> exists k', lm_get (ls_layers ls') p = Some k' /\
       forall i, s <= i -> i < e -> val (ly_scope k') i = val sp (i - s)).
Proof. now apply update_layer_ok. Qed.
Theorem C34_add_scopes ls p stacks hl n : fits n ls -> Forall (fun s => s <> []) stacks ->
  exists ls', add_scopes m_def m_apply to_style ls p stacks hl = Some ls' /\ fits n ls' /\ ls_merged ls' = ls_merged ls.
Proof. apply add_scopes_ok. Qed.
(** A removed layer is gone, and stays so. *)
Theorem C34_remove_layer ls p n : fits n ls ->
  exists b ls', remove_layer st_merge ls p = Some (b, ls') /\ fits n ls' /\ lm_get (ls_layers ls') p = None /\
    forall s e sp, upd ls' p s e sp = Some ls'.
Proof.
  intros H. destruct (remove_ok st_merge ls p n H) as (b & ls' & E & Hf & Eg & Ed). exists b, ls'. split; auto. split; auto. split; auto. intros s e sp. unfold update_layer, create_if_missing. rewrite Ed. cbn [existsb]. rewrite Nat.eqb_refl. reflexivity.
Qed.
Theorem C34_theme_changed ls hl n : fits n ls -> exists ls', theme_changed st_eqb st_merge m_def m_apply to_style ls hl = Some ls' /\ fits n ls'.
Proof. now apply theme_ok. Qed.
(** An edit of the text. Missing: the edits that delete so much so near to the end that the end
    of the interval they change is past the end of the new text; there the layers fail, see
    below. *)
Theorem C34_edit_partial {A} ls (d : delta A) text s e x : wf_delta d -> base_len d = length text -> fits (length text) ls ->
  summary d = ((s, e), x) -> (forall r, apply d text = Some r -> e <= length r) \/ ls_layers ls = [] ->
  exists r ls', apply d text = Some r /\ update_all st_merge ls d = Some ls' /\ fits (length r) ls'.
Proof.
  intros Hd Hb Hf Hs He. destruct (C07_summary d text s e x Hd Hb Hs) as (Hse & _ & mid & _ & Ha). set (r := firstn s text ++ mid ++ skipn e text) in *.
  assert (Hl : length r = length (denote (els d))) by (rewrite <- (new_document_len_ok d text r Ha), denote_length; reflexivity).
  exists r. rewrite <- Hb in Hf. destruct (update_all_ok st_merge ls d Hf Hd) as (ls' & E & Hf'); rewrite ?Hs; cbn [fst snd]; auto.
  - destruct He as [He|He]; auto. left. rewrite <- Hl. auto.
  - exists ls'. rewrite Hl. auto.
Qed.

(** A plugin puts spans over [len] units of the text from [start], as it saw the text. When the
    text has changed since, by [d], they move with it. Missing: the interval is untouched, but
    text has been inserted exactly at one of its ends; there this fails, see below. *)
Definition seen {A} (text : list A) (start len : nat) (since : option (delta A)) : Prop :=
  match since with
  | None => start + len <= length text
  | Some d => wf_delta d /\ no_empty_copy (els d) /\ (exists old, apply d old = Some text) /\
      (interval_untouched d start (start + len) = true -> transform_ix d (start + len) true = transform_ix d start false + len)
  end.
Theorem C34_update_spans_partial {A} (text : list A) ls p start len l since : fits (length text) ls -> ordered 0 l len -> seen text start len since ->
  (forall s e x, In (s, e, x) l -> exists k, lm_get (ls_layers ls) p = Some k /\ x < length (ly_lookup k)) ->
  exists ls', update_spans st_eqb st_merge ls p start len l since = Some ls' /\ fits (length text) ls'.
Proof.
  intros Hf Ol Hs Hk. unfold update_spans. destruct (C26_build l len Ol) as (sb & sp & -> & E & Hsp). cbn [bind]. rewrite E. cbn [bind].
  assert (Hids : forall i x, value l i = Some x -> exists k, lm_get (ls_layers ls) p = Some k /\ x < length (ly_lookup k)).
  { intros i x. clear -Hk. induction l as [|[[a b] v] l IH]; cbn [value]; [discriminate|]. destruct (_ && _); [intros Ev; injection Ev as <-; apply (Hk a b); now left|]. apply IH. intros s e y Hy. apply (Hk s e). now right. }
  destruct since as [d|]; cbn [seen] in Hs.
  - destruct Hs as (Hd & Hc & (old & Ha) & Hu).
    assert (H1 : transform_ix d start false <= transform_ix d (start + len) true) by (apply C09_transform_monotone; auto; lia).
    assert (H2 : transform_ix d (start + len) true <= length text) by (eapply C09_transform_in_text; eauto).
    assert (Hsp1 : exists sp1, (if interval_untouched d start (start + len) then Some sp else transform sp start (start + len) d) = Some sp1 /\
      sound sp1 (transform_ix d (start + len) true - transform_ix d start false) /\ (forall i x, val sp1 i = Some x -> exists j, val sp j = Some x)).
    { destruct (interval_untouched d start (start + len)).
      - exists sp. split; auto. rewrite Hu by auto. replace (_ + len - _) with len by lia. split; [now exists l|eauto].
      - destruct (holds_inv _ _ _ Hsp) as (h & W & El & En & _). pose proof (transform_ok h sp d start W) as Ht. cbv zeta in Ht. assert (Mn : mono d) by (intros i j a a' Hij; now apply C09_transform_monotone).
        destruct (Ht Mn) as (t' & h' & Et & W' & Hn & Hv). rewrite <- En in *. exists t'. split; [exact Et|]. pose proof (holds_of h' t' W') as G. rewrite Hn in G. split; [eexists; exact G|].
        intros i x Hx. rewrite (val_holds _ _ _ _ G), Hv in Hx. rewrite <- El in Hx.
        assert (Hin : exists a b, In (a, b, x) l). { clear -Hx. induction l as [|[[a b] v] l IH]; cbn [moved] in Hx; [discriminate|]. destruct (_ <? _) in Hx; [cbn [value] in Hx; destruct (_ && _) in Hx; [injection Hx as <-; exists a, b; now left|]|]; destruct (IH Hx) as (a' & b' & Hi); exists a', b'; now right. }
        destruct Hin as (a & b & Hin). exists a. rewrite (val_holds _ _ _ _ Hsp). eapply in_value; eauto. }
    destruct Hsp1 as (sp1 & -> & Hs1 & Hv1). cbn [bind]. destruct (C34_update_layer ls p _ _ sp1 (length text) Hf Hs1 H1 H2) as (ls' & -> & Hf' & _); eauto. intros i x Hx. destruct (Hv1 i x Hx) as (j & Hj). rewrite (val_holds _ _ _ _ Hsp) in Hj. eauto.
  - destruct (C34_update_layer ls p start (start + len) sp (length text) Hf) as (ls' & -> & Hf' & _); eauto; try lia; [replace (start + len - start) with len by lia; now exists l|]. intros i x. rewrite (val_holds _ _ _ _ Hsp). apply Hids.
Qed.

(** ** Histories *)
Inductive op (A : Type) :=
  | OAdd (p : nat) (stacks : list (list nat))
  | OUpdate (p start len : nat) (l : list (nat * nat * nat)) (since : option (delta A))
  | ORemove (p : nat)
  | OTheme (hl : theme)
  | OEdit (d : delta A).
Arguments OAdd {A}. Arguments OUpdate {A}. Arguments ORemove {A}. Arguments OTheme {A}. Arguments OEdit {A}.
(** The text, the theme and the layers of a buffer. *)
Definition buffer (A : Type) : Type := list A * theme * layers.
Definition run_op {A} (b : buffer A) (o : op A) : option (buffer A) :=
  let '(text, hl, ls) := b in
  match o with
  | OAdd p stacks => let? ls' := add_scopes m_def m_apply to_style ls p stacks hl in Some (text, hl, ls')
  | OUpdate p start len l since => let? ls' := update_spans st_eqb st_merge ls p start len l since in Some (text, hl, ls')
  | ORemove p => let? (_, ls') := remove_layer st_merge ls p in Some (text, hl, ls')
  | OTheme hl' => let? ls' := theme_changed st_eqb st_merge m_def m_apply to_style ls hl' in Some (text, hl', ls')
  | OEdit d => let? text' := apply d text in let? ls' := update_all st_merge ls d in Some (text', hl, ls')
  end.
Fixpoint run {A} (b : buffer A) (l : list (op A)) : option (buffer A) := match l with [] => Some b | o :: l' => let? b' := run_op b o in run b' l' end.
(** What each may be, apart from the missing cases above. *)
Definition allowed {A} (b : buffer A) (o : op A) : Prop :=
  let '(text, hl, ls) := b in
  match o with
  | OAdd p stacks => Forall (fun s => s <> []) stacks
  | OUpdate p start len l since => ordered 0 l len /\ seen text start len since /\
      forall s e x, In (s, e, x) l -> exists k, lm_get (ls_layers ls) p = Some k /\ x < length (ly_lookup k)
  | ORemove _ | OTheme _ => True
  | OEdit d => wf_delta d /\ base_len d = length text /\
      ((forall r, apply d text = Some r -> snd (fst (summary d)) <= length r) \/ ls_layers ls = [])
  end.
Fixpoint all_allowed {A} (b : buffer A) (l : list (op A)) : Prop :=
  match l with [] => True | o :: l' => allowed b o /\ forall b', run_op b o = Some b' -> all_allowed b' l' end.
Lemma op_ok {A} text hl ls (o : op A) : fits (length text) ls -> allowed (text, hl, ls) o -> exists text' hl' ls', run_op (text, hl, ls) o = Some (text', hl', ls') /\ fits (length text') ls'.
Proof.
  intros Hf Ha. destruct o as [p stacks|p start len l since|p|hl'|d]; cbn [run_op allowed] in *.
  - destruct (C34_add_scopes ls p stacks hl _ Hf Ha) as (ls' & -> & Hf' & _). cbn [bind]. eauto 6.
  - destruct Ha as (A1 & A2 & A3). destruct (C34_update_spans_partial text ls p start len l since Hf A1 A2 A3) as (ls' & -> & Hf'). cbn [bind]. eauto 6.
  - destruct (C34_remove_layer ls p _ Hf) as (b & ls' & -> & Hf' & _). cbn [bind]. eauto 6.
  - destruct (C34_theme_changed ls hl' _ Hf) as (ls' & -> & Hf'). cbn [bind]. eauto 6.
  - destruct Ha as (A1 & A2 & A3). destruct (summary d) as [[s e] x] eqn:Es. destruct (C34_edit_partial ls d text s e x A1 A2 Hf Es A3) as (r & ls' & -> & -> & Hf'). cbn [bind]. eauto 6.
Qed.
(** From a new buffer on, no operation fails and the layers always fit the text. *)
Theorem C34_history_partial {A} (l : list (op A)) hl : all_allowed ([], hl, layers_default) l ->
  exists text hl' ls, run ([], hl, layers_default) l = Some (text, hl', ls) /\ fits (length text) ls.
Proof.
  assert (H : fits (length (@nil A)) (layers_default : layers)) by exact C34_new. revert H. generalize (@nil A) as text. generalize (layers_default : layers) as ls. revert hl. induction l as [|o l IH]; intros hl ls text Hf Ha; cbn [run all_allowed] in *; [eauto 6|].
  destruct Ha as [Ha Hr]. destruct (op_ok text hl ls o Hf Ha) as (text' & hl' & ls' & E & Hf'). rewrite E. cbn [bind]. apply IH; auto.
Qed.

(** ** C53 *)
(** Each stack that is added comes after the one it extends. *)
Definition prefixed {A} (b : buffer A) (o : op A) : Prop :=
  match o with OAdd p stacks => grown match lm_get (ls_layers (snd b)) p with Some k => ly_stacks k | None => [] end stacks | _ => True end.
Fixpoint all_prefixed {A} (b : buffer A) (l : list (op A)) : Prop :=
  match l with [] => True | o :: l' => prefixed b o /\ forall b', run_op b o = Some b' -> all_prefixed b' l' end.
Lemma op_styled {A} text hl ls (o : op A) text' hl' ls' : all_styled m_def m_apply to_style hl ls -> prefixed (text, hl, ls) o -> run_op (text, hl, ls) o = Some (text', hl', ls') -> all_styled m_def m_apply to_style hl' ls'.
Proof.
  intros H Hp. destruct o as [p stacks|p start len l since|p|hl2|d]; cbn [run_op prefixed snd] in *.
  - destruct (add_scopes _ _ _ _ _ _ _) eqn:E; [|discriminate]. cbn [bind]. intros E'. injection E' as <- <- <-. eapply add_styled; eauto.
  - destruct (update_spans _ _ _ _ _ _ _ _) eqn:E; [|discriminate]. cbn [bind]. intros E'. injection E' as <- <- <-. unfold update_spans in E. destruct (add_spans _ _); [|discriminate]. cbn [bind] in E. destruct (sb_build _); [|discriminate]. cbn [bind] in E.
    destruct since as [d|]; [destruct (if interval_untouched _ _ _ then _ else _); [|discriminate]; cbn [bind] in E|]; eapply update_styled; eauto.
  - destruct (remove_layer _ _ _) as [[b ls2]|] eqn:E; [|discriminate]. cbn [bind]. intros E'. injection E' as <- <- <-. eapply remove_styled; eauto.
  - destruct (theme_changed _ _ _ _ _ _ _) eqn:E; [|discriminate]. cbn [bind]. intros E'. injection E' as <- <- <-. eapply theme_styled; eauto.
  - destruct (apply d text); [|discriminate]. cbn [bind]. destruct (update_all _ _ _) eqn:E; [|discriminate]. cbn [bind]. intros E'. injection E' as <- <- <-. eapply update_all_styled; eauto.
Qed.
(** After any such history, each unit of text with a scope has the style that the current theme
    gives to the scope's stack, apart from what it gives to the outermost scope. *)
Theorem C53_history_partial {A} (l : list (op A)) hl : all_allowed ([], hl, layers_default) l -> all_prefixed ([], hl, layers_default) l ->
  exists text hl' ls, run ([], hl, layers_default) l = Some (text, hl', ls) /\
    forall p k i x, lm_get (ls_layers ls) p = Some k -> val (ly_scope k) i = Some x ->
      exists s, nth_error (ly_stacks k) x = Some s /\ val (ly_style k) i = Some (to_style (inner m_def m_apply hl' s)).
Proof.
  intros Ha Hp. destruct (C34_history_partial l hl Ha) as (text & hl' & ls & E & Hf). exists text, hl', ls. split; auto.
  assert (Hs : all_styled m_def m_apply to_style hl' ls).
  { clear Hf Ha. assert (H : all_styled m_def m_apply to_style hl (layers_default : layers)) by constructor. revert H Hp E. generalize (@nil A) as text0. generalize (layers_default : layers) as ls0. revert hl. induction l as [|o l IH]; intros hl ls0 text0 H Hp E; cbn [run all_prefixed] in *; [injection E as <- <- <-; auto|].
    destruct Hp as [Hp Hr]. destruct (run_op (text0, hl, ls0) o) as [[[t1 hl1] ls1]|] eqn:E1; [|discriminate]. cbn [bind] in E. apply (IH hl1 ls1 t1); auto. eapply op_styled; eauto. }
  intros p k i x Ek Ei. pose proof (fits_in st_merge _ _ _ _ Hf Ek) as (_ & _ & _ & Hl & Hk & Hv). destruct (get_forall _ _ _ _ Hs Ek) as (_ & El & _). specialize (Hk i x Ei). rewrite Hv, Ei. rewrite El in *. rewrite map_length in *. destruct (nth_error (ly_stacks k) x) as [s|] eqn:Es; [|apply nth_error_None in Es; lia].
  exists s. split; auto. now rewrite (map_nth_error _ _ _ Es).
Qed.
End C34.
Arguments OAdd {M A}. Arguments OUpdate {M A}. Arguments ORemove {M A}. Arguments OTheme {M A}. Arguments OEdit {M A}.
Print Assumptions C34_new.
Print Assumptions C34_update_layer.
Print Assumptions C34_add_scopes.
Print Assumptions C34_remove_layer.
Print Assumptions C34_theme_changed.
Print Assumptions C34_edit_partial.
Print Assumptions C34_update_spans_partial.
Print Assumptions C34_history_partial.
Print Assumptions C53_history_partial.

(** ** Cases *)
Definition nm (a b : nat) : nat := a * 100 + b.
Definition nap (a b : nat) : nat := a * 10 + b.
Definition nhl (s : list nat) : nat := last s 0.
Definition nrun (l : list (op (M:=nat) nat)) : option (buffer (St:=nat) (M:=nat) nat) := run Nat.eqb nm 0 nap (fun x => x) ([], nhl, layers_default) l.
(** For each layer its length and its styles, then those of the merged spans, then the length of
    the text. *)
Definition look (x : option (buffer (St:=nat) (M:=nat) nat)) : option (list (nat * nat * nat * option (list (nat * nat * nat))) * nat * option (list (nat * nat * nat)) * nat) :=
  let? (tx, ls) := x in
  Some (map (fun y => (fst y, n_len (ly_scope (snd y)), n_len (ly_style (snd y)), iter (ly_style (snd y)))) (ls_layers ls), n_len (ls_merged ls), iter (ls_merged ls), length (fst tx)).
Definition new_text (n : nat) : op (M:=nat) nat := OEdit (Delta [Insert (repeat 0 n)] 0).
Definition stacks1 : list (list nat) := [[5]; [5; 6]; [5; 6; 7]].
Definition day : list (op (M:=nat) nat) := [new_text 6; OAdd 1 stacks1; OUpdate 1 0 6 [(0, 2, 1); (2, 3, 2); (3, 6, 1)] None; OAdd 0 [[8]; [8; 9]]; OUpdate 0 1 3 [(0, 2, 1)] None;
  OEdit (Delta [Copy 0 2; Insert [1; 1]; Copy 3 6] 6); OUpdate 0 2 2 [(0, 1, 1)] (Some (Delta [Copy 0 2; Insert [1; 1]; Copy 3 6] 6)); ORemove 3; OTheme (fun s => S (last s 0))].
Example C34_case : look (nrun day) = Some ([(0, 7, 7, Some [(1, 4, 10)]); (1, 7, 7, Some [(0, 2, 7); (4, 7, 7)])], 7,
  Some [(0, 1, 7); (1, 2, 1007); (2, 4, 10); (4, 7, 7)], 7) /\
  look (nrun (firstn 5 day)) = Some ([(0, 6, 6, Some [(1, 3, 9)]); (1, 6, 6, Some [(0, 2, 6); (2, 3, 67); (3, 6, 6)])], 6,
  Some [(0, 1, 6); (1, 2, 906); (2, 3, 967); (3, 4, 6); (4, 6, 6)], 6).
Proof. vm_compute. auto. Qed.
Lemma C34_hypotheses : all_allowed Nat.eqb nm 0 nap (fun x => x) ([], nhl, layers_default) day /\ all_prefixed Nat.eqb nm 0 nap (fun x => x) ([], nhl, layers_default) day.
Proof.
  assert (W : forall n : nat, wf_delta (Delta [Copy 0 2; Insert [1; 1]; Copy 3 6] 6 : delta nat) /\ no_empty_copy (els (Delta [Copy 0 2; Insert [1; 1]; Copy 3 6] 6 : delta nat)) /\ wf_delta (Delta [Insert (repeat n 6)] 0)).
  { intros n. cbn. repeat split; try lia; repeat constructor; discriminate. }
  split.
  - unfold day.
    split; [split; [apply (W 0)|split; [reflexivity|right; reflexivity]]|intros b' E; vm_compute in E; injection E as <-].
    split; [repeat constructor; discriminate|intros b' E; vm_compute in E; injection E as <-].
    split; [split; [cbn; lia|]; split; [cbn; lia|]; intros s e x [Hi|[Hi|[Hi|[]]]]; injection Hi as <- <- <-; eexists; (split; [reflexivity|cbn; lia])|intros b' E; vm_compute in E; injection E as <-].
    split; [repeat constructor; discriminate|intros b' E; vm_compute in E; injection E as <-].
    split; [split; [cbn; lia|]; split; [cbn; lia|]; intros s e x [Hi|[]]; injection Hi as <- <- <-; eexists; (split; [reflexivity|cbn; lia])|intros b' E; vm_compute in E; injection E as <-].
    split; [split; [apply (W 0)|]; split; [reflexivity|]; left; intros r Hr; vm_compute in Hr; injection Hr as <-; cbn; lia|intros b' E; vm_compute in E; injection E as <-].
    split; [split; [cbn; lia|]; split; [cbn [seen]; split; [apply (W 0)|]; split; [apply (W 0)|]; split; [exists (repeat 0 6); reflexivity|discriminate]|]; intros s e x [Hi|[]]; injection Hi as <- <- <-; eexists; (split; [reflexivity|cbn; lia])|intros b' E; vm_compute in E; injection E as <-].
    split; [exact Logic.I|intros b' E; vm_compute in E; injection E as <-]. split; [exact Logic.I|intros b' E; vm_compute in E; injection E as <-]. exact Logic.I.
  - unfold day. repeat (split; [|intros b' E; vm_compute in E; injection E as <-]); try exact Logic.I; cbn; intuition discriminate.
Qed.

(** ** Where it fails *)
(** Deleting at the end of the text: the interval that changes, in the text before the edit, is
    resolved in the text after it. The merged styles get longer than the text. *)
Theorem C34_delete_at_end_refuted : exists d : delta nat, wf_delta d /\ apply d (repeat 0 6) = Some [0; 0; 0] /\
  look (nrun [new_text 6; OAdd 1 stacks1; OUpdate 1 0 6 [(0, 2, 1); (2, 6, 2)] None; OEdit d]) =
    Some ([(1, 3, 3, Some [(0, 2, 6); (2, 3, 67)])], 6, Some [(0, 2, 6); (2, 3, 67)], 3).
Proof. exists (Delta [Copy 0 3] 6). split; [split; cbn; [lia|repeat constructor; cbn; lia]|]. split; vm_compute; reflexivity. Qed.
Print Assumptions C34_delete_at_end_refuted.
(** With two layers, one of which has many spans, the same edit panics. *)
Theorem C34_delete_panics_refuted : exists d : delta nat, wf_delta d /\ apply d (repeat 0 600) = Some (repeat 0 500) /\
  (exists b, nrun [new_text 600; OAdd 1 stacks1; OUpdate 1 0 600 (map (fun i => (3 * i, 3 * i + 2, 1)) (seq 0 200)) None; OAdd 2 []] = Some b) /\
  nrun [new_text 600; OAdd 1 stacks1; OUpdate 1 0 600 (map (fun i => (3 * i, 3 * i + 2, 1)) (seq 0 200)) None; OAdd 2 []; OEdit d] = None.
Proof.
  exists (Delta [Copy 0 500] 600). split; [split; cbn [sorted_copies els base_len]; [lia|repeat constructor; cbn [base_len]; lia]|]. split; [vm_compute; reflexivity|]. split; [eexists; vm_compute; reflexivity|]. vm_compute. reflexivity.
Qed.
Print Assumptions C34_delete_panics_refuted.
(** Spans over an interval at the end of which text was inserted meanwhile: the layer is shorter
    than the text. *)
Theorem C34_insert_at_end_refuted : let d := Delta [Copy 0 4; Insert [1; 1]; Copy 4 6] 6 in
  apply d (repeat 0 6) = Some [0; 0; 0; 0; 1; 1; 0; 0] /\
  look (nrun [new_text 6; OAdd 1 stacks1; OEdit d; OUpdate 1 1 3 [(0, 2, 1)] (Some d)]) = Some ([(1, 6, 6, Some [(1, 3, 6)])], 8, Some [(1, 3, 6)], 8).
Proof. split; vm_compute; reflexivity. Qed.
Print Assumptions C34_insert_at_end_refuted.
(** A buffer that is opened with a text has the layers of an empty one: a layer gets the length
    of the spans that a plugin puts anywhere in it, and these lie at its beginning. *)
Theorem C34_open_refuted : look (run Nat.eqb nm 0 nap (fun x => x) (repeat 0 20, nhl, layers_default) [OAdd 1 stacks1; OUpdate 1 10 6 [(0, 2, 1); (2, 6, 2)] None]) =
  Some ([(1, 6, 6, Some [(0, 2, 6); (2, 6, 67)])], 6, Some [], 20).
Proof. vm_compute. reflexivity. Qed.
Print Assumptions C34_open_refuted.
(** A stack without valid scopes, or a scope that has not been added, panics. *)
Theorem C34_scopes_refuted : nrun [new_text 6; OAdd 1 [[]]] = None /\ nrun [new_text 6; OAdd 1 stacks1; OUpdate 1 0 6 [(0, 2, 9)] None] = None.
Proof. split; vm_compute; reflexivity. Qed.
Print Assumptions C34_scopes_refuted.
(** The style of a stack leaves out its outermost scope, and all of them if the stack it extends
    was not added before; then after a change of the theme it can have a style of the old
    theme. *)
Theorem C53_style_refuted : let hl2 := fun s => 1 + nhl s in
  look (nrun [new_text 6; OAdd 1 [[5]; [8; 6]]; OUpdate 1 0 6 [(0, 2, 0); (2, 4, 1)] None]) = Some ([(1, 6, 6, Some [(0, 4, 0)])], 6, Some [(0, 4, 0)], 6) /\
  modifier 0 nap nhl [5] = 5 /\ modifier 0 nap nhl [8; 6] = 86 /\
  look (nrun [new_text 6; OAdd 1 [[5; 6; 7]; [5]; [5; 6]]; OUpdate 1 0 6 [(0, 2, 0)] None; OTheme hl2]) = Some ([(1, 6, 6, Some [(0, 2, 68)])], 6, Some [(0, 2, 68)], 6) /\
  modifier 0 nap hl2 [5; 6; 7] = 678 /\ inner 0 nap hl2 [5; 6; 7] = 78.
Proof. vm_compute. repeat split. Qed.
Print Assumptions C53_style_refuted.
