(** What a backspace at a caret removes: the sequences of characters that go as one. *)
From Coq Require Import List Arith Lia Bool.
From Verif Require Import Base RopeModel RopeIterModel EditOpsModel EditOpsMore EditOpsBack.
Import ListNotations.

Section Units.
Context (P : emoji_props).
Notation char := (list nat).
(** The kinds of characters backspace knows, each without those tested for before it. *)
Definition selector (c : char) : Prop := c <> [10] /\ is_variation_selector P c = true.
Definition indicator (c : char) : Prop := c <> [10] /\ is_variation_selector P c = false /\ is_ris P c = true.
Definition modifier (c : char) : Prop := c <> [10] /\ is_variation_selector P c = false /\ is_ris P c = false /\ is_emoji_modifier P c = true.
Definition keycap (c : char) : Prop :=
  c <> [10] /\ is_variation_selector P c = false /\ is_ris P c = false /\ is_emoji_modifier P c = false /\ is_keycap P c = true.
Definition picture (c : char) : Prop :=
  c <> [10] /\ is_variation_selector P c = false /\ is_ris P c = false /\ is_emoji_modifier P c = false /\ is_keycap P c = false /\ is_emoji P c = true.
Definition end_tag (c : char) : Prop :=
  c <> [10] /\ is_variation_selector P c = false /\ is_ris P c = false /\ is_emoji_modifier P c = false /\ is_keycap P c = false /\ is_emoji P c = false /\
  is_cancel_tag P c = true.
Definition ordinary (c : char) : Prop :=
  c <> [10] /\ is_variation_selector P c = false /\ is_ris P c = false /\ is_emoji_modifier P c = false /\ is_keycap P c = false /\ is_emoji P c = false /\
  is_cancel_tag P c = false.
(** The last character has the property. *)
Definition ends_in (test : char -> bool) (a : list char) : Prop := exists a' c, a = a' ++ [c] /\ test c = true.
(** Pictures joined by zero-width joiners. *)
Inductive joined : list char -> Prop :=
| joined_one e : picture e -> joined [e]
| joined_more e z u : picture e -> is_zwj P z = true -> joined u -> joined (e :: z :: u).
(** The characters [u], after the characters [a], that a backspace takes together. *)
Inductive unit_after (a : list char) : list char -> Prop :=
| unit_ordinary c : ordinary c -> unit_after a [c]
| unit_lf : ~ ends_in (fun c => bytes_eqb c [13]) a -> unit_after a [[10]]
| unit_crlf : unit_after a [[13]; [10]]
| unit_flag a0 fs x y : a = a0 ++ fs -> ~ ends_in (is_ris P) a0 -> Forall indicator fs -> Nat.Even (length fs) -> indicator x -> indicator y -> unit_after a [x; y]
| unit_half_flag a0 fs x : a = a0 ++ fs -> ~ ends_in (is_ris P) a0 -> Forall indicator fs -> Nat.Even (length fs) -> indicator x -> unit_after a [x]
| unit_keycap b k : keycap k -> is_variation_selector P b = false -> is_keycap_base P b = true -> unit_after a [b; k]
| unit_keycap_selector b v k : keycap k -> selector v -> is_keycap_base P b = true -> unit_after a [b; v; k]
| unit_modified b m : modifier m -> is_variation_selector P b = false -> is_modifier_base P b = true -> unit_after a [b; m]
| unit_modified_selector b v m : modifier m -> selector v -> is_modifier_base P b = true -> unit_after a [b; v; m]
| unit_selected c v : selector v -> is_emoji P c = false -> is_variation_selector P c = false -> unit_after a [c; v]
| unit_selected_picture e v : selector v -> is_emoji P e = true -> ~ ends_in (is_zwj P) a -> unit_after a [e; v]
| unit_joined u : joined u -> ~ ends_in (is_zwj P) a -> unit_after a u
| unit_tagged e ts t : end_tag t -> Forall (fun c => is_tag_spec P c = true) ts -> is_emoji P e = true -> is_tag_spec P e = false -> unit_after a (e :: ts ++ [t])
| unit_loose_tag a0 c ts t : a = a0 ++ c :: ts -> end_tag t -> Forall (fun c => is_tag_spec P c = true) ts -> is_emoji P c = false -> is_tag_spec P c = false -> unit_after a [t]
| unit_bare_keycap a0 c k : a = a0 ++ [c] -> keycap k -> is_variation_selector P c = false -> is_keycap_base P c = false -> unit_after a [k]
| unit_bare_modifier a0 c m : a = a0 ++ [c] -> modifier m -> is_variation_selector P c = false -> is_modifier_base P c = false -> unit_after a [m].

Local Notation scan := (bscan P).
Lemma scan_cons st c cs n vs : scan st (c :: cs) n vs = if finished st then n else let '(st', n', vs') := bstep P st c n vs in scan st' cs n' vs'.
Proof. reflexivity. Qed.
Lemma scan_finished cs n vs : scan BFinished cs n vs = n.
Proof. destruct cs; reflexivity. Qed.
Lemma not_nl c : c <> [10] -> bytes_eqb c [NL] = false.
Proof. intros H. destruct (bytes_eqb c [NL]) eqn:E; auto. apply bytes_eqb_ok in E. contradiction. Qed.
(** The start of the scan. *)
Lemma start_step c cs st : c <> [10] ->
  (if is_variation_selector P c then BBeforeVS else if is_ris P c then BOddRIS else if is_emoji_modifier P c then BBeforeEmojiModifier
   else if is_keycap P c then BBeforeKeycap else if is_emoji P c then BBeforeEmoji else if is_cancel_tag P c then BInTagSequence else BFinished) = st ->
  scan BStart (c :: cs) 0 0 = scan st cs 1 0.
Proof. intros N <-. rewrite scan_cons. cbn [finished bstep]. rewrite (not_nl c N). reflexivity. Qed.
(** Runs of indicators. *)
Lemma scan_flags fs : Forall indicator fs -> forall cs n, 
  (match cs with c :: _ => is_ris P c = false | [] => True end) ->
  (Nat.Even (length fs) -> scan BOddRIS (fs ++ cs) (S n) 0 = S n /\ scan BEvenRIS (fs ++ cs) (S (S n)) 0 = S (S n)) /\
  (Nat.Odd (length fs) -> scan BOddRIS (fs ++ cs) (S n) 0 = S (S n) /\ scan BEvenRIS (fs ++ cs) (S (S n)) 0 = S n).
Proof.
  induction 1 as [|x fs (Hx1 & Hx2 & Hx) F IH]; intros cs n Hc.
  - split; [intros _|intros [k Hk]; cbn in Hk; lia]. cbn [app]. destruct cs as [|c cs]; [split; reflexivity|]. rewrite !scan_cons. cbn [finished bstep]. rewrite Hc. rewrite !scan_finished. auto.
  - destruct (IH cs n Hc) as [Ie Io]. cbn [app length]. rewrite !scan_cons. cbn [finished bstep]. rewrite Hx. replace (S n + 1) with (S (S n)) by lia. replace (S (S n) - 1) with (S n) by lia. split; intros H.
    + destruct (Io (proj1 (Nat.Even_succ _) H)); auto.
    + destruct (Ie (proj1 (Nat.Odd_succ _) H)); auto.
Qed.
Lemma not_ends test a : ~ ends_in test a -> match rev a with c :: _ => test c = false | [] => True end.
Proof.
  intros N. destruct (rev a) as [|c q] eqn:E; auto. destruct (test c) eqn:T; auto. exfalso. apply N. exists (rev q), c. split; auto. rewrite <- (rev_involutive a), E. reflexivity.
Qed.
(** A picture is taken with the pictures joined before it. *)
Lemma scan_picture a n vs : ~ ends_in (is_zwj P) a -> scan BBeforeEmoji (rev a) n vs = n.
Proof. intros N. apply not_ends in N. destruct (rev a) as [|c q]; [reflexivity|]. rewrite scan_cons. cbn [finished bstep]. rewrite N. apply scan_finished. Qed.
Lemma joined_last u : joined u -> exists u' e, u = u' ++ [e] /\ picture e /\ (u' = [] \/ exists v z, u' = v ++ [z] /\ joined v /\ is_zwj P z = true).
Proof.
  induction 1 as [e H|e z u H Hz J (u' & l & -> & Hl & IH)]; [exists [], e; auto|]. exists (e :: z :: u'), l. split; auto. split; auto. right.
  destruct IH as [->|(v & y & -> & Jv & Hy)]; [exists [e], z; split; auto; split; auto; now constructor|]. exists (e :: z :: v), y. split; auto. split; auto. now constructor.
Qed.
Lemma scan_joined a : ~ ends_in (is_zwj P) a -> forall m u, length u <= m -> joined u -> forall n vs, scan BBeforeZwj (rev (a ++ u)) n vs = n + length u + 1.
Proof.
  intros Na. induction m as [|m IH]; intros u Hm J n vs; [destruct J; cbn in Hm; lia|]. destruct (joined_last u J) as (u' & e & -> & He & Hu). rewrite app_assoc, rev_app_distr. cbn [rev app].
  destruct He as (_ & V & _ & M & _ & E). rewrite scan_cons. cbn [finished bstep]. rewrite E, M. rewrite app_length in *. cbn [length] in *. destruct Hu as [->|(v & z & -> & Jv & Hz)].
  - rewrite app_nil_r, scan_picture by auto. cbn. lia.
  - rewrite app_assoc, rev_app_distr. cbn [rev app]. rewrite scan_cons. cbn [finished bstep]. rewrite Hz. rewrite app_length in *. cbn [length] in *. rewrite IH by (auto; lia). lia.
Qed.
Lemma scan_tags a e ts : Forall (fun c => is_tag_spec P c = true) ts -> is_emoji P e = true -> is_tag_spec P e = false -> forall n vs,
  scan BInTagSequence (rev (a ++ e :: ts)) n vs = n + length ts + 1.
Proof.
  intros F He Ht n vs. rewrite rev_app_distr. cbn [rev]. rewrite <- app_assoc. cbn [app]. assert (F' : Forall (fun c => is_tag_spec P c = true) (rev ts)) by (apply Forall_rev; auto). rewrite <- (rev_length ts).
  revert n. generalize dependent (rev ts). induction 1 as [|c q Hc Fq IH]; intros n; cbn [app]; rewrite scan_cons; cbn [finished bstep].
  - rewrite Ht, He, scan_finished. cbn. lia.
  - rewrite Hc, IH. cbn. lia.
Qed.
Lemma scan_loose_tags a c ts : Forall (fun c => is_tag_spec P c = true) ts -> is_emoji P c = false -> is_tag_spec P c = false -> forall n vs,
  scan BInTagSequence (rev (a ++ c :: ts)) n vs = 1.
Proof.
  intros F He Ht n vs. rewrite rev_app_distr. cbn [rev]. rewrite <- app_assoc. cbn [app]. assert (F' : Forall (fun c => is_tag_spec P c = true) (rev ts)) by (apply Forall_rev; auto).
  revert n. generalize dependent (rev ts). induction 1 as [|x q Hx Fq IH]; intros n; cbn [app]; rewrite scan_cons; cbn [finished bstep].
  - now rewrite Ht, He, scan_finished.
  - now rewrite Hx, IH.
Qed.
Lemma unit_scan a u : unit_after a u -> scan BStart (rev (a ++ u)) 0 0 = length u.
Proof.
  rewrite rev_app_distr. intros [c (N & V & R & M & K & E & T)|Na| |a0 fs x y -> Na F Ev (X1 & X2 & X3) (Y1 & Y2 & Y3)|a0 fs x -> Na F Ev (X1 & X2 & X3)
    |b k (N & V & R & M & K) Vb Hb|b v k (N & V & R & M & K) [Nv Vv] Hb|b m (N & V & R & M) Vb Hb|b v m (N & V & R & M) [Nv Vv] Hb|c v [Nv Vv] Ec Vc|e v [Nv Vv] Ee Na|u' J Na|e ts t (N & V & R & M & K & E & T) F He Ht|a0 c ts t -> (N & V & R & M & K & E & T) F He Ht|a0 c k -> (N & V & R & M & K) Vb Hb|a0 c m -> (N & V & R & M) Vb Hb];
    cbn [rev app length].
  - rewrite (start_step c _ BFinished) by (auto; now rewrite V, R, M, K, E, T). apply scan_finished.
  - rewrite scan_cons. cbn [finished bstep bytes_eqb]. rewrite Nat.eqb_refl. cbn [andb]. apply not_ends in Na. destruct (rev a) as [|c q]; [reflexivity|]. rewrite scan_cons. cbn [finished bstep]. change [CR] with [13]. rewrite Na. apply scan_finished.
  - rewrite !scan_cons. cbn. apply scan_finished.
  - rewrite (start_step y _ BOddRIS) by (auto; now rewrite Y2, Y3). rewrite rev_app_distr. apply not_ends in Na.
    destruct (scan_flags (x :: rev fs) ltac:(constructor; [now split|now apply Forall_rev]) (rev a0) 0 Na) as [_ Ho]. change (x :: rev fs ++ rev a0) with ((x :: rev fs) ++ rev a0). apply Ho. cbn [length]. rewrite rev_length. now apply Nat.Odd_succ.
  - rewrite (start_step x _ BOddRIS) by (auto; now rewrite X2, X3). rewrite rev_app_distr. apply not_ends in Na.
    destruct (scan_flags (rev fs) ltac:(now apply Forall_rev) (rev a0) 0 Na) as [He _]. apply He. now rewrite rev_length.
  - rewrite (start_step k _ BBeforeKeycap) by (auto; now rewrite V, R, M, K). rewrite scan_cons. cbn [finished bstep]. rewrite Vb, Hb. apply scan_finished.
  - rewrite (start_step k _ BBeforeKeycap) by (auto; now rewrite V, R, M, K). rewrite scan_cons. cbn [finished bstep]. rewrite Vv. rewrite scan_cons. cbn [finished bstep]. rewrite Hb. apply scan_finished.
  - rewrite (start_step m _ BBeforeEmojiModifier) by (auto; now rewrite V, R, M). rewrite scan_cons. cbn [finished bstep]. rewrite Vb, Hb. apply scan_finished.
  - rewrite (start_step m _ BBeforeEmojiModifier) by (auto; now rewrite V, R, M). rewrite scan_cons. cbn [finished bstep]. rewrite Vv. rewrite scan_cons. cbn [finished bstep]. rewrite Hb. apply scan_finished.
  - rewrite (start_step v _ BBeforeVS) by (auto; now rewrite Vv). rewrite scan_cons. cbn [finished bstep]. rewrite Ec, Vc. apply scan_finished.
  - rewrite (start_step v _ BBeforeVS) by (auto; now rewrite Vv). rewrite scan_cons. cbn [finished bstep]. rewrite Ee. now apply scan_picture.
  - destruct (joined_last u' J) as (v & e & -> & (N & V & R & M & K & E) & Hu). rewrite rev_app_distr. cbn [rev app]. rewrite (start_step e _ BBeforeEmoji) by (auto; now rewrite V, R, M, K, E). destruct Hu as [->|(w & z & -> & Jw & Hz)].
    + cbn [rev app length]. now apply scan_picture.
    + rewrite rev_app_distr. cbn [rev app]. rewrite scan_cons. cbn [finished bstep]. rewrite Hz. rewrite <- rev_app_distr. rewrite (scan_joined a Na (length w) w) by auto. rewrite !app_length. cbn [length]. lia.
  - rewrite rev_app_distr. cbn [rev app]. rewrite (start_step t _ BInTagSequence) by (auto; now rewrite V, R, M, K, E, T).
    change ((rev ts ++ [e]) ++ rev a) with (rev (e :: ts) ++ rev a). rewrite <- rev_app_distr, scan_tags by auto. rewrite app_length. cbn [length]. lia.
  - rewrite (start_step t _ BInTagSequence) by (auto; now rewrite V, R, M, K, E, T). now apply scan_loose_tags.
  - rewrite (start_step k _ BBeforeKeycap) by (auto; now rewrite V, R, M, K). rewrite rev_app_distr. cbn [rev app]. rewrite scan_cons. cbn [finished bstep]. rewrite Vb, Hb. apply scan_finished.
  - rewrite (start_step m _ BBeforeEmojiModifier) by (auto; now rewrite V, R, M). rewrite rev_app_distr. cbn [rev app]. rewrite scan_cons. cbn [finished bstep]. rewrite Vb, Hb. apply scan_finished.
Qed.
End Units.
