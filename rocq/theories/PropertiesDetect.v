(** C39: line endings and indentation. *)
From Coq Require Import List Arith Lia Bool Sorting.Sorted.
From Verif Require Import Base ListLib TreeModel TreeSpec RopeModel RopeSpec RopeProofs RopeIterModel RopeCursor RopeIterProofs PropertiesRope DetectModel.
Import ListNotations.
Local Notation concat := List.concat.

(** *** Line endings *)
Lemma chunks_of_ok h r : rope_wf h r -> exists cs, chunks_of r = Some cs /\ concat cs = rcontent r /\ Forall (fun c => c <> []) cs.
Proof.
  intros W. unfold chunks_of. pose proof (len_r r h W) as L. rewrite L.
  destruct (iter_ok r h W 0 (length (rcontent r))) as (it & -> & Hi); [lia|reflexivity|apply cb_len|]. cbn [bind].
  rewrite slice_full in Hi.
  destruct (chunks_rest_ok r h W (length (rcontent r)) it _ Hi ltac:(lia)) as (cs & E & Ec & F). exists cs. split; auto. split; auto.
  eapply Forall_impl; [|exact F]. now cbn.
Qed.
Lemma parse_chunk_nocr c : ~ In 13 c -> parse_chunk c = if in_dec Nat.eq_dec 10 c then Found Lf else Nothing.
Proof.
  induction c as [|b c IH]; intros H; [reflexivity|].
  unfold parse_chunk. cbn [from_ending]. destruct (b =? NL) eqn:E1; cbn [orb].
  - apply Nat.eqb_eq in E1. subst b. cbn. destruct (in_dec Nat.eq_dec 10 (NL :: c)) as [|n]; [reflexivity|]. exfalso; apply n; now left.
  - destruct (b =? CR) eqn:E2. { exfalso. apply H. left. now apply Nat.eqb_eq in E2. }
    fold (parse_chunk c). rewrite IH by (intro; apply H; now right).
    destruct (in_dec Nat.eq_dec 10 c) as [Y|N]; destruct (in_dec Nat.eq_dec 10 (b :: c)) as [Y'|N']; auto.
    + exfalso; apply N'; now right.
    + exfalso. destruct Y' as [->|Y']; auto. discriminate E1.
Qed.
Lemma parse_chunks_nocr cs : forall lf, ~ In 13 (concat cs) ->
  parse_chunks cs false lf = if in_dec Nat.eq_dec 10 (concat cs) then Found Lf else if lf then Found Lf else Nothing.
Proof.
  induction cs as [|c cs IH]; intros lf H.
  - cbn. now destruct lf.
  - cbn [parse_chunks concat] in *. rewrite parse_chunk_nocr by (intro; apply H, in_or_app; auto).
    assert (H' : ~ In 13 (concat cs)) by (intro; apply H, in_or_app; auto).
    destruct (in_dec Nat.eq_dec 10 c) as [Y|N].
    + rewrite IH by auto. destruct (in_dec Nat.eq_dec 10 (c ++ concat cs)) as [|n]; [now destruct (in_dec _ _ _)|].
      exfalso. apply n, in_or_app; auto.
    + rewrite IH by auto. destruct (in_dec Nat.eq_dec 10 (concat cs)) as [Y|N1]; destruct (in_dec Nat.eq_dec 10 (c ++ concat cs)) as [Y'|N']; auto.
      * exfalso. apply N', in_or_app; auto.
      * exfalso. apply in_app_or in Y' as [?|?]; auto.
Qed.

(** A text without carriage returns: however it is stored, it uses newlines, if it has any
    line ending. *)
Theorem C39_lf h r : rope_wf h r -> ~ In 13 (rcontent r) ->
  line_ending_parse r = Some (if in_dec Nat.eq_dec 10 (rcontent r) then Found Lf else Nothing).
Proof.
  intros W H. unfold line_ending_parse. destruct (chunks_of_ok h r W) as (cs & -> & E & _). cbn [bind]. rewrite <- E in *.
  rewrite parse_chunks_nocr by auto. now destruct (in_dec _ _ _).
Qed.
Print Assumptions C39_lf.

(** A text all of whose endings are a carriage return and a newline. *)
Inductive crlf_text : list nat -> Prop :=
| crlf_nil : crlf_text []
| crlf_char : forall b s, b <> 10 -> b <> 13 -> crlf_text s -> crlf_text (b :: s)
| crlf_end : forall s, crlf_text s -> crlf_text (13 :: 10 :: s).
Lemma crlf_inv b t : crlf_text (b :: t) -> (b <> 10 /\ b <> 13 /\ crlf_text t) \/ exists u, b = 13 /\ t = 10 :: u /\ crlf_text u.
Proof. inversion 1; subst; [auto|right; eauto]. Qed.
Lemma crlf_app_chunk c rest : crlf_text (c ++ rest) -> (forall c', c <> c' ++ [13]) ->
  crlf_text rest /\ parse_chunk c = if in_dec Nat.eq_dec 10 c then Found CrLf else Nothing.
Proof.
  remember (length c) as n eqn:En. revert c En. induction n as [n IH] using lt_wf_ind; intros c En H Hc.
  destruct c as [|b c]; [auto|]. cbn [app] in H. apply crlf_inv in H as [(N1 & N2 & H')|(s & -> & E' & H')]; subst.
  - destruct (IH (length c) ltac:(cbn; lia) c eq_refl H') as [R P].
    { intros c' ->. apply (Hc (b :: c')). reflexivity. }
    split; auto. unfold parse_chunk. cbn [from_ending].
    replace (b =? NL) with false by (symmetry; now apply Nat.eqb_neq). replace (b =? CR) with false by (symmetry; now apply Nat.eqb_neq). cbn [orb].
    fold (parse_chunk c). rewrite P. destruct (in_dec Nat.eq_dec 10 c) as [Y|N]; destruct (in_dec Nat.eq_dec 10 (b :: c)) as [Y'|N']; auto.
    + exfalso; apply N'; now right.
    + exfalso. destruct Y' as [->|Y']; auto.
  - destruct c as [|b c]; [exfalso; now apply (Hc [])|]. cbn [app] in E'. injection E' as -> E'.
    split.
    + rewrite <- E' in H'. apply (IH (length c) ltac:(cbn; lia) c eq_refl H'). intros c' ->. now apply (Hc (13 :: 10 :: c')).
    + change (parse_chunk (13 :: 10 :: c)) with (Found CrLf). destruct (in_dec Nat.eq_dec 10 (13 :: 10 :: c)) as [|n]; auto.
      exfalso. apply n. right. now left.
Qed.
Lemma parse_chunks_crlf cs : forall cr, crlf_text (concat cs) -> Forall (fun c => forall c', c <> c' ++ [13]) cs ->
  parse_chunks cs cr false = if in_dec Nat.eq_dec 10 (concat cs) then Found CrLf else if cr then Found CrLf else Nothing.
Proof.
  induction cs as [|c cs IH]; intros cr H F.
  - cbn. now destruct cr.
  - inversion F as [|? ? F1 F2]; subst. cbn [parse_chunks concat] in *. destruct (crlf_app_chunk _ _ H F1) as [R ->].
    destruct (in_dec Nat.eq_dec 10 c) as [Y|N].
    + rewrite IH by auto. destruct (in_dec Nat.eq_dec 10 (c ++ concat cs)) as [|n]; [now destruct (in_dec _ _ _)|].
      exfalso. apply n, in_or_app; auto.
    + rewrite IH by auto. destruct (in_dec Nat.eq_dec 10 (concat cs)) as [Y|N1]; destruct (in_dec Nat.eq_dec 10 (c ++ concat cs)) as [Y'|N']; auto.
      * exfalso. apply N', in_or_app; auto.
      * exfalso. apply in_app_or in Y' as [?|?]; auto.
Qed.
(** Such a text is recognised, provided no chunk of the rope ends between the two. Missing:
    the same without that proviso, which is false ([C39_split_ending_refuted]). *)
Theorem C39_crlf_partial h r cs : rope_wf h r -> chunks_of r = Some cs -> Forall (fun c => forall c', c <> c' ++ [13]) cs -> crlf_text (rcontent r) ->
  line_ending_parse r = Some (if in_dec Nat.eq_dec 10 (rcontent r) then Found CrLf else Nothing).
Proof.
  intros W E F H. destruct (chunks_of_ok h r W) as (cs' & E' & Ec & _). unfold line_ending_parse. rewrite E. cbn [bind].
  assert (cs' = cs) as -> by congruence. rewrite <- Ec in *. rewrite parse_chunks_crlf by auto. now destruct (in_dec _ _ _).
Qed.
Print Assumptions C39_crlf_partial.
(** In particular a text that fits one chunk. *)
Theorem C39_crlf_small h r : rope_wf h r -> crlf_text (rcontent r) -> (exists c, chunks_of r = Some [c]) ->
  line_ending_parse r = Some (if in_dec Nat.eq_dec 10 (rcontent r) then Found CrLf else Nothing).
Proof.
  intros W H (c & E). apply (C39_crlf_partial h r [c]); auto. destruct (chunks_of_ok h r W) as (cs' & E' & Ec & _).
  assert (cs' = [c]) as -> by congruence. constructor; auto. cbn [concat] in Ec. rewrite app_nil_r in Ec. intros c' E1.
  rewrite <- Ec, E1 in H. clear -H. remember (length c') as n eqn:En. revert c' En H. induction n as [n H0] using lt_wf_ind. intros c' En H.
  destruct c' as [|b c']; cbn [app] in H.
  { inversion H; congruence. }
  apply crlf_inv in H as [(_ & _ & H1)|(u & -> & E2 & H1)].
  - apply (H0 (length c')) with (c' := c'); auto. cbn in En. lia.
  - destruct c' as [|b2 c']; cbn [app] in E2; [discriminate|]. injection E2 as _ E2. rewrite <- E2 in H1. apply (H0 (length c')) with (c' := c'); auto. cbn in En. lia.
Qed.
Print Assumptions C39_crlf_small.

(** Where one of the two is claimed, a chunk has it. *)
Lemma from_ending_in s b t : from_ending s = b :: t -> exists u, s = u ++ b :: t.
Proof.
  induction s as [|c s IH]; [discriminate|]. cbn [from_ending]. destruct ((c =? NL) || (c =? CR)).
  - intros E. exists []. exact E.
  - intros E. destruct (IH E) as (u & ->). now exists (c :: u).
Qed.
Lemma parse_chunk_in c e : parse_chunk c = Found e ->
  match e with CrLf => exists u v, c = u ++ [13; 10] ++ v | Lf => exists u v, c = u ++ [10] ++ v end.
Proof.
  unfold parse_chunk. destruct (from_ending c) as [|b rest] eqn:E; [discriminate|]. apply from_ending_in in E as (u & ->).
  destruct (b =? CR) eqn:E1; cbn [andb].
  - apply Nat.eqb_eq in E1 as ->. destruct rest as [|c rest]; [discriminate|]. destruct (c =? NL) eqn:E2; [|discriminate].
    apply Nat.eqb_eq in E2 as ->. intros [= <-]. now exists u, rest.
  - destruct (b =? NL) eqn:E2; [|discriminate]. apply Nat.eqb_eq in E2 as ->. intros [= <-]. now exists u, rest.
Qed.
Lemma parse_chunks_in cs e : forall cr lf, parse_chunks cs cr lf = Found e ->
  match e with
  | CrLf => lf = false /\ (cr = true \/ exists u v, concat cs = u ++ [13; 10] ++ v)
  | Lf => cr = false /\ (lf = true \/ exists u v, concat cs = u ++ [10] ++ v)
  end.
Proof.
  induction cs as [|c cs IH]; intros cr lf; cbn [parse_chunks concat].
  - destruct cr, lf; try discriminate; intros [= <-]; auto.
  - destruct (parse_chunk c) as [| |[]] eqn:E; [discriminate|..]; intros H; specialize (IH _ _ H).
    + destruct e; destruct IH as [-> [->|(u & v & ->)]]; split; auto; right; exists (c ++ u), v; now rewrite <- app_assoc.
    + apply parse_chunk_in in E as (u & v & ->). destruct e; destruct IH as [E1 E2]; [|discriminate].
      split; auto. right. exists u, (v ++ concat cs). now rewrite <- !app_assoc.
    + apply parse_chunk_in in E as (u & v & ->). destruct e; destruct IH as [E1 E2]; [discriminate|].
      split; auto. right. exists u, (v ++ concat cs). now rewrite <- !app_assoc.
Qed.
(** What is reported is in the text: never a style that does not occur. *)
Theorem C39_ending_occurs h r e : rope_wf h r -> line_ending_parse r = Some (Found e) ->
  match e with
  | CrLf => exists u v, rcontent r = u ++ [13; 10] ++ v
  | Lf => exists u v, rcontent r = u ++ [10] ++ v
  end.
Proof.
  intros W. unfold line_ending_parse. destruct (chunks_of_ok h r W) as (cs & -> & E & _). cbn [bind]. intros H.
  assert (H' : parse_chunks cs false false = Found e) by congruence. apply parse_chunks_in in H'. rewrite <- E.
  destruct e; destruct H' as [_ [?|?]]; auto; discriminate.
Qed.
Print Assumptions C39_ending_occurs.

(** *** Not so *)
(** A text with both endings in one chunk is not reported as mixed: only the first ending of
    each chunk is looked at. *)
Theorem C39_mixed_missed_refuted :
  exists s r, rope_from s = Some r /\ s = [97; 10; 98; 13; 10] /\ line_ending_parse r = Some (Found Lf).
Proof. exists [97; 10; 98; 13; 10]. eexists. split; [vm_compute; reflexivity|]. split; [reflexivity|]. vm_compute. reflexivity. Qed.
Print Assumptions C39_mixed_missed_refuted.
(** A text with nothing but carriage return and newline is reported as mixed when the two
    are in different chunks; here so for a rope made from one string. *)
Lemma crlf_sample n m : crlf_text (repeat 97 n ++ [13; 10] ++ repeat 98 m).
Proof.
  induction n; cbn [repeat app].
  - apply crlf_end. induction m; cbn; constructor; auto; lia.
  - constructor; auto; lia.
Qed.
Theorem C39_split_ending_refuted :
  let s := repeat 97 1023 ++ [13; 10] ++ repeat 98 1000 in
  crlf_text s /\ (let? r := rope_from s in line_ending_parse r) = Some Mixed.
Proof.
  split.
  - apply crlf_sample.
  - now vm_compute.
Qed.
Print Assumptions C39_split_ending_refuted.

Example C39_lf_example : (let? r := rope_from [97; 10; 98; 10] in Some (rcontent r, line_ending_parse r)) = Some ([97; 10; 98; 10], Some (Found Lf)).
Proof. now vm_compute. Qed.
Example C39_crlf_example :
  (let? r := rope_from [97; 13; 10; 98; 13; 10] in let? cs := chunks_of r in Some (cs, line_ending_parse r)) =
  Some ([[97; 13; 10; 98; 13; 10]], Some (Found CrLf)).
Proof. now vm_compute. Qed.

(** *** Indentation *)
(** How a line is indented: by spaces, by tabs, or by spaces and then a tab. *)
Definition by_spaces (l : list nat) (n : nat) : Prop :=
  0 < n /\ exists rest, l = repeat 32 n ++ rest /\ match rest with [] => True | b :: _ => b <> 32 /\ b <> 9 end.
Definition by_tabs (l : list nat) : Prop := exists rest, l = 9 :: rest.
Definition by_both (l : list nat) : Prop := exists n rest, l = repeat 32 (S n) ++ 9 :: rest.

Lemma parse_line_from_spec s : forall k,
  match parse_line_from s k with
  | Mixed => exists n rest, s = repeat 32 n ++ 9 :: rest /\ 0 < n + k
  | Found Tabs => k = 0 /\ exists rest, s = 9 :: rest
  | Found (Spaces n) => exists m rest, n = m + k /\ 0 < n /\ s = repeat 32 m ++ rest /\ match rest with [] => True | b :: _ => b <> 32 /\ b <> 9 end
  | Nothing => k = 0 /\ match s with [] => True | b :: _ => b <> 32 /\ b <> 9 end
  end.
Proof.
  induction s as [|b s IH]; intros k; cbn [parse_line_from].
  - destruct k; cbn; auto. exists 0, []. repeat split; auto; lia.
  - unfold SPACE, TAB. destruct (Nat.eqb_spec b 32) as [->|N1].
    + specialize (IH (k + 1)). destruct (parse_line_from s (k + 1)) as [| |[|n]].
      * destruct IH as (n & rest & -> & H). exists (S n), rest. split; [reflexivity|lia].
      * lia.
      * lia.
      * destruct IH as (m & rest & -> & H & -> & Hr). exists (S m), rest. repeat split; auto; lia.
    + destruct (Nat.eqb_spec b 9) as [->|N2].
      * destruct k; cbn; [split; eauto|]. exists 0, s. split; [reflexivity|lia].
      * destruct k; cbn; auto. exists 0, (b :: s). repeat split; auto; lia.
Qed.
Lemma rep_inj n : forall m x y, repeat 32 n ++ x = repeat 32 m ++ y ->
  match x with b :: _ => b <> 32 | [] => True end -> match y with b :: _ => b <> 32 | [] => True end -> n = m /\ x = y.
Proof.
  induction n as [|n IH]; intros [|m] x y E Hx Hy; cbn [repeat app] in E; auto.
  - destruct x as [|b x]; [discriminate|]. congruence.
  - destruct y as [|b y]; [discriminate|]. congruence.
  - injection E as E. destruct (IH _ _ _ E Hx Hy); auto.
Qed.
Lemma parse_line_spec l : (parse_line l = Mixed <-> by_both l) /\ (parse_line l = Found Tabs <-> by_tabs l) /\ (forall n, parse_line l = Found (Spaces n) <-> by_spaces l n).
Proof.
  unfold parse_line. pose proof (parse_line_from_spec l 0) as P.
  assert (Hb : by_both l -> parse_line_from l 0 = Mixed).
  { intros (n & rest & ->). destruct (parse_line_from _ _) as [| |[|n']]; auto.
    - destruct P as [_ P]. cbn in P. lia.
    - destruct P as [_ (r & P)]. discriminate.
    - destruct P as (m & r & _ & _ & P & Hr). destruct (rep_inj (S n) m (9 :: rest) r P) as [_ <-]; [lia|destruct r; tauto|]. cbn in Hr. lia. }
  assert (Ht : by_tabs l -> parse_line_from l 0 = Found Tabs).
  { intros (rest & ->). reflexivity. }
  assert (Hs : forall n, by_spaces l n -> parse_line_from l 0 = Found (Spaces n)).
  { intros n (Hn & rest & -> & Hr). destruct (parse_line_from _ _) as [| |[|n']]; auto.
    - destruct P as (m & r & P & Hm). destruct (rep_inj n m rest (9 :: r) P) as [_ ->]; [destruct rest; tauto|lia|]. cbn in Hr. lia.
    - destruct P as [_ P]. destruct n; [lia|]. cbn in P. lia.
    - destruct P as [_ (r & P)]. destruct n; [lia|]. discriminate.
    - destruct P as (m & r & -> & _ & P & Hr'). destruct (rep_inj n m rest r P) as [-> _]; [destruct rest; tauto|destruct r; tauto|]. now rewrite Nat.add_0_r. }
  split; [|split].
  - split; auto. intros E. rewrite E in P. destruct P as (n & rest & -> & Hn). destruct n; [lia|]. now exists n, rest.
  - split; auto. intros E. rewrite E in P. destruct P as (_ & rest & ->). now exists rest.
  - intros n. split; auto. intros E. rewrite E in P. destruct P as (m & rest & -> & Hn & -> & Hr). rewrite Nat.add_0_r in *. split; auto. now exists rest.
Qed.

Lemma gcd_loop_ok f : forall a b, b <= f -> gcd_loop f a b = Some (Nat.gcd a b).
Proof.
  induction f as [|f IH]; intros a b H.
  - assert (b = 0) as -> by lia. cbn [gcd_loop]. now rewrite Nat.gcd_0_r.
  - destruct b as [|b]; cbn [gcd_loop]; [now rewrite Nat.gcd_0_r|].
    pose proof (Nat.mod_upper_bound a (S b) ltac:(lia)). rewrite IH by lia. f_equal. rewrite (Nat.gcd_comm (S b)). rewrite Nat.gcd_mod by lia. apply Nat.gcd_comm.
Qed.
Lemma gcd_ok a b : gcd a b = Some (Nat.gcd a b).
Proof.
  unfold gcd. destruct (Nat.eqb_spec a 0) as [->|]; [now rewrite Nat.gcd_0_l|]. destruct (Nat.eqb_spec b 0) as [->|]; cbn [orb]; [now rewrite Nat.gcd_0_r|].
  destruct (Nat.eqb_spec a b) as [->|]; [now rewrite Nat.gcd_diag|]. now apply gcd_loop_ok.
Qed.

Lemma extract_fold_ge ks : forall a, 2 <= a -> exists n, extract_fold ks a = Some n /\ 2 <= n /\ Nat.divide n a.
Proof.
  induction ks as [|b ks IH]; intros a Ha; cbn [extract_fold]; [exists a; auto using Nat.divide_refl|].
  rewrite gcd_ok. cbn [bind]. destruct (Nat.eqb_spec (Nat.gcd a b) 1) as [E|E].
  - apply IH; auto.
  - assert (Nat.gcd a b <> 0) by (rewrite Nat.gcd_eq_0; lia). destruct (IH (Nat.gcd a b)) as (n & -> & Hn & D); [lia|].
    exists n. split; auto. split; auto. eapply Nat.divide_trans; [exact D|apply Nat.gcd_divide_l].
Qed.
Lemma extract_fold_mult k ks : 2 <= k -> Forall (Nat.divide k) ks -> forall a n, Nat.divide k a -> extract_fold ks a = Some n -> Nat.divide k n.
Proof.
  intros Hk. induction 1 as [|b ks H F IH]; intros a n Ha; cbn [extract_fold]; [congruence|].
  rewrite gcd_ok. cbn [bind]. destruct (Nat.gcd a b =? 1); apply IH; auto. now apply Nat.gcd_greatest.
Qed.

(** The counts are a set of sizes in increasing order. *)
Lemma bump_keys n m k : In k (map fst (bump n m)) <-> k = n \/ In k (map fst m).
Proof.
  induction m as [|[k0 c] m IH]; cbn [bump map fst In]; [intuition|].
  destruct (Nat.eqb_spec n k0) as [->|]; [cbn; intuition|]. destruct (n <? k0); cbn [map fst In]; [intuition|]. rewrite IH. intuition.
Qed.
Lemma bump_sorted n m : StronglySorted lt (map fst m) -> StronglySorted lt (map fst (bump n m)).
Proof.
  induction m as [|[k0 c] m IH]; intros H; cbn [bump map fst].
  - repeat constructor.
  - cbn [map fst] in H. apply StronglySorted_inv in H as [H1 H2].
    destruct (Nat.eqb_spec n k0) as [->|]; [now constructor|]. destruct (Nat.ltb_spec n k0).
    + cbn [map fst]. constructor; [now constructor|]. constructor; auto. eapply Forall_impl; [|exact H2]. intros; lia.
    + cbn [map fst]. constructor; auto. apply Forall_forall. intros k Hk. apply bump_keys in Hk as [->|Hk]; [lia|]. rewrite Forall_forall in H2. auto.
Qed.

Definition smallest_ge2 (P : nat -> Prop) (n : nat) : Prop := P n /\ 2 <= n /\ forall m, P m -> 2 <= m -> n <= m.
Lemma extract_count_ok m : StronglySorted lt (map fst m) -> Forall (fun k => 0 < k) (map fst m) ->
  exists n, extract_count m = Some n /\
    ((n = 0 /\ forall k, In k (map fst m) -> k = 1) \/
     (2 <= n /\ (exists k, smallest_ge2 (fun k => In k (map fst m)) k /\ Nat.divide n k) /\
      forall d, 2 <= d -> (forall k, In k (map fst m) -> Nat.divide d k) -> Nat.divide d n)).
Proof.
  intros St P. unfold extract_count. set (t := if length m <? 4 then length m else 4).
  assert (Et : map fst (firstn t m) = firstn 4 (map fst m)).
  { rewrite <- firstn_map. subst t. destruct (Nat.ltb_spec (length m) 4); auto. rewrite !firstn_all2; auto; rewrite map_length; lia. }
  rewrite Et. set (ks := map fst m) in *. clearbody ks. clear t Et m.
  assert (D : forall n, extract_fold (firstn 4 ks) 0 = Some n -> forall d, 2 <= d -> (forall k, In k ks -> Nat.divide d k) -> Nat.divide d n).
  { intros n E d Hd Hk. apply (extract_fold_mult d (firstn 4 ks) Hd) with (a := 0); auto using Nat.divide_0_r.
    apply Forall_forall. intros k Hin. apply Hk. rewrite <- (firstn_skipn 4 ks). apply in_or_app; auto. }
  destruct ks as [|b1 ks]; [exists 0; split; [reflexivity|left; split; auto; intros k []]|].
  apply StronglySorted_inv in St as [St1 F1]. inversion P as [|? ? P1 P2]; subst.
  destruct (Nat.eq_dec b1 1) as [->|N1].
  - destruct ks as [|b2 ks].
    + exists 0. split; [reflexivity|]. left. split; auto. intros k [<-|[]]. auto.
    + apply StronglySorted_inv in St1 as [St2 F2]. inversion F1 as [|? ? F1a _]; subst.
      assert (E0 : extract_fold (firstn 4 (1 :: b2 :: ks)) 0 = extract_fold (firstn 2 ks) b2).
      { change (firstn 4 (1 :: b2 :: ks)) with (1 :: b2 :: firstn 2 ks). cbn [extract_fold]. rewrite gcd_ok. cbn [bind]. rewrite Nat.gcd_0_l. cbn [Nat.eqb]. rewrite gcd_ok. cbn [bind]. rewrite Nat.gcd_0_l.
        destruct (Nat.eqb_spec b2 1); [lia|reflexivity]. }
      destruct (extract_fold_ge (firstn 2 ks) b2) as (n & E & Hn & Dn); [lia|]. rewrite E0. exists n. split; auto. right. split; auto. split.
      * exists b2. split; auto. split; [right; now left|]. split; [lia|]. intros m [<-|[<-|Hm]] H2; [lia|lia|]. rewrite Forall_forall in F2. apply F2 in Hm. lia.
      * apply D. now rewrite E0.
  - assert (E0 : extract_fold (firstn 4 (b1 :: ks)) 0 = extract_fold (firstn 3 ks) b1).
    { change (firstn 4 (b1 :: ks)) with (b1 :: firstn 3 ks). cbn [extract_fold]. rewrite gcd_ok. cbn [bind]. rewrite Nat.gcd_0_l. destruct (Nat.eqb_spec b1 1); [lia|reflexivity]. }
    destruct (extract_fold_ge (firstn 3 ks) b1) as (n & E & Hn & Dn); [lia|]. rewrite E0. exists n. split; auto. right. split; auto. split.
    * exists b1. split; auto. split; [now left|]. split; [lia|]. intros m [<-|Hm] H2; [lia|]. rewrite Forall_forall in F1. apply F1 in Hm. lia.
    * apply D. now rewrite E0.
Qed.

(** What a list of lines uses. *)
Definition indentation_of (ls : list (list nat)) (d : detected indentation) : Prop :=
  let both := exists l, In l ls /\ by_both l in
  let tabs := exists l, In l ls /\ by_tabs l in
  let spaces := fun n => exists l, In l ls /\ by_spaces l n in
  match d with
  | Mixed => both \/ (tabs /\ exists n, spaces n)
  | Found Tabs => ~ both /\ tabs /\ ~ (exists n, spaces n)
  | Found (Spaces n) => ~ both /\ ~ tabs /\ 2 <= n /\ (exists k, smallest_ge2 spaces k /\ Nat.divide n k) /\
      forall d, 2 <= d -> (forall k, spaces k -> Nat.divide d k) -> Nat.divide d n
  | Nothing => ~ both /\ ~ tabs /\ forall n, spaces n -> n = 1
  end.

Lemma smallest_ext P Q n : (forall k : nat, P k <-> Q k) -> smallest_ge2 P n -> smallest_ge2 Q n.
Proof. intros H (A & B & C). split; [now apply H|]. split; auto. intros m Hm. apply C. now apply H. Qed.
Lemma parse_lines_ok todo : forall done tabs m,
  (tabs = true <-> exists l, In l done /\ by_tabs l) ->
  (forall n, In n (map fst m) <-> exists l, In l done /\ by_spaces l n) ->
  StronglySorted lt (map fst m) -> ~ (exists l, In l done /\ by_both l) ->
  exists d, parse_lines todo tabs m = Some d /\ indentation_of (done ++ todo) d.
Proof.
  induction todo as [|l todo IH]; intros done tabs m Ht Hm Hs Hb.
  - cbn [parse_lines]. rewrite app_nil_r. destruct tabs, m as [|[k0 c0] m].
    + eexists. split; [reflexivity|]. split; auto. split; [now apply Ht|]. intros (n & Hn). now apply Hm in Hn.
    + eexists. split; [reflexivity|]. right. split; [now apply Ht|]. exists k0. apply Hm. now left.
    + eexists. split; [reflexivity|]. split; auto. split; [intro X; apply Ht in X; discriminate|]. intros n Hn. now apply Hm in Hn.
    + destruct (extract_count_ok ((k0, c0) :: m) Hs) as (n & -> & Hn).
      { apply Forall_forall. intros k Hk. apply Hm in Hk as (l & _ & (Hk & _)). exact Hk. }
      cbn [bind]. eexists. split; [reflexivity|]. destruct Hn as [[-> H1]|(H2 & (k & Hk & Dk) & Hd)].
      * cbn. split; auto. split; [intro X; apply Ht in X; discriminate|]. intros k Hk. apply H1. now apply Hm.
      * replace (0 <? n) with true by (symmetry; apply Nat.ltb_lt; lia). split; auto. split; [intro X; apply Ht in X; discriminate|]. split; auto. split.
        -- exists k. split; auto. eapply smallest_ext; [|exact Hk]. exact Hm.
        -- intros d H2d Hall. apply Hd; auto. intros k1 Hk1. apply Hall. now apply Hm.
  - cbn [parse_lines]. pose proof (parse_line_spec l) as (PB & PT & PS).
    replace (done ++ l :: todo) with ((done ++ [l]) ++ todo) by (now rewrite <- app_assoc).
    assert (ex_snoc : forall (P : list nat -> Prop), (exists x, In x (done ++ [l]) /\ P x) <-> (exists x, In x done /\ P x) \/ P l).
    { intros P. split.
      - intros (x & Hx & Px). apply in_app_or in Hx as [Hx|[<-|[]]]; eauto.
      - intros [(x & Hx & Px)|Pl]; [exists x; split; auto; apply in_or_app; auto|exists l; split; auto; apply in_or_app; right; now left]. }
    destruct (parse_line l) as [| |[|n]] eqn:E.
    + eexists. split; [reflexivity|]. left. exists l. split; [|now apply PB]. apply in_or_app. left. apply in_or_app. right. now left.
    + apply IH; auto.
      * rewrite ex_snoc. rewrite Ht. split; auto. intros [?|X]; auto. apply PT in X. discriminate.
      * intros n. rewrite ex_snoc, Hm. split; auto. intros [?|X]; auto. apply PS in X. discriminate.
      * rewrite ex_snoc. intros [?|X]; auto. apply PB in X. discriminate.
    + apply IH; auto.
      * rewrite ex_snoc. split; auto. intros _. right. now apply PT.
      * intros n. rewrite ex_snoc, Hm. split; auto. intros [?|X]; auto. apply PS in X. discriminate.
      * rewrite ex_snoc. intros [?|X]; auto. apply PB in X. discriminate.
    + apply IH; auto.
      * rewrite ex_snoc. rewrite Ht. split; auto. intros [?|X]; auto. apply PT in X. discriminate.
      * intros n'. rewrite ex_snoc, bump_keys, Hm. split; [intros [->|?]; auto; right; now apply PS|]. intros [?|X]; auto. apply PS in X. left. congruence.
      * now apply bump_sorted.
      * rewrite ex_snoc. intros [?|X]; auto. apply PB in X. discriminate.
Qed.

(** The indentation found is that of the lines of the text, however the text is stored. *)
Theorem C39_indentation h r ls : rope_wf h r -> raw_lines (rcontent r) ls ->
  exists d, indentation_parse r = Some d /\ indentation_of ls d.
Proof.
  intros W R. unfold indentation_parse. rewrite (len_r r h W).
  destruct (lines_raw_ok r h W 0 (length (rcontent r))) as (ls' & -> & R'); [lia|reflexivity|apply cb_len|]. rewrite slice_full in R'.
  rewrite (C20_raw_lines_determined _ _ R' _ R). cbn [bind].
  destruct (parse_lines_ok ls [] false []) as (d & E & H).
  - split; [discriminate|]. intros (l & [] & _).
  - intros n. split; [intros []|]. intros (l & [] & _).
  - constructor.
  - intros (l & [] & _).
  - exists d. auto.
Qed.
Print Assumptions C39_indentation.
(** Two ropes of the same text have the same indentation. *)
Theorem C39_indentation_text h1 r1 h2 r2 : rope_wf h1 r1 -> rope_wf h2 r2 -> rcontent r1 = rcontent r2 -> indentation_parse r1 = indentation_parse r2.
Proof.
  intros W1 W2 E. unfold indentation_parse. rewrite (len_r r1 h1 W1), (len_r r2 h2 W2).
  destruct (lines_raw_ok r1 h1 W1 0 (length (rcontent r1))) as (l1 & -> & R1); [lia|reflexivity|apply cb_len|].
  destruct (lines_raw_ok r2 h2 W2 0 (length (rcontent r2))) as (l2 & -> & R2); [lia|reflexivity|apply cb_len|].
  rewrite slice_full in R1, R2. rewrite E in R1. now rewrite (C20_raw_lines_determined _ _ R1 _ R2).
Qed.
Print Assumptions C39_indentation_text.
(** Lines indented by multiples of [k] spaces, one of them by just [k]: the indentation is
    [k] spaces. *)
Theorem C39_indent_unit h r ls k : rope_wf h r -> raw_lines (rcontent r) ls -> 2 <= k ->
  (forall l, In l ls -> ~ by_tabs l /\ ~ by_both l) ->
  (forall l n, In l ls -> by_spaces l n -> Nat.divide k n) -> (exists l, In l ls /\ by_spaces l k) ->
  indentation_parse r = Some (Found (Spaces k)).
Proof.
  intros W R Hk Hn Hd (l & Hl & Hs). destruct (C39_indentation h r ls W R) as (d & -> & H). f_equal.
  destruct d as [| |[|n]]; cbn in H.
  - destruct H as [(l' & Hl' & B)|[(l' & Hl' & B) _]]; destruct (Hn l' Hl'); tauto.
  - destruct H as (_ & _ & H). specialize (H k (ex_intro _ l (conj Hl Hs))). lia.
  - destruct H as (_ & (l' & Hl' & B) & _). destruct (Hn l' Hl'); tauto.
  - destruct H as (_ & _ & H2 & (m & (Hm & Hm2 & Hmin) & Dm) & Hall).
    assert (D1 : Nat.divide k n). { apply Hall; auto. intros k' (l' & Hl' & B). eauto. }
    assert (m = k). { pose proof (Hmin k (ex_intro _ l (conj Hl Hs)) Hk). destruct Hm as (l' & Hl' & B). pose proof (Hd _ _ Hl' B) as D. apply Nat.divide_pos_le in D; lia. }
    subst m. f_equal. f_equal. now apply Nat.divide_antisym.
Qed.
Print Assumptions C39_indent_unit.
(** The indentation most lines use need not be found: the sizes are taken smallest first. *)
Theorem C39_most_used_refuted :
  let s := repeat 32 3 ++ [97; 10] ++ concat (repeat (repeat 32 4 ++ [97; 10]) 100) in
  (let? r := rope_from s in indentation_parse r) = Some (Found (Spaces 3)).
Proof. now vm_compute. Qed.
Print Assumptions C39_most_used_refuted.

(** [if x]; two spaces [a]; four spaces [b]. *)
Example C39_indentation_example :
  (let? r := rope_from ([105; 10] ++ repeat 32 2 ++ [97; 10] ++ repeat 32 4 ++ [98]) in indentation_parse r) = Some (Found (Spaces 2)).
Proof. now vm_compute. Qed.
Example C39_indentation_mixed : (let? r := rope_from [9; 97; 10; 32; 98] in indentation_parse r) = Some Mixed.
Proof. now vm_compute. Qed.
