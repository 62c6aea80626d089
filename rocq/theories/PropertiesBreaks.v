(** Properties of break sequences: C25. *)
From Coq Require Import List Arith Lia Bool ZifyBool.
From Verif Require Import Base ListLib SynthProofs TreeModel TreeSpec TreeProofs MetricProofs CursorModel CursorProofs CursorBoundary
  BreaksModel BreaksSpec BreaksProofs.
Import ListNotations.

(** Programs that make break sequences, and the sequence each stands for. *)
Inductive bexpr :=
| BBuild (calls : list (bool * nat))
| BNone (len : nat)
| BConcat (a b : bexpr)
| BSlice (a : bexpr) (i j : nat)
| BEdit (a : bexpr) (i j : nat) (new : bexpr).
Fixpoint beval (x : bexpr) : option breaks :=
  match x with
  | BBuild calls => let? b := bb_run bb_new calls in bb_build b
  | BNone len => Some (new_no_break len)
  | BConcat a b => let? na := beval a in let? nb := beval b in concat br_ops na nb
  | BSlice a i j => let? na := beval a in subseq br_ops na i j
  | BEdit a i j new => let? na := beval a in let? nn := beval new in edit br_ops na i j nn
  end.
Inductive bdenotes : bexpr -> list bool -> Prop :=
| DBuild calls : Forall (fun c => fst c = true -> 0 < snd c) calls -> bdenotes (BBuild calls) (flat_map call_bits calls)
| DNone len : bdenotes (BNone len) (repeat false len)
| DConcat a b s t : bdenotes a s -> bdenotes b t -> bdenotes (BConcat a b) (s ++ t)
| DSlice a s i j : bdenotes a s -> i <= j -> j <= length s -> bdenotes (BSlice a i j) (slice s i j)
| DEdit a s i j new t : bdenotes a s -> bdenotes new t -> i <= j -> j <= length s ->
    bdenotes (BEdit a i j new) (firstn i s ++ t ++ skipn j s).

Notation bwf := (wf br_ops blc bV rank).
Lemma beval_ok x s : bdenotes x s -> exists b h, beval x = Some b /\ bwf h b /\ content blc b = s.
Proof.
  induction 1 as [calls F|len|a b s t _ (na & ha & Ea & Wa & Ca) _ (nb & hb & Eb & Wb & Cb)|a s i j _ (na & ha & Ea & Wa & Ca) Hi Hj
    |a s i j new t _ (na & ha & Ea & Wa & Ca) _ (nb & hb & Eb & Wb & Cb) Hi Hj]; cbn [beval].
  - destruct bb_new_ok as [N C]. destruct (bb_run_ok calls bb_new N F) as (b & -> & Hb & Cb). cbn [bind].
    destruct (bb_build_ok b Hb) as (n & h & -> & W & Cn). exists n, h. rewrite Cn, Cb, C. auto.
  - exists (new_no_break len), 0. split; auto. assert (V0 : bV (BLeaf len [])) by (split; cbn; lia).
    destruct (from_leaf_wf br_ops blc bV bcut rank br_leaf_spec _ V0) as [W C]. split; auto. unfold new_no_break. rewrite C. unfold blc, bits. cbn.
    clear. generalize 0. induction len; intros k; cbn; auto. now rewrite IHlen.
  - rewrite Ea, Eb. cbn [bind]. destruct (concat_ok br_ops blc bV bcut rank br_leaf_spec _ _ _ _ Wa Wb) as (n & h & E & W & C & _). exists n, h. rewrite E, C, Ca, Cb. auto.
  - rewrite Ea. cbn [bind]. subst s. destruct (subseq_ok br_ops blc bV bcut rank br_leaf_spec _ _ i j Wa) as (n & h & E & W & C); auto; try exact Logic.I.
    exists n, h. auto.
  - rewrite Ea, Eb. cbn [bind]. subst s t. destruct (edit_tree_ok br_ops blc bV bcut rank br_leaf_spec _ _ i j _ _ Wa Wb) as (n & h & E & W & C); auto; try exact Logic.I.
    exists n, h. auto.
Qed.

(** Whatever the program, the result has the right length; the number of breaks up to an offset
    is what the list says; the offset of the [m]th break is the one place where there is a break
    and [m] breaks up to it; and a cursor at any place finds the next and the previous break. *)
Theorem C25_breaks x s : bdenotes x s ->
  exists b h, beval x = Some b /\ n_len b = length s /\
    (forall fuel o, h + 1 < fuel -> o <= length s -> br_count fuel b o = Some (rank (firstn o s))) /\
    (forall fuel, h + 1 < fuel -> br_offset fuel b 0 = Some 0) /\
    (forall fuel m, h + 1 < fuel -> 0 < m <= rank s ->
       exists o, br_offset fuel b m = Some o /\ at_break s o /\ rank (firstn o s) = m) /\
    (forall o, o <= length s -> exists c, c_new b o = Some c /\
       (exists r c', c_next br_ops b br_metric c = Some (r, c') /\
          match r with
          | Some p => o < p /\ at_break s p /\ forall y, o < y < p -> ~ at_break s y
          | None => forall y, o < y -> ~ at_break s y
          end) /\
       (exists r c', c_prev br_ops b br_metric c = Some (r, c') /\
          match r with
          | Some p => p < o /\ at_break s p /\ forall y, p < y < o -> ~ at_break s y
          | None => forall y, y < o -> ~ at_break s y
          end) /\
       (exists f c', c_is_boundary br_ops b br_metric c = Some (f, c') /\ (f = true <-> at_break s o))).
Proof.
  intros D. destruct (beval_ok x s D) as (b & h & E & W & <-). exists b, h. split; auto. split; [eapply wf_len; eauto|].
  split; [|split; [|split]].
  - intros fuel o Hf Ho. destruct (convert_ok br_ops blc bV bcut rank bT br_text_spec _ _ _ _ _ _ br_base_spec br_metric_spec h b o fuel W Ho Logic.I Hf) as (o' & (S1 & _ & S2 & S3) & E').
    unfold br_count. rewrite E'. do 3 f_equal. rewrite firstn_length_le in S2 by auto. destruct (Nat.eq_dec o o'); auto.
    specialize (S3 o ltac:(lia) Logic.I). rewrite firstn_length_le in S3 by auto. lia.
  - intros fuel Hf. reflexivity.
  - intros fuel m Hf Hm. destruct (convert_ok br_ops blc bV bcut rank bT br_text_spec _ _ _ _ _ _ br_metric_spec br_base_spec h b m fuel W ltac:(lia) Logic.I Hf) as (o & (S1 & _ & S2 & S3) & E').
    exists o. unfold br_offset. rewrite E', firstn_length_le by auto. split; auto. destruct o as [|o]; [cbn in S2; lia|].
    specialize (S3 o ltac:(lia) Logic.I). destruct (nth_error (content blc b) o) as [f|] eqn:En; [|apply nth_error_None in En; lia].
    rewrite (firstn_S_nth _ _ _ En), rank_app in *. destruct f; [|cbn in S2; lia]. cbn in S2 |- *. split; [|lia].
    split; [lia|]. cbn. rewrite Nat.sub_0_r. auto.
  - intros o Ho. destruct (new_ok br_ops blc bV rank b h W o Ho) as (c & l & pre & post & Ec & Ep & Hv). exists c. split; auto.
    assert (Hc : is_valid blc b c) by (now exists l, pre, post). split; [|split].
    + destruct (next_ok br_ops _ _ _ _ _ br_leaf_spec br_text_spec _ _ _ br_bound b h W c Hc (or_introl eq_refl)) as (r & c' & E1 & Hr). exists r, c'. split; auto.
      rewrite Ep in Hr. destruct r as [p|].
      * destruct Hr as (_ & H2 & H3 & H4 & _). split; [lia|]. split; auto. intros y Hy. apply H4. lia.
      * destruct Hr as (_ & _ & H3). intros y Hy Hb. pose proof (at_break_le _ _ Hb). apply (H3 y); auto. lia.
    + destruct (prev_ok br_ops _ _ _ _ _ br_leaf_spec br_text_spec _ _ _ br_bound b h W c Hc) as (r & c' & E1 & Hr). exists r, c'. split; auto.
      rewrite Ep in Hr. destruct r as [p|].
      * destruct Hr as (_ & H2 & H3 & H4 & _). split; [lia|]. split; auto. intros y Hy. apply H4. lia.
      * destruct Hr as (_ & _ & H3). intros y Hy Hb. apply (H3 y); auto.
    + destruct (is_boundary_ok br_ops _ _ _ _ _ br_leaf_spec br_text_spec _ _ _ br_bound b h W c Hc) as (f & c' & E1 & Hf & _). exists f, c'. rewrite Ep in Hf. auto.
Qed.
Print Assumptions C25_breaks.

(** Breaks at every 10 units and an edit over the leaf ends. *)
Definition ex_calls := repeat (true, 10) 200 ++ [(false, 5)].
Example C25_example : exists s, bdenotes (BEdit (BBuild ex_calls) 15 655 (BNone 7)) s /\ length s = 1372 /\ rank s = 136.
Proof.
  eexists. split; [apply DEdit; [apply DBuild|apply DNone|lia|]|].
  - unfold ex_calls. apply Forall_app. split; [|repeat constructor; discriminate]. apply Forall_forall. intros x Hx. apply repeat_spec in Hx. subst. cbn. lia.
  - apply Nat.leb_le. now vm_compute.
  - split; now vm_compute.
Qed.
Example C25_example_runs :
  (let? b := beval (BEdit (BBuild ex_calls) 15 655 (BNone 7)) in
   let? n := br_count 5 b 32 in let? o := br_offset 5 b 2 in Some (n_height b, n_len b, n, o)) = Some (1, 1372, 2, 27).
Proof. now vm_compute. Qed.
