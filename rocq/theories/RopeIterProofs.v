(** Reading a rope back: codepoints, chunks, strings and lines. *)
From Coq Require Import List Arith Lia Bool ZifyBool.
From Verif Require Import Base ListLib MultisetProofs DeltaModel TreeModel TreeSpec TreeProofs MetricProofs CursorModel CursorProofs CursorBoundary
  RopeModel RopeSpec RopeProofs RopeMetric RopeIterModel RopeCursor.
Import ListNotations.
Local Notation concat := List.concat.
Local Notation idl := (fun s : list nat => s).

Section Rope.
Context (r : rope) (h : nat) (W : rope_wf h r).
Notation s := (rcontent r).

Lemma len_r : n_len r = length s.
Proof. apply (wf_len rope_ops idl leafV compute_info h r W). Qed.

(** ** Codepoints *)
Lemma is_cb_ok o : o <= length s -> is_codepoint_boundary r o = Some (is_char_boundary s o).
Proof.
  intros Ho. unfold is_codepoint_boundary. destruct (rnew_ok h r o W Ho) as (c & -> & Ep & Hv). cbn [bind].
  destruct (is_boundary_ok rope_ops _ _ _ _ _ rope_leaf_spec rope_text_spec _ _ _ base_bound r h W c Hv) as (b & c' & -> & Hb & _). cbn [bind].
  f_equal. rewrite Ep in Hb. unfold scut in Hb. change (content idl r) with s in Hb. destruct b, (is_char_boundary s o); auto; [symmetry; now apply Hb|now apply Hb].
Qed.
Lemma next_cp_ok o : scut s o -> exists x, next_codepoint_offset r o = Some x /\
  match x with
  | Some p => o < p <= length s /\ scut s p /\ (forall y, o < y < p -> ~ scut s y)
  | None => o = length s
  end.
Proof.
  intros Hc. pose proof (cb_le _ _ Hc) as Ho. unfold next_codepoint_offset. destruct (rnew_ok h r o W Ho) as (c & -> & Ep & Hv). cbn [bind].
  destruct (next_ok rope_ops _ _ _ _ _ rope_leaf_spec rope_text_spec _ _ _ base_bound r h W c Hv) as (x & c' & -> & Hx).
  { right. now rewrite Ep. }
  cbn [bind]. exists x. split; auto. rewrite Ep in Hx. destruct x as [p|].
  - destruct Hx as (_ & H1 & H2 & H3 & _). split; auto. split; auto. intros y Hy. apply H3. lia.
  - destruct Hx as (_ & _ & H3). destruct (Nat.eq_dec o (length s)); auto. exfalso. apply (H3 (length s)); [|apply cb_len].
    change (content idl r) with s. lia.
Qed.
Lemma prev_cp_ok o : o <= length s -> exists x, prev_codepoint_offset r o = Some x /\
  match x with
  | Some p => p < o /\ scut s p /\ (forall y, p < y < o -> ~ scut s y)
  | None => o = 0
  end.
Proof.
  intros Ho. unfold prev_codepoint_offset. destruct (rnew_ok h r o W Ho) as (c & -> & Ep & Hv). cbn [bind].
  destruct (prev_ok rope_ops _ _ _ _ _ rope_leaf_spec rope_text_spec _ _ _ base_bound r h W c Hv) as (x & c' & -> & Hx).
  cbn [bind]. exists x. split; auto. rewrite Ep in Hx. destruct x as [p|].
  - destruct Hx as (_ & H1 & H2 & H3 & _). split; auto. split; auto. intros y Hy. apply H3. lia.
  - destruct Hx as (_ & _ & H3). destruct (Nat.eq_dec o 0); auto. exfalso. apply (H3 0); [lia|reflexivity].
Qed.

(** ** Chunks *)
Definition ci_ok (it : chunk_iter) (rem : list nat) : Prop :=
  ci_end it <= c_pos (ci_cursor it) /\ rem = [] \/
  rvalid r (ci_cursor it) /\ c_pos (ci_cursor it) < ci_end it <= length s /\
  scut s (c_pos (ci_cursor it)) /\ scut s (ci_end it) /\ rem = slice s (c_pos (ci_cursor it)) (ci_end it).

Lemma iter_ok a b : a <= b -> scut s a -> scut s b -> exists it, iter_chunks r a b = Some it /\ ci_ok it (slice s a b).
Proof.
  intros Hab Ha Hb. unfold iter_chunks. pose proof (cb_le _ _ Hb). destruct (rnew_ok h r a W ltac:(lia)) as (c & -> & Ep & Hv). cbn [bind].
  eexists. split; [reflexivity|]. unfold ci_ok. cbn [ci_end ci_cursor]. rewrite Ep. destruct (Nat.eq_dec a b) as [->|].
  - left. split; auto. unfold slice. now rewrite Nat.sub_diag.
  - right. repeat split; auto; lia.
Qed.

Lemma slice_cat {A} (l : list A) i j k : i <= j -> j <= k -> slice l i k = slice l i j ++ slice l j k.
Proof.
  intros Hi Hj. unfold slice. rewrite <- (firstn_skipn (j - i) (skipn i l)) at 1. rewrite skipn_skipn. replace (i + (j - i)) with j by lia.
  rewrite firstn_app. destruct (Nat.le_gt_cases j (length l)).
  - rewrite firstn_length_le by (rewrite skipn_length; lia). rewrite firstn_all2 by (rewrite firstn_length; lia). do 2 f_equal. lia.
  - rewrite (skipn_all2 l (n:=j)) by lia. rewrite !firstn_nil, !app_nil_r. rewrite firstn_all2; auto. rewrite firstn_length. lia.
Qed.
Lemma slice_ne {A} (l : list A) i j : i < j -> j <= length l -> slice l i j <> [].
Proof. intros H1 H2 E. apply (f_equal (@length A)) in E. unfold slice in E. rewrite firstn_length, skipn_length in E. cbn in E. lia. Qed.

Lemma chunk_next_ok it rem : ci_ok it rem ->
  match rem with
  | [] => chunk_next r it = Some (None, it)
  | _ => exists c it' rem', chunk_next r it = Some (Some c, it') /\ c <> [] /\ utf8 c /\ rem = c ++ rem' /\ ci_ok it' rem'
  end.
Proof.
  intros [[H1 ->]|(Hv & Hp & Ca & Cb & Er)].
  { unfold chunk_next. now replace (ci_end it <=? c_pos (ci_cursor it)) with true by lia. }
  assert (rem <> []) by (rewrite Er; apply slice_ne; lia). destruct rem as [|x rem0] eqn:Ex; [congruence|]. rewrite <- Ex in *. clear Ex H.
  unfold chunk_next. destruct it as [c e]. cbn [ci_end ci_cursor] in *. replace (e <=? c_pos c) with false by lia.
  destruct Hv as (l & pre & post & Ha & H1 & H2). pose proof Ha as (p & R & El & Eo & Ec). unfold c_get_leaf. rewrite El. replace (c_pos c <? c_off c) with false by lia.
  cbn [bind]. pose proof (route_content rope_ops idl leafV compute_info r h W _ _ _ _ R) as Es. change (content idl r) with s in Es.
  pose proof (route_total rope_ops idl leafV compute_info r h W _ _ _ _ R) as Et. change (content idl r) with s in Et.
  set (q := c_pos c - c_off c). replace (length l <? q) with false by lia.
  set (len := Nat.min (e - c_pos c) (length l - q)).
  assert (Hlt : q < length l).
  { destruct H2 as [H2|[H2 ->]]; [lia|]. exfalso. change (llen idl []) with 0 in Et. lia. }
  assert (Sub : forall i, i <= length l -> scut s (llen idl pre + i) -> scut l i).
  { intros i Hi Hc. rewrite Es in Hc. eapply (t_cut_sub _ _ _ _ _ rope_text_spec); eauto. }
  assert (Cq : scut l q) by (apply Sub; [lia|]; now replace (llen idl pre + q) with (c_pos c) by lia).
  assert (Ce : scut l (q + len)).
  { destruct (Nat.le_gt_cases (length l - q) (e - c_pos c)).
    - replace (q + len) with (length l) by lia. apply cb_len.
    - apply Sub; [lia|]. now replace (llen idl pre + (q + len)) with e by lia. }
  rewrite str_slice_some by (auto; lia).
  assert (Ulen : slice l q (q + len) = slice s (c_pos c) (c_pos c + len)).
  { rewrite Es. replace (c_pos c) with (length (flat_map idl pre) + q) by (change (length (flat_map idl pre)) with (llen idl pre); lia).
    rewrite <- Nat.add_assoc, slice_shift, slice_app by lia. rewrite (slice_empty (flat_map idl post)) by lia. now rewrite app_nil_r. }
  pose proof (route_V rope_ops idl leafV compute_info r h W _ _ _ _ R) as [Ul _].
  pose proof (next_leaf_ok rope_ops idl leafV scut compute_info utf8 rope_leaf_spec rope_text_spec r h W c l pre post Ha) as Hn.
  assert (Hc : slice l q (q + len) <> []) by (apply slice_ne; lia).
  assert (Hu : utf8 (slice l q (q + len))) by (apply utf8_slice; auto; lia).
  assert (Eq : rem = slice l q (q + len) ++ slice s (c_pos c + len) e) by (rewrite Ulen, Er; apply slice_cat; lia).
  destruct post as [|l2 post'].
  - destruct Hn as (c' & -> & El' & Ep' & _). cbn [bind]. eexists _, _, _. split; [reflexivity|]. split; auto. split; auto. split; [exact Eq|].
    left. cbn [ci_end ci_cursor]. change (content idl r) with s in Ep'. split; [lia|].
    change (llen idl []) with 0 in Et. unfold slice. replace (e - (c_pos c + len)) with 0 by lia. reflexivity.
  - destruct Hn as (c' & -> & Ha' & Ep'). cbn [bind]. eexists _, _, _. split; [reflexivity|]. split; auto. split; auto. split; [exact Eq|].
    pose proof Ha' as (p' & R' & El' & Eo' & Ec'). rewrite llen_app, llen_one in Eo'.
    unfold ci_ok. cbn [ci_end ci_cursor]. rewrite Ep', Eo'. destruct (Nat.le_gt_cases e (llen idl pre + length l)).
    + left. split; auto. unfold slice. replace (e - (c_pos c + len)) with 0 by lia. reflexivity.
    + right. split; [exists l2, (pre ++ [l]), post'; split; auto; split; [lia|]|].
      { left. pose proof (leaves_pos rope_ops idl leafV scut compute_info utf8 rope_text_spec h r W) as FP.
        assert (0 < h) as Hh. { apply (H_pos rope_ops idl leafV compute_info r h W _ _ _ _ R). right. discriminate. }
        specialize (FP (or_introl Hh)). rewrite (route_leaves _ _ _ _ _ R') in FP. apply Forall_app in FP as [_ FP]. inversion FP. lia. }
      split; [lia|]. split; [|split; auto; f_equal; lia].
      replace (llen idl pre + length l) with (length (flat_map idl pre) + length l) by reflexivity.
      unfold scut. rewrite Es. apply (t_cut_sup _ _ _ _ _ rope_text_spec); auto; [| |apply cb_len].
      * eapply (T_ls rope_ops idl leafV scut utf8 rope_text_spec).
        pose proof (leaves_V rope_ops idl leafV compute_info h r W) as FV. rewrite (route_leaves _ _ _ _ _ R) in FV. apply Forall_app in FV. tauto.
      * eapply (T_ls rope_ops idl leafV scut utf8 rope_text_spec).
        pose proof (leaves_V rope_ops idl leafV compute_info h r W) as FV. rewrite (route_leaves _ _ _ _ _ R) in FV. apply Forall_app in FV as [_ FV]. now inversion FV.
Qed.

Lemma chunks_rest_ok fuel : forall it rem, ci_ok it rem -> length rem <= fuel ->
  exists cs, chunks_rest fuel r it = Some cs /\ concat cs = rem /\ Forall (fun c => c <> [] /\ utf8 c) cs.
Proof.
  induction fuel as [|f IH]; intros it rem Hi Hl; pose proof (chunk_next_ok it rem Hi) as Hn; destruct rem as [|x rem0] eqn:Er.
  - cbn [chunks_rest]. rewrite Hn. exists []. auto.
  - cbn in Hl. lia.
  - cbn [chunks_rest]. rewrite Hn. exists []. auto.
  - destruct Hn as (c & it' & rem' & E & Hc & Hu & Ec & Hi'). cbn [chunks_rest]. rewrite E. cbn [bind].
    destruct (IH it' rem' Hi') as (cs & -> & E1 & F1).
    { rewrite Ec, app_length in Hl. destruct c; [congruence|]. cbn in Hl. lia. }
    cbn [bind]. exists (c :: cs). split; auto. cbn. rewrite E1, Ec. auto.
Qed.
Lemma fold_app (cs : list (list nat)) : forall a, fold_left (fun out x => out ++ x) cs a = a ++ concat cs.
Proof. induction cs; intros; cbn; [now rewrite app_nil_r|]. now rewrite IHcs, app_assoc. Qed.

Lemma slice_len_le {A} (l : list A) i j : length (slice l i j) <= length l.
Proof. unfold slice. rewrite firstn_length, skipn_length. lia. Qed.

Lemma slice_to_cow_ok a b : a <= b -> scut s a -> scut s b -> slice_to_cow r a b = Some (slice s a b).
Proof.
  intros Hab Ha Hb. unfold slice_to_cow. destruct (iter_ok a b Hab Ha Hb) as (it & -> & Hi). cbn [bind].
  pose proof (slice_len_le s a b) as Hl. pose proof (chunk_next_ok it _ Hi) as Hn. destruct (slice s a b) as [|x rem0] eqn:Er.
  { rewrite Hn. cbn [bind]. rewrite Hn. reflexivity. }
  rewrite <- Er in *. clear Er. destruct Hn as (c & it' & rem' & -> & Hc & Hu & Ec & Hi'). cbn [bind].
  pose proof (chunk_next_ok it' _ Hi') as Hn. rewrite Ec in *. destruct rem' as [|x' rem1] eqn:Er.
  { rewrite Hn. cbn [bind]. now rewrite app_nil_r. }
  rewrite <- Er in *. clear Er. destruct Hn as (c2 & it2 & rem2 & -> & Hc2 & Hu2 & Ec2 & Hi2). cbn [bind]. rewrite len_r.
  destruct (chunks_rest_ok (length s) it2 rem2 Hi2) as (cs & -> & E1 & F1).
  { rewrite Ec2, !app_length in Hl. lia. }
  cbn [bind]. rewrite fold_app, E1, Ec2, <- app_assoc. reflexivity.
Qed.
Lemma slice_full {A} (l : list A) : slice l 0 (length l) = l.
Proof. unfold slice. rewrite Nat.sub_0_r. cbn. apply firstn_all. Qed.
Lemma to_string_ok : to_string r = Some s.
Proof. unfold to_string. rewrite len_r, slice_to_cow_ok, slice_full; auto; [lia|reflexivity|apply cb_len]. Qed.
Lemma display_ok : display r = Some s.
Proof.
  unfold display. rewrite len_r. destruct (iter_ok 0 (length s)) as (it & -> & Hi); [lia|reflexivity|apply cb_len|]. cbn [bind].
  rewrite slice_full in Hi. destruct (chunks_rest_ok (length s) it s Hi ltac:(lia)) as (cs & -> & E & _). cbn [bind]. now rewrite fold_app, E.
Qed.

Lemma byte_at_ok o : o < length s -> byte_at r o = nth_error s o.
Proof.
  intros Ho. unfold byte_at. destruct (rnew_ok h r o W ltac:(lia)) as (c & -> & Ep & (l & pre & post & Ha & H1 & H2)). cbn [bind].
  pose proof Ha as (p & R & El & Eo & Ec). unfold c_get_leaf. rewrite El. replace (c_pos c <? c_off c) with false by lia. cbn [bind].
  pose proof (route_content rope_ops idl leafV compute_info r h W _ _ _ _ R) as Es. change (content idl r) with s in Es.
  pose proof (route_total rope_ops idl leafV compute_info r h W _ _ _ _ R) as Et. change (content idl r) with s in Et.
  assert (Hlt : c_pos c - c_off c < length l). { destruct H2 as [H2|[H2 ->]]; [lia|]. change (llen idl []) with 0 in Et. lia. }
  rewrite Es, nth_error_app2 by (change (length (flat_map idl pre)) with (llen idl pre); lia).
  change (length (flat_map idl pre)) with (llen idl pre). rewrite <- Eo, Ep. rewrite nth_error_app1 by lia. reflexivity.
Qed.

(** ** Lines *)
Definition lr_ok (it : lines_raw) (t : list nat) : Prop :=
  exists rem, ci_ok (lr_inner it) rem /\ t = lr_fragment it ++ rem /\ utf8 (lr_fragment it).

Lemma memchr_split x : forall f p, memchr x f = Some p -> exists a b, f = a ++ [x] ++ b /\ length a = p /\ ~ In x a.
Proof.
  intros f p E. destruct (memchr_some _ _ _ E) as [A B]. destruct (nth_error_split f p A) as (a & b & -> & Hl). exists a, b. split; auto. split; auto.
  intros Hi. apply In_nth_error in Hi as (j & Hj). assert (j < length a) by (apply nth_error_Some; congruence).
  apply (B j); [lia|]. now rewrite nth_error_app1 by lia.
Qed.
Lemma memchr_notin x f : memchr x f = None -> ~ In x f.
Proof. intros E Hi. apply In_nth_error in Hi as (j & Hj). now apply (memchr_none _ _ E j). Qed.

Lemma lines_finish it t result : lr_ok it t -> lr_fragment it <> [] -> ~ In NL result ->
  forall p, memchr NL (lr_fragment it) = Some p ->
  exists line rest l t', str_slice (lr_fragment it) 0 (p + 1) = Some line /\
    str_slice (lr_fragment it) (p + 1) (length (lr_fragment it)) = Some rest /\
    result ++ line = l ++ [NL] /\ ~ In NL l /\ result ++ t = (l ++ [NL]) ++ t' /\ lr_ok (LinesRaw (lr_inner it) rest) t'.
Proof.
  intros (rem & Hi & -> & U) Hne Hr p E. destruct (memchr_split _ _ _ E) as (a & b & Ef & Hl & Hn). set (f := lr_fragment it) in *.
  assert (Hnth : nth_error f p = Some NL) by (rewrite Ef, nth_error_app2, Hl, Nat.sub_diag by lia; reflexivity).
  assert (Cp : is_char_boundary f (p + 1) = true) by (rewrite Nat.add_1_r; now apply cb_after_nl).
  assert (Hlen : length f = p + 1 + length b) by (rewrite Ef, !app_length; cbn; lia).
  rewrite !str_slice_some; auto using cb_0, cb_len; [|lia|lia].
  assert (E1 : slice f 0 (p + 1) = a ++ [NL]). { unfold slice. cbn [skipn]. rewrite Ef, app_assoc. apply firstn_app_exact. rewrite app_length. cbn. lia. }
  assert (E2 : slice f (p + 1) (length f) = b).
  { unfold slice. rewrite Ef at 2. rewrite app_assoc, skipn_app_exact by (rewrite app_length; cbn; lia). rewrite firstn_all2; auto. lia. }
  rewrite E1, E2. exists (a ++ [NL]), b, (result ++ a), (b ++ rem). repeat split; auto.
  - now rewrite app_assoc.
  - intros Hx. apply in_app_or in Hx. tauto.
  - rewrite Ef. now rewrite <- !app_assoc.
  - exists rem. cbn [lr_inner lr_fragment]. repeat split; auto. rewrite <- E2. apply utf8_slice; auto using cb_len. lia.
Qed.

Lemma lines_raw_loop_ok fuel : forall it t result, lr_ok it t -> ~ In NL result ->
  (exists rem, ci_ok (lr_inner it) rem /\ t = lr_fragment it ++ rem /\ utf8 (lr_fragment it) /\ length rem + (match lr_fragment it with [] => 0 | _ => 1 end) <= fuel) ->
  (result ++ t = [] /\ exists it', lines_raw_loop fuel r it result = Some (None, it')) \/
  (exists line it' t', lines_raw_loop fuel r it result = Some (Some line, it') /\ lr_ok it' t' /\ result ++ t = line ++ t' /\
    ((exists l, line = l ++ [NL] /\ ~ In NL l) \/ (line <> [] /\ ~ In NL line /\ t' = []))).
Proof.
  induction fuel as [|f IH]; intros it t result Hok Hr (rem & Hi & Et & U & Hf); destruct it as [inner frag]; cbn [lr_inner lr_fragment] in *.
  - destruct frag as [|x frag']; [|lia]. assert (rem = []) by (destruct rem; auto; cbn in Hf; lia). subst rem. pose proof (chunk_next_ok _ _ Hi) as Hn.
    cbn [lines_raw_loop lr_fragment lr_inner]. rewrite Hn. cbn [bind]. subst t. cbn [app]. rewrite app_nil_r. destruct result as [|y res].
    + left. split; auto. eauto.
    + right. exists (y :: res), (LinesRaw inner []), []. split; auto. split; [exists []; auto using utf8_nil|]. split; [now rewrite app_nil_r|]. right. repeat split; auto. discriminate.
  - cbn [lines_raw_loop lr_fragment lr_inner]. destruct frag as [|x frag'].
    + pose proof (chunk_next_ok _ _ Hi) as Hn. destruct rem as [|y rem0] eqn:Er.
      * rewrite Hn. cbn [bind]. subst t. cbn [app]. rewrite app_nil_r. destruct result as [|y res].
        -- left. split; auto. eauto.
        -- right. exists (y :: res), (LinesRaw inner []), []. split; auto. split; [exists []; auto using utf8_nil|]. split; [now rewrite app_nil_r|]. right. repeat split; auto. discriminate.
      * rewrite <- Er in *. clear Er. destruct Hn as (c & inner' & rem' & -> & Hc & Hu & Ec & Hi'). cbn [bind]. destruct c as [|z c0] eqn:Ez; [congruence|]. rewrite <- Ez in *. clear Ez.
        assert (Hok' : lr_ok (LinesRaw inner' c) t). { exists rem'. cbn. repeat split; auto. rewrite Et, Ec. reflexivity. }
        destruct (memchr NL c) as [p|] eqn:E.
        -- right. destruct (lines_finish _ _ result Hok' Hc Hr p E) as (line & rest & l & t' & E1 & E2 & E3 & N & E4 & Hok2). cbn [lr_fragment lr_inner] in *.
           rewrite E1, E2. cbn [bind]. exists (l ++ [NL]), (LinesRaw inner' rest), t'. rewrite E3. split; auto. split; auto. split; auto. left. eauto.
        -- pose proof (memchr_notin _ _ E) as Nc. specialize (IH (LinesRaw inner' []) rem' (result ++ c)). cbn [lr_inner lr_fragment] in IH.
           replace (result ++ t) with ((result ++ c) ++ rem') by (rewrite Et, Ec, <- app_assoc; reflexivity). apply IH.
           ++ exists rem'. cbn. auto using utf8_nil.
           ++ intros Hx. apply in_app_or in Hx. tauto.
           ++ exists rem'. repeat split; auto using utf8_nil. rewrite Ec, app_length in Hf. destruct c; [congruence|]. cbn in Hf. lia.
    + set (fr := x :: frag') in *. assert (Hc : fr <> []) by discriminate. destruct (memchr NL fr) as [p|] eqn:E.
      * right. destruct (lines_finish _ _ result Hok Hc Hr p E) as (line & rest & l & t' & E1 & E2 & E3 & N & E4 & Hok2). cbn [lr_fragment lr_inner] in *.
        rewrite E1, E2. cbn [bind]. exists (l ++ [NL]), (LinesRaw inner rest), t'. rewrite E3. split; auto. split; auto. split; auto. left. eauto.
      * pose proof (memchr_notin _ _ E) as Nc. specialize (IH (LinesRaw inner []) rem (result ++ fr)). cbn [lr_inner lr_fragment] in IH.
        replace (result ++ t) with ((result ++ fr) ++ rem) by (rewrite Et, <- app_assoc; reflexivity). apply IH.
        ++ exists rem. cbn. auto using utf8_nil.
        ++ intros Hx. apply in_app_or in Hx. tauto.
        ++ exists rem. repeat split; auto using utf8_nil. lia.
Qed.

Lemma ci_len it rem : ci_ok it rem -> length rem <= length s.
Proof. intros [[_ ->]|(_ & _ & _ & _ & ->)]; [cbn; lia|apply slice_len_le]. Qed.

Lemma lines_raw_rest_ok fuel : forall it t, lr_ok it t -> length t <= fuel ->
  exists ls, lines_raw_rest fuel r it = Some ls /\ raw_lines t ls.
Proof.
  induction fuel as [|f IH]; intros it t Hok Hl; unfold lines_raw_rest; fold lines_raw_rest; unfold lines_raw_next; rewrite len_r.
  all: assert (Hpre : exists rem, ci_ok (lr_inner it) rem /\ t = lr_fragment it ++ rem /\ utf8 (lr_fragment it) /\ length rem + (match lr_fragment it with [] => 0 | _ => 1 end) <= S (length s))
    by (destruct Hok as (rem & Hi & Et & U); exists rem; repeat split; auto; pose proof (ci_len _ _ Hi); destruct (lr_fragment it); lia).
  all: destruct (lines_raw_loop_ok (S (length s)) it t [] Hok ltac:(intros []) Hpre) as [[Et (it' & ->)]|(line & it' & t' & -> & Hok' & Et & Hd)]; cbn [bind]; cbn [app] in Et.
  - exists []. split; auto. subst t. constructor.
  - exfalso. destruct t; [|cbn in Hl; lia]. symmetry in Et. apply app_eq_nil in Et as [-> ->]. destruct Hd as [(l & E & _)|(E & _)]; [destruct l; discriminate|congruence].
  - exists []. split; auto. subst t. constructor.
  - assert (line <> []) by (destruct Hd as [(l & -> & _)|(E & _)]; [destruct l; discriminate|auto]).
    destruct (IH it' t' Hok') as (ls & -> & R).
    { rewrite Et, app_length in Hl. destruct line; [congruence|]. cbn in Hl. lia. }
    cbn [bind]. exists (line :: ls). split; auto. rewrite Et. destruct Hd as [(l & -> & N)|(_ & N & ->)].
    + rewrite <- app_assoc. now apply (rl_cons l t' ls).
    + rewrite app_nil_r. inversion R; subst; [|congruence|destruct l; discriminate]. now apply rl_last.
Qed.

Theorem lines_raw_ok a b : a <= b -> scut s a -> scut s b -> exists ls, rope_lines_raw r a b = Some ls /\ raw_lines (slice s a b) ls.
Proof.
  intros Hab Ha Hb. unfold rope_lines_raw. destruct (iter_ok a b Hab Ha Hb) as (it & -> & Hi). cbn [bind]. rewrite len_r.
  apply lines_raw_rest_ok.
  - exists (slice s a b). cbn. auto using utf8_nil.
  - pose proof (slice_len_le s a b). lia.
Qed.
End Rope.

Lemma ends_with_snoc l x b : ends_with (l ++ [x]) b = (x =? b).
Proof. unfold ends_with. now rewrite rev_unit. Qed.
Lemma strip_ok t ls : raw_lines t ls -> text_lines t (map strip_ending ls).
Proof.
  induction 1 as [|s0 Hne N|l t ls N R IH]; cbn [map].
  - constructor.
  - assert (E : ends_with s0 NL = false).
    { unfold ends_with. destruct (rev s0) as [|x l] eqn:Er; auto. apply Nat.eqb_neq. intros ->. apply N. rewrite <- (rev_involutive s0), Er. cbn. apply in_or_app. right. left. reflexivity. }
    unfold strip_ending. rewrite E. now constructor.
  - unfold strip_ending at 1. rewrite ends_with_snoc. cbn [NL Nat.eqb]. rewrite app_length. cbn [length].
    replace (length l + 1 - 1) with (length l) by lia. rewrite firstn_app_exact by auto.
    destruct (rev l) as [|x l'] eqn:El.
    + assert (l = []) as -> by (rewrite <- (rev_involutive l), El; reflexivity). cbn [ends_with rev]. apply tl_lf; auto.
      intros l'. destruct l'; discriminate.
    + assert (l = rev l' ++ [x]) as -> by (rewrite <- (rev_involutive l), El; reflexivity). rewrite ends_with_snoc.
      destruct (Nat.eqb_spec x CR) as [->|Nx].
      * rewrite app_length. cbn [length]. replace (length (rev l') + 1 - 1) with (length (rev l')) by lia. rewrite firstn_app_exact by auto.
        rewrite <- app_assoc. apply (tl_crlf (rev l') t); auto. intros Hx. apply N. apply in_or_app. now left.
      * apply tl_lf; auto. intros l2 E. apply app_inj_tail in E as [_ E]. unfold CR in Nx. congruence.
Qed.

(** ** Deltas on ropes *)
Definition abs_el (x : relement) : element nat := match x with RCopy b e => Copy b e | RInsert n => Insert (rcontent n) end.
Definition rel_ok (base : list nat) (x : relement) : Prop :=
  match x with
  | RCopy b e => scut base b /\ scut base e
  | RInsert n => exists h, rope_wf h n
  end.
Lemma apply_rels_ok base h : rope_wf h base -> forall els b lo t, stack_ok rope_ops idl leafV compute_info lo b ->
  Forall (rel_ok (rcontent base)) els -> apply_els (map abs_el els) (rcontent base) = Some t ->
  exists b', apply_rels els base b = Some b' /\ stack_ok rope_ops idl leafV compute_info 0 b' /\ b_content idl b' = b_content idl b ++ t.
Proof.
  intros W. induction els as [|[i j|n] els IH]; intros b lo t HS F; inversion F as [|? ? Fx F']; subst; cbn [map abs_el apply_els apply_rels].
  - intros [= <-]. exists b. rewrite app_nil_r. split; auto. split; auto. eapply stack0; eauto.
  - destruct ((i <=? j) && (j <=? length (rcontent base))) eqn:B; [|discriminate]. destruct (apply_els (map abs_el els) (rcontent base)) as [t'|] eqn:E; [|discriminate].
    cbn [bind]. intros [= <-]. destruct Fx as [F1 F2].
    destruct (push_subseq_ok rope_ops idl leafV scut compute_info rope_leaf_spec h base b lo i j W HS) as (b1 & -> & S1 & C1); [unfold rcontent in *; lia|auto|].
    cbn [bind]. destruct (IH b1 0 t' S1 F' eq_refl) as (b2 & -> & S2 & C2). exists b2. split; auto. split; auto. rewrite C2, C1, <- app_assoc. reflexivity.
  - destruct (apply_els (map abs_el els) (rcontent base)) as [t'|] eqn:E; [|discriminate].
    cbn [bind]. intros [= <-]. destruct Fx as [hn Wn].
    destruct (b_push_ok rope_ops idl leafV scut compute_info rope_leaf_spec b lo hn n HS Wn) as (b1 & -> & S1 & C1).
    cbn [bind]. destruct (IH b1 _ t' S1 F' eq_refl) as (b2 & -> & S2 & C2). exists b2. split; auto. split; auto. rewrite C2, C1, <- app_assoc. reflexivity.
Qed.
Theorem rope_apply_ok base h els t : rope_wf h base -> Forall (rel_ok (rcontent base)) els ->
  apply_els (map abs_el els) (rcontent base) = Some t ->
  exists r h', rope_apply els base = Some r /\ rope_wf h' r /\ rcontent r = t.
Proof.
  intros W F E. unfold rope_apply. destruct (apply_rels_ok base h W els b_new 0 t Logic.I F E) as (b & -> & S & C). cbn [bind].
  destruct (build_ok _ _ _ _ _ rope_leaf_spec b 0 S) as (n & h' & -> & W' & C'). exists n, h'. split; auto. split; auto.
  unfold rcontent. now rewrite C', C.
Qed.

(** ** Leaves *)
Lemma leaves_fit h : forall n, rope_wf h n -> Forall (fun l => utf8 l /\ length l <= MAX_LEAF) (leaves n).
Proof.
  intros n W. eapply Forall_impl; [|apply (leaves_V rope_ops idl leafV compute_info h n W)]. intros l [U L]. auto.
Qed.
Lemma leaves_big h : forall n, rope_wf h n -> n_ok rope_ops n = true \/ 0 < h -> Forall (fun l => MIN_LEAF <= length l) (leaves n).
Proof.
  induction h as [|h IH]; intros [k i l|hh k i cs] W Hk; try (now destruct W); cbn [leaves].
  - destruct Hk as [Hk|]; [|lia]. apply Nat.leb_le in Hk. constructor; [exact Hk|constructor].
  - destruct W as (_ & _ & _ & F & O & _). apply Forall_flat_map. rewrite Forall_forall in *. intros c Hc. apply IH; [now apply F|left; now apply O].
Qed.
