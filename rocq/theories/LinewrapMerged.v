(** The cursor over hard and soft breaks. *)
From Coq Require Import List Arith Lia Bool ZifyBool.
From Verif Require Import Base ListLib TreeModel TreeSpec TreeProofs MetricProofs CursorModel CursorProofs CursorBoundary
  RopeModel RopeSpec RopeProofs RopeMetric RopeCursor BreaksModel BreaksSpec BreaksProofs LinewrapModel.
Import ListNotations.
Local Notation concat := List.concat.

(** ** One cursor, for a metric that may fragment *)
Section One.
Context {L I X : Type} (ops : leafops L I).
Context (lc : L -> list X) (V : L -> Prop) (cut : list X -> nat -> Prop) (cinfo : list X -> I) (T : list X -> Prop).
Context (LS : leaf_spec ops lc V cut cinfo) (TS : text_spec ops lc V cut T).
Context (M : metric (L:=L) (I:=I)) (mc : list X -> nat) (bnd : list X -> nat -> Prop).
Context (BS : bound_spec lc V cut cinfo T M mc bnd) (HM : m_can_fragment M = true).
Context (root : node L I) (h : nat) (W : wf ops lc V cinfo h root).
Notation s := (content lc root).
Notation n := (length s).
Notation P := (bnd s).
Notation valid := (is_valid lc root).
Notation cur := (cursor (L:=L) (I:=I)).

(** A cursor that may have run off the end. *)
Definition live (c : cur) : Prop := valid c \/ c_leaf c = None /\ cache_ok root c /\ c_pos c = n.

Lemma valid_pos c : valid c -> c_pos c <= n.
Proof using W.
  clear HM BS TS LS.
  intros (l & pre & post & (p & R & _ & Eo & _) & H1 & H2). rewrite Eo in *.
  pose proof (route_total ops lc V cinfo root h W _ _ _ _ R) as E. lia.
Qed.
Lemma live_pos c : live c -> c_pos c <= n.
Proof using W. clear HM BS TS LS. intros [H|(_ & _ & ->)]; auto. now apply valid_pos. Qed.
Lemma len_n : n_len root = n.
Proof. apply (len_root ops lc V cinfo root h W). Qed.

Lemma next_none_pos c c' : valid c -> c_next ops root M c = Some (None, c') -> c_pos c' = n.
Proof.
  intros Hv E. pose proof (valid_pos c Hv) as Hn. destruct Hv as (l & pre & post & Hv). pose proof Hv as (Ha & _).
  pose proof Ha as (p & R & El & _). unfold c_next in E. rewrite El, len_n in E.
  destruct (Nat.leb_spec n (c_pos c)) as [Hle|Hlt]. { injection E as <-. cbn. lia. }
  destruct (next_inside_ok ops lc V cut cinfo T LS TS M mc bnd BS root h W c l pre post Hv (or_introl HM)) as (r & c1 & E1 & Hr).
  rewrite E1 in E. cbn [bind] in E. destruct r; [discriminate|]. destruct Hr as (-> & _).
  pose proof (next_leaf_ok ops lc V cut cinfo T LS TS root h W c l pre post Ha) as Hnl. destruct post as [|l2 post'].
  { destruct Hnl as (c2 & E2 & _ & Ep & _). rewrite E2 in E. cbn [bind negb] in E. injection E as <-. auto. }
  destruct Hnl as (c2 & E2 & _). rewrite E2 in E. cbn [bind negb] in E.
  destruct (next_inside_leaf ops root M c2) as [[[x|] c3]|]; cbn [bind] in E; try discriminate.
  destruct (measure_leaf root M (c_pos c3)) as [m|]; cbn [bind] in E; try discriminate.
  destruct (descend_metric root M c3 (m + 1)) as [c4|]; cbn [bind] in E; try discriminate.
  destruct (next_inside_leaf ops root M c4) as [[[x|] c5]|]; cbn [bind] in E; try discriminate. now injection E as <-.
Qed.

(** Moving on: to the next boundary, or to the end. *)
Lemma adv c : live c -> exists r c', c_next ops root M c = Some (r, c') /\ live c' /\
  (c_pos c < n -> c_pos c < c_pos c' <= n /\ (P (c_pos c') \/ c_pos c' = n) /\ forall y, c_pos c < y < c_pos c' -> ~ P y) /\
  (c_pos c = n -> c_pos c' = n).
Proof.
  intros [Hv|(E1 & E2 & E3)].
  - destruct (next_ok ops lc V cut cinfo T LS TS M mc bnd BS root h W c Hv (or_introl HM)) as (r & c' & E & Hr).
    pose proof (valid_pos c Hv) as Hp. exists r, c'. split; auto. destruct r as [x|].
    + destruct Hr as (H1 & H2 & H3 & H4 & H5). subst x. split; [now left|]. split; [|lia]. intros _. split; auto. split; auto.
      intros y Hy. apply H4. lia.
    + pose proof (next_none_pos c c' Hv E) as Ep. destruct Hr as (H1 & H2 & H3). split; [right; auto|]. split; [|auto].
      intros Hl. split; [lia|]. split; auto. intros y Hy. apply H3. lia.
  - exists None, c. unfold c_next. rewrite E1. split; auto. split; [right; auto|]. split; [lia|auto].
Qed.

(** Setting. *)
Lemma set_live c pos : live c -> pos <= n -> exists c', c_set ops root c pos = Some c' /\ c_pos c' = pos /\ valid c'.
Proof using LS W.
  clear HM BS TS.
  intros Hc Hp. destruct (set_ok ops lc V cut cinfo LS root h W c pos) as (c' & l & pre & post & E & Ep & Hv); auto.
  - destruct Hc as [(l & pre & post & Ha & _)|(H1 & H2 & _)]; [left; eauto|auto].
  - exists c'. split; auto. split; auto. now exists l, pre, post.
Qed.
(** To the last boundary at or before a place, or else to the start. *)
Lemma back c : valid c -> exists r c1 c', c_at_or_prev ops root M c = Some (r, c1) /\
  (match r with None => c_set ops root c1 0 | Some _ => Some c1 end) = Some c' /\ valid c' /\
  c_pos c' <= c_pos c /\ (P (c_pos c') \/ c_pos c' = 0) /\ forall y, c_pos c' < y <= c_pos c -> ~ P y.
Proof using LS TS BS W.
  clear HM.
  intros Hv. destruct (at_or_prev_ok ops lc V cut cinfo T LS TS M mc bnd BS root h W c Hv) as (r & c1 & E & Hr). exists r, c1. destruct r as [x|].
  - destruct Hr as (H1 & H2 & H3 & H4 & H5). subst x. exists c1. repeat (split; auto).
  - destruct Hr as (H1 & H2 & H3). destruct (set_ok ops lc V cut cinfo LS root h W c1 0) as (c' & l & pre & post & E' & Ep & Hv'); auto; [lia|].
    exists c'. split; auto. split; auto. split; [now exists l, pre, post|]. rewrite Ep. split; [lia|]. split; auto. intros y Hy. apply H3. lia.
Qed.
End One.

(** [p] is the first place from [o] on with a boundary, or the end; at the start the cursors wait. *)
Definition at_next (P : nat -> Prop) (n o p : nat) : Prop :=
  o = 0 /\ p = 0 \/ 0 < o /\ o <= p <= n /\ (P p \/ p = n) /\ forall y, o <= y < p -> ~ P y.

Section Merged.
Context (text : rope) (soft : breaks) (ht hs : nat) (Wt : rope_wf ht text) (Ws : wf br_ops blc bV rank hs soft).
Notation s := (rcontent text).
Notation bits := (content blc soft).
Notation n := (length s).
Notation H := (line_break s).
Notation B := (at_break bits).
Definition brk (o : nat) : Prop := H o \/ B o.
Context (El : length bits = n).
Notation mb_next := (mb_next text soft).

Notation tadv := (adv rope_ops (fun s => s) leafV scut compute_info utf8 rope_leaf_spec rope_text_spec lines_metric _ line_break lines_bound eq_refl text ht Wt).
Notation sadv := (adv br_ops blc bV bcut rank bT br_leaf_spec br_text_spec br_metric _ at_break br_bound eq_refl soft hs Ws).
Notation tlive := (live (fun s : list nat => s) text).
Notation slive := (live blc soft).
Notation tvalid := (is_valid (fun s : list nat => s) text).
Notation svalid := (is_valid blc soft).

Lemma tlen : n_len text = n.
Proof. apply (len_root _ _ _ _ text ht Wt). Qed.
Lemma slen : n_len soft = n.
Proof. rewrite (len_root _ _ _ _ soft hs Ws). exact El. Qed.

(** The cursor stands at [o]. *)
Definition stands (m : merged) (o : nat) : Prop :=
  mb_offset m = o /\ tlive (mb_text m) /\ slive (mb_soft m) /\ o <= n /\ (o = 0 \/ brk o \/ o = n) /\
  at_next H n o (c_pos (mb_text m)) /\ at_next B n o (c_pos (mb_soft m)).

(** The next break after [o], or the end. *)
Definition next_brk (o o' : nat) : Prop :=
  (o < n -> o < o' <= n /\ (brk o' \/ o' = n) /\ forall y, o < y < o' -> ~ brk y) /\ (o = n -> o' = n).

Lemma eof_ok t : tlive t -> 0 < n -> exists b t', eof_without_newline text t = Some (b, t') /\ (b = true <-> ~ H n) /\ tlive t' /\ c_pos t' = n.
Proof.
  intros Ht Hn. unfold eof_without_newline, mb_len. rewrite tlen.
  destruct (set_live rope_ops (fun s => s) leafV scut compute_info rope_leaf_spec text ht Wt t n Ht ltac:(auto)) as (t' & -> & Ep & Hv). cbn [bind].
  destruct Hv as (l & pre & post & Hv). pose proof Hv as ((p & R & E1 & Eo & Ec) & H1 & H2). unfold c_get_leaf. rewrite E1.
  rewrite Eo in *. replace (c_pos t' <? llen (fun s => s) pre) with false by lia. cbn [bind].
  pose proof (route_content _ _ _ _ text ht Wt _ _ _ _ R) as Ct. change (content (fun s0 : list nat => s0) text) with s in Ct.
  pose proof (route_total _ _ _ _ text ht Wt _ _ _ _ R) as Et. change (content (fun s0 : list nat => s0) text) with s in Et.
  assert (Hpost : llen (fun s : list nat => s) post = 0) by lia.
  assert (Ll : 0 < length l).
  { destruct (Nat.eq_dec (length l) 0) as [Z|]; [|lia]. exfalso. destruct pre as [|x pre].
    - cbn in Et, Hpost. lia.
    - assert (0 < ht). { eapply (H_pos _ _ _ _ text ht Wt); eauto. left. discriminate. }
      pose proof (leaves_pos _ _ _ _ _ _ rope_text_spec ht text Wt ltac:(auto)) as FP. rewrite (route_leaves _ _ _ _ _ R) in FP.
      apply Forall_app in FP as [_ FP]. apply Forall_inv in FP. lia. }
  eexists _, t'. split; [reflexivity|]. split; [|split; [left; now exists l, pre, post|auto]].
  assert (Hl : nth_error s (n - 1) = Some (last l 0)).
  { rewrite Ct at 1. replace (n - 1) with (length (flat_map (fun s : list nat => s) pre) + (length l - 1)).
    2: { unfold llen in Et, Hpost. lia. }
    rewrite nth_error_app2, Nat.add_comm, Nat.add_sub by lia. rewrite nth_error_app1 by lia.
    clear -Ll. induction l as [|x l IH]; [cbn in Ll; lia|]. destruct l as [|y l]; auto. cbn [length last] in *. replace (S (S (length l)) - 1) with (S (S (length l) - 1)) by lia. cbn [nth_error]. apply IH. lia. }
  unfold line_break. rewrite Hl. clear -Ll Hn. destruct l as [|x l]; [cbn in Ll; lia|]. rewrite orb_false_r.
  destruct (Nat.eqb_spec (last (x :: l) 0) NL) as [e|e]; cbn [negb]; split; intros Hb.
  - discriminate.
  - exfalso. apply Hb. split; [exact Hn|]. now rewrite e.
  - intros (_ & E). congruence.
  - reflexivity.
Qed.

Lemma at_next_pos P o p : at_next P n o p -> p <> o -> 0 < o /\ o < p <= n /\ (P p \/ p = n) /\ forall y, o < y < p -> ~ P y.
Proof. intros [[-> ->]|(H1 & H2 & H3 & H4)] Hp; [lia|]. repeat (split; auto; try lia). intros y Hy. apply H4. lia. Qed.

Theorem mb_next_ok m o : stands m o -> exists r m' o', mb_next m = Some (r, m') /\ stands m' o' /\ next_brk o o' /\
  match r with
  | Some x => x = o' /\ o < n /\ (o' = n -> H n) /\ mb_line m' = mb_line m + 1
  | None => o' = n /\ (o < n -> ~ H n) /\ mb_line m' = mb_line m
  end.
Proof.
  intros (E0 & Lt & Ls & Ho & Hb & At & As). unfold LinewrapModel.mb_next. rewrite E0. unfold mb_len. rewrite tlen.
  assert (G1 : exists t, (if (c_pos (mb_text m) =? o) && negb (o =? n)
      then let? (_, t) := c_next rope_ops text lines_metric (mb_text m) in Some t else Some (mb_text m)) = Some t /\ tlive t /\
      (o < n -> o < c_pos t <= n /\ (H (c_pos t) \/ c_pos t = n) /\ forall y, o < y < c_pos t -> ~ H y) /\ (o = n -> c_pos t = n)).
  { destruct (Nat.eqb_spec (c_pos (mb_text m)) o) as [Ep|Ep]; [destruct (Nat.eqb_spec o n) as [En|En]|]; cbn [andb negb].
    - exists (mb_text m). split; auto. split; auto. split; [lia|intros _; congruence].
    - destruct (tadv (mb_text m) Lt) as (r & t & -> & L' & A1 & A2). cbn [bind]. exists t. rewrite Ep in A1. split; auto. split; auto.
      split; [|lia]. exact A1.
    - exists (mb_text m). split; auto. split; auto. destruct (at_next_pos _ _ _ At Ep) as (H1 & H2 & H3 & H4). split; [|lia]. auto. }
  assert (G2 : exists t, (if c_pos (mb_soft m) =? o
      then let? (_, t) := c_next br_ops soft br_metric (mb_soft m) in Some t else Some (mb_soft m)) = Some t /\ slive t /\
      (o < n -> o < c_pos t <= n /\ (B (c_pos t) \/ c_pos t = n) /\ forall y, o < y < c_pos t -> ~ B y) /\ (o = n -> c_pos t = n)).
  { destruct (Nat.eqb_spec (c_pos (mb_soft m)) o) as [Ep|Ep].
    - destruct (sadv (mb_soft m) Ls) as (r & t & -> & L' & A1 & A2). cbn [bind]. exists t. rewrite El, Ep in *. split; auto.
    - exists (mb_soft m). split; auto. split; auto. destruct (at_next_pos _ _ _ As Ep) as (H1 & H2 & H3 & H4). split; [|lia]. auto. }
  destruct G1 as (t & -> & Lt' & T1 & T2). destruct G2 as (u & -> & Ls' & S1 & S2). cbn [bind].
  set (o' := Nat.min (c_pos t) (c_pos u)).
  assert (N : next_brk o o').
  { split; [|intros E; rewrite (T2 E), (S2 E) in *; unfold o'; lia]. intros Hl. destruct (T1 Hl) as (A1 & A2 & A3), (S1 Hl) as (B1 & B2 & B3).
    split; [unfold o'; lia|]. split.
    - unfold brk, o'. destruct (Nat.min_dec (c_pos t) (c_pos u)) as [E|E]; rewrite E; tauto.
    - intros y Hy [Y|Y]; [apply (A3 y)|apply (B3 y)]; auto; unfold o' in Hy; lia. }
  assert (Ho' : o' <= n) by (destruct (Nat.lt_ge_cases o n) as [Hl|Hl]; [apply (proj1 N Hl)|rewrite (proj2 N); lia]).
  assert (Q : forall t', tlive t' -> c_pos t' = c_pos t -> forall l, stands (Merged t' u o' l) o').
  { intros t' L' E' l. unfold stands. cbn. split; auto. split; auto. split; auto. split; auto. rewrite E'.
    destruct (Nat.lt_ge_cases o n) as [Hl|Hl].
    - destruct (T1 Hl) as (A1 & A2 & A3), (S1 Hl) as (B1 & B2 & B3), (proj1 N Hl) as (C1 & C2 & C3). split; [tauto|].
      split; right; (split; [lia|]; split; [unfold o'; lia|]; split; [auto|]); intros y Hy; [apply A3|apply B3]; lia.
    - assert (E : o = n) by lia. assert (Eo : o' = n) by (now apply (proj2 N)). rewrite Eo. rewrite (T2 E), (S2 E). split; auto.
      unfold at_next. split; (destruct (Nat.eq_dec n 0); [left; lia|right]; repeat (split; auto; try lia); intros; lia). }
  destruct ((0 <? o') && (o' =? n)) eqn:Bn.
  - assert (Epos : c_pos t = n). { pose proof (live_pos _ _ _ _ text ht Wt t Lt') as Lp. change (content (fun s0 : list nat => s0) text) with s in Lp. unfold o' in Bn. lia. }
    destruct (eof_ok t Lt' ltac:(lia)) as (b & t' & -> & Hbt & L' & E'). cbn [bind].
    specialize (Q t' L' ltac:(lia)).
    destruct (Nat.eqb_spec o' o) as [Eoo|Eoo]; cbn [orb].
    { eexists None, _, o'. split; [reflexivity|]. split; [apply Q|]. split; auto. cbn. split; [lia|]. split; auto. lia. }
    assert (o < n) by (destruct (Nat.lt_ge_cases o n); auto; rewrite (proj2 N) in Eoo; lia).
    destruct b.
    + eexists None, _, o'. split; [reflexivity|]. split; [apply Q|]. split; auto. cbn. split; [lia|]. split; auto. intros _. now apply Hbt.
    + eexists (Some o'), _, o'. split; [reflexivity|]. split; [apply Q|]. split; auto. cbn. split; auto. split; auto. split; auto. intros _.
      destruct (nth_error s (n - 1)) as [c|] eqn:En; [|apply nth_error_None in En; lia]. destruct (Nat.eq_dec c NL) as [->|Hc]; [split; auto; lia|].
      exfalso. assert (false = true); [|discriminate]. apply Hbt. intros (_ & Hx). congruence.
  - cbn [bind]. specialize (Q t Lt' eq_refl). rewrite orb_false_r. destruct (Nat.eqb_spec o' o) as [Eoo|Eoo].
    + eexists None, _, o'. split; [reflexivity|]. split; [apply Q|]. split; auto. cbn.
      destruct (Nat.lt_ge_cases o n) as [Hl|Hl]; [pose proof (proj1 (proj1 N Hl)); lia|]. split; [lia|]. split; auto. lia.
    + assert (o < n) by (destruct (Nat.lt_ge_cases o n); auto; rewrite (proj2 N) in Eoo; lia).
      eexists (Some o'), _, o'. split; [reflexivity|]. split; [apply Q|]. split; auto. cbn. split; auto. split; auto. split; auto. lia.
Qed.

Lemma is_hard_ok m o : stands m o -> o < n -> (mb_is_hard m = true <-> o = 0 \/ H o).
Proof.
  intros (E0 & Lt & Ls & Ho & Hb & At & As) Hl. unfold mb_is_hard. rewrite E0. destruct At as [[-> ->]|(H1 & H2 & H3 & H4)]; [cbn; tauto|].
  split.
  - intros E. assert (Ep : c_pos (mb_text m) = o) by lia. rewrite Ep in *. destruct H3; [auto|lia].
  - intros [->|Ho']; [lia|]. destruct (Nat.eq_dec (c_pos (mb_text m)) o); [lia|]. exfalso. apply (H4 o); auto. lia.
Qed.
Lemma is_hard_end m : stands m n -> mb_is_hard m = true.
Proof.
  intros (E0 & Lt & Ls & Ho & Hb & At & As). unfold mb_is_hard. rewrite E0. destruct At as [[E ->]|(H1 & H2 & H3 & H4)]; lia.
Qed.

Lemma mb_new_ok : exists m, mb_new text soft = Some m /\ stands m 0 /\ mb_line m = 0.
Proof.
  unfold mb_new. rewrite tlen, slen, Nat.eqb_refl. cbn [check].
  destruct (new_ok _ _ _ _ text ht Wt 0 ltac:(lia)) as (t & l & pre & post & -> & Et & Hv). cbn [bind].
  destruct (new_ok _ _ _ _ soft hs Ws 0 ltac:(lia)) as (u & l' & pre' & post' & -> & Eu & Hv'). cbn [bind].
  eexists. split; [reflexivity|]. split; auto. unfold stands. cbn. split; auto. split; [left; now exists l, pre, post|]. split; [left; now exists l', pre', post'|].
  split; [lia|]. split; auto. rewrite Et, Eu. split; left; auto.
Qed.

(** ** What needs that no place has both breaks, and that soft breaks are between characters *)
Context (Dj : forall o, H o -> ~ B o) (Bc : forall o, B o -> scut s o).

(** The number of breaks up to a place. *)
Definition vrank (o : nat) : nat := newlines (firstn o s) + rank (firstn o bits).

Lemma scut_0 : scut s 0.
Proof. reflexivity. Qed.
Lemma brk_cut o : o = 0 \/ brk o \/ o = n -> scut s o.
Proof.
  intros [->|[[[H1 H2]|Hb]|E]].
  - reflexivity.
  - unfold scut. replace o with (S (o - 1)) by lia. apply cb_after_nl; auto. apply (rope_utf8 ht text Wt).
  - auto.
  - rewrite E. unfold scut. apply cb_len.
Qed.
Lemma line_of o : scut s o -> line_of_offset (tfuel text) text o = Some (newlines (firstn o s)).
Proof. intros Hc. apply (line_of_offset_ok ht); auto. unfold tfuel. rewrite (height_root _ _ _ _ text ht Wt). lia. Qed.
Lemma br_count_ok o : o <= n -> br_count (sfuel soft) soft o = Some (rank (firstn o bits)).
Proof.
  intros Ho. destruct (convert_ok br_ops blc bV bcut rank bT br_text_spec _ _ _ _ _ _ br_base_spec br_metric_spec hs soft o (sfuel soft) Ws
    ltac:(lia) Logic.I) as (o' & (S1 & _ & S2 & S3) & E').
  { unfold sfuel. rewrite (height_root _ _ _ _ soft hs Ws). lia. }
  unfold br_count. rewrite E'. do 3 f_equal. rewrite firstn_length_le in S2 by lia. destruct (Nat.eq_dec o o'); auto.
  specialize (S3 o ltac:(lia) Logic.I). rewrite firstn_length_le in S3 by lia. lia.
Qed.
Lemma merged_line_ok o : scut s o -> merged_line_of_offset text soft o = Some (vrank o).
Proof. intros Hc. unfold merged_line_of_offset. rewrite line_of by auto. cbn [bind]. rewrite br_count_ok by (apply cb_le in Hc; auto). reflexivity. Qed.

(** [o] is the last break up to [offset], or the start. *)
Definition last_brk (offset o : nat) : Prop := o <= offset /\ (o = 0 \/ brk o) /\ forall y, o < y <= offset -> ~ brk y.

Theorem set_offset_ok m o0 offset : stands m o0 -> offset <= n -> exists m' o, mb_set_offset text soft m offset = Some m' /\ stands m' o /\
  last_brk offset o /\ mb_line m' = vrank o.
Proof.
  intros (_ & Lt & Ls & _) Ho. unfold mb_set_offset.
  destruct (set_live rope_ops (fun s => s) leafV scut compute_info rope_leaf_spec text ht Wt (mb_text m) offset Lt Ho) as (t0 & -> & Et0 & Vt0). cbn [bind].
  destruct (set_live br_ops blc bV bcut rank br_leaf_spec soft hs Ws (mb_soft m) offset Ls ltac:(lia)) as (s0 & -> & Es0 & Vs0). cbn [bind].
  assert (G : exists t1 s1, (if 0 <? offset then
       let? (rt, t) := c_at_or_prev rope_ops text lines_metric t0 in
       let? t' := match rt with None => c_set rope_ops text t 0 | Some _ => Some t end in
       let? (rs, s) := c_at_or_prev br_ops soft br_metric s0 in
       let? s' := match rs with None => c_set br_ops soft s 0 | Some _ => Some s end in
       Some (t', s')
     else Some (t0, s0)) = Some (t1, s1) /\ tvalid t1 /\ svalid s1 /\
     (c_pos t1 <= offset /\ (H (c_pos t1) \/ c_pos t1 = 0) /\ forall y, c_pos t1 < y <= offset -> ~ H y) /\
     (c_pos s1 <= offset /\ (B (c_pos s1) \/ c_pos s1 = 0) /\ forall y, c_pos s1 < y <= offset -> ~ B y)).
  { destruct (Nat.ltb_spec 0 offset) as [Hp|Hp].
    - destruct (back rope_ops (fun s => s) leafV scut compute_info utf8 rope_leaf_spec rope_text_spec lines_metric _ line_break lines_bound text ht Wt t0 Vt0) as (r1 & c1 & t1 & -> & E1 & V1 & A1 & A2 & A3).
      cbn [bind]. rewrite E1. cbn [bind].
      destruct (back br_ops blc bV bcut rank bT br_leaf_spec br_text_spec br_metric _ at_break br_bound soft hs Ws s0 Vs0) as (r2 & c2 & s1 & -> & E2 & V2 & B1 & B2 & B3).
      cbn [bind]. rewrite E2. cbn [bind]. exists t1, s1. rewrite Et0 in *. rewrite Es0 in *. repeat (split; auto).
    - exists t0, s0. split; auto. split; auto. split; auto. rewrite Et0, Es0. split; (split; [lia|]; split; [right; lia|]; intros; lia). }
  destruct G as (t1 & s1 & -> & Vt1 & Vs1 & (T1 & T2 & T3) & (S1 & S2 & S3)). cbn [bind].
  assert (G : exists t2 s2 o, match Nat.compare (c_pos t1) (c_pos s1) with
    | Lt => let? (_, t) := c_next rope_ops text lines_metric t1 in Some (t, s1)
    | Gt => let? (_, s) := c_next br_ops soft br_metric s1 in Some (t1, s)
    | Eq => check (c_pos t1 =? 0) (Some (t1, s1))
    end = Some (t2, s2) /\ tlive t2 /\ slive s2 /\ o = Nat.min (c_pos t2) (c_pos s2) /\ last_brk offset o /\
    at_next H n o (c_pos t2) /\ at_next B n o (c_pos s2)).
  { destruct (Nat.compare_spec (c_pos t1) (c_pos s1)) as [E|E|E].
    - assert (Z : c_pos t1 = 0). { destruct T2 as [T2|]; auto. destruct S2 as [S2|]; [|lia]. exfalso. apply (Dj _ T2). now rewrite E. }
      rewrite Z, Nat.eqb_refl. cbn [check]. exists t1, s1, 0. split; auto. split; [now left|]. split; [now left|]. split; [lia|]. rewrite <- E, Z.
      split; [split; [lia|]; split; auto; intros y Hy [Y|Y]; [apply (T3 y)|apply (S3 y)]; auto; lia|]. split; left; auto.
    - destruct (tadv t1 (or_introl Vt1)) as (r & t2 & -> & L2 & A1 & _). cbn [bind]. exists t2, s1, (c_pos s1).
      pose proof (A1 ltac:(change (content (fun s0 : list nat => s0) text) with s; lia)) as (A2 & A3 & A4). change (content (fun s0 : list nat => s0) text) with s in *.
      assert (Hge : c_pos s1 <= c_pos t2).
      { destruct (Nat.le_gt_cases (c_pos s1) (c_pos t2)); auto. destruct A3 as [A3|A3]; [|lia]. exfalso. apply (T3 (c_pos t2)); auto. lia. }
      split; auto. split; auto. split; [now left|]. split; [lia|]. destruct S2 as [S2|]; [|lia].
      split; [split; auto; split; [right; now right|]; intros y Hy [Y|Y]; [apply (T3 y)|apply (S3 y)]; auto; lia|].
      split; right; (split; [lia|]; split; [lia|]).
      + split; auto. intros y Hy Y. apply (A4 y); auto. lia.
      + split; auto. intros; lia.
    - destruct (sadv s1 (or_introl Vs1)) as (r & s2 & -> & L2 & A1 & _). cbn [bind]. exists t1, s2, (c_pos t1). rewrite El in A1.
      pose proof (A1 ltac:(lia)) as (A2 & A3 & A4).
      assert (Hge : c_pos t1 <= c_pos s2).
      { destruct (Nat.le_gt_cases (c_pos t1) (c_pos s2)); auto. destruct A3 as [A3|A3]; [|lia]. exfalso. apply (S3 (c_pos s2)); auto. lia. }
      split; auto. split; [now left|]. split; auto. split; [lia|]. destruct T2 as [T2|]; [|lia].
      split; [split; auto; split; [right; now left|]; intros y Hy [Y|Y]; [apply (T3 y)|apply (S3 y)]; auto; lia|].
      split; right; (split; [lia|]; split; [lia|]).
      + split; auto. intros; lia.
      + split; auto. intros y Hy Y. apply (A4 y); auto. lia. }
  destruct G as (t2 & s2 & o & -> & L2 & L2' & Eo & Lb & A & A'). cbn [bind]. rewrite <- Eo. pose proof Lb as (Lb1 & Lb2 & Lb3).
  rewrite merged_line_ok by (apply brk_cut; tauto). cbn [bind].
  eexists _, o. split; [reflexivity|]. split; auto. unfold stands. cbn. split; auto. split; auto. split; auto. split; [lia|]. split; [tauto|]. auto.
Qed.
End Merged.
