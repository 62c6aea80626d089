(** Visual lines: where they begin, and the iterator over them. *)
From Coq Require Import List Arith Lia Bool ZifyBool.
From Verif Require Import Base ListLib TreeModel TreeSpec TreeProofs MetricProofs CursorModel CursorProofs CursorBoundary
  RopeModel RopeSpec RopeProofs RopeMetric RopeCursor BreaksModel BreaksSpec BreaksProofs LinewrapModel LinewrapMerged.
Import ListNotations.
Local Notation concat := List.concat.

Lemma firstn_S_snoc {A} (l : list A) o x : nth_error l o = Some x -> firstn (S o) l = firstn o l ++ [x].
Proof. revert o. induction l as [|y l IH]; intros [|o] E; cbn in E; try discriminate; [now injection E as ->|]. change (y :: firstn (S o) l = y :: (firstn o l ++ [x])). f_equal. now apply IH. Qed.

Section Merged.
Context (text : rope) (soft : breaks) (ht hs : nat) (Wt : rope_wf ht text) (Ws : wf br_ops blc bV rank hs soft).
Notation s := (rcontent text).
Notation bits := (content blc soft).
Notation n := (length s).
Notation H := (line_break s).
Notation B := (at_break bits).
Notation brk := (LinewrapMerged.brk text soft).
Notation vrank := (LinewrapMerged.vrank text soft).
Notation stands := (LinewrapMerged.stands text soft).
Notation next_brk := (LinewrapMerged.next_brk text soft).
Notation last_brk := (LinewrapMerged.last_brk text soft).
Context (El : length bits = n).
Context (Dj : forall o, H o -> ~ B o) (Bc : forall o, B o -> scut s o).

Lemma H_dec o : {H o} + {~ H o}.
Proof. unfold line_break. destruct (Nat.eq_dec o 0) as [->|]; [right; lia|]. destruct (nth_error s (o - 1)) as [x|]; [destruct (Nat.eq_dec x NL) as [->|]; [left; split; auto; lia|right]|right]; intros [_ E]; congruence. Qed.
Lemma B_dec o : {B o} + {~ B o}.
Proof. unfold at_break. destruct (Nat.eq_dec o 0) as [->|]; [right; lia|]. destruct (nth_error bits (o - 1)) as [[|]|]; [left; split; auto; lia|right|right]; intros [_ E]; congruence. Qed.
Lemma brk_dec o : {brk o} + {~ brk o}.
Proof. unfold LinewrapMerged.brk. destruct (H_dec o), (B_dec o); [left|left|left|right]; tauto. Qed.
Lemma brk_le o : brk o -> 0 < o <= n.
Proof.
  intros [[H1 H2]|Hb]; [|pose proof (at_break_le _ _ Hb); lia]. assert (o - 1 < n) by (apply nth_error_Some; congruence). lia.
Qed.

Lemma vrank_0 : vrank 0 = 0.
Proof. reflexivity. Qed.
Lemma nl_S o : o < n -> newlines (firstn (S o) s) = newlines (firstn o s) + (if H_dec (S o) then 1 else 0).
Proof.
  intros Ho. destruct (nth_error s o) as [x|] eqn:E; [|apply nth_error_None in E; lia]. rewrite (firstn_S_snoc _ _ _ E). unfold newlines. rewrite count_occ_app. f_equal.
  cbn [count_occ]. destruct (Nat.eq_dec x 10) as [->|Hx]; destruct (H_dec (S o)) as [Y|Y]; auto.
  - exfalso. apply Y. split; [lia|]. now rewrite Nat.sub_succ, Nat.sub_0_r.
  - exfalso. destruct Y as [_ Y]. rewrite Nat.sub_succ, Nat.sub_0_r in Y. unfold NL in Y. congruence.
Qed.
Lemma rank_S o : o < n -> rank (firstn (S o) bits) = rank (firstn o bits) + (if B_dec (S o) then 1 else 0).
Proof.
  intros Ho. destruct (nth_error bits o) as [x|] eqn:E; [|apply nth_error_None in E; lia]. rewrite (firstn_S_snoc _ _ _ E), rank_app. f_equal.
  unfold rank. cbn [count_occ]. destruct (bool_dec x true) as [->|Hx]; destruct (B_dec (S o)) as [Y|Y]; auto.
  - exfalso. apply Y. split; [lia|]. now rewrite Nat.sub_succ, Nat.sub_0_r.
  - exfalso. destruct Y as [_ Y]. rewrite Nat.sub_succ, Nat.sub_0_r in Y. congruence.
Qed.
Lemma vrank_S o : o < n -> vrank (S o) = vrank o + (if brk_dec (S o) then 1 else 0).
Proof.
  intros Ho. unfold LinewrapMerged.vrank. rewrite nl_S, rank_S by auto.
  pose proof (Dj (S o)). unfold LinewrapMerged.brk in *. destruct (H_dec (S o)), (B_dec (S o)), (brk_dec (S o)); unfold LinewrapMerged.brk in *; try tauto; lia.
Qed.
Lemma vrank_no a b : a <= b -> b <= n -> (forall y, a < y <= b -> ~ brk y) -> vrank b = vrank a.
Proof.
  intros Hab. induction Hab as [|b Hab IH]; auto. intros Hb Hn. rewrite vrank_S by lia. rewrite IH by (auto; try lia; intros; apply Hn; lia).
  destruct (brk_dec (S b)) as [Y|Y]; [|lia]. exfalso. apply (Hn (S b)); auto. lia.
Qed.
Lemma vrank_mono a b : a <= b -> b <= n -> vrank a <= vrank b.
Proof. intros Hab. induction Hab as [|b Hab IH]; auto. intros Hb. rewrite vrank_S by lia. specialize (IH ltac:(lia)). lia. Qed.
Lemma vrank_dist a b : a <= b -> b <= n -> vrank b <= vrank a + (b - a).
Proof. intros Hab. induction Hab as [|b Hab IH]; [lia|]. intros Hb. rewrite vrank_S by lia. specialize (IH ltac:(lia)). destruct (brk_dec (S b)); lia. Qed.
Lemma vrank_brk o : brk o -> vrank o = S (vrank (o - 1)).
Proof. intros Hb. pose proof (brk_le o Hb). replace o with (S (o - 1)) at 1 by lia. rewrite vrank_S by lia. destruct (brk_dec (S (o - 1))) as [Y|Y]; [lia|]. exfalso. apply Y. now replace (S (o - 1)) with o by lia. Qed.
Lemma vrank_next o o' : next_brk o o' -> o < n -> brk o' -> vrank o' = S (vrank o).
Proof.
  intros [N _] Ho Hb. destruct (N Ho) as (N1 & _ & N3). rewrite vrank_brk by auto. f_equal. apply vrank_no; try lia. intros y Hy. apply N3. lia.
Qed.
Lemma vrank_end o : next_brk o n -> o < n -> ~ brk n -> vrank n = vrank o.
Proof. intros [N _] Ho Hb. destruct (N Ho) as (N1 & _ & N3). apply vrank_no; try lia. intros y Hy Y. destruct (Nat.eq_dec y n) as [->|]; [auto|]. apply (N3 y); auto. lia. Qed.

(** Where visual line [l] begins: at the start, at the [l]-th break, or, past the last, at the end. *)
Definition vstart (l o : nat) : Prop :=
  l = 0 /\ o = 0 \/ 0 < l <= vrank n /\ brk o /\ vrank o = l \/ vrank n < l /\ o = n.
Lemma vstart_unique l a b : vstart l a -> vstart l b -> a = b.
Proof.
  assert (G : forall a b, brk a -> brk b -> vrank a = vrank b -> ~ a < b).
  { intros x y Hx Hy E Hl. pose proof (brk_le y Hy). rewrite (vrank_brk y Hy) in E. pose proof (vrank_mono x (y - 1) ltac:(lia) ltac:(lia)). lia. }
  intros [(A1 & A2)|[(A1 & A2 & A3)|(A1 & A2)]] [(B1 & B2)|[(B1 & B2 & B3)|(B1 & B2)]]; try lia.
  destruct (Nat.lt_trichotomy a b) as [Hl|[|Hl]]; auto; exfalso; [apply (G a b)|apply (G b a)]; auto; lia.
Qed.
Lemma vstart_le l o : vstart l o -> o <= n.
Proof. intros [(A1 & A2)|[(A1 & A2 & A3)|(A1 & A2)]]; [lia|pose proof (brk_le o A2); lia|lia]. Qed.

Lemma mb_nth_ok k : forall m o, stands m o -> mb_line m = vrank o -> vrank o + k + 1 <= vrank n -> exists r m' x, mb_nth text soft k m = Some (r, m') /\
  stands m' x /\ brk x /\ vrank x = vrank o + k + 1 /\ match r with Some y => y | None => n end = x.
Proof.
  induction k as [|k IH]; intros m o St Hm Hk; cbn [mb_nth];
  destruct (mb_next_ok text soft ht hs Wt Ws El m o St) as (r & m' & o' & -> & St' & N & Hr); cbn [bind];
  (assert (Ho : o < n) by (destruct (Nat.lt_ge_cases o n); auto; assert (o = n) by (destruct St as (_ & _ & _ & ? & _); lia); subst o; lia));
  (assert (Bk : brk o') by (destruct (proj1 N Ho) as (N1 & [N2|N2] & N3); auto; subst o'; destruct (brk_dec n) as [|Nb]; auto; rewrite (vrank_end o N Ho Nb) in Hk; lia));
  pose proof (vrank_next _ _ N Ho Bk) as Ev.
  - exists r, m', o'. split; [destruct r; reflexivity|]. split; auto. split; auto. split; [lia|]. destruct r as [x|]; [tauto|]. destruct Hr; auto.
  - destruct r as [x|].
    + destruct Hr as (-> & _ & _ & Hl). destruct (IH m' o' St' ltac:(lia) ltac:(lia)) as (r & m2 & x & E & Q). exists r, m2, x. split; auto.
      destruct Q as (Q1 & Q2 & Q3 & Q4). repeat (split; auto). lia.
    + destruct Hr as (-> & _). lia.
Qed.
Lemma mb_linear_ok m o line : stands m o -> mb_line m = vrank o -> vrank o < line <= vrank n ->
  exists x m', mb_linear text soft m line = Some (x, m') /\ vstart line x /\ stands m' x.
Proof.
  intros St Hm Hl. unfold mb_linear, mb_len. rewrite (tlen text ht Wt). replace (mb_line m <? line) with true by lia. cbn [check].
  destruct (mb_nth_ok (line - mb_line m - 1) m o St Hm ltac:(lia)) as (r & m' & x & -> & St' & Bx & Vx & E). cbn [bind]. rewrite E.
  exists x, m'. split; auto. split; auto. right. left. split; [lia|]. split; auto. lia.
Qed.
Lemma bsearch_ok fuel : forall m o0 line a b, stands m o0 -> vrank a < line <= vrank b -> b <= n -> b - a < fuel ->
  exists x m' o', mb_bsearch text soft fuel m line a b = Some (x, m') /\ vstart line x /\ stands m' o'.
Proof.
  induction fuel as [|f IH]; intros m o0 line a b St Hl Hb Hf; [lia|]. cbn [mb_bsearch].
  assert (Hab : a < b) by (destruct (Nat.lt_ge_cases a b); auto; pose proof (vrank_mono b a ltac:(auto)); destruct (Nat.le_gt_cases a n); [lia|];
    exfalso; unfold LinewrapMerged.vrank in Hl; rewrite (firstn_all2 (n:=a)), (firstn_all2 (n:=a) bits) in Hl by lia; pose proof (vrank_mono b n ltac:(auto) ltac:(auto)) as M0; unfold LinewrapMerged.vrank in M0; rewrite (firstn_all s), (firstn_all2 (n:=n) bits) in M0 by lia; lia).
  set (p := a + (b - a) / 2). assert (Hp : a <= p < b) by (unfold p; pose proof (Nat.div_lt (b - a) 2 ltac:(lia) ltac:(lia)); lia).
  destruct (set_offset_ok text soft ht hs Wt Ws El Dj Bc m o0 p St ltac:(lia)) as (m1 & o & -> & St1 & Lb & Hm1). cbn [bind].
  assert (Ev : vrank p = vrank o). { destruct Lb as (L1 & L2 & L3). apply vrank_no; auto; lia. }
  pose proof (vrank_mono o n ltac:(destruct Lb; lia) ltac:(auto)). pose proof (vrank_mono b n Hb ltac:(auto)).
  destruct (Nat.eqb_spec (mb_line m1) line) as [E|E].
  { exists (mb_offset m1), m1, o. split; auto. split; auto. destruct St1 as (-> & _). destruct Lb as (L1 & [->|L2] & L3); [rewrite vrank_0 in Hm1; lia|].
    right. left. split; [lia|]. split; auto. lia. }
  destruct (Nat.ltb_spec line (mb_line m1)) as [Hlt|Hge].
  { destruct (IH m1 o line a p St1 ltac:(lia) ltac:(lia) ltac:(lia)) as (x & m' & o' & Q). exists x, m', o'. exact Q. }
  destruct (MAX_LINEAR_DIST <? line - mb_line m1) eqn:E20.
  - unfold MAX_LINEAR_DIST in E20. assert (a < p).
    { destruct (Nat.eq_dec p a) as [Ep|]; [|lia]. assert (b - a = 1). { unfold p in Ep. pose proof (Nat.div_mod (b - a) 2 ltac:(lia)). pose proof (Nat.mod_upper_bound (b - a) 2 ltac:(lia)). lia. }
      pose proof (vrank_dist a b ltac:(lia) Hb). rewrite Ep in Ev. lia. }
    destruct (IH m1 o line p b St1 ltac:(lia) ltac:(lia) ltac:(lia)) as (x & m' & o' & Q). exists x, m', o'. exact Q.
  - destruct (mb_linear_ok m1 o line St1 Hm1 ltac:(lia)) as (x & m' & Q1 & Q2 & Q3). exists x, m', x. auto.
Qed.

Lemma total_ok : mb_total text soft = vrank n + 1.
Proof.
  unfold mb_total, LinewrapMerged.vrank. rewrite firstn_all, (firstn_all2 (n:=n) bits) by lia. rewrite newlines_eq.
  assert (E1 : measure lines_metric text = count_newlines s) by (unfold measure; rewrite (wf_len _ _ _ _ ht text Wt), (wf_info _ _ _ _ ht text Wt); apply (ms_measure _ _ _ _ _ _ _ _ lines_metric_spec); apply (rope_utf8 ht text Wt)).
  assert (E2 : measure br_metric soft = rank bits) by (unfold measure; rewrite (wf_len _ _ _ _ hs soft Ws), (wf_info _ _ _ _ hs soft Ws); apply (ms_measure _ _ _ _ _ _ _ _ br_metric_spec); exact Logic.I). rewrite E1, E2. reflexivity.
Qed.
Theorem offset_of_line_merged m line : stands m 0 -> mb_line m = 0 ->
  exists x m' o', mb_offset_of_line text soft m line = Some (x, m') /\ vstart line x /\ stands m' o'.
Proof.
  intros St Hm. unfold mb_offset_of_line, mb_len. rewrite total_ok, (tlen text ht Wt).
  destruct (Nat.eqb_spec line 0) as [->|Hz]. { exists 0, m, 0. split; auto. split; auto. left. auto. }
  destruct (Nat.leb_spec (vrank n + 1) line) as [Hl|Hl]. { exists n, m, 0. split; auto. split; auto. right. right. lia. }
  rewrite Hm. replace (line =? 0) with false by lia. destruct ((0 <? line) && (line - 0 <? MAX_LINEAR_DIST)).
  - destruct (mb_linear_ok m 0 line St ltac:(auto) ltac:(rewrite vrank_0; lia)) as (x & m' & Q1 & Q2 & Q3). exists x, m', x. auto.
  - apply (bsearch_ok (S n) m 0 line 0 n St); auto; rewrite ?vrank_0; lia.
Qed.

(** The number at the head of a line: that of the logical line, at its first visual line. *)
Definition head_num (o : nat) : option nat := if Nat.eqb o 0 then Some 1 else if H_dec o then Some (newlines (firstn o s) + 1) else None.

Lemma nl_no a b : a <= b -> b <= n -> (forall y, a < y <= b -> ~ H y) -> newlines (firstn b s) = newlines (firstn a s).
Proof.
  intros Hab. induction Hab as [|b Hab IH]; auto. intros Hb Hn. rewrite nl_S by lia. rewrite IH by (auto; try lia; intros; apply Hn; lia).
  destruct (H_dec (S b)) as [Y|Y]; [|lia]. exfalso. apply (Hn (S b)); auto. lia.
Qed.

(** The lines from the [k]-th on, which begins at [o]. *)
Definition lines_from (k : nat) (ls : list vline) : Prop :=
  length ls = vrank n + 1 - k /\
  forall i v, nth_error ls i = Some v -> vstart (k + i) (vl_start v) /\ vstart (k + i + 1) (vl_end v) /\ vl_num v = head_num (vl_start v).

Context (Nb : ~ B n).

(** The iterator at the start of a line. *)
Definition at_line (v : vlines) (o : nat) : Prop :=
  stands (vs_cursor v) o /\ vs_offset v = o /\ vs_eof v = false /\ (o = 0 \/ H o -> vs_logical v = newlines (firstn o s) + 1) /\
  (vs_logical v = newlines (firstn o s) + 1) /\ (o = n -> o = 0 \/ H o).

Lemma hard_num v o : at_line v o -> (if mb_is_hard (vs_cursor v) then Some (vs_logical v) else None) = head_num o.
Proof.
  intros (St & Eo & Ee & El1 & El2 & Hn). unfold head_num. destruct (Nat.lt_ge_cases o n) as [Hl|Hl].
  - pose proof (is_hard_ok text soft El _ _ St Hl) as Hh. destruct (mb_is_hard (vs_cursor v)).
    + destruct (Nat.eqb_spec o 0) as [->|]; [rewrite El2; reflexivity|]. destruct (H_dec o) as [|Y]; [now rewrite El2|]. destruct (proj1 Hh eq_refl); lia || tauto.
    + destruct (Nat.eqb_spec o 0) as [->|]; [exfalso; assert (false = true) by tauto; discriminate|]. destruct (H_dec o); auto. exfalso. assert (false = true) by tauto. discriminate.
  - assert (E : o = n) by (destruct St as (_ & _ & _ & ? & _); lia). pose proof St as St2. rewrite E in St2. rewrite (is_hard_end text soft El _ St2). rewrite El2.
    destruct (Nat.eqb_spec o 0) as [->|]; [reflexivity|]. destruct (H_dec o) as [|Y]; auto. exfalso. destruct (Hn E); lia || tauto.
Qed.

Lemma vs_all_ok fuel : forall v o k, at_line v o -> vstart k o -> k = vrank o -> n - o + 2 < fuel -> exists ls, vs_all text soft fuel v = Some ls /\ lines_from k ls.
Proof.
  induction fuel as [|f IH]; intros v o k Al Vs Ek Hf; [lia|]. cbn [vs_all]. unfold vs_next. rewrite (hard_num v o Al).
  pose proof Al as (St & Eo & Ee & El1 & El2 & Hn).
  destruct (mb_next_ok text soft ht hs Wt Ws El _ o St) as (r & m' & o' & -> & St' & N & Hr). cbn [bind]. rewrite Ee, Eo.
  assert (Ho : o <= n) by (destruct St as (_ & _ & _ & ? & _); auto).
  destruct r as [x|].
  - destruct Hr as (-> & Hl & Hx & _). cbn [bind]. destruct (proj1 N Hl) as (N1 & N2 & N3).
    assert (Bk : brk o') by (destruct N2 as [|E]; auto; left; rewrite E in *; auto).
    pose proof (vrank_next _ _ N Hl Bk) as Ev.
    assert (Enl : newlines (firstn o' s) = newlines (firstn o s) + (if H_dec o' then 1 else 0)).
    { replace o' with (S (o' - 1)) at 1 by lia. rewrite nl_S by lia. replace (S (o' - 1)) with o' by lia. f_equal. apply nl_no; try lia. intros y Hy Y. apply (N3 y); [lia|now left]. }
    match goal with |- context[vs_all _ _ f ?w] => set (v' := w) end.
    assert (Al' : at_line v' o').
    { unfold at_line, v'. cbn. assert (Q : (if mb_is_hard m' then vs_logical v + 1 else vs_logical v) = newlines (firstn o' s) + 1).
      { rewrite Enl, El2. destruct (Nat.lt_ge_cases o' n) as [Hl'|Hl'].
        - pose proof (is_hard_ok text soft El _ _ St' Hl') as Hh. destruct (mb_is_hard m').
          + destruct (H_dec o') as [|Y]; [lia|]. destruct (proj1 Hh eq_refl); lia || tauto.
          + destruct (H_dec o'); [|lia]. exfalso. assert (false = true) by tauto. discriminate.
        - assert (E : o' = n) by lia. pose proof St' as St2. rewrite E in St2. rewrite (is_hard_end text soft El _ St2). rewrite E. destruct (H_dec n) as [|Y]; [lia|]. exfalso. auto. }
      split; auto. split; auto. split; auto. split; auto. split; auto. intros E. right. rewrite E. auto. }
    assert (Hle : vrank o' <= vrank n) by (apply vrank_mono; lia).
    destruct (IH v' o' (k + 1) Al') as (ls & -> & Hls1 & Hls2); [right; left; split; [lia|]; split; auto; lia|lia|lia|]. cbn [bind].
    eexists. split; [reflexivity|]. split; [cbn [length]; lia|]. intros [|i] w Hw; cbn [nth_error] in Hw.
    + injection Hw as <-. cbn. rewrite Nat.add_0_r. split; auto. split; auto. right. left. split; [lia|]. split; auto. lia.
    + destruct (Hls2 i w Hw) as (A1 & A2 & A3). replace (k + S i) with (k + 1 + i) by lia. auto.
  - destruct Hr as (En & Hx & _). cbn [bind]. unfold mb_len. rewrite (tlen text ht Wt).
    assert (Ern : vrank n = vrank o).
    { destruct (Nat.lt_ge_cases o n) as [Hl|Hl]; [|f_equal; lia]. rewrite En in N. apply vrank_end; auto. intros [Y|Y]; [now apply Hx|auto]. }
    destruct f as [|f]; [lia|]. cbn [vs_all]. unfold vs_next. cbn [vs_cursor vs_eof vs_offset vs_logical].
    rewrite En in St'. destruct (mb_next_ok text soft ht hs Wt Ws El _ n St') as (r2 & m2 & o2 & E2 & St2 & N2 & Hr2). rewrite E2. cbn [bind].
    destruct r2 as [x|]; [destruct Hr2; lia|]. eexists. split; [reflexivity|]. split; [cbn [length]; lia|].
    intros [|i] w Hw; cbn [nth_error] in Hw; [|destruct i; discriminate]. injection Hw as <-. cbn. rewrite Nat.add_0_r. split; auto. split; auto. right. right. lia.
Qed.

Theorem iter_lines_ok k : k <= vrank n -> exists v ls, iter_lines text soft k = Some v /\ (forall fuel, n + 2 < fuel -> vs_all text soft fuel v = Some ls) /\ lines_from k ls.
Proof.
  intros Hk. unfold iter_lines. destruct (mb_new_ok text soft ht hs Wt Ws El) as (m & -> & St & Hm). cbn [bind].
  destruct (offset_of_line_merged m k St Hm) as (x & m1 & o1 & -> & Vx & St1). cbn [bind].
  pose proof (vstart_le _ _ Vx) as Hx.
  assert (Bx : (x = 0 \/ brk x) /\ vrank x = k). { destruct Vx as [(A1 & A2)|[(A1 & A2 & A3)|(A1 & A2)]]; [subst; rewrite vrank_0; auto|auto|lia]. }
  rewrite (line_of text soft ht Wt El) by (apply (brk_cut text soft ht Wt El Bc); tauto). cbn [bind].
  destruct (set_offset_ok text soft ht hs Wt Ws El Dj Bc m1 o1 x St1 Hx) as (m2 & o2 & -> & St2 & (L1 & L2 & L3) & Hm2). cbn [bind].
  assert (E2 : o2 = x). { destruct (Nat.eq_dec o2 x); auto. exfalso. destruct Bx as [[->|Bx] _]; [lia|]. apply (L3 x); auto. lia. }
  subst o2. eexists.
  assert (Al : at_line (VLines m2 x (newlines (firstn x s) + 1) false) x).
  { unfold at_line. cbn. repeat (split; auto). intros E. destruct Bx as [[|[|Y]] _]; auto. rewrite E in Y. tauto. }
  destruct (vs_all_ok (S (n + 2)) _ x k Al Vx ltac:(lia) ltac:(lia)) as (ls & Els & Q). exists ls. split; [reflexivity|]. split; auto.
  intros fuel Hf. destruct (vs_all_ok fuel _ x k Al Vx ltac:(lia) ltac:(lia)) as (ls' & Els' & Q'). rewrite Els'. f_equal.
  destruct Q as [Q1 Q2], Q' as [Q1' Q2']. clear -Q1 Q2 Q1' Q2' Dj El. apply nth_ext with (d := VLine 0 0 None) (d' := VLine 0 0 None); [lia|]. intros i Hi.
  destruct (nth_error ls i) as [a|] eqn:Ea; [|apply nth_error_None in Ea; lia]. destruct (nth_error ls' i) as [b|] eqn:Eb; [|apply nth_error_None in Eb; lia].
  rewrite (nth_error_nth _ _ _ Ea), (nth_error_nth _ _ _ Eb). destruct (Q2 _ _ Ea) as (A1 & A2 & A3), (Q2' _ _ Eb) as (B1 & B2 & B3).
  pose proof (vstart_unique _ _ _ A1 B1) as E1. pose proof (vstart_unique _ _ _ A2 B2) as E2. destruct a, b. cbn in *. subst. congruence.
Qed.
End Merged.
