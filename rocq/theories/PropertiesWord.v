(** C44: word motion makes progress and stops at word boundaries. *)
From Coq Require Import List Arith Lia Bool ZifyBool Ascii String.
From Verif Require Import Base ListLib MultisetProofs TreeModel TreeSpec TreeProofs MetricProofs CursorModel CursorProofs CursorBoundary
  RopeModel RopeSpec RopeProofs RopeMetric RopeIterModel RopeCursor RopeIterProofs FindModel FindProofs WordModel WordProofs.
Import ListNotations.
Local Open Scope list_scope.
Local Notation concat := List.concat.
Local Notation length := List.length.

(** ** Specification *)
(** The four kinds of characters. A character is the list of its UTF-8 bytes. *)
Definition newline (c : list nat) : Prop := c = [10].
Definition blank (c : list nat) : Prop := exists b, c = [b] /\ b <= 32 /\ b <> 10.
Definition marks : list nat := map nat_of_ascii (list_ascii_of_string "!""#$%&'()*+,-./:;<=>?@[\]^`{|}~").
Definition mark (c : list nat) : Prop := exists b, c = [b] /\ In b marks.
Definition letter (c : list nat) : Prop := ~ newline c /\ ~ blank c /\ ~ mark c.

(** The text has the character [p] just before [x] and [n] just after it. *)
Definition around (t : list nat) (x : nat) (p n : list nat) : Prop :=
  exists a b, t = a ++ p ++ n ++ b /\ length (a ++ p) = x /\ utf8 a /\ utf8_char p = true /\ utf8_char n = true /\ utf8 b.
(** A word begins, or ends, between two characters. A newline is a word of its own. *)
Definition begins (p n : list nat) : Prop := newline p \/ newline n \/ blank p /\ ~ blank n \/ mark p /\ letter n.
Definition ends (p n : list nat) : Prop := newline p \/ newline n \/ ~ blank p /\ blank n \/ letter p /\ mark n.
Definition word_begins (t : list nat) (x : nat) : Prop := x = 0 \/ exists p n, around t x p n /\ begins p n.
Definition word_ends (t : list nat) (x : nat) : Prop := x = length t \/ exists p n, around t x p n /\ ends p n.

(** Selecting the word at a position: on the left of a letter it is the word that begins there,
    on the right of one the word that ends there, and nothing between two newlines; *)
Definition click_begins (p n : list nat) : Prop := ~ letter p /\ letter n \/ newline p /\ newline n.
Definition click_ends (p n : list nat) : Prop := letter p /\ ~ letter n \/ newline p /\ newline n.
(** otherwise the position is inside what is selected, *)
Definition click_inside (t : list nat) (x : nat) : Prop := exists p n, around t x p n /\ ~ click_begins p n /\ ~ click_ends p n.
(** which goes on to the nearest boundary of either sort on either side. *)
Definition left_stop (t : list nat) (pos x : nat) : Prop :=
  x = 0 \/ exists p n, around t x p n /\ (x = pos /\ click_begins p n \/ x < pos /\ (begins p n \/ click_inside t pos /\ ends p n)).
Definition right_stop (t : list nat) (pos x : nat) : Prop :=
  x = length t \/ exists p n, around t x p n /\ (x = pos /\ click_ends p n \/ pos < x /\ (ends p n \/ click_inside t pos /\ begins p n)).

(** ** Proofs *)
Local Notation gp := get_word_property.
Local Notation clen cs := (length (concat cs)).

Lemma table : forallb (fun b => match gp [b] with
    | Lf => b =? 10
    | Space => (b <=? 32) && negb (b =? 10) && negb (existsb (Nat.eqb b) marks)
    | Punctuation => negb (b <=? 32) && existsb (Nat.eqb b) marks
    | Other => negb (b <=? 32) && negb (existsb (Nat.eqb b) marks)
    end) (seq 0 128) && forallb (fun b => (32 <? b) && (b <? 128)) marks = true.
Proof. vm_compute. reflexivity. Qed.
Lemma marks_bound b : In b marks -> 32 < b < 128.
Proof. intros H. pose proof table as T. apply andb_prop in T as [_ T]. rewrite forallb_forall in T. specialize (T b H). lia. Qed.
Lemma marks_dec b : existsb (Nat.eqb b) marks = true <-> In b marks.
Proof. rewrite existsb_exists. split; [intros (x & H & E); apply Nat.eqb_eq in E as ->; auto|]. intros H. exists b. split; auto. apply Nat.eqb_refl. Qed.
Lemma kinds c : utf8_char c = true ->
  match gp c with
  | Lf => newline c /\ ~ blank c /\ ~ mark c
  | Space => ~ newline c /\ blank c /\ ~ mark c
  | Punctuation => ~ newline c /\ ~ blank c /\ mark c
  | Other => ~ newline c /\ ~ blank c /\ ~ mark c
  end.
Proof.
  intros H. destruct c as [|b [|b2 c]]; [discriminate| |].
  - assert (Hb : b < 128) by (cbn [utf8_char] in H; lia). pose proof table as T. apply andb_prop in T as [T _]. rewrite forallb_forall in T. specialize (T b ltac:(apply in_seq; lia)).
    assert (E1 : newline [b] <-> b = 10) by (unfold newline; split; congruence).
    assert (E2 : blank [b] <-> b <= 32 /\ b <> 10) by (unfold blank; split; [intros (x & E & Hx); injection E as ->; auto|intros Hx; exists b; auto]).
    assert (E3 : mark [b] <-> In b marks) by (unfold mark; split; [intros (x & E & Hx); injection E as ->; auto|intros Hx; exists b; auto]).
    pose proof (marks_bound b). rewrite <- marks_dec in *. destruct (gp [b]); rewrite E1, E2, E3; destruct (existsb (Nat.eqb b) marks); lia.
  - cbn [get_word_property]. unfold newline, blank, mark. split; [discriminate|]. split; intros (x & E & _); discriminate.
Qed.
Lemma begins_ok p n : utf8_char p = true -> utf8_char n = true -> begins p n <-> Starts p n.
Proof.
  intros Hp Hn. apply kinds in Hp, Hn. unfold begins, Starts, letter. destruct (gp p), (gp n); cbn [classify_boundary is_start]; (split; [intros H; try reflexivity; exfalso; tauto|intros H; try discriminate; tauto]).
Qed.
Lemma ends_ok p n : utf8_char p = true -> utf8_char n = true -> ends p n <-> Ends p n.
Proof.
  intros Hp Hn. apply kinds in Hp, Hn. unfold ends, Ends, letter. destruct (gp p), (gp n); cbn [classify_boundary is_end]; (split; [intros H; try reflexivity; exfalso; tauto|intros H; try discriminate; tauto]).
Qed.
Lemma click_begins_ok p n : utf8_char p = true -> utf8_char n = true -> click_begins p n <-> is_start (classify_boundary_initial (gp p) (gp n)) = true.
Proof.
  intros Hp Hn. apply kinds in Hp, Hn. unfold click_begins, letter. destruct (gp p), (gp n); cbn; (split; [intros H; try reflexivity; exfalso; tauto|intros H; try discriminate; tauto]).
Qed.
Lemma click_ends_ok p n : utf8_char p = true -> utf8_char n = true -> click_ends p n <-> is_end (classify_boundary_initial (gp p) (gp n)) = true.
Proof.
  intros Hp Hn. apply kinds in Hp, Hn. unfold click_ends, letter. destruct (gp p), (gp n); cbn; (split; [intros H; try reflexivity; exfalso; tauto|intros H; try discriminate; tauto]).
Qed.

(** Positions as splits of the list of characters. *)
Lemma app_cmp (l1 l2 m1 m2 : list (list nat)) : Forall uchar (l1 ++ l2) -> l1 ++ l2 = m1 ++ m2 -> clen l1 <= clen m1 -> exists d, m1 = l1 ++ d /\ l2 = d ++ m2.
Proof.
  revert m1. induction l1 as [|x l1 IH]; intros m1 F E H; [exists m1; auto|]. destruct m1 as [|y m1].
  - exfalso. cbn in H. rewrite app_length in H. inversion F as [|? ? Fx _]. pose proof (char_pos x Fx). lia.
  - injection E as <- E. cbn [concat] in H. rewrite !app_length in H. inversion F; subst. destruct (IH m1) as (d & -> & ->); auto; [lia|]. exists d; auto.
Qed.
Lemma app_cmp_eq (l1 l2 m1 m2 : list (list nat)) : Forall uchar (l1 ++ l2) -> l1 ++ l2 = m1 ++ m2 -> clen l1 = clen m1 -> l1 = m1 /\ l2 = m2.
Proof.
  intros F E H. destruct (app_cmp l1 l2 m1 m2 F E ltac:(lia)) as (d & -> & ->). rewrite clen_app in H. destruct d as [|x d]; [now rewrite app_nil_r|].
  exfalso. apply Forall_app in F as [_ F]. inversion F as [|? ? Fx _]. pose proof (char_pos x Fx). cbn in H. rewrite app_length in H. lia.
Qed.
Lemma around_split cs x p n : Forall uchar cs -> around (concat cs) x p n <-> exists a b, cs = a ++ p :: n :: b /\ x = clen (a ++ [p]).
Proof.
  intros F. split.
  - intros (a & b & E & Hx & (ca & Fa & ->) & Hp & Hn & (cb & Fb & ->)). exists ca, cb. split.
    + apply (chars_of_unique (concat cs)); [split; auto|]. split; [apply Forall_app; split; auto; constructor; auto; constructor; auto|].
      rewrite concat_app. exact E.
    + rewrite <- Hx, clen_app, clen_1, app_length. reflexivity.
  - intros (a & b & -> & ->). apply Forall_app in F as [Fa F]. inversion F as [|? ? Fp F2]; subst. inversion F2; subst.
    exists (concat a), (concat b). rewrite !concat_app. cbn [concat]. rewrite app_nil_r. repeat split; auto; [exists a|exists b]; split; auto.
Qed.
Lemma cs_len (cs : list (list nat)) : Forall uchar cs -> length cs <= clen cs.
Proof. induction 1 as [|x l H _ IH]; cbn; auto. rewrite app_length. pose proof (char_pos x H). lia. Qed.

Section P.
Context (r : rope) (h : nat) (W : rope_wf h r).
Local Notation t := (rcontent r).

Lemma at_split c : rvalid r c -> char_boundary t (c_pos c) -> exists a b, between r c a b.
Proof. intros V (a & b & F & E & P). exists a, b. repeat split; auto. Qed.

Lemma next_boundary_ok fuel c : rvalid r c -> char_boundary t (c_pos c) -> length t <= fuel ->
  exists res c', next_boundary r fuel c = Some (res, c') /\
  match res with
  | None => c_pos c = length t
  | Some x => c_pos c < x <= length t /\ char_boundary t x /\ word_ends t x /\ (forall y, c_pos c < y < x -> ~ word_ends t y) /\ c_pos c' = x /\ rvalid r c'
  end.
Proof.
  intros V C Hf. destruct (at_split c V C) as (a & b & B). pose proof B as (F & E & P & _). unfold next_boundary. destruct b as [|p b].
  - destruct (next_end r h W c a B) as (c1 & -> & _). cbn [bind]. exists None, c1. split; auto. now rewrite E, app_nil_r.
  - destruct (next_cp r h W c a p b B) as (c1 & -> & B1). cbn [bind].
    destruct (next_loop r h W fuel c1 a p b B1) as (c2 & b1 & b2 & -> & S2 & -> & Hs & Hn).
    { pose proof (cs_len _ F) as Hl. rewrite <- E in Hl. rewrite !app_length in Hl. cbn [List.length] in Hl. lia. }
    cbn [bind]. change (a ++ p :: b1 ++ b2) with (a ++ (p :: b1) ++ b2) in *. rewrite app_assoc in *.
    destruct (between_set r h W c2 (a ++ p :: b1) b2) as (c3 & -> & B3); auto. cbn [bind]. eexists _, c3. split; [reflexivity|]. cbv beta iota.
    assert (Fp : uchar p) by (rewrite <- app_assoc in F; apply Forall_app in F as [_ F]; inversion F; auto). pose proof (char_pos p Fp) as Hp.
    assert (El : clen (a ++ p :: b1) = clen a + length p + clen b1) by (rewrite clen_app; cbn [concat]; rewrite app_length; lia).
    split; [rewrite E, (clen_app _ b2); lia|]. split; [exists (a ++ p :: b1), b2; auto|]. split; [|split].
    + destruct Hs as [->|(x & n & b3 & y & -> & Ey & Hx)]; [left; now rewrite E, app_nil_r|right]. exists x, n. rewrite Ey in *.
      split; [rewrite E; apply around_split; auto; exists (a ++ y), b3; rewrite <- !app_assoc; auto|]. rewrite !Forall_app in F. destruct F as [[_ [_ F1]] F2]. inversion F1; inversion F2; subst. apply ends_ok; auto.
    + intros y Hy [->|(x & n & A & He)]; [rewrite E, clen_app in Hy; lia|]. pose proof A as (? & ? & _ & _ & _ & Ux & Un & _).
      rewrite E in A. apply around_split in A as (a' & b' & Ec & ->); auto. rewrite ends_ok in He by auto.
      change (a' ++ x :: n :: b') with (a' ++ [x] ++ n :: b') in Ec. rewrite (app_assoc a') in Ec.
      destruct (app_cmp a ((p :: b1) ++ b2) (a' ++ [x]) (n :: b')) as (d & Ed & Ed'); auto; try (rewrite ?app_assoc; auto); try lia.
      destruct (app_cmp (a' ++ [x]) (n :: b') (a ++ p :: b1) b2) as (e & Ee & Ee'); auto; try lia; [rewrite <- Ec; auto|].
      rewrite Ed, <- app_assoc in Ee. apply app_inv_head in Ee. destruct e as [|n' e]; [exfalso; rewrite app_nil_r in Ee; subst d; rewrite Ed in Hy; lia|].
      injection Ee' as <- _. destruct d as [|x' d _] using rev_ind; [exfalso; rewrite Ed, app_nil_r in Hy; lia|]. rewrite app_assoc in Ed. apply app_inj_tail in Ed as [-> ->].
      rewrite <- app_assoc in Ee. exact (Hn _ _ _ _ Ee He).
    + destruct B3 as (_ & _ & P3 & V3). auto.
Qed.
Lemma prev_boundary_ok fuel c : rvalid r c -> char_boundary t (c_pos c) -> length t <= fuel ->
  exists res c', prev_boundary r fuel c = Some (res, c') /\
  match res with
  | None => c_pos c = 0
  | Some x => x < c_pos c /\ char_boundary t x /\ word_begins t x /\ (forall y, x < y < c_pos c -> ~ word_begins t y) /\ c_pos c' = x /\ rvalid r c'
  end.
Proof.
  intros V C Hf. destruct (at_split c V C) as (a & b & B). pose proof B as (F & E & P & _). unfold prev_boundary. destruct a as [|p a _] using rev_ind.
  - destruct (prev_start r h W c b B) as (c1 & -> & _). cbn [bind]. exists None, c1. split; auto.
  - destruct (prev_cp r h W c a p b B) as (c1 & -> & B1). cbn [bind].
    destruct (prev_loop r h W fuel c1 a p b B1) as (c2 & a1 & a2 & -> & S2 & -> & Hs & Hn).
    { pose proof (cs_len _ F) as Hl. rewrite <- E in Hl. rewrite !app_length in Hl. cbn [List.length] in Hl. lia. }
    cbn [bind]. rewrite <- !app_assoc in *. cbn [app] in *.
    destruct (between_set r h W c2 a1 (a2 ++ p :: b)) as (c3 & -> & B3); auto. cbn [bind]. eexists _, c3. split; [reflexivity|]. cbv beta iota.
    assert (Fp : uchar p) by (rewrite !Forall_app in F; destruct F as (_ & _ & F); inversion F; auto). pose proof (char_pos p Fp) as Hp.
    rewrite !clen_app, clen_1 in P. split; [lia|]. split; [exists a1, (a2 ++ p :: b); auto|]. split; [|split].
    + destruct Hs as [->|(x & n & a3 & y & -> & Ey & Hx)]; [now left|right]. exists x, n. change (p :: b) with ([p] ++ b) in F, E. rewrite (app_assoc a2), Ey in F, E.
      split; [rewrite E; apply around_split; auto; exists a3, (y ++ b); rewrite <- !app_assoc; auto|]. rewrite !Forall_app in F. destruct F as [[_ F1] [F2 _]]. inversion F1; inversion F2; subst. apply begins_ok; auto.
    + intros y Hy [->|(x & n & A & He)]; [lia|]. pose proof A as (? & ? & _ & _ & _ & Ux & Un & _).
      rewrite E in A. apply around_split in A as (a' & b' & Ec & ->); auto. rewrite begins_ok in He by auto.
      change (a' ++ x :: n :: b') with (a' ++ [x] ++ n :: b') in Ec. rewrite (app_assoc a') in Ec.
      destruct (app_cmp a1 (a2 ++ p :: b) (a' ++ [x]) (n :: b')) as (d & Ed & Ed'); auto; try lia.
      change (p :: b) with ([p] ++ b) in Ec. rewrite (app_assoc a2), (app_assoc a1) in Ec.
      destruct (app_cmp (a' ++ [x]) (n :: b') (a1 ++ a2 ++ [p]) b) as (e & Ee & Ee'); auto; try (rewrite (clen_app a1), (clen_app a2), clen_1; lia); try (rewrite <- Ec, <- !app_assoc; auto; fail).
      rewrite Ed, <- app_assoc in Ee. apply app_inv_head in Ee. destruct e as [|n' e]; [exfalso; rewrite app_nil_r in Ee; subst d; rewrite Ed, !clen_app, clen_1 in Hy; lia|].
      injection Ee' as <- _. destruct d as [|x' d _] using rev_ind; [exfalso; rewrite Ed, app_nil_r in Hy; lia|]. rewrite app_assoc in Ed. apply app_inj_tail in Ed as [-> ->].
      rewrite <- app_assoc in Ee. exact (Hn _ _ _ _ Ee He).
    + destruct B3 as (_ & _ & P3 & V3). auto.
Qed.

Lemma back_first stop A n0 B a1 a2 : Forall uchar (A ++ n0 :: B) -> A = a1 ++ a2 ->
  (forall y x n z, a2 ++ [n0] = y ++ x :: n :: z -> stop (clen (a1 ++ y ++ [x])) x n = false) ->
  forall q x n, clen a1 < q < clen (A ++ [n0]) -> around (concat (A ++ n0 :: B)) q x n -> stop q x n = false.
Proof.
  intros F -> Hn q x n Hq Ar. apply around_split in Ar as (a' & b' & Ec & ->); auto.
  assert (Ec1 : (a' ++ [x]) ++ n :: b' = ((a1 ++ a2) ++ [n0]) ++ B) by (rewrite <- !app_assoc in *; cbn [app] in *; auto).
  assert (Ec2 : a1 ++ (a2 ++ [n0] ++ B) = (a' ++ [x]) ++ n :: b') by (rewrite <- !app_assoc in *; cbn [app] in *; auto).
  assert (F1 : Forall uchar ((a' ++ [x]) ++ n :: b')) by (rewrite <- app_assoc; cbn [app]; rewrite <- Ec; auto).
  destruct (app_cmp _ _ _ _ F1 Ec1 ltac:(lia)) as (e & Ee & Ee'). rewrite <- Ec2 in F1.
  destruct (app_cmp _ _ _ _ F1 Ec2 ltac:(lia)) as (d & Ed & Ed').
  rewrite Ed, <- !app_assoc in Ee. apply app_inv_head in Ee. destruct e as [|n' e]; [exfalso; rewrite app_nil_r in Ee; subst d; rewrite Ed, !clen_app, clen_1 in Hq; lia|].
  injection Ee' as <- _. destruct d as [|x' d _] using rev_ind; [exfalso; rewrite Ed, app_nil_r in Hq; lia|]. rewrite app_assoc in Ed. apply app_inj_tail in Ed as [-> ->].
  rewrite <- app_assoc in Ee. rewrite <- app_assoc. exact (Hn _ _ _ _ Ee).
Qed.
Lemma forward_first stop a p b1 b2 : Forall uchar (a ++ p :: b1 ++ b2) ->
  (forall y x n z, p :: b1 = y ++ x :: n :: z -> stop (clen (a ++ y ++ [x])) x n = false) ->
  forall q x n, clen a < q < clen (a ++ p :: b1) -> around (concat (a ++ p :: b1 ++ b2)) q x n -> stop q x n = false.
Proof.
  intros F Hn q x n Hq A. apply around_split in A as (a' & b' & Ec & ->); auto.
  change (a' ++ x :: n :: b') with (a' ++ [x] ++ n :: b') in Ec. rewrite (app_assoc a') in Ec.
  destruct (app_cmp a (p :: b1 ++ b2) (a' ++ [x]) (n :: b')) as (d & Ed & Ed'); auto; try lia.
  change (p :: b1 ++ b2) with ((p :: b1) ++ b2) in Ec, F. rewrite (app_assoc a) in Ec, F.
  destruct (app_cmp (a' ++ [x]) (n :: b') (a ++ p :: b1) b2) as (e & Ee & Ee'); auto; try lia; try (rewrite <- Ec; auto; fail).
  rewrite Ed, <- app_assoc in Ee. apply app_inv_head in Ee. destruct e as [|n' e]; [exfalso; rewrite app_nil_r in Ee; subst d; rewrite Ed in Hq; lia|].
  injection Ee' as <- _. destruct d as [|x' d _] using rev_ind; [exfalso; rewrite Ed, app_nil_r in Hq; lia|]. rewrite app_assoc in Ed. apply app_inj_tail in Ed as [-> ->].
  rewrite <- app_assoc in Ee. rewrite <- app_assoc. exact (Hn _ _ _ _ Ee).
Qed.

(** The classification of the position itself. *)
Definition ib_at (a b : list (list nat)) : word_boundary :=
  match props (hd_error (rev a)), props (hd_error b) with Some pb, Some pa => classify_boundary_initial pb pa | _, _ => Both end.
Lemma around_here a b p n : Forall uchar (a ++ b) -> around (concat (a ++ b)) (clen a) p n -> exists a' b', a = a' ++ [p] /\ b = n :: b'.
Proof.
  intros F A. apply around_split in A as (a' & b' & Ec & El); auto. change (a' ++ p :: n :: b') with (a' ++ [p] ++ n :: b') in Ec. rewrite (app_assoc a') in Ec.
  destruct (app_cmp_eq a b _ _ F Ec El) as [-> ->]. eauto.
Qed.
Lemma ib_inside a b : Forall uchar (a ++ b) -> click_inside (concat (a ++ b)) (clen a) <-> is_boundary (ib_at a b) = false.
Proof.
  intros F. unfold ib_at, props. split.
  - intros (p & n & A & H1 & H2). destruct (around_here a b p n F A) as (a' & b' & -> & ->). rewrite rev_unit. cbn [hd_error option_map].
    rewrite !Forall_app in F. destruct F as [[_ Fp] Fn]. inversion Fp; inversion Fn; subst. rewrite click_begins_ok in H1 by auto. rewrite click_ends_ok in H2 by auto.
    destruct (classify_boundary_initial _ _); cbn in *; congruence.
  - destruct a as [|p a _] using rev_ind; [discriminate|]. rewrite rev_unit. destruct b as [|n b]; [discriminate|]. cbn [hd_error option_map]. intros H. exists p, n.
    split; [apply around_split; auto; exists a, b; rewrite <- app_assoc; auto|]. rewrite !Forall_app in F. destruct F as [[_ Fp] Fn]. inversion Fp; inversion Fn; subst.
    rewrite click_begins_ok, click_ends_ok by auto. destruct (classify_boundary_initial _ _); cbn in *; split; congruence.
Qed.
Lemma stop_back_ok a b x p n : Forall uchar (a ++ b) -> around (concat (a ++ b)) x p n ->
  stop_back (clen a) (ib_at a b) x p n = true <-> x = clen a /\ click_begins p n \/ x <> clen a /\ (begins p n \/ click_inside (concat (a ++ b)) (clen a) /\ ends p n).
Proof.
  intros F A. pose proof A as (? & ? & _ & _ & _ & Up & Un & _). unfold stop_back. destruct (Nat.eqb_spec x (clen a)) as [->|Hne].
  - destruct (around_here a b p n F A) as (a' & b' & -> & ->). rewrite click_begins_ok by auto. unfold ib_at, props. rewrite rev_unit. cbn [hd_error option_map]. intuition.
  - rewrite ib_inside by auto. rewrite begins_ok, ends_ok by auto. unfold Starts, Ends. destruct (ib_at a b), (classify_boundary (gp p) (gp n)); cbn; intuition congruence.
Qed.
Lemma stop_forward_ok a b x p n : Forall uchar (a ++ b) -> around (concat (a ++ b)) x p n ->
  stop_forward (clen a) (ib_at a b) x p n = true <-> x = clen a /\ click_ends p n \/ x <> clen a /\ (ends p n \/ click_inside (concat (a ++ b)) (clen a) /\ begins p n).
Proof.
  intros F A. pose proof A as (? & ? & _ & _ & _ & Up & Un & _). unfold stop_forward. destruct (Nat.eqb_spec x (clen a)) as [->|Hne].
  - destruct (around_here a b p n F A) as (a' & b' & -> & ->). rewrite click_ends_ok by auto. unfold ib_at, props. rewrite rev_unit. cbn [hd_error option_map]. intuition.
  - rewrite ib_inside by auto. rewrite begins_ok, ends_ok by auto. unfold Starts, Ends. destruct (ib_at a b), (classify_boundary (gp p) (gp n)); cbn; intuition congruence.
Qed.

(** What the two loops give. *)
Definition sel_left (pos st : nat) : Prop := st <= pos /\ char_boundary t st /\ left_stop t pos st /\ forall y, st < y <= pos -> ~ left_stop t pos y.
Definition sel_right (pos en : nat) : Prop := pos <= en <= length t /\ char_boundary t en /\ right_stop t pos en /\ forall y, pos <= y < en -> ~ right_stop t pos y.

Lemma left_of a b A n0 B a1 a2 : t = concat (a ++ b) -> Forall uchar (a ++ b) -> a ++ b = A ++ n0 :: B -> clen A <= clen a <= clen (A ++ [n0]) -> (b <> [] -> clen a <= clen A) -> A = a1 ++ a2 ->
  (a1 = [] \/ exists x n' a3 y, a1 = a3 ++ [x] /\ a2 ++ [n0] = n' :: y /\ stop_back (clen a) (ib_at a b) (clen a1) x n' = true) ->
  (forall y x n' z, y <> [] \/ True -> a2 ++ [n0] = y ++ x :: n' :: z -> stop_back (clen a) (ib_at a b) (clen (a1 ++ y ++ [x])) x n' = false) ->
  sel_left (clen a) (clen a1).
Proof.
  intros E F Ec Hl Hb -> Hs Hn. assert (Fn : uchar n0) by (rewrite Ec in F; apply Forall_app in F as [_ F]; inversion F; auto). pose proof (char_pos n0 Fn) as Hp.
  rewrite clen_app in Hl. rewrite (clen_app (a1 ++ a2)), clen_app, clen_1 in Hl. split; [lia|].
  assert (Ec' : a ++ b = a1 ++ (a2 ++ [n0]) ++ B) by (rewrite Ec, <- !app_assoc; auto).
  split; [exists a1, ((a2 ++ [n0]) ++ B); rewrite <- Ec'; auto|].
  split.
  - destruct Hs as [->|(x & n' & a3 & y & -> & Ey & Hx)]; [now left|right]. exists x, n'.
    assert (Ar : around (concat (a ++ b)) (clen (a3 ++ [x])) x n') by (apply around_split; auto; exists a3, (y ++ B); split; auto; rewrite Ec', Ey, <- !app_assoc; auto).
    split; [rewrite E; auto|]. apply stop_back_ok in Hx; auto. rewrite <- E in Hx. destruct Hx as [Hx|[Hx Hx']]; [left; auto|right; split; auto; lia].
  - intros y Hy [->|(x & n & Ar & Hx)]; [lia|]. rewrite E in Ar.
    assert (Hf : stop_back (clen a) (ib_at a b) y x n = false).
    { rewrite Ec in Ar. apply (back_first (stop_back (clen a) (ib_at a b)) (a1 ++ a2) n0 B a1 a2) with (q := y); [rewrite <- Ec; exact F|reflexivity|intros y0 x0 n' z; apply Hn; auto| |exact Ar].
      rewrite clen_app, clen_app, clen_1. split; [lia|]. destruct (Nat.eq_dec y (clen a)) as [->|]; [|lia]. rewrite <- Ec in Ar. destruct (around_here a b x n F Ar) as (a' & b' & _ & ->).
      specialize (Hb ltac:(discriminate)). rewrite clen_app in Hb. lia. }
    assert (Ht : stop_back (clen a) (ib_at a b) y x n = true); [|congruence]. apply stop_back_ok; auto. rewrite <- E. intuition lia.
Qed.
Lemma right_of a b a0 p b1 b2 : t = concat (a ++ b) -> Forall uchar (a ++ b) -> a ++ b = a0 ++ p :: b1 ++ b2 -> clen a = clen a0 ->
  (forall x n, around t (clen a) x n -> stop_forward (clen a) (ib_at a b) (clen a) x n = false) ->
  (b2 = [] \/ exists x n b3 y, b2 = n :: b3 /\ p :: b1 = y ++ [x] /\ stop_forward (clen a) (ib_at a b) (clen (a0 ++ p :: b1)) x n = true) ->
  (forall y x n z, p :: b1 = y ++ x :: n :: z -> stop_forward (clen a) (ib_at a b) (clen (a0 ++ y ++ [x])) x n = false) ->
  sel_right (clen a) (clen (a0 ++ p :: b1)).
Proof.
  intros E F Ec Hl H0 Hs Hn. assert (Fn : uchar p) by (rewrite Ec in F; apply Forall_app in F as [_ F]; inversion F; auto). pose proof (char_pos p Fn) as Hp.
  assert (El : clen (a0 ++ p :: b1) = clen a0 + length p + clen b1) by (rewrite clen_app; cbn [concat]; rewrite app_length; lia).
  assert (Ec' : a ++ b = (a0 ++ p :: b1) ++ b2) by (rewrite Ec, <- app_assoc; auto).
  assert (Et : length t = clen (a0 ++ p :: b1) + clen b2) by (rewrite E, Ec', clen_app; auto).
  split; [lia|]. split; [exists (a0 ++ p :: b1), b2; rewrite <- Ec'; auto|]. split.
  - destruct Hs as [->|(x & n & b3 & y & -> & Ey & Hx)]; [left; cbn in Et; lia|right]. exists x, n. rewrite Ey in *. rewrite app_assoc in *.
    assert (Ar : around (concat (a ++ b)) (clen ((a0 ++ y) ++ [x])) x n) by (apply around_split; auto; exists (a0 ++ y), b3; split; auto; rewrite Ec', <- !app_assoc; auto).
    split; [rewrite E; auto|]. apply stop_forward_ok in Hx; auto. rewrite <- E in Hx. destruct Hx as [Hx|[Hx Hx']]; [left; auto|right; split; auto; lia].
  - intros y Hy [->|(x & n & Ar & Hx)]; [lia|].
    assert (Hf : stop_forward (clen a) (ib_at a b) y x n = false).
    { destruct (Nat.eq_dec y (clen a)) as [->|]; [now apply H0|]. rewrite E, Ec in Ar. apply (forward_first (stop_forward (clen a) (ib_at a b)) a0 p b1 b2) with (q := y); [rewrite <- Ec; exact F|exact Hn|lia|exact Ar]. }
    assert (Ht : stop_forward (clen a) (ib_at a b) y x n = true); [|congruence]. rewrite E in Ar. apply stop_forward_ok; auto. rewrite <- E. intuition lia.
Qed.

Lemma select_word_ok fuel c : rvalid r c -> char_boundary t (c_pos c) -> length t <= fuel ->
  exists st en c', select_word r fuel c = Some (st, en, c') /\ sel_left (c_pos c) st /\ sel_right (c_pos c) en /\ c_pos c' = en /\ rvalid r c'.
Proof.
  intros V C Hf. destruct (at_split c V C) as (a & b & B). pose proof B as (F & E & P & _).
  pose proof (cs_len _ F) as Hc. rewrite <- E in Hc. rewrite app_length in Hc.
  assert (FIN : forall c' en, settable r c' -> sel_right (clen a) en -> exists c'', c_set rope_ops r c' en = Some c'' /\ c_pos c'' = en /\ rvalid r c'').
  { intros c' en S' (Hr & _). apply (rset_ok r h W); auto. lia. }
  assert (E1 : exists c1, next_codepoint r c = Some (hd_error b, c1) /\ settable r c1).
  { destruct b as [|n b]; [destruct (next_end r h W c a B) as (c1 & -> & S1 & _); eauto|destruct (next_cp r h W c a n b B) as (c1 & -> & B1); exists c1; split; auto; eapply between_settable; eauto]. }
  unfold select_word. destruct E1 as (c1 & -> & S1). cbn [bind]. rewrite P.
  destruct (between_set r h W c1 a b F E S1) as (c2 & -> & B2). cbn [bind].
  assert (LEFT : exists c3 st c4, prev_codepoint r c2 = Some (hd_error (rev a), c3) /\ settable r c4 /\ sel_left (clen a) st /\
    (match props (hd_error b) with
     | None => let start := c_pos c3 in let? (x, c4) := prev_codepoint r c3 in select_back r fuel c4 (clen a) (ib_at a b) start (props x) (props (hd_error (rev a)))
     | Some _ => select_back r fuel c3 (clen a) (ib_at a b) (clen a) (props (hd_error (rev a))) (props (hd_error b)) end) = Some (st, c4)).
  { destruct a as [|p a _] using rev_ind.
    - cbn [List.length List.concat] in *. destruct (prev_start r h W c2 b B2) as (c3 & -> & S3 & L3 & P3). pose proof B2 as (_ & _ & P2 & _). cbn [rev hd_error].
      assert (L0 : sel_left 0 0).
      { split; auto. split; [exists [], b; auto|]. split; [now left|]. intros y Hy. lia. }
      destruct b as [|n b]; cbn [props option_map hd_error].
      + destruct (prev_dead r c3 L3) as (c4 & E4 & L4 & P4 & S4). exists c3, 0, c4. rewrite E4. cbn [bind props option_map]. rewrite P3, P2.
        split; auto. split; auto. split; auto. destruct fuel; reflexivity.
      + exists c3, 0, c3. split; auto. split; auto. split; auto. destruct fuel; reflexivity.
    - rewrite rev_unit. destruct (prev_cp r h W c2 a p b B2) as (c3 & -> & B3). cbn [hd_error]. destruct b as [|n b]; cbn [props option_map hd_error].
      + rewrite app_nil_r in *. pose proof B3 as (_ & _ & P3 & _).
        assert (Hp : exists c4 x, prev_codepoint r c3 = Some (x, c4) /\ x = hd_error (rev a) /\ match rev a with [] => settable r c4 | p' :: a' => between r c4 (rev a') (p' :: p :: []) end).
        { destruct a as [|q a _] using rev_ind.
          - destruct (prev_start r h W c3 _ B3) as (c4 & -> & S4 & _). exists c4, None. auto.
          - rewrite rev_unit. cbn [hd_error]. rewrite rev_involutive. destruct (prev_cp r h W c3 a q _ B3) as (c4 & -> & B4). eauto. }
        destruct Hp as (c4 & x & E4 & -> & H4).
        destruct (back_loop r h W fuel (clen (a ++ [p])) (ib_at (a ++ [p]) []) c4 a p [] F E H4) as (c5 & a1 & a2 & E5 & S5 & Ea & Hs & Hn).
        { rewrite app_length in Hc. cbn [List.length] in Hc. lia. }
        exists c3, (clen a1), c5. rewrite E4, P3. cbn [bind]. unfold props. rewrite E5. split; auto. split; auto. split; auto.
        apply (left_of (a ++ [p]) [] a p [] a1 a2); auto; rewrite ?app_nil_r; auto; try (rewrite clen_app; lia). congruence.
      + destruct (back_loop r h W fuel (clen (a ++ [p])) (ib_at (a ++ [p]) (n :: b)) c3 (a ++ [p]) n b F E) as (c5 & a1 & a2 & E5 & S5 & Ea & Hs & Hn); [|lia|].
        { rewrite rev_unit, rev_involutive. exact B3. }
        rewrite rev_unit in E5. cbn [hd_error option_map] in E5. exists c3, (clen a1), c5. rewrite E5. split; auto. split; auto. split; auto.
        apply (left_of (a ++ [p]) (n :: b) (a ++ [p]) n b a1 a2); auto. rewrite (clen_app (a ++ [p])). lia. }
  destruct LEFT as (c3 & st & c4 & -> & S4 & HL & EL). cbn [bind]. cbv zeta in EL |- *. unfold ib_at in EL. rewrite EL. cbn [bind].
  destruct (between_set r h W c4 a b F E S4) as (c5 & -> & B5). cbn [bind].
  assert (RIGHT : exists en c6, settable r c6 /\ sel_right (clen a) en /\
    (match props (hd_error (rev a)) with
     | None => let? (x, c6) := next_codepoint r c5 in let end_ := c_pos c6 in let? (y, c7) := next_codepoint r c6 in
         select_forward r fuel c7 (clen a) (ib_at a b) end_ (props x) (props y)
     | Some _ => select_forward r fuel c5 (clen a) (ib_at a b) (clen a) (props (hd_error (rev a))) (props (hd_error b)) end) = Some (en, c6)).
  { destruct b as [|n b].
    - assert (R0 : sel_right (clen a) (clen a)).
      { rewrite app_nil_r in E. split; [rewrite E; lia|]. split; [exists a, []; rewrite app_nil_r in *; auto|]. split; [left; now rewrite E|]. intros y Hy. lia. }
      destruct (hd_error (rev a)) eqn:Eh; cbn [props option_map hd_error].
      + exists (clen a), c5. split; [eapply between_settable; eauto|]. split; auto. destruct fuel; reflexivity.
      + destruct (next_end r h W c5 a B5) as (c6 & -> & S6 & L6 & P6). cbn [bind]. rewrite (next_dead r c6 L6). cbn [bind props option_map]. exists (clen a), c6. split; auto. split; auto.
        pose proof B5 as (_ & _ & P5 & _). rewrite P6, P5. destruct fuel; reflexivity.
    - assert (Hnext : forall c6, between r c6 (a ++ [n]) b -> exists c7 x, next_codepoint r c6 = Some (x, c7) /\ x = hd_error b /\ match b with [] => settable r c7 | m :: b' => between r c7 (a ++ [n; m]) b' end).
      { intros c6 B6. destruct b as [|m b].
        - destruct (next_end r h W c6 _ B6) as (c7 & -> & S7 & _). exists c7, None. auto.
        - destruct (next_cp r h W c6 _ m b B6) as (c7 & -> & B7). exists c7, (Some m). split; auto. split; auto. rewrite <- app_assoc in B7. exact B7. }
      destruct a as [|p a _] using rev_ind.
      + cbn [rev hd_error props option_map]. destruct (next_cp r h W c5 _ n b B5) as (c6 & -> & B6). cbn [bind]. destruct (Hnext c6 B6) as (c7 & x & -> & -> & H7). cbn [bind].
        pose proof B6 as (_ & _ & P6 & _). rewrite P6.
        destruct (forward_loop r h W fuel (clen ([] : list (list nat))) (ib_at [] (n :: b)) c7 [] n b F E H7) as (c8 & b1 & b2 & E8 & S8 & Eb & Hs & Hn).
        { cbn [List.length] in Hc. lia. }
        unfold props. cbn [option_map]. rewrite E8. exists (clen ([] ++ n :: b1)), c8. split; auto. split; auto.
        apply (right_of [] (n :: b) [] n b1 b2); auto; try (subst b; auto; fail).
        intros x y (u & v & _ & Hl & _ & Up & _). exfalso. rewrite app_length in Hl. pose proof (char_pos x Up). cbn [List.concat List.length] in Hl. lia.
      + rewrite rev_unit. cbn [hd_error]. unfold props at 1 2 3. cbn [option_map].
        assert (Hib : ib_at (a ++ [p]) (n :: b) = classify_boundary_initial (gp p) (gp n)) by (unfold ib_at; rewrite rev_unit; reflexivity).
        destruct (is_end (ib_at (a ++ [p]) (n :: b))) eqn:Ee.
        * exists (clen (a ++ [p])), c5. split; [eapply between_settable; eauto|]. split.
          -- split; [rewrite E, (clen_app (a ++ [p]) (n :: b)); lia|]. split; [exists (a ++ [p]), (n :: b); auto|]. split; [|intros y Hy; lia].
             right. exists p, n. assert (Ar : around (concat ((a ++ [p]) ++ n :: b)) (clen (a ++ [p])) p n) by (apply around_split; auto; exists a, b; rewrite <- app_assoc; auto).
             split; [rewrite E; auto|]. left. split; auto. destruct Ar as (? & ? & _ & _ & _ & Up & Un & _). apply click_ends_ok; auto. congruence.
          -- destruct fuel; cbn [select_forward]; rewrite Nat.eqb_refl, Ee; reflexivity.
        * rewrite app_length in Hc. cbn [List.length] in Hc. destruct fuel as [|[|fuel]]; [lia|lia|].
          cbn [select_forward]. rewrite Nat.eqb_refl, Ee. pose proof B5 as (_ & _ & P5 & _). destruct (next_cp r h W c5 _ n b B5) as (c6 & -> & B6). cbn [bind].
          rewrite P5, Nat.eqb_refl. unfold props at 1. cbn [option_map]. destruct (Hnext c6 B6) as (c7 & x & -> & -> & H7). cbn [bind]. pose proof B6 as (_ & _ & P6 & _). rewrite P6.
          destruct (forward_loop r h W fuel (clen (a ++ [p])) (ib_at (a ++ [p]) (n :: b)) c7 (a ++ [p]) n b F E H7 ltac:(lia)) as (c8 & b1 & b2 & E8 & S8 & Eb & Hs & Hn).
          unfold props. cbn [option_map]. rewrite E8. exists (clen ((a ++ [p]) ++ n :: b1)), c8. split; auto. split; auto.
          apply (right_of (a ++ [p]) (n :: b) (a ++ [p]) n b1 b2); auto; try (subst b; auto; fail).
          intros x y Ar. unfold stop_forward. now rewrite Nat.eqb_refl. }
  destruct RIGHT as (en & c6 & S6 & HR & ER). cbv zeta in ER. unfold ib_at in ER. rewrite ER. cbn [bind]. destruct (FIN c6 en S6 HR) as (c7 & -> & P7 & V7). cbn [bind].
  exists st, en, c7. auto.
Qed.
End P.

(** ** Theorems *)
(** Moving right by a word: to the first place after the position where a word ends, or nowhere
    from the end of the text. *)
Theorem C44_next_boundary : forall r h, rope_wf h r -> forall c fuel, rvalid r c -> char_boundary (rcontent r) (c_pos c) -> length (rcontent r) <= fuel ->
  exists res c', next_boundary r fuel c = Some (res, c') /\
  match res with
  | None => c_pos c = length (rcontent r)
  | Some x => c_pos c < x <= length (rcontent r) /\ char_boundary (rcontent r) x /\ word_ends (rcontent r) x /\
      (forall y, c_pos c < y < x -> ~ word_ends (rcontent r) y) /\ c_pos c' = x /\ rvalid r c'
  end.
Proof. intros r h W c fuel. apply (next_boundary_ok r h W). Qed.
Print Assumptions C44_next_boundary.

(** Moving left by a word: to the last place before the position where a word begins, or nowhere
    from the start of the text. *)
Theorem C44_prev_boundary : forall r h, rope_wf h r -> forall c fuel, rvalid r c -> char_boundary (rcontent r) (c_pos c) -> length (rcontent r) <= fuel ->
  exists res c', prev_boundary r fuel c = Some (res, c') /\
  match res with
  | None => c_pos c = 0
  | Some x => x < c_pos c /\ char_boundary (rcontent r) x /\ word_begins (rcontent r) x /\
      (forall y, x < y < c_pos c -> ~ word_begins (rcontent r) y) /\ c_pos c' = x /\ rvalid r c'
  end.
Proof. intros r h W c fuel. apply (prev_boundary_ok r h W). Qed.
Print Assumptions C44_prev_boundary.

(** Selecting a word: to the nearest stop on either side; it selects something unless the text
    is empty or the position is between two newlines. *)
Theorem C44_select_word : forall r h, rope_wf h r -> forall c fuel, rvalid r c -> char_boundary (rcontent r) (c_pos c) -> length (rcontent r) <= fuel ->
  let t := rcontent r in let pos := c_pos c in
  exists st en c', select_word r fuel c = Some (st, en, c') /\ st <= pos <= en /\ en <= length t /\ char_boundary t st /\ char_boundary t en /\
    left_stop t pos st /\ (forall y, st < y <= pos -> ~ left_stop t pos y) /\
    right_stop t pos en /\ (forall y, pos <= y < en -> ~ right_stop t pos y) /\
    (st < en \/ t = [] \/ exists p n, around t pos p n /\ newline p /\ newline n) /\ c_pos c' = en /\ rvalid r c'.
Proof.
  intros r h W c fuel V C Hf t pos. destruct (select_word_ok r h W fuel c V C Hf) as (st & en & c' & E & (L1 & L2 & L3 & L4) & (R1 & R2 & R3 & R4) & P & V').
  exists st, en, c'. split; auto. split; [unfold pos; lia|]. split; [unfold t; lia|]. do 6 (split; auto). split; auto.
  destruct (Nat.lt_ge_cases st en); auto. right. fold pos t in L1, L3, R1, R3. assert (st = pos) by lia. assert (en = pos) by lia. subst st en.
  destruct L3 as [L3|(p & n & A & [[_ Hb]|[? _]])]; [| |lia]; (destruct R3 as [R3|(p' & n' & A' & [[_ He]|[? _]])]; [| |lia]).
  - left. apply length_zero_iff_nil. lia.
  - exfalso. destruct A' as (u & v & _ & Hl & _ & Up & _). rewrite app_length in Hl. pose proof (char_pos p' Up). lia.
  - exfalso. destruct A as (u & v & Et & Hl & _ & _ & Un & _). pose proof (f_equal (@List.length nat) Et) as Hlen. rewrite !app_length in Hlen, Hl. pose proof (char_pos n Un). unfold t, pos in *.
    rewrite (app_length p), (app_length n) in Hlen. lia.
  - right. exists p, n. split; auto. pose proof (utf8_s r h W) as (cs & F & Ecs). fold t in Ecs. unfold t, pos in *. rewrite Ecs in A, A'.
    apply around_split in A as (a & b & E1 & E2), A' as (a' & b' & E1' & E2'); auto.
    change (a ++ p :: n :: b) with (a ++ [p] ++ n :: b) in E1. change (a' ++ p' :: n' :: b') with (a' ++ [p'] ++ n' :: b') in E1'. rewrite app_assoc in E1, E1'.
    destruct (app_cmp_eq (a ++ [p]) (n :: b) (a' ++ [p']) (n' :: b')) as [X Y]; try congruence. apply app_inj_tail in X as [_ <-]. injection Y as <- _.
    unfold click_begins, click_ends in *. tauto.
Qed.
Print Assumptions C44_select_word.

(** "ab, é\n x": a letter, a mark, a blank, a letter of two bytes, a newline. *)
Definition ex_bytes : list nat := [97; 98; 44; 32; 195; 169; 10; 32; 120].
Definition ex_rope : rope := from_leaf rope_ops ex_bytes.
Lemma ex_wf : rope_wf 0 ex_rope.
Proof.
  apply (from_leaf_wf rope_ops (fun s => s) leafV scut compute_info rope_leaf_spec ex_bytes). split; [|vm_compute; lia]. exists [[97]; [98]; [44]; [32]; [195; 169]; [10]; [32]; [120]]. split; [repeat constructor|reflexivity].
Qed.
Definition forward_from (p : nat) := let? c := c_new ex_rope p in let? (x, _) := next_boundary ex_rope 9 c in Some x.
Definition back_from (p : nat) := let? c := c_new ex_rope p in let? (x, _) := prev_boundary ex_rope 9 c in Some x.
Definition word_at (p : nat) := let? c := c_new ex_rope p in let? (s, e, _) := select_word ex_rope 9 c in Some (s, e).
Example C44_ex_next : map forward_from [0; 1; 2; 3; 4; 6; 7; 8; 9] = [Some (Some 2); Some (Some 2); Some (Some 3); Some (Some 6); Some (Some 6); Some (Some 7); Some (Some 9); Some (Some 9); Some None].
Proof. vm_compute. reflexivity. Qed.
Example C44_ex_prev : map back_from [0; 1; 2; 3; 4; 6; 7; 8; 9] = [Some None; Some (Some 0); Some (Some 0); Some (Some 0); Some (Some 0); Some (Some 4); Some (Some 6); Some (Some 7); Some (Some 8)].
Proof. vm_compute. reflexivity. Qed.
Example C44_ex_select : map word_at [0; 1; 2; 3; 4; 6; 7; 8; 9] = [Some (0, 2); Some (0, 2); Some (0, 2); Some (2, 4); Some (4, 6); Some (4, 6); Some (6, 8); Some (8, 9); Some (8, 9)].
Proof. vm_compute. reflexivity. Qed.
(** The hypotheses hold of a cursor there. *)
Example C44_ex_hyps : rope_wf 0 ex_rope /\ exists c, c_new ex_rope 4 = Some c /\ rvalid ex_rope c /\ char_boundary (rcontent ex_rope) (c_pos c).
Proof.
  split; [exact ex_wf|]. destruct (rnew_ok 0 ex_rope 4 ex_wf) as (c & E & P & V); [vm_compute; lia|]. exists c. split; auto. split; auto. rewrite P.
  exists [[97]; [98]; [44]; [32]], [[195; 169]; [10]; [32]; [120]]. split; [repeat constructor|]. split; reflexivity.
Qed.
