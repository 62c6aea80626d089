(** C57: what a search shows. *)
From Coq Require Import List Arith Lia Bool ZifyBool.
From Verif Require Import Base ListLib TreeModel TreeSpec TreeProofs CursorModel RopeModel RopeSpec RopeProofs RopeIterModel RopeIterProofs FindModel FindProofs PropertiesFind
  DeltaModel SelectionModel SelectionProofs PropertiesSelection WordModel PropertiesWord PropertiesLinewrap ViewModel DrawProofs SearchModel SearchSpec SearchProofs.
Import ListNotations.
Local Notation region := SelectionModel.region.
Local Notation find := FindModel.find.

(** A query that is text, not a regular expression, and its matches. *)
Definition plain lower slow (f : finder) (q : list nat) : Prop := fd_string f = Some q /\ fd_regex f = None /\ searchable lower slow (fd_case f) q.
Definition matches lower slow (f : finder) (q : list nat) (t : rope) : nat -> nat -> Prop := is_match lower slow (fd_case f) q (rcontent t).
(** The same query, with other occurrences. *)
Definition same_query (f f' : finder) : Prop :=
  fd_id f' = fd_id f /\ fd_string f' = fd_string f /\ fd_case f' = fd_case f /\ fd_regex f' = fd_regex f /\ fd_whole f' = fd_whole f.
Definition any (i e : nat) : Prop := True.
(** What is shown: the first match in the text, the first after it, and so on. *)
Definition shows_all lower slow (f : finder) (q : list nat) (t : rope) : Prop :=
  disjoint_in_order (fd_occ f) /\ in_turn (matches lower slow f q t) any 0 (places (fd_occ f)).

(** ** Proofs *)
Lemma in_turn_ext m g m' g' p l : (forall i e, m i e <-> m' i e) -> (forall i e, g i e <-> g' i e) -> in_turn m g p l -> in_turn m' g' p l.
Proof.
  intros Hm Hg. induction 1 as [p H|p i e l Hp H1 H2 H3 H4 IH|p i e l Hp H1 H2 H3 H4 IH].
  - apply it_none. intros i e Hi H'. apply (H i e Hi). now apply Hm.
  - apply it_some; auto; [now apply Hm|intros i' e' Hi H'; apply (H2 i' e' Hi); now apply Hm|now apply Hg].
  - apply (it_skip _ _ _ i e); auto; [now apply Hm|intros i' e' Hi H'; apply (H2 i' e' Hi); now apply Hm|intros H'; apply H3; now apply Hg].
Qed.
Lemma with_same f o : same_query f (dirtied (with_occ f o)). Proof. repeat split. Qed.
Lemma update_same lower slow f t a b slop f' : update_find lower slow f t a b slop = Some f' -> same_query f f'.
Proof.
  unfold update_find. destruct (fd_string f) as [q|] eqn:Eq; [|intros [= <-]; repeat split; auto]. intros E.
  apply bind_some in E as (x1 & _ & E). apply bind_some in E as (x2 & _ & E). apply bind_some in E as (x3 & _ & E). apply bind_some in E as ([x4 x4'] & _ & E).
  apply bind_some in E as (x5 & _ & E). apply bind_some in E as (x6 & _ & E). apply bind_some in E as (x7 & _ & E). apply bind_some in E as (occ & _ & E). injection E as <-. apply with_same.
Qed.
Lemma plain_same lower slow f f' q : same_query f f' -> plain lower slow f q -> plain lower slow f' q.
Proof. intros (E1 & E2 & E3 & E4 & E5) (H1 & H2 & H3). unfold plain. rewrite E2, E3, E4. auto. Qed.
Lemma same_trans f g h : same_query f g -> same_query g h -> same_query f h. Proof. unfold same_query. intuition congruence. Qed.
Lemma found_m (m : nat -> nat -> Prop) rs : (forall i e, found rs i e -> m i e) <-> forall r, In r rs -> m (rmin r) (rmax r).
Proof. split; [intros H r Hr; apply H; exists r; auto|intros H i e (r & Hr & <- & <-); now apply (H r)]. Qed.
Lemma some_ok m rs : some_found m rs <-> sok rs /\ forall r, In r rs -> m (rmin r) (rmax r).
Proof. unfold some_found. rewrite <- sok_order, found_m. reflexivity. Qed.

(** ** Theorems *)
(** A search of the whole text, whatever matches were found before, ends and shows the first match
    of the text, the first after it, and so on to the end. *)
Theorem C57_whole_text lower slow h t f q slop : rope_wf h t -> plain lower slow f q -> fd_whole f = false -> some_found (matches lower slow f q t) (fd_occ f) ->
  exists f', update_find lower slow f t 0 (length (rcontent t)) slop = Some f' /\ same_query f f' /\ shows_all lower slow f' q t /\ all_found (matches lower slow f q t) (fd_occ f').
Proof.
  intros W (Eq & Er & Hs) Ew So. apply some_ok in So as [Sk Hm]. pose proof (laws_ok lower slow (fd_case f) q t h W Hs) as L.
  destruct (update_ok lower slow f q t h 0 (length (rcontent t)) slop W Eq Er Hs) as (from & T & occ' & E & S' & M' & Hf & HT & P1 & P3 & P2 & P5); auto; [congruence|lia|lia|].
  assert (from = 0) by lia. subst from. assert (T = length (rcontent t)) by lia. subst T. exists (dirtied (with_occ f occ')). split; auto. split; [apply with_same|].
  assert (K : forall i e, kept f t i e = true) by (intros; unfold kept; now rewrite Ew). split; [split; [now apply sok_order|]|split; [now apply sok_order|split]].
  - cbn [fd_occ dirtied with_occ]. destruct P5 as (l & El & Hl).
    { intros r Hr. right. split; [lia|]. split; auto. apply (ml_range _ _ L _ _ (Hm r Hr)). }
    rewrite El. rewrite filter_none; [|intros r Hr; pose proof (ml_range _ _ L _ _ (Hm r Hr)); lia]. cbn [places map app].
    eapply in_turn_ext; [| |exact Hl].
    + intros i e. split; [intros [H _]; exact H|intros H; split; [exact H|apply (ml_range _ _ L _ _ H)]].
    + intros i e. cbv beta. rewrite K. unfold any. tauto.
  - intros i e (r & Hr & <- & <-). now apply M'.
  - intros i e Hie. destruct (P2 i e) as [H|(a & b & _ & H & _)]; auto; [lia|apply (ml_range _ _ L _ _ Hie)|]. rewrite K in H. discriminate.
Qed.
Print Assumptions C57_whole_text.
(** If no two matches have a character in common, all of them are shown. *)
Theorem C57_all_shown lower slow h t f q slop : rope_wf h t -> plain lower slow f q -> fd_whole f = false -> some_found (matches lower slow f q t) (fd_occ f) ->
  (forall i e i' e', matches lower slow f q t i e -> matches lower slow f q t i' e' -> overlap i e i' e' -> i = i' /\ e = e') ->
  exists f', update_find lower slow f t 0 (length (rcontent t)) slop = Some f' /\ forall i e, found (fd_occ f') i e <-> matches lower slow f q t i e.
Proof.
  intros W P Ew So Hd. destruct (C57_whole_text lower slow h t f q slop W P Ew So) as (f' & E & _ & _ & (_ & H1 & H2)). exists f'. split; auto. intros i e. split; [apply H1|].
  intros H. destruct (H2 i e H) as (a & b & Hf & Ho). destruct (Hd a b i e (H1 a b Hf) H Ho) as [-> ->]. exact Hf.
Qed.
Print Assumptions C57_all_shown.
(** A search of a part of the text: only matches are shown, no two overlap, and each match in that
    part is shown or overlaps one that is. *)
Theorem C57_part lower slow h t f q start e slop : rope_wf h t -> plain lower slow f q -> fd_whole f = false -> some_found (matches lower slow f q t) (fd_occ f) ->
  start <= e -> start <= length (rcontent t) ->
  exists f', update_find lower slow f t start e slop = Some f' /\ same_query f f' /\ some_found (matches lower slow f q t) (fd_occ f') /\
    forall i b, matches lower slow f q t i b -> start <= i -> b <= e -> exists a c, found (fd_occ f') a c /\ overlap a c i b.
Proof.
  intros W (Eq & Er & Hs) Ew So Hse Hst. apply some_ok in So as [Sk Hm]. pose proof (laws_ok lower slow (fd_case f) q t h W Hs) as L.
  destruct (update_ok lower slow f q t h start e slop W Eq Er Hs) as (from & T & occ' & E & S' & M' & Hf & HT & P1 & P3 & P2 & P5); auto; [congruence|].
  exists (dirtied (with_occ f occ')). split; auto. split; [apply with_same|]. split; [now apply some_ok|]. intros i b Hib Hi Hb.
  destruct (P2 i b) as [H|(a & c & _ & H & _)]; auto; [lia|pose proof (ml_range _ _ L _ _ Hib); lia|]. unfold kept in H. rewrite Ew in H. discriminate.
Qed.
Print Assumptions C57_part.

(** ** The search of a view, step by step *)
(** Each time the editor is idle, with the window where it is then, one more part is searched. *)
Fixpoint searching lower slow (batch : nat) (fs : list finder) (p : progress) (t : rope) (offs : list nat) : option (list finder * progress) :=
  match offs with
  | [] => Some (fs, p)
  | o :: offs' => let? (fs1, p1) := do_find lower slow batch fs p t o in searching lower slow batch fs1 p1 t offs'
  end.
(** A query to be searched for, with any matches found for it. *)
Definition can_search lower slow (t : rope) (f : finder) : Prop :=
  exists q, plain lower slow f q /\ fd_whole f = false /\ some_found (matches lower slow f q t) (fd_occ f).
Definition shown_all lower slow (t : rope) (f : finder) : Prop := exists q, fd_string f = Some q /\ shows_all lower slow f q t.

Lemma search_all_ok lower slow h t start e fs : rope_wf h t -> Forall (can_search lower slow t) fs -> start <= e -> start <= length (rcontent t) ->
  exists fs', search_all lower slow fs t start e = Some fs' /\ Forall2 same_query fs fs' /\ Forall (can_search lower slow t) fs' /\
    (start = 0 -> e = length (rcontent t) -> Forall (shown_all lower slow t) fs').
Proof.
  intros W F Hse Hst. induction F as [|f fs (q & P & Ew & So) F IH]; cbn [search_all].
  - exists []. repeat split; auto.
  - assert (Em : multiline_regex f = false) by (unfold multiline_regex; destruct P as (_ & -> & _); reflexivity). rewrite Em. cbn [negb orb].
    assert (exists f', update_find lower slow f t start e true = Some f' /\ same_query f f' /\ can_search lower slow t f' /\ (start = 0 -> e = length (rcontent t) -> shown_all lower slow t f')) as (f' & -> & Sf & Cf & Af).
    { destruct (C57_part lower slow h t f q start e true W P Ew So Hse Hst) as (f' & E & Sq & So' & _). exists f'. split; auto. split; auto. split.
      - exists q. split; [eapply plain_same; eauto|]. destruct Sq as (_ & _ & E3 & _ & E5). split; [congruence|]. unfold matches in *. now rewrite E3.
      - intros -> ->. destruct (C57_whole_text lower slow h t f q true W P Ew So) as (f2 & E2 & Sq2 & Sh & _). assert (f2 = f') by congruence. subst f2. exists q. split; [|exact Sh].
        destruct Sq as (_ & E1 & _). rewrite E1. apply P. }
    cbn [bind]. destruct IH as (fs' & -> & S2 & C2 & A2). cbn [bind]. exists (f' :: fs'). repeat split; auto.
Qed.
Lemma search_ready lower slow batch t offs : forall fs, searching lower slow batch fs Ready t offs = Some (fs, Ready).
Proof. induction offs as [|o offs IH]; intros fs; cbn [searching]; auto. unfold do_find. cbn [find_step]. cbn [bind]. apply IH. Qed.
Lemma search_from lower slow batch h t : rope_wf h t -> 0 < batch -> forall offs fs s e, Forall (fun o => o <= length (rcontent t)) offs -> Forall (can_search lower slow t) fs ->
  s <= e -> e <= length (rcontent t) ->
  exists fs' p', searching lower slow batch fs (InProgress s e) t offs = Some (fs', p') /\ Forall2 same_query fs fs' /\ Forall (can_search lower slow t) fs' /\
    (p' = Ready -> Forall (shown_all lower slow t) fs') /\ (s + (length (rcontent t) - e) < length offs -> p' = Ready).
Proof.
  intros W Hb. induction offs as [|o offs IH]; intros fs s e Fo F Hse He; cbn [searching].
  - exists fs, (InProgress s e). split; auto. split; [|split; [auto|split; [discriminate|cbn; lia]]]. clear. induction fs; constructor; auto. repeat split.
  - inversion Fo as [|? ? Ho Fo']; subst. unfold do_find, find_step. rewrite !(len_r t h W). set (n := length (rcontent t)) in *.
    assert (Trans : forall a b c, Forall2 same_query a b -> Forall2 same_query b c -> Forall2 same_query a c).
    { intros a b c H. revert c. induction H; intros c H'; inversion H'; subst; constructor; eauto. eapply same_trans; eauto. }
    destruct ((s =? 0) && (n <=? e)) eqn:E1.
    { destruct (search_all_ok lower slow h t 0 n fs W F) as (fs' & -> & S' & C' & A'); [lia|lia|]. cbn [bind]. rewrite search_ready. exists fs', Ready. repeat split; auto. }
    destruct (((o - s <? e - o) && (0 <? s)) || (n <=? e)) eqn:E2.
    { destruct (search_all_ok lower slow h t (s - batch) s fs W F) as (fs' & -> & S' & C' & _); [lia|fold n; lia|]. cbn [bind].
      destruct (IH fs' (s - batch) e Fo' C') as (fs2 & p2 & -> & S2 & C2 & A2 & L2); [lia|auto|]. exists fs2, p2. split; auto. split; [eauto|]. split; auto. split; auto. cbn [length]. intros Hl. apply L2. lia. }
    destruct (e <? n) eqn:E3; [|lia].
    destruct (search_all_ok lower slow h t e (Nat.min n (e + batch)) fs W F) as (fs' & -> & S' & C' & _); [lia|fold n; lia|]. cbn [bind].
    destruct (IH fs' s (Nat.min n (e + batch)) Fo' C') as (fs2 & p2 & -> & S2 & C2 & A2 & L2); [lia|lia|]. exists fs2, p2. split; auto. split; [eauto|]. split; auto. split; auto. cbn [length]. intros Hl. apply L2. lia.
Qed.
(** From when the queries are set, whatever lines the window shows at each step, the search goes on
    without a panic and is done after at most as many steps as there are bytes, and two. When it is
    done, each query shows its first match, the first after it, and so on: it does not depend on
    where the window was. *)
Theorem C57_search_ends lower slow batch h t fs offs : rope_wf h t -> 0 < batch -> Forall (can_search lower slow t) fs -> Forall (fun o => o <= length (rcontent t)) offs ->
  exists fs' p, searching lower slow batch fs Started t offs = Some (fs', p) /\ Forall2 same_query fs fs' /\ Forall (can_search lower slow t) fs' /\
    (p = Ready -> Forall (shown_all lower slow t) fs') /\ (length (rcontent t) + 2 <= length offs -> p = Ready).
Proof.
  intros W Hb F Fo. destruct offs as [|o offs]; cbn [searching].
  { exists fs, Started. split; auto. split; [|split; [auto|split; [discriminate|cbn; lia]]]. clear. induction fs; constructor; auto. repeat split. }
  inversion Fo as [|? ? Ho Fo']; subst. unfold do_find. cbn [find_step]. rewrite (len_r t h W).
  destruct (search_all_ok lower slow h t o (Nat.min (length (rcontent t)) (o + batch)) fs W F) as (fs1 & -> & S1 & C1 & _); [lia|lia|]. cbn [bind].
  destruct (search_from lower slow batch h t W Hb offs fs1 o (Nat.min (length (rcontent t)) (o + batch)) Fo' C1) as (fs2 & p2 & -> & S2 & C2 & A2 & L2); [lia|lia|].
  exists fs2, p2. split; auto. split; [|split; [auto|split; [auto|cbn [length]; intros Hl; apply L2; lia]]].
  clear - S1 S2. revert fs2 S2. induction S1; intros fs2 S2; inversion S2; subst; constructor; eauto. eapply same_trans; eauto.
Qed.
Print Assumptions C57_search_ends.

(** A query that has changed is searched for from the start; one that has not keeps what is shown. *)
Theorem C57_set_find lower slow compile f s (case_sensitive whole : bool) t : s <> [] -> searchable lower slow (if case_sensitive then Exact else CaseInsensitive) s ->
  let (changed, f') := set_find compile f s case_sensitive false whole in
  fd_string f' = Some s /\ fd_case f' = (if case_sensitive then Exact else CaseInsensitive) /\ fd_regex f' = None /\ fd_whole f' = whole /\
  (changed = false <-> fd_string f = Some s /\ fd_case f = (if case_sensitive then Exact else CaseInsensitive) /\ fd_regex f = None /\ fd_whole f = whole) /\
  (changed = false -> f' = f) /\ (changed = true -> fd_occ f' = []) /\ (changed = true -> whole = false -> can_search lower slow t f').
Proof.
  intros Hne Hs. unfold set_find. destruct s as [|b s]; [congruence|]. set (q := b :: s) in *. set (cm := if case_sensitive then Exact else CaseInsensitive) in *.
  match goal with |- context [if ?x then (false, f) else _] => set (same := x) end.
  assert (Hsame : same = true <-> fd_string f = Some q /\ fd_case f = cm /\ fd_regex f = None /\ fd_whole f = whole).
  { unfold same. destruct (fd_string f) as [q'|]; [|split; [discriminate|intros (H & _); discriminate]]. rewrite !andb_true_iff, bytes_eqb_ok, !eqb_true_iff.
    destruct (fd_regex f); cbn [is_some]; destruct (fd_case f), cm; cbn [case_eqb]; intuition (try congruence). }
  destruct same eqn:E.
  - destruct (proj1 Hsame eq_refl) as (H1 & H2 & H3 & H4). repeat split; auto; discriminate.
  - cbn [fd_string fd_case fd_regex fd_whole fd_occ]. repeat split; auto; try discriminate.
    + intros H. apply Hsame in H. discriminate.
    + intros _ ->. exists q. split; [split; [reflexivity|split; [reflexivity|exact Hs]]|]. split; auto. split; [intros i j a c Hij Ha; destruct i; discriminate|intros i e (r & [] & _)].
Qed.
Print Assumptions C57_set_find.

(** ** Several queries *)
(** The finder looks for what the query says. *)
Definition asked (q : find_query) (f : finder) : Prop :=
  fd_string f = Some (fq_chars q) /\ fd_case f = (if fq_case q then Exact else CaseInsensitive) /\ fd_whole f = fq_whole q /\ (fq_regex q = false -> fd_regex f = None).
Definition named (qs : list find_query) : list nat := flat_map (fun q => match fq_id q with Some i => [i] | None => [] end) qs.
(** The queries of a view: each has its own number, below the next one. *)
Definition numbered (s : searches) : Prop := NoDup (map fd_id (se_find s)) /\ forall f, In f (se_find s) -> fd_id f < se_next s.

Lemma set_find_ok compile f s cs rx whole : let (c, f') := set_find compile f s cs rx whole in
  fd_id f' = fd_id f /\ asked (Query None s cs rx whole) f' /\ (c = false -> f' = f).
Proof.
  unfold set_find. set (f0 := match s with [] => unset f | _ => f end). set (cm := if cs then Exact else CaseInsensitive).
  assert (E0 : fd_id f0 = fd_id f) by (unfold f0; now destruct s). destruct (fd_string f0) as [q|] eqn:Eq.
  - assert (f0 = f) as Ef by (unfold f0 in *; destruct s; auto; discriminate). rewrite Ef in *. clear f0 E0 Ef. destruct (_ && _ && _ && _) eqn:E.
    + rewrite !andb_true_iff, bytes_eqb_ok, !eqb_true_iff in E. destruct E as (((-> & C1) & C2) & C3). split; auto. split; auto. split; [exact Eq|]. cbn [fq_case fq_whole fq_regex]. split; [fold cm; destruct cm, (fd_case f); auto; discriminate|].
      split; auto. intros ->. destruct (fd_regex f); [discriminate|auto].
    + split; [reflexivity|]. split; [|discriminate]. split; [reflexivity|]. split; [reflexivity|]. split; [reflexivity|]. cbn [fq_regex fd_regex]. now intros ->.
  - split; [exact E0|]. split; [|discriminate]. split; [reflexivity|]. split; [reflexivity|]. split; [reflexivity|]. cbn [fq_regex fd_regex]. now intros ->.
Qed.
Lemma position_ok fs id : (exists f, In f fs /\ fd_id f = id) -> exists a f b, fs = a ++ f :: b /\ fd_id f = id /\ position fs id = Some (length a).
Proof.
  induction fs as [|g fs IH]; intros (f & Hf & E); [destruct Hf|]. cbn [position]. destruct (Nat.eqb_spec (fd_id g) id) as [Eg|Eg].
  - exists [], g, fs. auto.
  - destruct Hf as [->|Hf]; [congruence|]. destruct (IH ltac:(eauto)) as (a & f' & b & -> & E' & ->). exists (g :: a), f', b. auto.
Qed.
Lemma put_ok a f b (g : finder) : put (a ++ f :: b) (length a) g = a ++ g :: b.
Proof. unfold put. rewrite firstn_app_exact by auto. f_equal. f_equal. replace (S (length a)) with (length (a ++ [f])) by (rewrite app_length; cbn; lia). replace (a ++ f :: b) with ((a ++ [f]) ++ b) by now rewrite <- app_assoc. now apply skipn_app_exact. Qed.
Lemma set_queries_ok compile qs : forall s ch, numbered s -> NoDup (named qs) -> (forall i, In i (named qs) -> exists f, In f (se_find s) /\ fd_id f = i) ->
  exists s' c, set_queries compile s qs ch = (s', Some c) /\ numbered s' /\ se_progress s' = se_progress s /\
    length (se_find s') + length (named qs) = length (se_find s) + length qs /\
    (forall f, In f (se_find s) -> ~ In (fd_id f) (named qs) -> In f (se_find s')) /\
    (forall q, In q qs -> exists f, In f (se_find s') /\ asked q f /\ forall i, fq_id q = Some i -> fd_id f = i) /\
    (c = false -> ch = false /\ se_find s' = se_find s /\ length (named qs) = length qs).
Proof.
  induction qs as [|q qs IH]; intros s ch N Nd Hn; cbn [set_queries].
  { exists s, ch. split; auto. split; auto. split; auto. split; auto. split; auto. split; [intros q []|auto]. }
  assert (Step : forall s1 a f b, numbered s1 -> se_find s1 = a ++ f :: b -> (forall i, fq_id q = Some i -> fd_id f = i) -> ~ In (fd_id f) (named qs) ->
    (forall i, In i (named qs) -> exists g, In g (se_find s1) /\ fd_id g = i) ->
    exists s' c, (let (c, f') := set_find compile f (fq_chars q) (fq_case q) (fq_regex q) (fq_whole q) in set_queries compile (Searches (put (se_find s1) (length a) f') (se_next s1) (se_progress s1)) qs (ch || c)) = (s', Some c) /\
      numbered s' /\ se_progress s' = se_progress s1 /\ length (se_find s') + length (named qs) = length (se_find s1) + length qs /\
      (forall g, In g (se_find s1) -> ~ In (fd_id g) (named qs) -> fd_id g <> fd_id f -> In g (se_find s')) /\
      (forall q', In q' (q :: qs) -> exists g, In g (se_find s') /\ asked q' g /\ forall i, fq_id q' = Some i -> fd_id g = i) /\
      (c = false -> ch = false /\ se_find s' = se_find s1 /\ length (named qs) = length qs)).
  { intros s1 a f b N1 E1 Hf Hnf Hn1. pose proof (set_find_ok compile f (fq_chars q) (fq_case q) (fq_regex q) (fq_whole q)) as K. destruct (set_find compile f _ _ _ _) as [c0 f'] eqn:Es. destruct K as (Ki & Ka & Kc).
    rewrite E1, put_ok. assert (Em : map fd_id (a ++ f' :: b) = map fd_id (a ++ f :: b)) by (rewrite !map_app; cbn; now rewrite Ki).
    assert (Hin : forall g, In g (a ++ f :: b) -> fd_id g <> fd_id f -> In g (a ++ f' :: b)).
    { intros g Hg Hne. apply in_app_iff in Hg as [Hg|[->|Hg]]; [apply in_or_app; auto|congruence|apply in_or_app; right; now right]. }
    assert (Hid : forall i, In i (map fd_id (a ++ f' :: b)) <-> exists g, In g (a ++ f' :: b) /\ fd_id g = i) by (intros i; rewrite in_map_iff; firstorder).
    destruct (IH (Searches (a ++ f' :: b) (se_next s1) (se_progress s1)) (ch || c0)) as (s' & c & -> & N' & Pr & Le & Kp & Al & Cc).
    - destruct N1 as [N1 N2]. split; cbn [se_find se_next]; [now rewrite Em, <- E1|]. intros g Hg. assert (Hi : In (fd_id g) (map fd_id (se_find s1))) by (rewrite E1, <- Em; now apply in_map). apply in_map_iff in Hi as (g' & <- & Hg'). now apply N2.
    - cbn [named flat_map] in Nd. fold (named qs) in Nd. destruct (fq_id q); [now inversion Nd|auto].
    - cbn [se_find]. intros i Hi. apply Hid. rewrite Em, <- E1. apply in_map_iff. destruct (Hn1 i Hi) as (g & Hg & <-). eauto.
    - exists s', c. split; auto. split; auto. split; auto. cbn [se_find se_progress] in *. split; [rewrite Le, !app_length; cbn; lia|]. split; [intros g Hg H1 H2; apply Kp; auto; apply Hin; auto; now rewrite <- E1|]. split.
      + intros q' [<-|Hq]; [|auto]. exists f'. split; [apply Kp; [apply in_or_app; right; now left|now rewrite Ki]|]. split; [exact Ka|]. intros i Hi. rewrite Ki. auto.
      + intros ->. destruct (Cc eq_refl) as (C1 & C2 & C3). apply orb_false_iff in C1 as [-> ->]. specialize (Kc eq_refl). subst f'. auto. }
  cbn [named flat_map] in Nd, Hn |- *. fold (named qs) in Nd, Hn |- *. destruct (fq_id q) as [id|] eqn:Eq.
  - destruct (position_ok (se_find s) id) as (a & f & b & Ef & Ei & Ep); [apply Hn; now left|]. rewrite Ep. cbn [option_map]. assert (Hno : nth_error (se_find s) (length a) = Some f) by (rewrite Ef, nth_error_app2, Nat.sub_diag by lia; reflexivity).
    rewrite Hno. cbn [app] in Nd. inversion Nd as [|? ? Nin Nd']; subst.
    destruct (Step s a f b N Ef) as (s' & c & E & N' & Pr & Le & Kp & Al & Cc); [intros i [= <-]; auto|auto|intros i Hi; apply Hn; now right|]. exists s', c. split; auto. split; auto. split; auto.
    cbn [app length]. split; [lia|]. split; [intros g Hg Hg'; apply Kp; auto; intros H; apply Hg'; cbn; auto|]. split; auto. intros Hc. destruct (Cc Hc) as (? & ? & ?). repeat split; auto.
  - cbn [app length] in *. cbn [add_find se_find se_next se_progress]. rewrite app_length. cbn [length]. replace (length (se_find s) + 1 - 1) with (length (se_find s)) by lia. rewrite nth_error_app2, Nat.sub_diag by lia. cbn [nth_error].
    set (s1 := Searches (se_find s ++ [finder_new (se_next s)]) (S (se_next s)) (se_progress s)).
    assert (N1 : numbered s1).
    { destruct N as [N1 N2]. split; cbn [s1 se_find se_next].
      - rewrite map_app. cbn. apply NoDup_rev in N1. rewrite <- (rev_involutive (map fd_id (se_find s) ++ [se_next s])). apply NoDup_rev. rewrite rev_app_distr. cbn. constructor; auto.
        intros H. apply in_rev in H. apply in_map_iff in H as (f & Hf & Hi). specialize (N2 f Hi). lia.
      - intros f Hf. apply in_app_iff in Hf as [Hf|[<-|[]]]; [specialize (N2 f Hf); lia|cbn; lia]. }
    assert (Nn : ~ In (se_next s) (named qs)) by (intros H; destruct (Hn _ H) as (g & Hg & Eg); destruct N as [_ N2]; specialize (N2 g Hg); lia).
    destruct (Step s1 (se_find s) (finder_new (se_next s)) []) as (s' & c & E & N' & Pr & Le & Kp & Al & Cc); [auto|reflexivity|discriminate|auto|intros i Hi; destruct (Hn i Hi) as (g & Hg & Eg); exists g; split; auto; apply in_or_app; auto|].
    exists s', c. cbn [s1 se_find se_next se_progress] in *. rewrite app_length in Le. cbn [length] in Le. split; auto. split; auto. split; auto. split; [lia|].
    split; [intros g Hg Hg'; apply Kp; auto; [apply in_or_app; auto|]; destruct N as [_ N2]; specialize (N2 g Hg); cbn; lia|]. split; auto.
    intros Hc. exfalso. assert (c = true); [|congruence]. clear - E Step N1. revert E. pose proof (set_find_ok compile (finder_new (se_next s)) (fq_chars q) (fq_case q) (fq_regex q) (fq_whole q)) as K.
    destruct (set_find compile (finder_new (se_next s)) _ _ _ _) as [c0 f'] eqn:Es. assert (c0 = true) as -> by (unfold set_find in Es; destruct (fq_chars q); cbn in Es; congruence).
    rewrite orb_true_r. generalize (Searches (put (se_find s ++ [finder_new (se_next s)]) (length (se_find s)) f') (S (se_next s)) (se_progress s)). clear.
    induction qs as [|q qs IH]; intros s1; cbn [set_queries]; [congruence|]. destruct (match fq_id q with Some id => _ | None => _ end) as [[s2 p]|]; [|discriminate]. destruct (nth_error (se_find s2) p); [|discriminate].
    destruct (set_find compile f _ _ _ _). apply IH.
Qed.
(** The view then has one search for each query, that for a query with a number is the one with
    that number, and all starts anew, unless nothing changed. *)
Theorem C57_queries compile s qs : numbered s -> NoDup (named qs) -> (forall i, In i (named qs) -> exists f, In f (se_find s) /\ fd_id f = i) ->
  let s' := view_set_find compile s qs in numbered s' /\ length (se_find s') = length qs /\
  (forall q, In q qs -> exists f, In f (se_find s') /\ asked q f /\ forall i, fq_id q = Some i -> fd_id f = i) /\
  (se_progress s' = Started \/ se_find s' = se_find s /\ se_progress s' = se_progress s).
Proof.
  intros N Nd Hn. cbv zeta. unfold view_set_find. set (g := fun f => existsb (fun q => fq_is q (fd_id f)) qs). set (s0 := Searches (filter g (se_find s)) (se_next s) (se_progress s)).
  assert (Hg : forall f, g f = true <-> In (fd_id f) (named qs)).
  { intros f. unfold g, named. rewrite existsb_exists, in_flat_map. unfold fq_is. split; intros (q & Hq & E); exists q; split; auto; destruct (fq_id q) as [i|]; try discriminate; [left; lia|destruct E as [->|[]]; lia|destruct E]. }
  destruct N as [N1 N2]. assert (N0 : numbered s0).
  { split; cbn [s0 se_find se_next]; [|intros f Hf; apply filter_In in Hf as [Hf _]; auto]. clear - N1. induction (se_find s) as [|f fs IH]; [constructor|]. cbn [map] in N1. inversion N1 as [|? ? H1 H2]; subst. cbn [filter]. destruct (g f); auto. cbn [map]. constructor; auto.
    intros H. apply H1. apply in_map_iff in H as (f' & E & Hf). apply filter_In in Hf as [Hf _]. apply in_map_iff. eauto. }
  assert (L0 : length (se_find s0) = length (named qs)).
  { rewrite <- (map_length fd_id). apply Nat.le_antisymm; apply NoDup_incl_length; auto; [apply N0| |].
    - intros i Hi. apply in_map_iff in Hi as (f & <- & Hf). apply filter_In in Hf as [_ Hf]. now apply Hg.
    - intros i Hi. destruct (Hn i Hi) as (f & Hf & <-). apply in_map, filter_In. split; auto. now apply Hg. }
  destruct (set_queries_ok compile qs s0 (negb (length qs =? length (se_find s))) N0 Nd) as (s' & c & -> & N' & Pr & Le & _ & Al & Cc).
  { intros i Hi. destruct (Hn i Hi) as (f & Hf & <-). exists f. split; auto. apply filter_In. split; auto. now apply Hg. }
  destruct c.
  - cbn [se_find se_next se_progress]. split; [exact N'|]. split; [lia|]. auto.
  - destruct (Cc eq_refl) as (C1 & C2 & C3). split; auto. split; [lia|]. split; auto. right. split; [|exact Pr]. rewrite C2. cbn [s0 se_find].
    assert (Hl : length (filter g (se_find s)) = length (se_find s)) by (cbn [s0 se_find] in L0; lia). clear - Hl. induction (se_find s) as [|f fs IH]; auto. cbn [filter] in *. destruct (g f); cbn [length] in Hl; [f_equal; apply IH; lia|].
    pose proof (filter_length_le g fs). lia.
Qed.
Print Assumptions C57_queries.
(** Two queries, the second one is changed, the first one taken away, and one is new. *)
Example C57_queries_case :
  let s := view_set_find (fun _ _ => None) (Searches [] 1 Ready) [Query None [97] true false false; Query None [98] true false false] in
  let qs := [Query (Some 2) [99] true false false; Query None [100] false false true] in
  numbered s /\ NoDup (named qs) /\ (forall i, In i (named qs) -> exists f, In f (se_find s) /\ fd_id f = i) /\
  map (fun f => (fd_id f, fd_string f)) (se_find s) = [(1, Some [97]); (2, Some [98])] /\
  map (fun f => (fd_id f, fd_string f)) (se_find (view_set_find (fun _ _ => None) s qs)) = [(2, Some [99]); (3, Some [100])].
Proof.
  cbv zeta. split; [|split; [repeat constructor; intros []|split; [|split; reflexivity]]].
  - split; cbn; [repeat constructor; cbn; intuition lia|]. intros f [<-|[<-|[]]]; cbn; lia.
  - intros i [<-|[]]. eexists. split; [right; left; reflexivity|reflexivity].
Qed.

(** ** Whole words *)
(** Each match begins and ends with a character of one byte. *)
Definition one_byte_edges (t : rope) (m : nat -> nat -> Prop) : Prop := forall i e, m i e -> one_byte (rcontent t) i /\ one_byte (rcontent t) (e - 1).
Definition whole_word (t : rope) (i e : nat) : Prop := word_begins (rcontent t) i /\ word_ends (rcontent t) e.
(** So it is if the query does, and case matters. *)
Lemma exact_edges lower slow f q t : fd_case f = Exact -> q <> [] -> one_byte q 0 -> one_byte q (length q - 1) -> one_byte_edges t (matches lower slow f q t).
Proof.
  intros Ec Hq (b & Eb & Hb) (c & Ecc & Hc) i e. unfold matches, is_match. rewrite Ec. intros [(x & y & E & Hx) ->]. rewrite E. destruct q as [|d q]; [congruence|]. clear Hq. split.
  - exists b. split; auto. rewrite nth_error_app2 by lia. rewrite Hx, Nat.sub_diag. rewrite nth_error_app1 by (cbn; lia). exact Eb.
  - exists c. split; auto. rewrite nth_error_app2 by (cbn; lia). rewrite nth_error_app1 by (cbn; lia). rewrite <- Ecc. f_equal. cbn. lia.
Qed.
(** Missing: matches that begin or end with a longer character (then there may be a panic, below),
    and a whole word that overlaps a match before it that is none (it is passed over). *)
Theorem C57_whole_words_partial lower slow h t f q slop : rope_wf h t -> plain lower slow f q -> fd_whole f = true -> one_byte_edges t (matches lower slow f q t) -> fd_occ f = [] ->
  exists f', update_find lower slow f t 0 (length (rcontent t)) slop = Some f' /\ same_query f f' /\ disjoint_in_order (fd_occ f') /\
    in_turn (matches lower slow f q t) (whole_word t) 0 (places (fd_occ f')).
Proof.
  intros W (Eq & Er & Hs) Ew Hb Eo. pose proof (laws_ok lower slow (fd_case f) q t h W Hs) as L.
  assert (Hw : forall i e, matches lower slow f q t i e -> exists b, is_matching_whole_words t i e = Some b /\ (b = true <-> whole_word t i e)).
  { intros i e H. destruct (Hb i e H) as [H1 H2]. apply (whole_ok t h); auto. apply (ml_range _ _ L _ _ H). }
  destruct (update_ok lower slow f q t h 0 (length (rcontent t)) slop W Eq Er Hs) as (from & T & occ' & E & S' & M' & Hf & HT & P1 & P3 & P2 & P5); auto.
  { intros _ i e H. destruct (Hw i e H) as (b & Hb' & _). congruence. } { lia. } { lia. } { rewrite Eo. exact Logic.I. } { rewrite Eo. intros r []. }
  assert (from = 0) by lia. subst from. assert (T = length (rcontent t)) by lia. subst T. exists (dirtied (with_occ f occ')). split; auto. split; [apply with_same|].
  split; [now apply sok_order|]. cbn [fd_occ dirtied with_occ]. destruct P5 as (l & El & Hl); [rewrite Eo; intros r []|]. rewrite El, Eo. cbn [filter places map app].
  clear - Hl Hw L Ew. set (m := is_match lower slow (fd_case f) q (rcontent t)) in *. change (matches lower slow f q t) with m in *.
  assert (K : forall i e, m i e -> (kept f t i e = true <-> whole_word t i e)). { intros i e H. unfold kept. rewrite Ew. cbn [negb orb]. destruct (Hw i e H) as (b & -> & Hb). exact Hb. }
  induction Hl as [p H|p i e l Hp [H1 H1'] H2 H3 H4 IH|p i e l Hp [H1 H1'] H2 H3 H4 IH].
  - apply it_none. intros i e Hi H'. apply (H i e Hi). split; auto. apply (ml_range _ _ L _ _ H').
  - apply it_some; auto; [|now apply K]. intros i' e' Hi H'. apply (H2 i' e' Hi). split; auto. apply (ml_range _ _ L _ _ H').
  - apply (it_skip _ _ _ i e); auto; [|intros H'; apply H3; now apply K]. intros i' e' Hi H'. apply (H2 i' e' Hi). split; auto. apply (ml_range _ _ L _ _ H').
Qed.
Print Assumptions C57_whole_words_partial.
(** If no two matches have a character in common, what is read in turn are all those that are good. *)
Theorem C57_in_turn_all (m good : nat -> nat -> Prop) p l : (forall i e, m i e -> i < e) -> (forall i e i' e', m i e -> m i' e' -> overlap i e i' e' -> i = i' /\ e = e') ->
  in_turn m good p l -> forall i e, In (i, e) l <-> m i e /\ good i e /\ p <= i.
Proof.
  intros Hlt Hd. induction 1 as [p H|p i e l Hp H1 H2 H3 H4 IH|p i e l Hp H1 H2 H3 H4 IH]; intros x y.
  - split; [intros []|]. intros (H1 & _ & H2). exfalso. now apply (H x y).
  - cbn [In]. rewrite IH. pose proof (Hlt i e H1). split.
    + intros [[= <- <-]|(A & B & C)]; auto. split; auto. split; auto. lia.
    + intros (A & B & C). destruct (Nat.le_gt_cases e x); [right; auto|left]. destruct (Nat.lt_ge_cases x i) as [Hx|Hx]; [exfalso; now apply (H2 x y)|].
      pose proof (Hlt x y A). destruct (Hd i e x y H1 A) as [-> ->]; [unfold overlap; lia|]. reflexivity.
  - rewrite IH. pose proof (Hlt i e H1). split.
    + intros (A & B & C). split; auto. split; auto. lia.
    + intros (A & B & C). split; auto. split; auto. destruct (Nat.le_gt_cases e x); auto. exfalso. destruct (Nat.lt_ge_cases x i) as [Hx|Hx]; [now apply (H2 x y)|].
      pose proof (Hlt x y A). destruct (Hd i e x y H1 A) as [-> ->]; [unfold overlap; lia|]. auto.
Qed.
Print Assumptions C57_in_turn_all.

(** ** Concrete texts *)
Definition exact_query (q : list nat) (whole : bool) : finder := Finder 1 true (Some q) Exact None whole [].
Lemma rope_at s r : utf8 s -> rope_from s = Some r -> (exists h, rope_wf h r) /\ rcontent r = s.
Proof. intros U E. destruct (rope_from_ok s U) as (r' & h & E' & W & C). rewrite E in E'. injection E' as <-. eauto. Qed.
Lemma exact_plain q whole : utf8 q -> q <> [] -> plain lower_w slow_w (exact_query q whole) q. Proof. intros U H. repeat split; auto. Qed.
(** What is shown of a query after a search of the whole of a text, and whether a place in it is
    taken for whole words. *)
Definition searched (tx : list nat) (f : finder) (p : nat * nat) : option (option (list region) * option bool) :=
  let? t := rope_from tx in Some (option_map fd_occ (update_find lower_w slow_w f t 0 (length tx) true), is_matching_whole_words t (fst p) (snd p)).
Lemma searched_at tx f p x y : utf8 tx -> searched tx f p = Some (x, y) ->
  exists h t, rope_wf h t /\ rcontent t = tx /\ option_map fd_occ (update_find lower_w slow_w f t 0 (length tx) true) = x /\ is_matching_whole_words t (fst p) (snd p) = y.
Proof.
  intros U. unfold searched. destruct (rope_from tx) as [t|] eqn:E; [|discriminate]. cbn [bind]. intros H. apply (rope_at tx t U) in E as ((h & W) & C). exists h, t. split; auto. split; auto. split; congruence.
Qed.
Ltac at_searched tx f p :=
  let E := fresh "E" in
  destruct (searched tx f p) as [[x y]|] eqn:E; [|vm_compute in E; discriminate];
  let K := fresh in assert (K := E); vm_compute in K; injection K as <- <-; apply searched_at in E as (h & t & W & C & E1 & E2).

(** "ab" in "abab ab ab": four times; "aba" in "ababa" once, the second one has a character in common with it. *)
Example C57_whole_text_case :
  (exists h t f', rope_wf h t /\ plain lower_w slow_w (exact_query [97; 98] false) [97; 98] /\ some_found (matches lower_w slow_w (exact_query [97; 98] false) [97; 98] t) [] /\
    update_find lower_w slow_w (exact_query [97; 98] false) t 0 (length (rcontent t)) true = Some f' /\ places (fd_occ f') = [(0, 2); (2, 4); (5, 7); (8, 10)]) /\
  (exists h t f', rope_wf h t /\ plain lower_w slow_w (exact_query [97; 98; 97] false) [97; 98; 97] /\
    update_find lower_w slow_w (exact_query [97; 98; 97] false) t 0 (length (rcontent t)) true = Some f' /\ places (fd_occ f') = [(0, 3)]).
Proof.
  split.
  - at_searched [97; 98; 97; 98; 32; 97; 98; 32; 97; 98] (exact_query [97; 98] false) (0, 2); [|now apply ascii_utf8, ascii_dec].
    destruct (update_find _ _ _ _ _ _ _) as [f'|] eqn:Eu; [|discriminate]. injection E1 as E1. exists h, t, f'. split; auto.
    split; [apply exact_plain; [now apply ascii_utf8, ascii_dec|discriminate]|]. split; [split; [intros i j a c Hij Ha; destruct i; discriminate|intros i e (r & [] & _)]|]. rewrite C. split; auto. now rewrite E1.
  - at_searched [97; 98; 97; 98; 97] (exact_query [97; 98; 97] false) (0, 2); [|now apply ascii_utf8, ascii_dec].
    destruct (update_find _ _ _ _ _ _ _) as [f'|] eqn:Eu; [|discriminate]. injection E1 as E1. exists h, t, f'. split; auto.
    split; [apply exact_plain; [now apply ascii_utf8, ascii_dec|discriminate]|]. rewrite C. split; auto. now rewrite E1.
Qed.
(** "ab" in "abab ab ab", whole words: twice. *)
Example C57_whole_words_case :
  exists h t f', rope_wf h t /\ plain lower_w slow_w (exact_query [97; 98] true) [97; 98] /\ one_byte_edges t (matches lower_w slow_w (exact_query [97; 98] true) [97; 98] t) /\
    update_find lower_w slow_w (exact_query [97; 98] true) t 0 (length (rcontent t)) true = Some f' /\ places (fd_occ f') = [(5, 7); (8, 10)].
Proof.
  at_searched [97; 98; 97; 98; 32; 97; 98; 32; 97; 98] (exact_query [97; 98] true) (0, 2); [|now apply ascii_utf8, ascii_dec].
  destruct (update_find _ _ _ _ _ _ _) as [f'|] eqn:Eu; [|discriminate]. injection E1 as E1. exists h, t, f'. split; auto.
  split; [apply exact_plain; [now apply ascii_utf8, ascii_dec|discriminate]|]. rewrite C. split; [|split; auto; now rewrite E1].
  apply exact_edges; [reflexivity|discriminate|exists 97; split; [reflexivity|lia]|exists 98; split; [reflexivity|lia]].
Qed.
(** Two queries at once, in steps of three bytes from the sixth on. *)
Definition ran (tx : list nat) (fs : list finder) (batch : nat) (offs : list nat) : option (option (list (list (nat * nat)) * progress)) :=
  let? t := rope_from tx in Some (let? (fs', p) := searching lower_w slow_w batch fs Started t offs in Some (map (fun f => places (fd_occ f)) fs', p)).
Lemma ran_at tx fs batch offs x : utf8 tx -> ran tx fs batch offs = Some (Some x) ->
  exists h t fs', rope_wf h t /\ rcontent t = tx /\ searching lower_w slow_w batch fs Started t offs = Some (fs', snd x) /\ map (fun f => places (fd_occ f)) fs' = fst x.
Proof.
  intros U. unfold ran. destruct (rope_from tx) as [t|] eqn:E; [|discriminate]. cbn [bind]. intros H. apply (rope_at tx t U) in E as ((h & W) & C).
  destruct (searching _ _ _ _ _ _ _) as [[fs' p]|] eqn:Es; [|discriminate]. cbn [bind] in H. injection H as <-. exists h, t, fs'. auto.
Qed.
Lemma fresh_can lower slow f q t : plain lower slow f q -> fd_whole f = false -> fd_occ f = [] -> can_search lower slow t f.
Proof.
  intros H1 H2 E. exists q. split; auto. split; auto. rewrite E. split; [intros i j a c Hij Ha; destruct i; discriminate|intros i e (r & [] & _)].
Qed.
Example C57_search_ends_case :
  exists h t fs', rope_wf h t /\ Forall (can_search lower_w slow_w t) [exact_query [97; 98] false; exact_query [98] false] /\
    searching lower_w slow_w 3 [exact_query [97; 98] false; exact_query [98] false] Started t [6; 6; 6; 6; 6; 6] = Some (fs', Ready) /\
    map (fun f => places (fd_occ f)) fs' = [[(0, 2); (2, 4); (5, 7); (8, 10)]; [(1, 2); (3, 4); (6, 7); (9, 10)]].
Proof.
  destruct (ran_at [97; 98; 97; 98; 32; 97; 98; 32; 97; 98] [exact_query [97; 98] false; exact_query [98] false] 3 [6; 6; 6; 6; 6; 6]
    ([[(0, 2); (2, 4); (5, 7); (8, 10)]; [(1, 2); (3, 4); (6, 7); (9, 10)]], Ready)) as (h & t & fs' & W & C & E1 & E2); [now apply ascii_utf8, ascii_dec|vm_compute; reflexivity|].
  exists h, t, fs'. split; auto. split; auto.
  repeat constructor; (eapply fresh_can; [apply exact_plain; [now apply ascii_utf8, ascii_dec|discriminate]|reflexivity|reflexivity]).
Qed.

(** ** Where the code does otherwise *)
(** Whole words. A query that ends with a character of more than one byte makes the search panic:
    "café" in "café x". And "a-a" is not found in "ba-a-a c": the first one, which is no whole word, is passed over
    with all its characters. *)
Theorem C57_whole_words_refuted :
  (exists h t, rope_wf h t /\ plain lower_w slow_w (exact_query [99; 97; 102; 195; 169] true) [99; 97; 102; 195; 169] /\
    rcontent t = [99; 97; 102; 195; 169; 32; 120] /\ update_find lower_w slow_w (exact_query [99; 97; 102; 195; 169] true) t 0 (length (rcontent t)) true = None) /\
  (exists h t f', rope_wf h t /\ plain lower_w slow_w (exact_query [97; 45; 97] true) [97; 45; 97] /\ rcontent t = [98; 97; 45; 97; 45; 97; 32; 99] /\
    update_find lower_w slow_w (exact_query [97; 45; 97] true) t 0 (length (rcontent t)) true = Some f' /\
    matches lower_w slow_w f' [97; 45; 97] t 3 6 /\ whole_word t 3 6 /\ fd_occ f' = []).
Proof.
  split.
  - assert (U : forall l, l = [] \/ l = [32; 120] -> utf8 ([99; 97; 102; 195; 169] ++ l)).
    { intros l H. exists (map (fun b => [b]) [99; 97; 102] ++ [[195; 169]] ++ map (fun b => [b]) l). destruct H as [-> | ->]; (split; [repeat constructor|reflexivity]). }
    at_searched [99; 97; 102; 195; 169; 32; 120] (exact_query [99; 97; 102; 195; 169] true) (0, 2); [|apply (U [32; 120]); auto].
    exists h, t. split; auto. split; [apply exact_plain; [apply (U []); auto|discriminate]|]. split; auto. rewrite C. destruct (update_find _ _ _ _ _ _ _); [discriminate|reflexivity].
  - at_searched [98; 97; 45; 97; 45; 97; 32; 99] (exact_query [97; 45; 97] true) (3, 6); [|now apply ascii_utf8, ascii_dec].
    destruct (update_find _ _ _ _ _ _ _) as [f'|] eqn:Eu; [|discriminate]. injection E1 as E1. exists h, t, f'. split; auto. split; [apply exact_plain; [now apply ascii_utf8, ascii_dec|discriminate]|].
    split; auto. split; [now rewrite C|]. split; [|split; auto].
    + destruct (update_same _ _ _ _ _ _ _ _ Eu) as (_ & _ & Ec & _). cbn [exact_query fd_case] in Ec.
      unfold matches, is_match. rewrite Ec, C. split; [|reflexivity]. exists [98; 97; 45], [32; 99]. split; reflexivity.
    + destruct (whole_ok t h 3 6 W) as (b & Eb & Hb); [lia|rewrite C; exists 97; split; [reflexivity|lia]|rewrite C; exists 97; split; [reflexivity|lia]|]. apply Hb. cbn [fst snd] in E2. congruence.
Qed.
Print Assumptions C57_whole_words_refuted.
(** The expression x*, which matches at the start of every string: as many x as there are. *)
Fixpoint leading_x (s : list nat) : nat := match s with 120 :: s' => S (leading_x s') | _ => 0 end.
Definition x_star : regex := fun s => Some (0, leading_x s).
Definition x_star_query : finder := Finder 1 true (Some [120; 42]) Exact (Some x_star) false [].
Definition twice (tx : list nat) (f : finder) : option (option finder) :=
  let? t := rope_from tx in let? f' := update_find lower_w slow_w f t 0 (length tx) true in Some (update_find lower_w slow_w f' t 0 (length tx) true).
Lemma twice_at tx f x : utf8 tx -> twice tx f = Some x ->
  exists h t f', rope_wf h t /\ rcontent t = tx /\ update_find lower_w slow_w f t 0 (length tx) true = Some f' /\ update_find lower_w slow_w f' t 0 (length tx) true = x.
Proof.
  intros U. unfold twice. intros E. apply bind_some in E as (t & Et & E). apply bind_some in E as (f' & Ef & E). apply rope_at in Et as ((h & W) & C); auto. exists h, t, f'. repeat (split; auto). congruence.
Qed.
(** A search for an expression that matches the empty string panics, where the batches overlap or the
    text is searched again: x* in "ab". *)
Theorem C57_empty_match_refuted :
  exists h t f', rope_wf h t /\ rcontent t = [97; 98] /\ update_find lower_w slow_w x_star_query t 0 2 true = Some f' /\ update_find lower_w slow_w f' t 0 2 true = None.
Proof. apply (twice_at [97; 98] x_star_query); [now apply ascii_utf8, ascii_dec|vm_compute; reflexivity]. Qed.
Print Assumptions C57_empty_match_refuted.

(** What is shown of a query in a text, and after an edit. *)
Definition edited (tx tx' : list nat) (f : finder) (a b : nat) (ins : list nat) (p : nat * nat) : option (option (list nat) * list region * list region * option bool) :=
  let? t := rope_from tx in
  let? f1 := update_find lower_w slow_w f t 0 (length tx) true in
  let? d := simple_edit a b ins (length tx) in
  let? t' := rope_from tx' in
  let? f2 := update_highlights lower_w slow_w f1 t' d in
  Some (apply d tx, fd_occ f1, fd_occ f2, is_matching_whole_words t' (fst p) (snd p)).
Lemma edited_at tx tx' f a b ins p x y w : ascii tx -> ascii tx' -> edited tx tx' f a b ins p = Some (Some tx', x, y, w) ->
  exists h h' t t' f1 f2 d, rope_wf h t /\ rope_wf h' t' /\ rcontent t = tx /\ rcontent t' = tx' /\ update_find lower_w slow_w f t 0 (length tx) true = Some f1 /\
    simple_edit a b ins (length tx) = Some d /\ apply d tx = Some tx' /\ update_highlights lower_w slow_w f1 t' d = Some f2 /\ same_query f f1 /\
    fd_occ f1 = x /\ fd_occ f2 = y /\ is_matching_whole_words t' (fst p) (snd p) = w.
Proof.
  intros A A'. unfold edited. intros E. apply bind_some in E as (t & Et & E). apply bind_some in E as (f1 & E1 & E). apply bind_some in E as (d & Ed & E).
  apply bind_some in E as (t' & Et' & E). apply bind_some in E as (f2 & E2 & E). injection E as Ea <- <- <-. apply rope_at in Et as ((h & W) & C); [|now apply ascii_utf8].
  apply rope_at in Et' as ((h' & W') & C'); [|now apply ascii_utf8]. exists h, h', t, t', f1, f2, d. pose proof (update_same _ _ _ _ _ _ _ _ E1) as Sq. auto 15.
Qed.
Ltac at_edited tx tx' f a b ins p :=
  let E := fresh "E" in
  destruct (edited tx tx' f a b ins p) as [[[[o x] y] w]|] eqn:E; [|vm_compute in E; discriminate];
  let K := fresh in assert (K := E); vm_compute in K; injection K as <- <- <- <-;
  apply edited_at in E as (h & h' & t & t' & f1 & f2 & d & W & W' & C & C' & E1 & Ed & Ea & E2 & Sq & O1 & O2 & Ew); [|now apply ascii_dec|now apply ascii_dec].

(** After an edit, not all that should be is shown, and something that should not be:
    - "ab" is no longer shown when the "x" before it in "xab" is deleted;
    - nor is the one that is made when "xx" is deleted from "axxb", at the end of the text;
    - nor is the one in "xab" when the "x" after it in "xabx" is replaced by "c";
    - with whole words, "ab" is still shown when the space in "ab cd" is deleted. *)
Theorem C57_edit_refuted :
  let q := [97; 98] in
  let lost tx a b ins := exists h h' t t' f1 f2 d i e, rope_wf h t /\ rope_wf h' t' /\ plain lower_w slow_w f1 q /\ fd_whole f1 = false /\
    rcontent t = tx /\ simple_edit a b ins (length tx) = Some d /\ apply d tx = Some (rcontent t') /\ all_found (matches lower_w slow_w f1 q t) (fd_occ f1) /\
    update_highlights lower_w slow_w f1 t' d = Some f2 /\ fd_occ f2 = [] /\ matches lower_w slow_w f1 q t' i e in
  lost [120; 97; 98] 0 1 [] /\ lost [97; 120; 120; 98] 1 3 [] /\ lost [120; 97; 98; 120] 3 4 [99] /\
  exists h h' t t' f1 f2 d, rope_wf h t /\ rope_wf h' t' /\ plain lower_w slow_w f1 q /\ fd_whole f1 = true /\
    rcontent t = [97; 98; 32; 99; 100] /\ simple_edit 2 3 [] 5 = Some d /\ apply d [97; 98; 32; 99; 100] = Some (rcontent t') /\
    places (fd_occ f1) = [(0, 2)] /\ whole_word t 0 2 /\ update_highlights lower_w slow_w f1 t' d = Some f2 /\ places (fd_occ f2) = [(0, 2)] /\ ~ whole_word t' 0 2.
Proof.
  cbv zeta. set (q := [97; 98]). assert (Uq : utf8 q) by (now apply ascii_utf8, ascii_dec). assert (Hq : q <> []) by discriminate.
  assert (P : forall w, plain lower_w slow_w (exact_query q w) q) by (intros w; now apply exact_plain).
  assert (A : forall h t f1, rope_wf h t -> update_find lower_w slow_w (exact_query q false) t 0 (length (rcontent t)) true = Some f1 -> all_found (matches lower_w slow_w f1 q t) (fd_occ f1)).
  { intros h t f1 W E. destruct (C57_whole_text lower_w slow_w h t (exact_query q false) q true W (P false) eq_refl) as (f' & E' & S' & _ & H).
    { split; [intros i j a c Hij Ha; destruct i; discriminate|intros i e (r & [] & _)]. }
    rewrite E in E'. injection E' as <-. destruct S' as (_ & _ & Ec & _). unfold matches in *. now rewrite Ec. }
  assert (M : forall f1 t' i x y, same_query (exact_query q false) f1 -> rcontent t' = x ++ q ++ y -> length x = i -> matches lower_w slow_w f1 q t' i (i + 2)).
  { intros f1 t' i x y (_ & _ & Ec & _) E Hx. unfold matches, is_match. rewrite Ec. split; [exists x, y; auto|reflexivity]. }
  split; [|split; [|split]].
  - at_edited [120; 97; 98] [97; 98] (exact_query q false) 0 1 (@nil nat) (0, 2). exists h, h', t, t', f1, f2, d, 0, 2. rewrite <- C in E1. rewrite C'.
    repeat (split; eauto using plain_same); [apply Sq|]. now apply (M f1 t' 0 [] []).
  - at_edited [97; 120; 120; 98] [97; 98] (exact_query q false) 1 3 (@nil nat) (0, 2). exists h, h', t, t', f1, f2, d, 0, 2. rewrite <- C in E1. rewrite C'.
    repeat (split; eauto using plain_same); [apply Sq|]. now apply (M f1 t' 0 [] []).
  - at_edited [120; 97; 98; 120] [120; 97; 98; 99] (exact_query q false) 3 4 [99] (0, 2). exists h, h', t, t', f1, f2, d, 1, 3. rewrite <- C in E1. rewrite C'.
    repeat (split; eauto using plain_same); [apply Sq|]. now apply (M f1 t' 1 [120] [99]).
  - at_edited [97; 98; 32; 99; 100] [97; 98; 99; 100] (exact_query q true) 2 3 (@nil nat) (0, 2). exists h, h', t, t', f1, f2, d. rewrite C', O1, O2. cbn [fst snd] in Ew.
    repeat (split; eauto using plain_same); [apply Sq|now left| |].
    + right. exists [98], [32]. split; [exists [97], [99; 100]; rewrite C; repeat split; now apply ascii_utf8, ascii_dec|]. right. right. left. split.
      * intros (b & [= <-] & Hb & _). lia.
      * exists 32. repeat split; lia.
    + intros [_ H]. destruct (whole_ok t' h' 0 2 W') as (b & Eb & Hb); [lia|rewrite C'; exists 97; split; [reflexivity|lia]|rewrite C'; exists 98; split; [reflexivity|lia]|].
      rewrite Ew in Eb. injection Eb as <-. assert (false = true) by (apply Hb; split; auto; now left). discriminate.
Qed.
Print Assumptions C57_edit_refuted.
