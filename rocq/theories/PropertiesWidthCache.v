(** C40: the width cache. *)
From Coq Require Import List Arith Lia Bool.
From Verif Require Import Base ListLib WidthCacheModel.
Import ListNotations.

Section WC.
Context {Str W : Type} (str_eqb : Str -> Str -> bool) (zero : W) (measure : nat -> Str -> W).
Context (str_eqb_ok : forall a b, str_eqb a b = true <-> a = b).

(** A client of the cache: it begins batches, requests widths and has them measured. The
    front end answers a request for strings with their widths, or fails. *)
Inductive wevent := Begin | Request (id : nat) (s : Str) | Resolve (ok : bool).
Definition answer (ok : bool) (req : list (nat * list Str)) : option (list (list W)) :=
  if ok then Some (map (fun r => map (measure (fst r)) (snd r)) req) else None.
(** What the client has: the cache, its batch and the tokens it was given. *)
Record wstate := { ws_c : wcache Str W; ws_b : wbatch Str; ws_log : list (wkey (Str := Str) * nat) }.
Definition wstep (st : wstate) (e : wevent) : option wstate :=
  match e with
  | Begin => Some {| ws_c := ws_c st; ws_b := batch_req (ws_c st); ws_log := ws_log st |}
  | Request id s =>
      let? (c, b, tok) := request str_eqb (ws_c st) (ws_b st) id s in
      Some {| ws_c := c; ws_b := b; ws_log := ((id, s), tok) :: ws_log st |}
  | Resolve ok =>
      let? (c, _) := resolve_pending zero (ws_c st) (ws_b st) (answer ok) in
      Some {| ws_c := c; ws_b := ws_b st; ws_log := ws_log st |}
  end.
Fixpoint wrun (st : wstate) (es : list wevent) : option wstate :=
  match es with [] => Some st | e :: es' => let? st' := wstep st e in wrun st' es' end.
Definition wstart : wstate := {| ws_c := wc_new; ws_b := batch_req (wc_new (W := W)); ws_log := [] |}.

(** A client that resolves what it requested before it begins another batch, with a front
    end that answers. [settled]: nothing was requested since the last resolution. *)
Fixpoint orderly (settled : bool) (es : list wevent) : Prop :=
  match es with
  | [] => True
  | Begin :: es' => settled = true /\ orderly true es'
  | Request _ _ :: es' => orderly false es'
  | Resolve ok :: es' => ok = true /\ orderly true es'
  end.
Definition settled_after (es : list wevent) : Prop := es = [] \/ exists es' e, es = es' ++ [e] /\ match e with Request _ _ => False | _ => True end.

Lemma key_eqb_ok a b : key_eqb str_eqb a b = true <-> a = b.
Proof.
  destruct a as [i s], b as [j t]. unfold key_eqb. cbn [fst snd]. rewrite andb_true_iff, Nat.eqb_eq, str_eqb_ok. split; [intros [-> ->]; auto|]. intros [= -> ->]. auto.
Qed.
Lemma wlookup_in k m : forall t, wlookup str_eqb k m = Some t -> In (k, t) m.
Proof.
  induction m as [|[k' t'] m IH]; cbn; [discriminate|]. intros t. destruct (key_eqb str_eqb k k') eqn:E; [|auto].
  apply key_eqb_ok in E as ->. intros [= ->]. auto.
Qed.
Lemma wlookup_none k m : wlookup str_eqb k m = None -> forall t, ~ In (k, t) m.
Proof.
  induction m as [|[k' t'] m IH]; cbn; [auto|]. destruct (key_eqb str_eqb k k') eqn:E; [discriminate|]. intros H t [X|X].
  - assert (k = k') by congruence. apply key_eqb_ok in H0. congruence.
  - eapply IH; eauto.
Qed.

(** What is asked for, with the tokens. *)
Definition row_pairs (p : (nat * list Str) * list nat) : list (wkey * nat) := map (fun q => ((fst (fst p), fst q), snd q)) (combine (snd (fst p)) (snd p)).
Definition pairs (req : list (nat * list Str)) (toks : list (list nat)) : list (wkey * nat) := flat_map row_pairs (combine req toks).
Definition aligned (req : list (nat * list Str)) (toks : list (list nat)) : Prop := Forall2 (fun r t => length (snd r) = length t) req toks.

Record winv (st : wstate) (settled : bool) : Prop := {
  iv_toks : map snd (wc_m (ws_c st)) = rev (seq 0 (wb_pending (ws_b st)));
  iv_keys : NoDup (map fst (wc_m (ws_c st)));
  iv_len : length (wc_widths (ws_c st)) <= wb_pending (ws_b st);
  iv_settled : settled = true -> length (wc_widths (ws_c st)) = wb_pending (ws_b st);
  iv_right : forall k t, In (k, t) (wc_m (ws_c st)) -> t < length (wc_widths (ws_c st)) -> nth_error (wc_widths (ws_c st)) t = Some (measure (fst k) (snd k));
  iv_align : aligned (wb_req (ws_b st)) (wb_toks (ws_b st));
  iv_pairs : forall k t, In (k, t) (pairs (wb_req (ws_b st)) (wb_toks (ws_b st))) -> In (k, t) (wc_m (ws_c st));
  iv_pending : forall k t, In (k, t) (wc_m (ws_c st)) -> length (wc_widths (ws_c st)) <= t -> In (k, t) (pairs (wb_req (ws_b st)) (wb_toks (ws_b st)));
  iv_ids : forall id off, ilookup id (wb_ids (ws_b st)) = Some off -> exists ss, nth_error (wb_req (ws_b st)) off = Some (id, ss);
  iv_log : forall k t, In (k, t) (ws_log st) -> In (k, t) (wc_m (ws_c st))
}.

Lemma tok_lt st b : winv st b -> forall k t, In (k, t) (wc_m (ws_c st)) -> t < wb_pending (ws_b st).
Proof.
  intros H k t Hin. apply (in_map snd) in Hin. cbn in Hin. rewrite (iv_toks _ _ H) in Hin. apply in_rev in Hin. apply in_seq in Hin. lia.
Qed.
Lemma snd_inj {A B} (l : list (A * B)) : NoDup (map snd l) -> forall a a' b, In (a, b) l -> In (a', b) l -> a = a'.
Proof.
  induction l as [|[x y] l IH]; intros N a a' b H H'; [destruct H|]. cbn in N. inversion N as [|? ? N1 N2]; subst.
  destruct H as [[= -> ->]|H], H' as [E|H'].
  - congruence.
  - exfalso. apply N1. apply (in_map snd) in H'. exact H'.
  - injection E as -> ->. exfalso. apply N1. apply (in_map snd) in H. exact H.
  - eauto.
Qed.
Lemma tok_inj st b : winv st b -> forall k k' t, In (k, t) (wc_m (ws_c st)) -> In (k', t) (wc_m (ws_c st)) -> k = k'.
Proof. intros H k k' t. apply snd_inj. rewrite (iv_toks _ _ H). apply NoDup_rev, seq_NoDup. Qed.

(** *** [update_at] *)
Lemma update_at_ok {X} (f : X -> X) i : forall l x, nth_error l i = Some x -> exists a b, l = a ++ x :: b /\ length a = i /\ update_at i f l = Some (a ++ f x :: b).
Proof.
  induction i as [|i IH]; intros [|y l] x E; try discriminate; cbn in E.
  - injection E as ->. exists [], l. auto.
  - destruct (IH l x E) as (a & b & -> & <- & Eu). exists (y :: a), b. cbn. rewrite Eu. auto.
Qed.
Lemma update_at_nth {X} (w : X) t l : t < length l -> exists l', update_at t (fun _ => w) l = Some l' /\ length l' = length l /\
  forall u, nth_error l' u = if u =? t then Some w else nth_error l u.
Proof.
  intros H. destruct (nth_error l t) as [x|] eqn:E; [|apply nth_error_None in E; lia].
  destruct (update_at_ok (fun _ => w) t l x E) as (a & b & -> & <- & ->). eexists. split; [reflexivity|]. split; [rewrite !app_length; reflexivity|].
  intros u. destruct (Nat.eqb_spec u (length a)) as [->|N]; [rewrite nth_error_app2, Nat.sub_diag by lia; reflexivity|].
  destruct (Nat.lt_ge_cases u (length a)); [now rewrite !nth_error_app1 by lia|]. rewrite !nth_error_app2 by lia.
  destruct (u - length a) eqn:E'; [lia|reflexivity].
Qed.

Lemma F2_len {A B} (P : A -> B -> Prop) (l : list A) (l' : list B) : Forall2 P l l' -> length l = length l'.
Proof. induction 1; cbn; auto. Qed.
Lemma aligned_len req toks : aligned req toks -> length req = length toks.
Proof. apply F2_len. Qed.
Lemma combine_app_eq {A B} (a a' : list A) (b b' : list B) : length a = length b -> combine (a ++ a') (b ++ b') = combine a b ++ combine a' b'.
Proof. revert b. induction a; intros [|y b]; cbn; try discriminate; auto. intros [= H]. now rewrite IHa. Qed.
Lemma pairs_push req toks off id ss ts s t : aligned req toks -> nth_error req off = Some (id, ss) -> nth_error toks off = Some ts ->
  exists req' toks', update_at off (fun r : nat * list Str => (fst r, snd r ++ [s])) req = Some req' /\ update_at off (fun x => x ++ [t]) toks = Some toks' /\
    aligned req' toks' /\ (forall p, In p (pairs req' toks') <-> In p (pairs req toks) \/ p = ((id, s), t)) /\
    (forall i id' l, nth_error req i = Some (id', l) -> exists l', nth_error req' i = Some (id', l')).
Proof.
  intros A E1 E2.
  destruct (update_at_ok (fun r : nat * list Str => (fst r, snd r ++ [s])) _ _ _ E1) as (ra & rb & Er & Hra & Eu1).
  destruct (update_at_ok (fun x => x ++ [t]) _ _ _ E2) as (ta & tb & Et & Hta & Eu2).
  rewrite Eu1, Eu2. clear Eu1 Eu2. do 2 eexists. split; [reflexivity|]. split; [reflexivity|]. subst req toks.
  apply Forall2_app_inv_l in A as (la & lb & Fa & Fb & El). pose proof (F2_len _ _ _ Fa) as La.
  assert (ta = la /\ ts :: tb = lb) as [<- <-].
  { clear -El La Hra Hta. assert (length ta = length la) by congruence. clear -El H. revert la El H. induction ta as [|x ta IH]; intros [|y la] E H; try discriminate H.
    - split; auto. - cbn in E. injection E as -> E. injection H as H. destruct (IH _ E H) as [-> <-]. auto. }
  inversion Fb as [|? ? ? ? Hl Fb']; subst. cbn [fst snd] in *.
  split; [|split].
  - apply Forall2_app; auto. constructor; auto. cbn. rewrite !app_length, Hl. reflexivity.
  - intros p. unfold pairs. rewrite !combine_app_eq by auto. cbn [combine]. rewrite !flat_map_app, !in_app_iff. cbn [flat_map]. rewrite !in_app_iff.
    unfold row_pairs at 2 6. cbn [fst snd]. rewrite combine_app_eq by auto. rewrite map_app, in_app_iff. cbn [combine map fst snd In]. intuition.
  - intros i id' l E. destruct (Nat.lt_ge_cases i (length ra)).
    + exists l. rewrite nth_error_app1 in * by auto. auto.
    + rewrite nth_error_app2 in * by auto. destruct (i - length ra); cbn in *; [|eauto]. injection E as -> ->. eauto.
Qed.

Lemma request_inv st b id s : winv st b -> exists st', wstep st (Request id s) = Some st' /\ winv st' false.
Proof.
  intros H. destruct st as [c bt lg]. cbn [wstep ws_c ws_b ws_log]. unfold request. destruct (wlookup str_eqb (id, s) (wc_m c)) as [tok|] eqn:E.
  - cbn [bind]. eexists. split; [reflexivity|]. destruct H; cbn in *. constructor; cbn; auto; [discriminate|].
    intros k t [[= <- <-]|Hin]; auto. now apply wlookup_in.
  - assert (Hprep : exists off req toks ids ss ts,
       match ilookup id (wb_ids bt) with
        | Some off => (off, wb_req bt, wb_toks bt, wb_ids bt)
        | None => (length (wb_req bt), wb_req bt ++ [(id, [])], wb_toks bt ++ [[]], (id, length (wb_req bt)) :: wb_ids bt)
        end = (off, req, toks, ids) /\ aligned req toks /\ nth_error req off = Some (id, ss) /\ nth_error toks off = Some ts /\
        (forall p, In p (pairs req toks) <-> In p (pairs (wb_req bt) (wb_toks bt))) /\
        (forall id off, ilookup id ids = Some off -> exists ss, nth_error req off = Some (id, ss))).
    { pose proof (iv_align _ _ H) as A. pose proof (iv_ids _ _ H) as I0. cbn in A, I0. pose proof (aligned_len _ _ A) as L.
      destruct (ilookup id (wb_ids bt)) as [off|] eqn:Ei.
      - destruct (I0 _ _ Ei) as (ss & Ess). destruct (nth_error (wb_toks bt) off) as [ts|] eqn:Ets.
        + exists off, (wb_req bt), (wb_toks bt), (wb_ids bt), ss, ts. split; auto. split; auto. split; auto. split; auto. split; [tauto|auto].
        + apply nth_error_None in Ets. assert (off < length (wb_req bt)) by (apply nth_error_Some; congruence). lia.
      - do 4 eexists. exists [], []. split; [reflexivity|]. split; [apply Forall2_app; auto|]. split; [now rewrite nth_error_app2, Nat.sub_diag by lia|].
        split; [rewrite nth_error_app2, L, Nat.sub_diag by lia; reflexivity|]. split.
        + intros p. unfold pairs. rewrite combine_app_eq by auto. rewrite flat_map_app. cbn [combine flat_map row_pairs fst snd map]. rewrite !app_nil_r. tauto.
        + intros id' off'. cbn [ilookup]. destruct (Nat.eqb_spec id' id) as [->|].
          * intros [= <-]. exists []. now rewrite nth_error_app2, Nat.sub_diag by lia.
          * intros E'. destruct (I0 _ _ E') as (ss & Ess). exists ss. rewrite nth_error_app1; auto. apply nth_error_Some. congruence. }
    destruct Hprep as (off & req & toks & ids & ss & ts & -> & A & E1 & E2 & Ep & Ei).
    destruct (pairs_push req toks off id ss ts s (wb_pending bt) A E1 E2) as (req' & toks' & Eu1 & Eu2 & A' & Ep' & Ei'). rewrite Eu1. cbn [bind]. rewrite Eu2. cbn [bind].
    eexists. split; [reflexivity|]. pose proof (tok_lt _ _ H) as TL. destruct H; cbn in *. constructor; cbn; auto.
    + rewrite iv_toks0, Nat.add_comm. cbn [Nat.add]. now rewrite seq_S, rev_app_distr.
    + constructor; auto. rewrite in_map_iff. intros ([k t] & E0 & Hin). cbn in E0. subst k. eapply wlookup_none; eauto.
    + lia.
    + discriminate.
    + intros k t [[= <- <-]|Hin] Hlt; [lia|]. auto.
    + intros k t Hin. apply Ep' in Hin as [Hin|Hin]; [right; apply iv_pairs0; now apply Ep|]. left. congruence.
    + intros k t [Hin|Hin] Hlt; apply Ep'; [right; congruence|]. left. apply Ep. auto.
    + intros id' off' E'. destruct (Ei _ _ E') as (l & El). destruct (Ei' _ _ _ El) as (l' & El'). eauto.
    + intros k t [Hin|Hin]; auto.
Qed.

Fixpoint assign_pairs (l : list W) (ps : list (wkey * nat)) : option (list W) :=
  match ps with [] => Some l | (k, t) :: ps' => let? l' := update_at t (fun _ => measure (fst k) (snd k)) l in assign_pairs l' ps' end.
Lemma assign_app l a b : assign_pairs l (a ++ b) = let? l' := assign_pairs l a in assign_pairs l' b.
Proof. revert l. induction a as [|[k t] a IH]; intros l; cbn; auto. destruct (update_at _ _ l); cbn; auto. Qed.
Lemma assign_row_pairs id ss : forall ts l, length ss = length ts -> assign_row l (map (measure id) ss) ts = assign_pairs l (row_pairs ((id, ss), ts)).
Proof.
  unfold row_pairs. cbn [fst snd]. induction ss as [|s ss IH]; intros [|t ts] l H; try discriminate; auto.
  cbn [map combine assign_row assign_pairs fst snd]. destruct (update_at t _ l); cbn; auto.
Qed.
Lemma assign_rows_pairs req : forall toks l, aligned req toks -> assign_rows l (map (fun r => map (measure (fst r)) (snd r)) req) toks = assign_pairs l (pairs req toks).
Proof.
  induction req as [|[id ss] req IH]; intros toks l A; inversion A as [|? ts ? toks' H A']; subst; [reflexivity|].
  unfold pairs. cbn [map combine flat_map assign_rows fst snd] in *. rewrite assign_app, <- assign_row_pairs by auto.
  destruct (assign_row l _ ts) as [l'|]; cbn; auto. now apply IH.
Qed.
Lemma assign_pairs_ok ps : forall l, (forall k t, In (k, t) ps -> t < length l) -> (forall k k' t, In (k, t) ps -> In (k', t) ps -> k = k') ->
  exists l', assign_pairs l ps = Some l' /\ length l' = length l /\
    (forall k t, In (k, t) ps -> nth_error l' t = Some (measure (fst k) (snd k))) /\
    (forall t, (forall k, ~ In (k, t) ps) -> nth_error l' t = nth_error l t).
Proof.
  induction ps as [|[k t] ps IH]; intros l Hl Hi; cbn [assign_pairs].
  - exists l. split; auto. split; auto. split; auto. intros k t [].
  - destruct (update_at_nth (measure (fst k) (snd k)) t l) as (l1 & -> & L1 & N1); [eapply Hl; now left|]. cbn [bind].
    destruct (IH l1) as (l2 & -> & L2 & N2 & N3).
    + intros k' t' Hin. rewrite L1. eapply Hl. right. eauto.
    + intros k1 k2 t' H1 H2. apply (Hi k1 k2 t'); now right.
    + exists l2. split; auto. split; [lia|]. split.
      * assert (Dec : (exists k', In (k', t) ps) \/ forall k', ~ In (k', t) ps).
        { clear. induction ps as [|[a b] ps IH]; [right; auto|]. destruct IH as [(k' & H)|H]; [left; exists k'; now right|].
          destruct (Nat.eq_dec b t) as [->|N]; [left; exists a; now left|]. right. intros k' [E|E]; [congruence|]. eapply H; eauto. }
        intros k' t' [[= <- <-]|Hin]; [|auto]. destruct Dec as [(k' & Hk)|Hn].
        -- assert (k = k') as <- by (apply (Hi k k' t); [now left|now right]). auto.
        -- rewrite N3 by auto. rewrite N1, Nat.eqb_refl. reflexivity.
      * intros t' Hn. rewrite N3 by (intros k' Hk; apply (Hn k'); now right). rewrite N1. destruct (Nat.eqb_spec t' t) as [->|]; auto.
        exfalso. apply (Hn k). now left.
Qed.

Lemma resolve_inv st b : winv st b -> exists st', wstep st (Resolve true) = Some st' /\ winv st' true.
Proof.
  intros H. destruct st as [c bt lg]. cbn [wstep ws_c ws_b ws_log]. unfold resolve_pending.
  destruct (Nat.ltb_spec (length (wc_widths c)) (wb_pending bt)) as [Hlt|Hge].
  - unfold answer. pose proof (iv_align _ _ H) as A. cbn in A. rewrite assign_rows_pairs by auto.
    assert (Lr : length (resize zero (wb_pending bt) (wc_widths c)) = wb_pending bt).
    { unfold resize. rewrite app_length, repeat_length. lia. }
    destruct (assign_pairs_ok (pairs (wb_req bt) (wb_toks bt)) (resize zero (wb_pending bt) (wc_widths c))) as (l' & -> & L & N & N').
    + intros k t Hin. rewrite Lr. apply (iv_pairs _ _ H) in Hin. exact (tok_lt _ _ H _ _ Hin).
    + intros k k' t H1 H2. apply (iv_pairs _ _ H) in H1, H2. exact (tok_inj _ _ H _ _ _ H1 H2).
    + cbn [bind]. eexists. split; [reflexivity|]. pose proof (tok_lt _ _ H) as TL. pose proof (tok_inj _ _ H) as TI. destruct H; cbn in *. constructor; cbn; auto; try lia.
      * intros k t Hin _. destruct (Nat.lt_ge_cases t (length (wc_widths c))) as [Hlo|Hhi].
        -- assert (Dec : (exists k', In (k', t) (pairs (wb_req bt) (wb_toks bt))) \/ forall k', ~ In (k', t) (pairs (wb_req bt) (wb_toks bt))).
           { clear. induction (pairs _ _) as [|[a b] ps IH]; [right; auto|]. destruct IH as [(k' & H)|H]; [left; exists k'; now right|].
             destruct (Nat.eq_dec b t) as [->|N]; [left; exists a; now left|]. right. intros k' [E|E]; [congruence|]. eapply H; eauto. }
           destruct Dec as [(k' & Hk)|Hn].
           ++ assert (k = k') as <- by (eapply TI; eauto). auto.
           ++ rewrite N' by auto. unfold resize. rewrite nth_error_app1 by auto. auto.
        -- auto.
      * intros k t Hin Hle. rewrite L, Lr in Hle. apply TL in Hin. lia.
  - cbn [bind]. eexists. split; [reflexivity|]. destruct H; cbn in *. constructor; cbn; auto. intros _. lia.
Qed.
Lemma begin_inv st : winv st true -> exists st', wstep st Begin = Some st' /\ winv st' true.
Proof.
  intros H. eexists. split; [reflexivity|]. destruct st as [c bt lg]. pose proof (tok_lt _ _ H) as TL. destruct H; cbn in *. specialize (iv_settled0 eq_refl). constructor; cbn; auto.
  - now rewrite iv_settled0.
  - constructor.
  - tauto.
  - intros k t Hin Hle. apply TL in Hin. lia.
  - discriminate.
Qed.
Lemma start_inv : winv wstart true.
Proof. constructor; cbn; auto; try tauto; try constructor. discriminate. Qed.

Lemma run_inv es : forall st b, winv st b -> orderly b es -> exists st' b', wrun st es = Some st' /\ winv st' b' /\
  ((es = [] /\ b' = b) \/ (exists es' e, es = es' ++ [e] /\ b' = match e with Request _ _ => false | _ => true end)).
Proof.
  induction es as [|e es IH]; intros st b H O; cbn [wrun].
  - exists st, b. auto.
  - assert (Hs : exists st1, wstep st e = Some st1 /\ winv st1 (match e with Request _ _ => false | _ => true end) /\ orderly (match e with Request _ _ => false | _ => true end) es).
    { destruct e as [|id s|ok]; cbn [orderly] in O.
      - destruct O as [-> O]. destruct (begin_inv st H) as (st1 & ? & ?). eauto.
      - destruct (request_inv st b id s H) as (st1 & ? & ?). eauto.
      - destruct O as [-> O]. destruct (resolve_inv st b H) as (st1 & ? & ?). eauto. }
    destruct Hs as (st1 & E1 & H1 & O1). rewrite E1. cbn [bind]. destruct (IH st1 _ H1 O1) as (st2 & b2 & E2 & H2 & D).
    exists st2, b2. split; auto. split; auto. right. destruct D as [[-> ->]|(es' & e' & -> & ->)]; [exists [], e; auto|exists (e :: es'), e'; auto].
Qed.

(** Every token ever given out resolves to the width of the string and style it was asked
    for, once what was requested has been resolved; requests never fail. *)
Theorem C40_tokens_resolve es : orderly true es -> exists st, wrun wstart es = Some st /\
  (settled_after es -> forall id s tok, In ((id, s), tok) (ws_log st) -> wc_resolve (ws_c st) tok = Some (measure id s)).
Proof.
  intros O. destruct (run_inv es wstart true start_inv O) as (st & b & E & H & D). exists st. split; auto.
  intros S0 id s tok Hin. assert (b = true) as ->.
  { destruct D as [[_ ->]|(es' & e & -> & ->)]; auto. destruct S0 as [S0|(es2 & e2 & S0 & S1)]; [now apply app_eq_nil in S0 as [_ ?]|].
    apply app_inj_tail in S0 as [_ <-]. destruct e; tauto. }
  apply (iv_log _ _ H) in Hin. unfold wc_resolve. rewrite (iv_right _ _ H (id, s) tok Hin); auto. rewrite (iv_settled _ _ H eq_refl). exact (tok_lt _ _ H _ _ Hin).
Qed.
(** Even before: a token that resolves resolves rightly. *)
Theorem C40_resolved_is_right es : orderly true es -> exists st, wrun wstart es = Some st /\
  forall id s tok w, In ((id, s), tok) (ws_log st) -> wc_resolve (ws_c st) tok = Some w -> w = measure id s.
Proof.
  intros O. destruct (run_inv es wstart true start_inv O) as (st & b & E & H & D). exists st. split; auto.
  intros id s tok w Hin Ew. apply (iv_log _ _ H) in Hin. unfold wc_resolve in Ew. rewrite (iv_right _ _ H (id, s) tok Hin) in Ew; [cbn [fst snd] in Ew; congruence|].
  apply nth_error_Some. rewrite Ew; discriminate.
Qed.
(** A string and style have one token, and a token has one string and style. *)
Theorem C40_tokens_unique es : orderly true es -> exists st, wrun wstart es = Some st /\
  forall k k' tok tok', In (k, tok) (ws_log st) -> In (k', tok') (ws_log st) -> (k = k' <-> tok = tok').
Proof.
  intros O. destruct (run_inv es wstart true start_inv O) as (st & b & E & H & D). exists st. split; auto.
  intros k k' t t' H1 H2. apply (iv_log _ _ H) in H1, H2. split.
  - intros <-. pose proof (iv_keys _ _ H) as N. clear -H1 H2 N. induction (wc_m (ws_c st)) as [|[k0 t0] m IH]; [destruct H1|]. cbn in N. inversion N as [|? ? N1 N2]; subst.
    destruct H1 as [[= -> ->]|H1], H2 as [E|H2]; try congruence; auto.
    + exfalso. apply N1. apply (in_map fst) in H2. exact H2.
    + injection E as -> ->. exfalso. apply N1. apply (in_map fst) in H1. exact H1.
  - intros <-. exact (tok_inj _ _ H _ _ _ H1 H2).
Qed.
End WC.
Print Assumptions C40_tokens_resolve.
Print Assumptions C40_resolved_is_right.
Print Assumptions C40_tokens_unique.

(** The measure of [CodepointMono] is one, with the style ignored. *)
Theorem C40_codepoint_mono {Str} (chars : Str -> nat) req : codepoint_mono chars req = answer (fun _ => chars) true req.
Proof. reflexivity. Qed.
Print Assumptions C40_codepoint_mono.

(** *** Not so *)
Definition m1 (id s : nat) := 2 * id + s + 1.
Definition run1 := wrun Nat.eqb 0 m1 wstart.
(** After a failed measurement the token resolves to zero, and goes on doing so however
    often the same string is requested and measured again. *)
Theorem C40_failed_measure_refuted :
  (let? st := run1 [Request 1 7; Resolve false; Begin; Request 1 7; Resolve true] in Some (ws_log st, wc_resolve (ws_c st) 0)) =
    Some ([((1, 7), 0); ((1, 7), 0)], Some 0) /\ (m1 1 7 =? 0) = false.
Proof. split; vm_compute; reflexivity. Qed.
Print Assumptions C40_failed_measure_refuted.
(** After a batch that is dropped before it is resolved, two strings share a token. *)
Theorem C40_dropped_batch_refuted :
  (let? st := run1 [Request 1 7; Begin; Request 1 8; Resolve true] in Some (ws_log st, wc_resolve (ws_c st) 0)) =
    Some ([((1, 8), 0); ((1, 7), 0)], Some (m1 1 8)) /\ (m1 1 7 =? m1 1 8) = false.
Proof. split; vm_compute; reflexivity. Qed.
Print Assumptions C40_dropped_batch_refuted.

Definition sample_events := [Request 1 7; Request 2 7; Request 1 8; Request 1 7; Resolve true; Begin; Request 2 9; Request 1 8; Resolve true].
Example C40_example_orderly : orderly true sample_events /\ settled_after sample_events.
Proof.
  split; [cbn; tauto|]. right. exists [Request 1 7; Request 2 7; Request 1 8; Request 1 7; Resolve true; Begin; Request 2 9; Request 1 8], (Resolve true).
  split; [reflexivity|exact Logic.I].
Qed.
Example C40_example : (let? st := run1 sample_events in Some (map snd (ws_log st), wc_resolve (ws_c st) 1)) = Some ([2; 3; 0; 2; 1; 0], Some (m1 2 7)).
Proof. vm_compute. reflexivity. Qed.
