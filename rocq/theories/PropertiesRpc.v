(** C38, C54: the RPC loop, for every input and every schedule of its threads. *)
From Coq Require Import List Arith Lia Bool ZifyBool Permutation.
From Verif Require Import Base ListLib RpcModel RpcSpec RpcProofs.
Import ListNotations.

Section C38.
Context (dec_req dec_notif : obj -> bool) (dec_err : value -> bool).
Notation step := (step dec_req dec_notif dec_err).
Notation run := (run dec_req dec_notif dec_err).
Notation handled := (handled dec_req dec_notif).

(** At every moment, what has been seen is the handling of the first calls of the input, in their
    order, and perhaps a part of the handling of the next one. *)
Theorem C38_in_order l0 ls st : run (initial l0) ls = Some st ->
  exists taken cur rest seen part, calls l0 = taken ++ cur ++ rest /\ handled taken seen /\ underway cur part /\ log st = seen ++ part.
Proof.
  intros H. destruct (run_inv _ _ _ _ _ _ H) as (taken & cur & done & part & Hh & Hl & Ha & Hp).
  assert (Hc : exists rest, calls l0 = (taken ++ cur) ++ rest).
  { destruct Hp as [(os & c & _ & _ & _ & -> & Hf)|[(e & os & _ & _ & _ & _ & ->)|[(e & os & _ & _ & _ & _ & ->)|[(e & _ & _ & _ & ->)|(os & rest & _ & _ & _ & ->)]]]]; [rewrite calls_app, Hf; exists ((os ++ reading (rd st)) ++ calls (inp st)); now rewrite <- !app_assoc|eauto|eauto|exists []; now rewrite app_nil_r|eauto]. }
  destruct Hc as (rest & Hc). exists taken, cur, rest, done, part. split; [now rewrite app_assoc|]. split; auto. split; auto.
  assert (Hw : forall w, at_why dec_req w cur part -> underway cur part) by (intros [id| | |e]; cbn; [intros (o & -> & -> & _); constructor|intros (-> & ->); constructor|intros (-> & ->); constructor|intros (-> & -> & _); constructor]).
  destruct (mn st) as [|[o|e]|w|w|id w|id w|id r|e| |e|]; cbn [at_main] in Ha; eauto.
  - destruct Ha as [-> ->]. constructor.
  - destruct Ha as [-> ->]. constructor.
  - destruct Ha as (-> & -> & _). constructor.
  - destruct Ha as (o & -> & Hid & [(-> & _)|(-> & _)]); econstructor; eauto.
  - destruct Ha as (-> & [(_ & ->)|(_ & o & ->)]); constructor.
  - destruct Ha as [(-> & ->)|(o & -> & [->| ->])]; constructor.
  - destruct Ha as (-> & [(_ & ->)|(_ & o & ->)]); constructor.
  - destruct Ha as [(-> & ->)|(o & -> & [->| ->])]; constructor.
Qed.
(** When the loop has ended because the input has, each call has been handled, once. *)
Theorem C38_all_answered l0 ls st e : run (initial l0) ls = Some st -> mn st = MDone e -> e <> EUnknown -> handled (calls l0) (log st).
Proof.
  intros H Em He. destruct (run_inv _ _ _ _ _ _ H) as (taken & cur & done & part & Hh & Hl & Ha & Hp). rewrite Em in *. cbn [at_main] in Ha. destruct Ha as (-> & [(_ & ->)|(E & _)]); [|congruence]. rewrite !app_nil_r in *.
  assert (Hn : carries (MDone e) = None -> False) by (cbn; rewrite rerr_known; [discriminate|exact He]). destruct Hp as [(os & c & _ & _ & Hc & _)|[(e' & os & _ & _ & _ & Hc & _)|[(e' & os & _ & _ & _ & Hc & _)|[(e' & _ & _ & _ & Hc)|(os & rest & _ & _ & Hc & _)]]]]; try (destruct (Hn Hc)). rewrite Hc, Hl. exact Hh.
Qed.
(** The ids of the responses that were written are those of the requests, each once, in order. *)
Theorem C38_answered_once l0 ls st e : run (initial l0) ls = Some st -> mn st = MDone e -> e <> EUnknown ->
  flat_map (fun x => match x with EAnswer id _ _ => [id] | _ => [] end) (log st) = flat_map (fun o => match get_id o with Some id => [id] | None => [] end) (calls l0) /\
  flat_map (fun x => match x with ECall o => [o] | _ => [] end) (log st) = filter (fun o => match get_id o with Some _ => dec_req o | None => true end) (calls l0).
Proof.
  intros H Em He. pose proof (C38_all_answered _ _ _ _ H Em He) as Hh. induction Hh as [|os l o id r ok Hh (IH1 & IH2) Hid Hd|os l o id ok Hh (IH1 & IH2) Hid Hd|os l o Hh (IH1 & IH2) Hid Hd]; [auto| | |]; rewrite !flat_map_app, filter_app, IH1, IH2; cbn; rewrite Hid, ?Hd; cbn; rewrite ?app_nil_r; auto.
Qed.
(** When it waits for input, the calls that have come so far have been handled. *)
Theorem C38_waiting l0 ls st : run (initial l0) ls = Some st -> mn st = MNext -> queue st = [] -> rd st = RTop \/ rd st = RRead ->
  exists c, l0 = map LObj c ++ inp st /\ handled (filter (fun o => negb (is_response o)) c) (log st).
Proof.
  intros H Em Eq Er. destruct (run_inv _ _ _ _ _ _ H) as (taken & cur & done & part & Hh & Hl & Ha & Hp). rewrite Em in *. destruct Ha as (-> & ->). rewrite !app_nil_r in *.
  destruct Hp as [(os & c & _ & Hq & _ & Hi & Hf)|[(e' & os & [Hr|[Hr|Hr]] & _)|[(e' & os & Hr & _)|[(e' & Hr & _)|(os & rest & [Hr|Hr] & _)]]]]; try (destruct Er; congruence).
  exists c. split; auto. rewrite Eq in Hq. destruct os; [|discriminate]. unfold is_call in Hf. rewrite Hf. replace (reading (rd st)) with (@nil obj) by (destruct Er as [->| ->]; reflexivity). cbn. rewrite app_nil_r. now rewrite Hl.
Qed.
(** The requests of this side have different ids; none is resolved twice; what it is resolved
    with is what a response in the input to that id says, unless the connection or the write
    failed; and none is lost: until then it is being sent, pending, or being told. *)
Theorem C38_resolution l0 ls st : run (initial l0) ls = Some st ->
  NoDup (map fst (resolved st)) /\
  (forall id r, In (id, r) (resolved st) -> id < next_id st /\ (r = ODisconnect \/ r = OIo \/ reply dec_err l0 id r)) /\
  (forall id, id < next_id st -> In id (map fst (resolved st)) \/ In id (map fst (pending st)) \/ In id (map fst (flights st)) \/ exists h r, rd st = RInvoke id h r) /\
  (forall id, In id (map fst (pending st)) -> ~ In id (map fst (resolved st))).
Proof.
  intros H. destruct (run_inv2 _ _ _ _ _ _ H) as (A & B & C & D & E & F). assert (N : NoDup (places st)) by (eapply Permutation_NoDup; [symmetry; exact A|apply seq_NoDup]). unfold places in *. split; [|split; [|split]].
  - do 3 apply nodup_app_r in N. exact N.
  - intros id r Hi. split; [|rewrite Forall_forall in E; exact (E _ Hi)]. assert (Hid : In id (seq 0 (next_id st))); [|apply in_seq in Hid; lia]. eapply Permutation_in; [exact A|]. do 3 (apply in_or_app; right). apply in_map_iff. exists (id, r). auto.
  - intros id Hid. assert (Hi : In id (allocs (flights st) ++ map fst (pending st) ++ told (rd st) ++ map fst (resolved st))) by (eapply Permutation_in; [symmetry; exact A|apply in_seq; lia]).
    apply in_app_or in Hi as [Hi|Hi]; [right; right; left; now apply allocs_incl|]. apply in_app_or in Hi as [Hi|Hi]; [auto|]. apply in_app_or in Hi as [Hi|Hi]; [|auto]. right. right. right. destruct (rd st); cbn in Hi; try contradiction. destruct Hi as [->|[]]. eauto.
  - intros id Hi Hr. apply nodup_app_r in N. rewrite app_assoc in N. clear -N Hi Hr. induction (map fst (pending st)) as [|x l IH]; [destruct Hi|]. cbn in N. inversion N as [|y z Hn N']; subst. destruct Hi as [->|Hi]; [|auto]. apply Hn. apply in_or_app. auto.
Qed.
(** A response resolves the request with its id, if it is pending, and no other. *)
Theorem C38_delivered st o id l : dead st = false -> rd st = RRead -> inp st = LObj o :: l -> is_response o = true -> get_id o = Some id ->
  (In id (map fst (pending st)) -> exists st', run st [LReader; LReader; LReader] = Some st' /\ resolved st' = resolved st ++ [(id, into_response dec_err o)] /\ pending st' = filter (fun x => negb (fst x =? id)) (pending st)) /\
  (~ In id (map fst (pending st)) -> exists st', run st [LReader; LReader] = Some st' /\ resolved st' = resolved st /\ pending st' = pending st).
Proof.
  intros Hd Hr Hi Ho Hid.
  assert (E1 : exists s1, step st LReader = Some s1 /\ rd s1 = RResp id (into_response dec_err o) /\ dead s1 = false /\ pending s1 = pending st /\ resolved s1 = resolved st) by (cbn [RpcModel.step]; unfold step_reader; rewrite Hr, Hi; cbn [read_next]; rewrite Ho, Hid; eexists; split; [reflexivity|]; cbn; auto).
  destruct E1 as (s1 & E1 & R1 & D1 & P1 & Q1). cbn [RpcModel.run]. rewrite E1. cbn [bind].
  assert (Ht : match find (fun x : nat * handler => fst x =? id) (pending st) with Some _ => In id (map fst (pending st)) | None => ~ In id (map fst (pending st)) end).
  { generalize (pending st). intros l'. induction l' as [|[k h] l' IH]; cbn [find map fst]; [auto|]. destruct (k =? id) eqn:Ek; [apply Nat.eqb_eq in Ek; now left|]. destruct (find _ l'); [now right|]. apply Nat.eqb_neq in Ek. intros [?|?]; auto. }
  cbn [RpcModel.step]. unfold step_reader at 1 3. rewrite R1, D1, P1. unfold take. split; intros Hp; (destruct (find (fun x : nat * handler => fst x =? id) (pending st)) as [[k h]|] eqn:Ef; try contradiction); cbn [bind].
  - unfold step_reader. cbn [set_reader set_pending rd]. destruct h as [|[|]]; cbn [bind]; eexists; split; try reflexivity; cbn; rewrite Q1; auto.
  - eexists. split; [reflexivity|]. cbn. auto.
Qed.
(** What a response says: its result or its error, and nothing if it has both or neither. *)
Definition response_says (o : obj) (r : outcome) : Prop :=
  match o_result o, o_error o with
  | Some v, None => r = OOk v
  | None, Some e => dec_err e = true /\ r = ORemote e \/ dec_err e = false /\ r = OInvalid
  | _, _ => r = OInvalid
  end.
Theorem C38_response_says o id : get_id o = Some id -> response_says o (into_response dec_err o).
Proof.
  intros Hid. unfold response_says, into_response. rewrite Hid. destruct (o_result o), (o_error o) as [e|]; cbn; auto. destruct (dec_err e); auto.
Qed.
(** When the loop ends nothing is left pending. *)
Theorem C38_disconnect st a ok now st' e : step st (LMain a ok now) = Some st' -> mn st' = MDone e -> pending st' = [].
Proof.
  intros E Em. cbn [RpcModel.step] in E. unfold step_main in E. destruct (mn st) as [|[o|x]|w|w|id w|id w|id r|x| |x|] eqn:En; try discriminate.
  - destruct (queue st) as [|y q]; [destruct (check_timers now (timers st)) as [[y t]|]; [injection E as <-; discriminate|]; destruct (idle st); [discriminate|]; injection E as <-; discriminate|injection E as <-; discriminate].
  - injection E as <-. destruct (into_rpc dec_req dec_notif o); try destruct (is_some (get_method o)); discriminate.
  - injection E as <-. destruct (idle st); discriminate.
  - injection E as <-. destruct a; cbn in Em; try congruence. destruct w; discriminate.
  - injection E as <-. discriminate.
  - destruct (_ && _); [|discriminate]. injection E as <-. discriminate.
  - destruct (absent _ _); [|discriminate]. injection E as <-. discriminate.
  - injection E as <-. discriminate.
  - destruct (dead st) eqn:Ed; [discriminate|]. unfold disconnect in E. assert (G : forall l s0, dead (disconnect_loop s0 l) = false -> pending (disconnect_loop s0 l) = []).
    { induction l as [|[id h] l IH]; intros s0 H; cbn [disconnect_loop] in *; [reflexivity|]. destruct h as [|[|]]; [apply IH; exact H|discriminate|apply IH; exact H]. }
    destruct (dead (disconnect_loop st (pending st))) eqn:Ed'; injection E as <-; [|cbn; auto]. destruct (disconnect_loop_view (pending st) st) as (_ & _ & _ & V & _). congruence.
  - destruct (dead st) eqn:Ed; [discriminate|]. unfold disconnect in E. destruct (dead (disconnect_loop st (pending st))) eqn:Ed'; injection E as <-; [|discriminate]. destruct (disconnect_loop_view (pending st) st) as (_ & _ & _ & V & _). congruence.
Qed.
(** No message panics: for handlers that do not, and whose requests and notifications have a
    method. Missing: responses with an id that is not a number; see below. *)
Theorem C38_no_panic_partial l0 ls st : (forall o, dec_req o = true \/ dec_notif o = true -> get_method o <> None) ->
  (forall o, In (LObj o) l0 -> is_response o = true -> get_id o <> None) -> Forall (fun l => forall ok now, l <> LMain APanic ok now) ls ->
  run (initial l0) ls = Some st -> rd st <> RPanic /\ mn st <> MUnwind /\ mn st <> MPanic.
Proof.
  intros Hm Hr Hl Hrun.
  assert (G : forall ls s0 s1, Forall (fun l => forall ok now, l <> LMain APanic ok now) ls -> run s0 ls = Some s1 -> (exists pre, l0 = pre ++ inp s0) /\ rd s0 <> RPanic /\ mn s0 <> MUnwind /\ mn s0 <> MPanic -> rd s1 <> RPanic /\ mn s1 <> MUnwind /\ mn s1 <> MPanic).
  { clear Hrun Hl. induction ls0 as [|x ls0 IH]; intros s0 s1 F E (Hi & Hrd & Hmu & Hmp); cbn [RpcModel.run] in E; [injection E as <-; auto|]. inversion F as [|y z Hx F']; subst. destruct (step s0 x) as [s2|] eqn:E2; [|discriminate]. cbn [bind] in E. apply (IH s2 s1 F' E). clear IH E F.
    destruct x as [|a ok now|h|token|id ok]; cbn [RpcModel.step] in E2.
    - unfold step_reader in E2. destruct (rd s0) as [| |e|e|x|id r|id h r|id| |] eqn:Er; try discriminate.
      + injection E2 as <-. cbn. split; auto. split; auto. destruct (needs_exit s0); discriminate.
      + destruct Hi as (pre & Hi). destruct (inp s0) as [|[| |o] i] eqn:Ei; cbn [read_next] in E2; injection E2 as <-; cbn; (split; [|split; [|auto]]); try discriminate; try (now exists pre).
        * exists (pre ++ [LBad]). now rewrite <- app_assoc.
        * exists (pre ++ [LNotObj]). now rewrite <- app_assoc.
        * exists (pre ++ [LObj o]). now rewrite <- app_assoc.
        * destruct (is_response o) eqn:Eo; [|discriminate]. destruct (get_id o) eqn:Eg; [discriminate|]. exfalso. apply (Hr o); auto. rewrite Hi. apply in_or_app. right. now left.
      + injection E2 as <-. cbn. split; auto. split; auto. destruct (blocked s0); discriminate.
      + destruct (dead s0); [discriminate|]. unfold disconnect in E2. destruct (disconnect_loop_view (pending s0) s0) as (V1 & V2 & _ & V4 & _). destruct (dead (disconnect_loop s0 (pending s0))); injection E2 as <-; cbn; rewrite ?V1, ?V2, ?V4, ?Er; auto. split; auto. split; auto. discriminate.
      + injection E2 as <-. cbn. split; auto. split; auto. destruct x; discriminate.
      + destruct (dead s0); [discriminate|]. injection E2 as <-. destruct (take id (pending s0)) as [[h p]|]; cbn; (split; auto; split; auto; discriminate).
      + injection E2 as <-. destruct h as [|[|]]; cbn; (split; auto; split; auto; discriminate).
      + destruct (absent id (flights s0)); [|discriminate]. injection E2 as <-. cbn. split; auto. split; auto. discriminate.
    - unfold step_main in E2. assert (Keep : forall s2', inp s2' = inp s0 -> rd s2' = rd s0 -> mn s2' <> MUnwind /\ mn s2' <> MPanic -> (exists pre, l0 = pre ++ inp s2') /\ rd s2' <> RPanic /\ mn s2' <> MUnwind /\ mn s2' <> MPanic) by (intros s2' -> ->; auto).
      destruct (mn s0) as [|[o|e]|w|w|id w|id w|id r|e| |e|] eqn:Em; try discriminate.
      + destruct (queue s0) as [|y q]; [destruct (check_timers now (timers s0)) as [[y t]|]; [injection E2 as <-; apply Keep; auto; split; discriminate|]; destruct (idle s0); [discriminate|]; injection E2 as <-; apply Keep; auto; split; discriminate|injection E2 as <-; apply Keep; auto; split; discriminate].
      + injection E2 as <-. specialize (Hm o). unfold into_rpc. destruct (get_id o); [destruct (dec_req o)|destruct (dec_notif o)]; try (apply Keep; auto; split; discriminate); (destruct (get_method o); [|exfalso; apply Hm; auto]; cbn [is_some]; apply Keep; auto; split; discriminate).
      + injection E2 as <-. destruct (idle s0); apply Keep; auto; split; discriminate.
      + injection E2 as <-. destruct a as [again| |token|t token|r|]; try (apply Keep; auto; cbn; rewrite ?Em; split; discriminate); [destruct w; apply Keep; auto; split; discriminate|]. exfalso. now apply (Hx ok now).
      + injection E2 as <-. apply Keep; auto; split; discriminate.
      + destruct (_ && _); [|discriminate]. injection E2 as <-. apply Keep; auto; split; discriminate.
      + destruct (absent _ _); [|discriminate]. injection E2 as <-. apply Keep; auto; split; discriminate.
      + injection E2 as <-. apply Keep; auto; split; discriminate.
      + destruct (dead s0); [discriminate|]. unfold disconnect in E2. destruct (disconnect_loop_view (pending s0) s0) as (V1 & V2 & _ & V4 & _). destruct (dead (disconnect_loop s0 (pending s0))); injection E2 as <-; apply Keep; auto; [rewrite V4, Em|]; split; discriminate.
      + congruence.
    - injection E2 as <-. auto.
    - injection E2 as <-. auto.
    - apply fly_view in E2 as (-> & -> & _ & -> & _). auto. }
  apply (G ls (initial l0) st Hl Hrun). cbn. split; [now exists []|]. repeat split; discriminate.
Qed.
(** The main thread waits for the answer to its request, and the input ends: it is told, and goes
    on. Missing: the input has ended before; see below. *)
Lemma run_app l : forall s0 l', run s0 (l ++ l') = bind (run s0 l) (fun s1 => run s1 l').
Proof. induction l as [|x l IH]; intros s0 l'; cbn [app RpcModel.run bind]; auto. destruct (step s0 x); cbn [bind]; auto. Qed.
Lemma wait_inv l0 ls st : run (initial l0) ls = Some st -> match mn st with MSync _ => blocked st = true | MWait id _ => blocked st = true /\ id < next_id st | _ => True end.
Proof.
  set (P := fun st : state => match mn st with MSync _ => blocked st = true | MWait id _ => blocked st = true /\ id < next_id st | _ => True end). enough (Hs : forall s l s', P s -> step s l = Some s' -> P s') by (apply (run_inv_gen _ _ _ P Hs); exact Logic.I).
  assert (Dv : forall l s, mn (disconnect_loop s l) = mn s /\ blocked (disconnect_loop s l) = blocked s /\ next_id (disconnect_loop s l) = next_id s) by (induction l as [|[id h] l IH]; intros s; cbn [disconnect_loop]; [auto|]; destruct h as [|[|]]; [apply (IH (resolve (set_pending s l) id ODisconnect))|auto|apply (IH (resolve (set_pending s l) id ODisconnect))]).
  intros s l s' H E. unfold P in *. destruct l as [|a ok now|h|token|id ok]; cbn [RpcModel.step] in E.
  - unfold step_reader in E. destruct (rd s) as [| |e|e|x|id r|id h r|id| |]; try discriminate.
    + injection E as <-. exact H.
    + destruct (read_next (inp s)). injection E as <-. exact H.
    + injection E as <-. exact H.
    + destruct (dead s); [discriminate|]. destruct (Dv (pending s) s) as (A & B & C). unfold disconnect in E. destruct (dead _); injection E as <-; cbn; rewrite A, B, C; exact H.
    + injection E as <-. exact H.
    + destruct (dead s); [discriminate|]. injection E as <-. destruct (take id (pending s)) as [[h p]|]; exact H.
    + injection E as <-. destruct h as [|[|]]; cbn; destruct (mn s); auto. destruct H; split; auto; lia.
    + destruct (absent id (flights s)); [|discriminate]. injection E as <-. exact H.
  - unfold step_main in E. destruct (mn s) as [|[o|x]|w|w|id w|id w|id r|x| |x|] eqn:En; try discriminate.
    + destruct (queue s) as [|y q]; [destruct (check_timers now (timers s)) as [[y t]|]; [injection E as <-; exact Logic.I|]; destruct (idle s); [discriminate|]; injection E as <-; exact Logic.I|injection E as <-; exact Logic.I].
    + injection E as <-. destruct (into_rpc dec_req dec_notif o); try destruct (is_some (get_method o)); exact Logic.I.
    + injection E as <-. destruct (idle s); exact Logic.I.
    + injection E as <-. destruct a; cbn; rewrite ?En; auto. destruct w; exact Logic.I.
    + injection E as <-. cbn. split; auto.
    + destruct (_ && _); [|discriminate]. injection E as <-. exact Logic.I.
    + destruct (absent _ _); [|discriminate]. injection E as <-. exact Logic.I.
    + injection E as <-. exact Logic.I.
    + destruct (dead s); [discriminate|]. destruct (Dv (pending s) s) as (A & B & C). unfold disconnect in E. destruct (dead _); injection E as <-; cbn; [rewrite A, En|]; exact Logic.I.
    + destruct (dead s); [discriminate|]. destruct (Dv (pending s) s) as (A & B & C). unfold disconnect in E. destruct (dead _); injection E as <-; cbn; [rewrite A, En|]; exact Logic.I.
  - injection E as <-. cbn. destruct (mn s); auto. destruct H. split; auto.
  - injection E as <-. exact H.
  - unfold fly in E. destruct (take id (flights s)) as [[g f]|]; [|discriminate]. cbn [bind] in E. destruct g as [h| |]; [destruct (dead s); [discriminate|]; injection E as <-; exact H| |discriminate].
    destruct ok; [injection E as <-; exact H|]. destruct (dead s); [discriminate|]. destruct (take id (pending s)) as [[h p]|]; [|injection E as <-; exact H]. destruct h as [|[|]]; injection E as <-; exact H.
Qed.
Theorem C38_sync_returns_partial l0 ls st id w : run (initial l0) ls = Some st -> mn st = MWait id w -> ~ In id (map fst (flights st)) ->
  Forall (fun x => snd x <> Callback true) (pending st) -> dead st = false -> rd st = RRead -> inp st = [] ->
  exists st', run st [LReader; LReader; LReader; LMain (AReturn OInvalid) true 0] = Some st' /\ mn st' = MHandle w /\ In id (map fst (resolved st')).
Proof.
  intros H Em Hfl Hcb Hd Hr Hi. pose proof (wait_inv _ _ _ H) as Hw. rewrite Em in Hw. destruct Hw as [Hb Hid]. destruct (C38_resolution _ _ _ H) as (_ & _ & Hloc & _). specialize (Hloc id Hid).
  assert (Hin : In id (map fst (pending st)) \/ In id (map fst (resolved st))) by (destruct Hloc as [Hl|[Hl|[Hl|(h & r & Hl)]]]; auto; [contradiction|congruence]).
  set (s1 := set_reader (State [] (rd st) (queue st) (mn st) (next_id st) (pending st) (flights st) (sent st) (needs_exit st) (blocked st) (dead st) (idle st) (timers st) (log st) (resolved st) (asked st) (ran st) (asked_timers st) (fired st)) (RErr EDisconnect)).
  assert (E1 : step st LReader = Some s1) by (cbn [RpcModel.step]; unfold step_reader; rewrite Hr, Hi; unfold s1; rewrite Hr; reflexivity).
  assert (E2 : step s1 LReader = Some (set_reader s1 (RDisc EDisconnect))) by (cbn [RpcModel.step]; unfold step_reader; cbn; rewrite Hb; reflexivity).
  set (s2 := set_reader s1 (RDisc EDisconnect)) in *.
  assert (G : forall l s0, Forall (fun x => snd x <> Callback true) l -> dead s0 = false -> let s := disconnect_loop s0 l in dead s = false /\ flights s = flights s0 /\ resolved s = resolved s0 ++ map (fun x => (fst x, ODisconnect)) l /\ mn s = mn s0).
  { induction l as [|[k h] l IH]; intros s0 F D; cbn [disconnect_loop map]; [rewrite app_nil_r; auto|]. inversion F as [|x y Hx F']; subst. destruct h as [|[|]]; [|cbn in Hx; congruence|]; (destruct (IH (resolve (set_pending s0 l) k ODisconnect) F' D) as (A & B & C & M); split; [exact A|]; split; [exact B|]; split; [rewrite C; cbn; rewrite <- app_assoc; reflexivity|exact M]). }
  destruct (G (pending s2) s2 Hcb Hd) as (A & B & C & Mm).
  assert (E3 : step s2 LReader = Some (set_reader (disconnect s2) (RPut (inr EDisconnect)))) by (cbn [RpcModel.step]; unfold step_reader; cbn [rd s2 set_reader]; replace (dead s2) with false by (symmetry; exact Hd); unfold disconnect in A |- *; rewrite A; reflexivity).
  set (s3 := set_reader (disconnect s2) (RPut (inr EDisconnect))) in *.
  assert (Ab : absent id (flights s3) = true). { unfold absent. change (flights s3) with (flights (disconnect_loop s2 (pending s2))). rewrite B. apply negb_true_iff. apply not_true_iff_false. intros Hx. apply existsb_exists in Hx as (x & Hx & Ex). apply Nat.eqb_eq in Ex. apply Hfl. apply in_map_iff. eauto. }
  assert (Inr : In id (map fst (resolved s3))). { change (resolved s3) with (resolved (disconnect_loop s2 (pending s2))). rewrite C, map_app, map_map. apply in_or_app. destruct Hin as [Hx|Hx]; [right; exact Hx|left; exact Hx]. }
  assert (E4 : step s3 (LMain (AReturn OInvalid) true 0) = Some (set_main s3 (MHandle w))).
  { cbn [RpcModel.step]. unfold step_main. assert (Em3 : mn s3 = MWait id w) by (change (mn s3) with (mn (disconnect_loop s2 (pending s2))); rewrite Mm; exact Em). rewrite Em3, Ab. replace (absent id (resolved s3)) with false; [reflexivity|]. symmetry. unfold absent. apply negb_false_iff. apply existsb_exists. apply in_map_iff in Inr as (x & <- & Hx). exists x. split; auto. apply Nat.eqb_refl. }
  exists (set_main s3 (MHandle w)). cbn [RpcModel.run]. rewrite E1. cbn [bind]. rewrite E2. cbn [bind]. fold s2. rewrite E3. cbn [bind]. rewrite E4. cbn [bind]. split; auto.
Qed.
(** ** C54 *)
(** Idle work is run in the order it was asked for, each piece once; a timer fires once, and not
    before its time. *)
Theorem C54_idle l0 ls st : run (initial l0) ls = Some st ->
  asked st = ran st ++ idle st /\ Permutation (asked_timers st) (map snd (fired st) ++ timers st) /\ Forall (fun x => fst (snd x) <= fst x) (fired st).
Proof. apply run_inv3. Qed.
(** And only when no message is waiting, unless the loop ends: when idle work starts, the queue
    is empty or has just given the error that ends the loop. *)
Theorem C54_messages_first st a ok now st' : step st (LMain a ok now) = Some st' -> ran st' <> ran st \/ fired st' <> fired st ->
  (mn st = MNext /\ queue st = []) \/ exists e, mn st = MGot (inr e).
Proof.
  intros E Hc. assert (Dv : forall l s, ran (disconnect_loop s l) = ran s /\ fired (disconnect_loop s l) = fired s) by (intros l s; destruct (disconnect_work l s) as (_ & A & _ & _ & B & _); auto).
  assert (K : forall s2, Some s2 = Some st' -> ran s2 = ran st -> fired s2 = fired st -> False) by (intros s2 [= ->] H1 H2; destruct Hc; auto).
  cbn [RpcModel.step] in E. unfold step_main in E. destruct (mn st) as [|[o|x]|w|w|id w|id w|id r|x| |x|] eqn:En; try discriminate; eauto.
  - destruct (queue st) as [|y q]; [auto|]. destruct (K _ E); reflexivity.
  - destruct (K _ E); destruct (into_rpc dec_req dec_notif o); try destruct (is_some (get_method o)); reflexivity.
  - destruct (K _ E); destruct a; try reflexivity; destruct w; reflexivity.
  - destruct (K _ E); reflexivity.
  - destruct (_ && _); [|discriminate]. destruct (K _ E); reflexivity.
  - destruct (absent _ _); [|discriminate]. destruct (K _ E); reflexivity.
  - destruct (K _ E); reflexivity.
  - destruct (dead st); [discriminate|]. unfold disconnect in E. destruct (K _ E); destruct (dead (disconnect_loop st (pending st))); apply Dv.
  - destruct (dead st); [discriminate|]. unfold disconnect in E. destruct (K _ E); destruct (dead (disconnect_loop st (pending st))); apply Dv.
Qed.
End C38.

Print Assumptions C38_in_order.
Print Assumptions C38_all_answered.
Print Assumptions C38_answered_once.
Print Assumptions C38_waiting.
Print Assumptions C38_resolution.
Print Assumptions C38_delivered.
Print Assumptions C38_response_says.
Print Assumptions C38_disconnect.
Print Assumptions C38_no_panic_partial.
Print Assumptions C38_sync_returns_partial.
Print Assumptions C54_idle.
Print Assumptions C54_messages_first.

(** ** Cases *)
(** A request with the id [n], a notification and a response. *)
Definition ex_req (n : nat) := Obj (Some (VU64 n)) (Some (VStr 1)) None None 0.
Definition ex_notif := Obj None (Some (VStr 2)) None None 0.
Definition ex_resp (n : nat) := Obj (Some (VU64 n)) None (Some (VOther n)) None 0.
Definition ex_dec (o : obj) : bool := is_some (get_method o).
Definition ex_run := run ex_dec ex_dec (fun _ => true).
Definition ex_m (a : action) := LMain a true 0.
Definition ex_r (n : nat) := repeat LReader n.
(** Two requests and a notification; the notification's handler asks the peer and waits, and a
    response comes; then the input ends. *)
Definition ex_input := [LObj (ex_req 7); LObj ex_notif; LObj (ex_resp 0); LObj (ex_req 8)].
Definition ex_schedule := ex_r 3 ++ [ex_m ASync] ++ ex_r 3 ++ [ex_m ASync; ex_m (AReturn (OOk (VU64 1)))] ++ [ex_m ASync; ex_m ASync; ex_m ASync; ex_m ASync; ex_m ASync; LFlight 0 true; LFlight 0 true] ++ ex_r 4 ++ [ex_m ASync; ex_m (AReturn OInvalid)] ++ ex_r 3 ++ [ex_m ASync; ex_m ASync; ex_m (AReturn (OOk (VU64 2))); LMain ASync false 0] ++ ex_r 5 ++ [ex_m ASync; ex_m ASync; ex_m ASync].
Example C38_run : match ex_run (initial ex_input) ex_schedule with Some st => (mn st, log st, resolved st, pending st) | None => (MNext, [], [], []) end =
  (MDone EDisconnect, [ECall (ex_req 7); EReturn (OOk (VU64 1)); EAnswer 7 (OOk (VU64 1)) true; ECall ex_notif; ECall (ex_req 8); EReturn (OOk (VU64 2)); EAnswer 8 (OOk (VU64 2)) false], [(0, OOk (VOther 0))], []).
Proof. vm_compute. reflexivity. Qed.
Example C38_hypotheses : Forall (fun l => forall ok now, l <> LMain APanic ok now) ex_schedule /\ (forall o, ex_dec o = true \/ ex_dec o = true -> get_method o <> None) /\ (forall o, In (LObj o) ex_input -> is_response o = true -> get_id o <> None).
Proof.
  split; [|split].
  - unfold ex_schedule, ex_r, ex_m. cbn [repeat app]. repeat constructor; intros; discriminate.
  - intros o. unfold ex_dec. destruct (get_method o); [discriminate|]. intros [?|?]; discriminate.
  - intros o Hi. cbn in Hi. decompose [or] Hi; try contradiction; match goal with H : LObj _ = LObj _ |- _ => injection H as <- end; cbn; discriminate.
Qed.
(** The states [C38_waiting], [C38_delivered] and [C38_sync_returns_partial] speak of. *)
Example C38_waiting_state : match ex_run (initial [LObj (ex_req 7)]) (ex_r 4 ++ [ex_m ASync; ex_m ASync; ex_m (AReturn OInvalid); ex_m ASync]) with Some st => (mn st, queue st, rd st, log st) | None => (MNext, [], RStop, []) end = (MNext, [], RRead, [ECall (ex_req 7); EReturn OInvalid; EAnswer 7 OInvalid true]).
Proof. vm_compute. reflexivity. Qed.
Example C38_sync_state : match ex_run (initial [LObj ex_notif]) (ex_r 4 ++ [ex_m ASync; ex_m ASync; ex_m ASync; ex_m ASync; LFlight 0 true; LFlight 0 true]) with Some st => (mn st, pending st, flights st, (rd st, dead st, inp st)) | None => (MNext, [], [], (RStop, true, [])) end = (MWait 0 WNotif, [(0, Chan)], [], (RRead, false, [])).
Proof. vm_compute. reflexivity. Qed.
Example C54_run : match ex_run (initial [LObj ex_notif]) (ex_r 3 ++ [ex_m ASync; ex_m ASync; ex_m (AIdle 3); ex_m (ATimer 9 4); ex_m (AIdle 5); ex_m (AReturn OInvalid); LMain ASync true 8; ex_m (AReturn OInvalid); LMain ASync true 10; ex_m (AReturn OInvalid); ex_m ASync]) with Some st => (ran st, fired st) | None => ([], []) end = ([3; 5], [(10, (9, 4))]).
Proof. vm_compute. reflexivity. Qed.

(** ** Where the code does not keep the property *)
Section Refuted.
Context (dec_req dec_notif : obj -> bool) (dec_err : value -> bool).
Notation step := (step dec_req dec_notif dec_err).
Notation run := (run dec_req dec_notif dec_err).
Lemma absent_app {A} k (l m : list (nat * A)) : absent k (l ++ m) = absent k l && absent k m.
Proof. unfold absent. now rewrite existsb_app, negb_orb. Qed.
Lemma absent_filter {A} k f (l : list (nat * A)) : absent k l = true -> absent k (filter f l) = true.
Proof. unfold absent. rewrite !negb_true_iff. intros H. apply not_true_iff_false. intros Hx. apply existsb_exists in Hx as (x & Hx & Ex). apply filter_In in Hx as [Hx _]. rewrite <- not_true_iff_false in H. apply H. apply existsb_exists. eauto. Qed.
Lemma take_absent {A} k j (l : list (nat * A)) a l' : absent k l = true -> take j l = Some (a, l') -> j <> k /\ absent k l' = true.
Proof.
  intros H E. unfold take in E. destruct (find (fun x => fst x =? j) l) as [[i b]|] eqn:Ef; [|discriminate]. injection E as <- <-. split; [|now apply absent_filter].
  intros ->. apply find_some in Ef as [Hi He]. unfold absent in H. apply negb_true_iff in H. rewrite <- not_true_iff_false in H. apply H. apply existsb_exists. eauto.
Qed.
(** Once the reader has stopped, a thread that waits for a request that was sent waits for ever. *)
Lemma waits_for_ever st id w : rd st = RStop -> mn st = MWait id w -> absent id (flights st) = true -> absent id (resolved st) = true -> id < next_id st ->
  forall ls st', run st ls = Some st' -> mn st' = MWait id w /\ absent id (resolved st') = true.
Proof.
  intros H1 H2 H3 H4 H5. set (P := fun st => rd st = RStop /\ mn st = MWait id w /\ absent id (flights st) = true /\ absent id (resolved st) = true /\ id < next_id st).
  assert (Hs : forall s l s', P s -> step s l = Some s' -> P s').
  { clear. intros s l s' (A & B & C & D & F) E. destruct l as [|a ok now|h|token|i ok]; cbn [RpcModel.step] in E.
    - unfold step_reader in E. rewrite A in E. discriminate.
    - unfold step_main in E. rewrite B, C, D in E. discriminate.
    - injection E as <-. unfold P. cbn. rewrite absent_app. unfold absent at 2. cbn. rewrite C. replace (next_id s =? id) with false by lia. cbn. auto 8.
    - injection E as <-. unfold P. auto.
    - unfold fly in E. destruct (take i (flights s)) as [[g f]|] eqn:Et; [|discriminate]. destruct (take_absent _ _ _ _ _ C Et) as [Hi Hf]. cbn [bind] in E. assert (Hn : forall g', absent id (f ++ [(i, g')]) = true) by (intros g'; rewrite absent_app, Hf; unfold absent; cbn; replace (i =? id) with false by lia; reflexivity).
      assert (Hr : forall r, absent id (resolved s ++ [(i, r)]) = true) by (intros g'; rewrite absent_app, D; unfold absent; cbn; replace (i =? id) with false by lia; reflexivity).
      destruct g as [h| |]; [destruct (dead s); [discriminate|]; injection E as <-; unfold P; cbn; auto 8| |discriminate].
      destruct ok; [injection E as <-; unfold P; cbn; auto 8|]. destruct (dead s); [discriminate|]. destruct (take i (pending s)) as [[h p]|]; [|injection E as <-; unfold P; cbn; auto 8]. destruct h as [|[|]]; injection E as <-; unfold P; cbn; auto 8. }
  intros ls st' E. destruct (run_inv_gen _ _ _ P Hs ls st st' (conj H1 (conj H2 (conj H3 (conj H4 H5)))) E) as (_ & A & _ & B & _). auto.
Qed.
(** Once a callback has deadlocked, the loop does not end. *)
Lemma dead_for_ever st e : dead st = true -> mn st = MDisc e -> forall ls st', run st ls = Some st' -> mn st' = MDisc e.
Proof.
  intros H1 H2. set (P := fun st => dead st = true /\ mn st = MDisc e).
  assert (Hs : forall s l s', P s -> step s l = Some s' -> P s').
  { clear. intros s l s' (A & B) E. destruct l as [|a ok now|h|token|i ok]; cbn [RpcModel.step] in E.
    - unfold step_reader in E. destruct (rd s) as [| |x|x|x|id r|id h r|id| |]; try discriminate; rewrite ?A in E; try discriminate.
      + injection E as <-. split; auto.
      + destruct (read_next (inp s)). injection E as <-. split; auto.
      + injection E as <-. split; auto.
      + injection E as <-. split; auto.
      + injection E as <-. destruct h as [|[|]]; split; auto.
      + destruct (absent _ _); [|discriminate]. injection E as <-. split; auto.
    - unfold step_main in E. rewrite B, A in E. discriminate.
    - injection E as <-. split; auto.
    - injection E as <-. split; auto.
    - unfold fly in E. destruct (take i (flights s)) as [[g f]|]; [|discriminate]. cbn [bind] in E. rewrite A in E. destruct g; try discriminate. destruct ok; [|discriminate]. injection E as <-. split; auto. }
  intros ls st' E. now destruct (run_inv_gen _ _ _ P Hs ls st st' (conj H1 H2) E).
Qed.
(** Once the reader has panicked, the loop does not end. *)
Definition goes_on (m : rpc_main) : Prop := match m with MNext | MHandle WIdle | MSync WIdle | MWait _ WIdle | MSend _ WIdle | MUnwind | MPanic => True | _ => False end.
Lemma panicked_for_ever st : rd st = RPanic -> queue st = [] -> mn st = MNext -> forall ls st', run st ls = Some st' -> forall e, mn st' <> MDone e.
Proof.
  intros H1 H2 H3. set (P := fun st => rd st = RPanic /\ queue st = [] /\ goes_on (mn st)).
  assert (Hs : forall s l s', P s -> step s l = Some s' -> P s').
  { clear. intros s l s' (A & B & C) E. destruct l as [|a ok now|h|token|i ok]; cbn [RpcModel.step] in E.
    - unfold step_reader in E. rewrite A in E. discriminate.
    - unfold step_main in E. rewrite B in E. destruct (mn s) as [|x|w|w|id w|id w|id r|x| |x|] eqn:En; try (cbn in C; contradiction); try (destruct w; try contradiction).
      + destruct (check_timers now (timers s)) as [[y t]|]; [injection E as <-; repeat split; auto|]. destruct (idle s); [discriminate|]. injection E as <-; repeat split; auto.
      + injection E as <-. destruct a; unfold P; cbn; rewrite ?En; auto.
      + injection E as <-. repeat split; auto.
      + destruct (_ && _); [|discriminate]. injection E as <-. repeat split; auto.
      + destruct (absent _ _); [|discriminate]. injection E as <-. repeat split; auto.
      + destruct (dead s); [discriminate|]. unfold disconnect in E. destruct (disconnect_loop_view (pending s) s) as (_ & V2 & V3 & V4 & _). destruct (dead (disconnect_loop s (pending s))); injection E as <-; unfold P; cbn; rewrite V2, V3, ?V4, ?En; auto.
      + discriminate.
    - injection E as <-. unfold P. cbn. auto.
    - injection E as <-. unfold P. cbn. auto.
    - apply fly_view in E as (_ & V2 & V3 & V4 & _). unfold P. rewrite V2, V3, V4. auto. }
  intros ls st' E x Hx. assert (HP : P st) by (unfold P; rewrite H3; cbn; auto). destruct (run_inv_gen _ _ _ P Hs ls st st' HP E) as (_ & _ & G). rewrite Hx in G. exact G.
Qed.
End Refuted.

Definition ex_state (l : list line) (ls : list label) : state := match ex_run (initial l) ls with Some st => st | None => initial [] end.
Ltac ex_state l ls := exists (ex_state l ls); split; [vm_compute; reflexivity|].
(** A handler that asks the peer and waits when the reader has already seen the end of the input
    is never told: it waits for ever, and the loop does not end. *)
Definition ex_late := ex_r 6 ++ [LReader; ex_m ASync; ex_m ASync; ex_m ASync; ex_m ASync; LFlight 0 true; LFlight 0 true].
Theorem C38_late_request_refuted : exists l ls st, ex_run (initial l) ls = Some st /\ inp st = [] /\ forall ls' st', ex_run st ls' = Some st' -> mn st' = MWait 0 WNotif /\ absent 0 (resolved st') = true.
Proof. exists [LObj ex_notif], ex_late. ex_state [LObj ex_notif] ex_late. split; [vm_compute; reflexivity|]. apply waits_for_ever; vm_compute; auto. Qed.
(** The same when the input ends while the request is being sent. *)
Definition ex_race := ex_r 3 ++ [ex_m ASync; ex_m ASync; ex_m ASync] ++ ex_r 5 ++ [ex_m ASync; LFlight 0 true; LFlight 0 true].
Theorem C38_race_refuted : exists l ls st, ex_run (initial l) ls = Some st /\ blocked st = true /\ forall ls' st', ex_run st ls' = Some st' -> mn st' = MWait 0 WNotif /\ absent 0 (resolved st') = true.
Proof. exists [LObj ex_notif], ex_race. ex_state [LObj ex_notif] ex_race. split; [vm_compute; reflexivity|]. apply waits_for_ever; vm_compute; auto. Qed.
(** A response whose id is no number stops the reader, and the loop never ends. *)
Definition ex_bad := Obj (Some (VStr 3)) None (Some (VOther 0)) None 0.
Theorem C38_response_id_refuted : exists l ls st, ex_run (initial l) ls = Some st /\ rd st = RPanic /\ forall ls' st', ex_run st ls' = Some st' -> forall e, mn st' <> MDone e.
Proof. exists [LObj ex_bad], (ex_r 2). ex_state [LObj ex_bad] (ex_r 2). split; [vm_compute; reflexivity|]. apply panicked_for_ever; vm_compute; auto. Qed.
(** A callback that sends a request when it is told that the connection ended waits for ever, and
    so does the loop. *)
Definition ex_again := [LStart (Callback true); LFlight 0 true; LFlight 0 true] ++ ex_r 4 ++ [ex_m ASync; ex_m ASync; ex_m ASync].
Theorem C38_callback_refuted : exists ls st, ex_run (initial []) ls = Some st /\ resolved st = [(0, ODisconnect)] /\ forall ls' st', ex_run st ls' = Some st' -> mn st' = MDisc EDisconnect.
Proof. exists ex_again. ex_state (@nil line) ex_again. split; [vm_compute; reflexivity|]. apply dead_for_ever; vm_compute; auto. Qed.
(** A request whose id is no number is handled as a notification, and is not answered. *)
Definition ex_strid := Obj (Some (VStr 3)) (Some (VStr 1)) None None 0.
Definition ex_unanswered := ex_r 7 ++ [ex_m ASync; ex_m ASync; ex_m (AReturn (OOk (VU64 1))); ex_m ASync; ex_m ASync; ex_m ASync].
Theorem C38_request_id_refuted : exists ls st, ex_run (initial [LObj ex_strid]) ls = Some st /\ is_response ex_strid = false /\ mn st = MDone EDisconnect /\ log st = [ECall ex_strid].
Proof. exists ex_unanswered. ex_state [LObj ex_strid] ex_unanswered. vm_compute. auto. Qed.
Print Assumptions C38_late_request_refuted.
Print Assumptions C38_race_refuted.
Print Assumptions C38_response_id_refuted.
Print Assumptions C38_callback_refuted.
Print Assumptions C38_request_id_refuted.
(** A response with a result and an error says nothing. *)
Example C38_ex_says : get_id (Obj (Some (VU64 0)) None (Some (VOther 1)) (Some (VOther 2)) 0) = Some 0 /\
  into_response (fun _ => true) (Obj (Some (VU64 0)) None (Some (VOther 1)) (Some (VOther 2)) 0) = OInvalid /\
  into_response (fun _ => true) (Obj (Some (VU64 0)) None (Some (VOther 1)) None 0) = OOk (VOther 1).
Proof. vm_compute. auto. Qed.
