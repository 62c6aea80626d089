(** Invariants of the RPC loop. *)
From Coq Require Import List Arith Lia Bool ZifyBool Permutation.
From Verif Require Import Base ListLib RpcModel RpcSpec.
Import ListNotations.

Section Rpc.
Context (dec_req dec_notif : obj -> bool) (dec_err : value -> bool).
Notation step := (step dec_req dec_notif dec_err).
Notation run := (run dec_req dec_notif dec_err).
Notation handled := (handled dec_req dec_notif).
Notation step_main := (step_main dec_req dec_notif).
Notation step_reader := (step_reader dec_err).

(** ** What the messages go through *)
Definition rerr_of (e : rerr) : option rerr := match e with EUnknown => None | _ => Some e end.
Definition carries_why (w : why) : option rerr := match w with WLast e => rerr_of e | _ => None end.
Definition carries (m : rpc_main) : option rerr :=
  match m with
  | MGot (inr e) | MDisc e | MDone e => rerr_of e
  | MHandle w | MSync w | MWait _ w | MSend _ w => carries_why w
  | _ => None
  end.
Definition live (r : rpc_reader) : bool := match r with RTop | RRead | RPut (inl _) | RResp _ _ | RInvoke _ _ _ | RCall _ => true | _ => false end.
Definition reading (r : rpc_reader) : list obj := match r with RPut (inl o) => [o] | _ => [] end.
Definition erring (r : rpc_reader) (e : rerr) : Prop := r = RErr e \/ r = RDisc e \/ r = RPut (inr e).
Definition at_why (w : why) (cur : list obj) (part : list event) : Prop :=
  match w with
  | WReq id => exists o, cur = [o] /\ part = [ECall o] /\ get_id o = Some id /\ dec_req o = true
  | WLast e => cur = [] /\ part = [] /\ e <> EUnknown
  | _ => cur = [] /\ part = []
  end.
Definition at_main (m : rpc_main) (cur : list obj) (part : list event) : Prop :=
  match m with
  | MNext => cur = [] /\ part = []
  | MGot (inl o) => cur = [o] /\ part = []
  | MGot (inr e) => cur = [] /\ part = [] /\ e <> EUnknown
  | MHandle w | MSync w | MWait _ w | MSend _ w => at_why w cur part
  | MRespond id r => exists o, cur = [o] /\ get_id o = Some id /\ (part = [ECall o; EReturn r] /\ dec_req o = true \/ part = [] /\ dec_req o = false /\ r = OInvalid)
  | MDisc e | MDone e => part = [] /\ (e <> EUnknown /\ cur = [] \/ e = EUnknown /\ exists o, cur = [o])
  | MUnwind | MPanic => cur = [] /\ part = [] \/ exists o, cur = [o] /\ (part = [] \/ part = [ECall o])
  end.
Definition is_call (o : obj) : bool := negb (is_response o).
Definition phase (l0 i : list line) (r : rpc_reader) (q : list (obj + rerr)) (m : rpc_main) (done : list obj) : Prop :=
  (exists os c, live r = true /\ q = map inl os /\ carries m = None /\ l0 = map LObj c ++ i /\ filter is_call c = done ++ os ++ reading r) \/
  (exists e os, erring r e /\ e <> EUnknown /\ q = map inl os /\ carries m = None /\ calls l0 = done ++ os) \/
  (exists e os, r = RStop /\ e <> EUnknown /\ q = map inl os ++ [inr e] /\ carries m = None /\ calls l0 = done ++ os) \/
  (exists e, r = RStop /\ q = [] /\ carries m = Some e /\ calls l0 = done) \/
  (exists os rest, (r = RStop \/ r = RPanic) /\ q = map inl os /\ carries m = None /\ calls l0 = done ++ os ++ rest).
Definition inv (l0 i : list line) (r : rpc_reader) (q : list (obj + rerr)) (m : rpc_main) (lg : list event) : Prop :=
  exists taken cur done part, handled taken done /\ lg = done ++ part /\ at_main m cur part /\ phase l0 i r q m (taken ++ cur).
Definition inv_st (l0 : list line) (st : state) : Prop := inv l0 (inp st) (rd st) (queue st) (mn st) (log st).

Lemma readable_app c i : readable (map LObj c ++ i) = c ++ readable i.
Proof. induction c as [|o c IH]; cbn; auto. now rewrite IH. Qed.
Lemma calls_app c i : calls (map LObj c ++ i) = filter is_call c ++ calls i.
Proof. unfold calls. now rewrite readable_app, filter_app. Qed.
Lemma phase_main l0 i r q m m' done done' : phase l0 i r q m done -> carries m' = carries m -> done' = done -> phase l0 i r q m' done'.
Proof.
  intros H E ->. unfold phase in *. rewrite E. exact H.
Qed.
Lemma disconnect_loop_view l : forall st, inp (disconnect_loop st l) = inp st /\ rd (disconnect_loop st l) = rd st /\ queue (disconnect_loop st l) = queue st /\ mn (disconnect_loop st l) = mn st /\ log (disconnect_loop st l) = log st.
Proof.
  induction l as [|[id h] l IH]; intros st; cbn [disconnect_loop]; [auto|]. destruct h as [|[|]]; cbn; try apply (IH (resolve (set_pending st l) id ODisconnect)). auto.
Qed.
Lemma fly_view st id ok st' : fly st id ok = Some st' -> inp st' = inp st /\ rd st' = rd st /\ queue st' = queue st /\ mn st' = mn st /\ log st' = log st.
Proof.
  unfold fly. destruct (take id (flights st)) as [[s f]|]; [|discriminate]. cbn [bind]. destruct s as [h| |]; [destruct (dead st); [discriminate|]; intros E; injection E as <-; auto| |discriminate].
  destruct ok; [intros E; injection E as <-; auto|]. destruct (dead st); [discriminate|]. destruct (take id (pending st)) as [[h p]|]; [|intros E; injection E as <-; auto]. destruct h as [|[|]]; intros E; injection E as <-; auto.
Qed.
Lemma reader_inv l0 st st' : inv_st l0 st -> step_reader st = Some st' -> inv_st l0 st'.
Proof.
  unfold inv_st. intros (taken & cur & done & part & Hh & Hl & Ha & Hp) E. unfold RpcModel.step_reader in E.
  assert (Fin : forall i' r' q', inp st' = i' -> rd st' = r' -> queue st' = q' -> mn st' = mn st -> log st' = log st -> phase l0 i' r' q' (mn st) (taken ++ cur) -> inv l0 (inp st') (rd st') (queue st') (mn st') (log st')).
  { intros i' r' q' -> -> -> -> -> Hp'. exists taken, cur, done, part. auto. }
  destruct (rd st) as [| |e|e|x|id r|id h r|id| |] eqn:Er; try discriminate.
  - injection E as <-. eapply Fin; try reflexivity. cbn. destruct Hp as [(os & c & L & Hq & Hc & Hi & Hf)|[(e & os & [H|[H|H]] & _)|[(e & os & H & _)|[(e & H & _)|(os & rest & [H|H] & _)]]]]; try discriminate. destruct (needs_exit st).
    + do 4 right. exists os, (calls (inp st)). rewrite app_nil_r in Hf. split; auto. split; auto. split; auto. rewrite Hi, calls_app, Hf, <- app_assoc. reflexivity.
    + left. exists os, c. auto 6.
  - destruct Hp as [(os & c & L & Hq & Hc & Hi & Hf)|[(e & os & [H|[H|H]] & _)|[(e & os & H & _)|[(e & H & _)|(os & rest & [H|H] & _)]]]]; try discriminate. cbn [reading] in Hf. rewrite app_nil_r in Hf.
    destruct (inp st) as [|[| |o] i'] eqn:Ei; cbn [read_next] in E; injection E as <-.
    + eapply Fin; try reflexivity. cbn. right. left. exists EDisconnect, os. split; [now left|]. split; [discriminate|]. split; auto. split; auto. rewrite Hi, calls_app, Hf, app_nil_r. reflexivity.
    + eapply Fin; try reflexivity. cbn. right. left. exists EBad, os. split; [now left|]. split; [discriminate|]. split; auto. split; auto. rewrite Hi, calls_app, Hf, app_nil_r. reflexivity.
    + eapply Fin; try reflexivity. cbn. right. left. exists ENotObject, os. split; [now left|]. split; [discriminate|]. split; auto. split; auto. rewrite Hi, calls_app, Hf, app_nil_r. reflexivity.
    + eapply Fin; try reflexivity. cbn. assert (Hi' : l0 = map LObj (c ++ [o]) ++ i') by (rewrite map_app, <- app_assoc; exact Hi). destruct (is_response o) eqn:Eo.
      * assert (Hf' : filter is_call (c ++ [o]) = (taken ++ cur) ++ os) by (rewrite filter_app; cbn; unfold is_call at 2; rewrite Eo; cbn; rewrite app_nil_r; exact Hf).
        destruct (get_id o) as [id|]; [left; exists os, (c ++ [o]); cbn [reading]; rewrite app_nil_r; auto 6|]. do 4 right. exists os, (calls i'). split; auto. split; auto. split; auto. rewrite Hi', calls_app, Hf', <- app_assoc. reflexivity.
      * left. exists os, (c ++ [o]). split; auto. split; auto. split; auto. split; auto. rewrite filter_app. cbn. unfold is_call at 2. rewrite Eo. cbn. rewrite Hf, <- app_assoc. reflexivity.
  - injection E as <-. eapply Fin; try reflexivity. cbn. destruct Hp as [(os & c & L & _)|[(e' & os & Hr & He & Hq & Hc & Hf)|[(e' & os & H & _)|[(e' & H & _)|(os & rest & [H|H] & _)]]]]; try discriminate.
    right. left. exists e', os. split; auto. destruct Hr as [Hr|[Hr|Hr]]; try discriminate. injection Hr as <-. unfold erring. destruct (blocked st); auto.
  - destruct (dead st); [discriminate|]. pose proof (disconnect_loop_view (pending st) st) as (V1 & V2 & V3 & V4 & V5). unfold disconnect in E. destruct Hp as [(os & c & L & _)|[(e' & os & Hr & He & Hq & Hc & Hf)|[(e' & os & H & _)|[(e' & H & _)|(os & rest & [H|H] & _)]]]]; try discriminate.
    destruct (dead (disconnect_loop st (pending st))); injection E as <-.
    + eapply Fin; try reflexivity; auto. rewrite V2, V3, Er. right. left. exists e', os. auto.
    + eapply Fin; cbn; try reflexivity; auto. right. left. exists e', os. split; auto; [|rewrite V3; auto]. destruct Hr as [Hr|[Hr|Hr]]; try discriminate. injection Hr as <-. unfold erring. auto.
  - injection E as <-. eapply Fin; try reflexivity. destruct x as [o|e]; cbn [set_reader push queue inp].
    + destruct Hp as [(os & c & L & Hq & Hc & Hi & Hf)|[(e & os & [H|[H|H]] & _)|[(e & os & H & _)|[(e & H & _)|(os & rest & [H|H] & _)]]]]; try discriminate. left. exists (os ++ [o]), c. cbn [reading] in *. split; auto. split; [rewrite map_app, Hq; reflexivity|]. split; auto. split; auto. rewrite app_nil_r. exact Hf.
    + destruct Hp as [(os & c & L & _)|[(e' & os & Hr & He & Hq & Hc & Hf)|[(e' & os & H & _)|[(e' & H & _)|(os & rest & [H|H] & _)]]]]; try discriminate. destruct Hr as [Hr|[Hr|Hr]]; try discriminate. injection Hr as ->. right. right. left. exists e', os. rewrite Hq. auto 6.
  - destruct (dead st); [discriminate|]. injection E as <-. destruct Hp as [(os & c & L & Hq & Hc & Hi & Hf)|[(e & os & [H|[H|H]] & _)|[(e & os & H & _)|[(e & H & _)|(os & rest & [H|H] & _)]]]]; try discriminate.
    destruct (take id (pending st)) as [[h p]|]; (eapply Fin; try reflexivity; cbn; left; exists os, c; auto 6).
  - injection E as <-. destruct Hp as [(os & c & L & Hq & Hc & Hi & Hf)|[(e & os & [H|[H|H]] & _)|[(e & os & H & _)|[(e & H & _)|(os & rest & [H|H] & _)]]]]; try discriminate.
    destruct h as [|[|]]; (eapply Fin; try reflexivity; cbn; left; exists os, c; auto 6).
  - destruct (absent id (flights st)); [|discriminate]. injection E as <-. destruct Hp as [(os & c & L & Hq & Hc & Hi & Hf)|[(e & os & [H|[H|H]] & _)|[(e & os & H & _)|[(e & H & _)|(os & rest & [H|H] & _)]]]]; try discriminate.
    eapply Fin; try reflexivity; cbn; left; exists os, c; auto 6.
Qed.
Lemma rerr_known e : e <> EUnknown -> rerr_of e = Some e.
Proof. destruct e; auto. congruence. Qed.
Lemma main_inv l0 st a ok now st' : inv_st l0 st -> step_main st a ok now = Some st' -> inv_st l0 st'.
Proof.
  unfold inv_st. intros (taken & cur & done & part & Hh & Hl & Ha & Hp) E. unfold RpcModel.step_main in E.
  assert (Fin : forall m' lg' taken' cur' done' part', inp st' = inp st -> rd st' = rd st -> queue st' = queue st -> mn st' = m' -> log st' = lg' -> handled taken' done' -> lg' = done' ++ part' -> at_main m' cur' part' ->
    carries m' = carries (mn st) -> taken' ++ cur' = taken ++ cur -> inv l0 (inp st') (rd st') (queue st') (mn st') (log st')).
  { intros m' lg' taken' cur' done' part' -> -> -> -> -> A B C D F. exists taken', cur', done', part'. split; auto. split; auto. split; auto. eapply phase_main; eauto. }
  destruct (mn st) as [|[o|e]|w|w|id w|id w|id r|e| |e|] eqn:Em; try discriminate.
  - destruct Ha as [-> ->]. destruct (queue st) as [|x q] eqn:Eq.
    + destruct (check_timers now (timers st)) as [[x t]|]; [injection E as <-; eapply (Fin (MHandle WIdle) (log st) taken [] done []); cbn; auto|].
      destruct (idle st) as [|token i]; [discriminate|]. injection E as <-. eapply (Fin (MHandle WIdle) (log st) taken [] done []); cbn; auto.
    + injection E as <-. cbn. destruct Hp as [(os & c & L & Hq & Hc & Hi & Hf)|[(e & os & Hr & He & Hq & Hc & Hf)|[(e & os & Hr & He & Hq & Hc & Hf)|[(e & Hr & Hq & _)|(os & rest & Hr & Hq & Hc & Hf)]]]]; [| | |discriminate|]; rewrite app_nil_r in Hf.
      * destruct os as [|o os]; [discriminate|]. injection Hq as -> ->. exists taken, [o], done, []. split; auto. split; auto. split; [split; auto|]. left. exists os, c. split; auto. split; auto. split; auto. split; auto. rewrite Hf, <- app_assoc. reflexivity.
      * destruct os as [|o os]; [discriminate|]. injection Hq as -> ->. exists taken, [o], done, []. split; auto. split; auto. split; [split; auto|]. right. left. exists e, os. split; auto. split; auto. split; auto. split; auto. rewrite Hf, <- app_assoc. reflexivity.
      * destruct os as [|o os]; cbn in Hq; injection Hq as -> ->.
        -- exists taken, [], done, []. split; auto. split; auto. split; [split; auto|]. do 3 right. left. exists e. cbn. rewrite rerr_known by auto. split; auto.
        -- exists taken, [o], done, []. split; auto. split; auto. split; [split; auto|]. right. right. left. exists e, os. split; auto. split; auto. split; auto. split; auto. rewrite Hf, <- app_assoc. reflexivity.
      * destruct os as [|o os]; [discriminate|]. injection Hq as -> ->. exists taken, [o], done, []. split; auto. split; auto. split; [split; auto|]. do 4 right. exists os, rest. split; auto. split; auto. split; auto. rewrite Hf, <- app_assoc. reflexivity.
  - destruct Ha as [-> ->]. unfold into_rpc in E. destruct (get_id o) as [id|] eqn:Eid; [destruct (dec_req o) eqn:Ed|destruct (dec_notif o) eqn:Ed]; [destruct (is_some (get_method o))| |destruct (is_some (get_method o))|]; injection E as <-.
    + eapply (Fin (MHandle (WReq id)) (log st ++ [ECall o]) taken [o] done [ECall o]); cbn; auto; [rewrite Hl, app_nil_r; auto|]. exists o. auto.
    + eapply (Fin MUnwind (log st) taken [o] done []); cbn; auto. right. exists o. auto.
    + eapply (Fin (MRespond id OInvalid) (log st) taken [o] done []); cbn; auto. exists o. auto 6.
    + eapply (Fin (MHandle WNotif) (log st ++ [ECall o]) (taken ++ [o]) [] (done ++ [ECall o]) []); cbn; auto; [constructor; auto|rewrite Hl, !app_nil_r; auto|]. now rewrite app_nil_r.
    + eapply (Fin MUnwind (log st) taken [o] done []); cbn; auto. right. exists o. auto.
    + eapply (Fin (MDisc EUnknown) (log st) taken [o] done []); cbn; auto. split; auto. right. eauto.
  - destruct Ha as (-> & -> & He). destruct (idle st) as [|token i]; injection E as <-; [eapply (Fin (MDisc e) (log st) taken [] done []); cbn; auto|eapply (Fin (MHandle (WLast e)) (log st) taken [] done []); cbn; auto].
  - destruct a as [again| |token|t token|r|]; injection E as <-; try (eapply (Fin _ (log st) taken cur done part); cbn; eauto; fail).
    + destruct w as [id| | |e]; cbn [returned at_main at_why] in *.
      * destruct Ha as (o & -> & -> & Hid & Hd). eapply (Fin (MRespond id r) (log st ++ [EReturn r]) taken [o] done [ECall o; EReturn r]); cbn; auto; [rewrite Hl, <- app_assoc; auto|]. exists o. auto.
      * destruct Ha as [-> ->]. eapply (Fin MNext (log st) taken [] done []); cbn; auto.
      * destruct Ha as [-> ->]. eapply (Fin MNext (log st) taken [] done []); cbn; auto.
      * destruct Ha as (-> & -> & He). eapply (Fin (MDisc e) (log st) taken [] done []); cbn; auto.
    + destruct w as [id| | |e]; cbn [at_main at_why] in Ha.
      * destruct Ha as (o & -> & -> & Hid & Hd). eapply (Fin MUnwind (log st) taken [o] done [ECall o]); cbn; eauto.
      * destruct Ha as [-> ->]. eapply (Fin MUnwind (log st) taken [] done []); cbn; auto.
      * destruct Ha as [-> ->]. eapply (Fin MUnwind (log st) taken [] done []); cbn; auto.
      * destruct Ha as (-> & -> & He). exists taken, [], done, []. split; auto. split; auto. split; [cbn; auto|]. cbn.
        destruct Hp as [(os & c & _ & _ & Hc & _)|[(e' & os & _ & _ & _ & Hc & _)|[(e' & os & _ & _ & _ & Hc & _)|[(e' & Hr & Hq & Hc & Hf)|(os & rest & _ & _ & Hc & _)]]]]; cbn in Hc; rewrite ?rerr_known in Hc by auto; try discriminate.
        do 4 right. exists [], []. split; auto. split; auto. split; auto. now rewrite !app_nil_r in *.
  - injection E as <-. eapply (Fin (MWait (next_id st) w) (log st) taken cur done part); cbn; auto.
  - destruct (_ && _); [|discriminate]. injection E as <-. eapply (Fin (MHandle w) (log st) taken cur done part); cbn; auto.
  - destruct (absent _ _); [|discriminate]. injection E as <-. eapply (Fin (MHandle w) (log st) taken cur done part); cbn; auto.
  - destruct Ha as (o & -> & Hid & Hc). injection E as <-. destruct Hc as [(-> & Hd)|(-> & Hd & ->)].
    + eapply (Fin MNext (log st ++ [EAnswer id r ok]) (taken ++ [o]) [] (done ++ [ECall o; EReturn r; EAnswer id r ok]) []); cbn; auto; [constructor; auto|rewrite Hl, app_nil_r, <- app_assoc; auto|now rewrite app_nil_r].
    + eapply (Fin MNext (log st ++ [EAnswer id OInvalid ok]) (taken ++ [o]) [] (done ++ [EAnswer id OInvalid ok]) []); cbn; auto; [apply h_invalid; auto|rewrite Hl, !app_nil_r; auto|now rewrite app_nil_r].
  - destruct (dead st); [discriminate|]. pose proof (disconnect_loop_view (pending st) st) as (V1 & V2 & V3 & V4 & V5). unfold disconnect in E. destruct (dead (disconnect_loop st (pending st))); injection E as <-.
    + eapply (Fin (MDisc e) (log st) taken cur done part); auto. now rewrite V4.
    + eapply (Fin (MDone e) (log st) taken cur done part); cbn; auto.
  - destruct (dead st); [discriminate|]. pose proof (disconnect_loop_view (pending st) st) as (V1 & V2 & V3 & V4 & V5). unfold disconnect in E. destruct (dead (disconnect_loop st (pending st))); injection E as <-.
    + eapply (Fin MUnwind (log st) taken cur done part); auto. now rewrite V4.
    + eapply (Fin MPanic (log st) taken cur done part); cbn; auto.
Qed.
Lemma step_inv l0 st l st' : inv_st l0 st -> step st l = Some st' -> inv_st l0 st'.
Proof.
  intros H E. destruct l as [|a ok now|h|token|id ok]; cbn [RpcModel.step] in E; [eapply reader_inv; eauto|eapply main_inv; eauto|injection E as <-; exact H|injection E as <-; exact H|].
  apply fly_view in E as (A & B & C & D & F). unfold inv_st. rewrite A, B, C, D, F. exact H.
Qed.
Lemma run_inv_gen (P : state -> Prop) : (forall st l st', P st -> step st l = Some st' -> P st') -> forall ls st st', P st -> run st ls = Some st' -> P st'.
Proof.
  intros Hs. induction ls as [|x ls IH]; intros st st' H E; cbn [RpcModel.run] in E; [congruence|]. destruct (step st x) as [st1|] eqn:E1; [|discriminate]. eapply IH; [eapply Hs; eauto|exact E].
Qed.
Lemma run_inv l0 ls st : run (initial l0) ls = Some st -> inv_st l0 st.
Proof.
  apply (run_inv_gen (inv_st l0) (step_inv l0)). exists [], [], [], []. split; [constructor|]. split; auto. split; [cbn; auto|]. left. exists [], []. cbn. auto.
Qed.

(** ** What the requests of this side go through *)
Definition allocs (f : list (nat * stage)) : list nat := flat_map (fun x => match snd x with SAlloc _ => [fst x] | _ => [] end) f.
Definition told (r : rpc_reader) : list nat := match r with RInvoke id _ _ => [id] | _ => [] end.
Definition places (st : state) : list nat := allocs (flights st) ++ map fst (pending st) ++ told (rd st) ++ map fst (resolved st).
Definition from (l0 : list line) (id : nat) (r : outcome) : Prop := r = ODisconnect \/ r = OIo \/ reply dec_err l0 id r.
Definition inv2 (l0 : list line) (st : state) : Prop :=
  Permutation (places st) (seq 0 (next_id st)) /\ NoDup (map fst (flights st)) /\ Forall (fun x => fst x < next_id st) (flights st) /\
  (exists pre, l0 = pre ++ inp st) /\ Forall (fun x => from l0 (fst x) (snd x)) (resolved st) /\
  match rd st with RResp id r | RInvoke id _ r => reply dec_err l0 id r | _ => True end.
Lemma take_perm {A} id (l : list (nat * A)) a l' : NoDup (map fst l) -> take id l = Some (a, l') -> Permutation l ((id, a) :: l').
Proof.
  intros N. unfold take. destruct (find (fun x => fst x =? id) l) as [[k b]|] eqn:E; [|discriminate]. intros H. injection H as -> <-. revert N E. induction l as [|[k' b'] l IH]; intros N E; cbn [find fst filter negb] in *; [discriminate|]. inversion N as [|x y Hn N']; subst.
  destruct (k' =? id) eqn:Ek; cbn [negb].
  - apply Nat.eqb_eq in Ek. subst k'. injection E as _ ->. apply perm_skip. assert (Ef : filter (fun x => negb (fst x =? id)) l = l); [|now rewrite Ef].
    clear -Hn. induction l as [|[k b] l IH]; cbn in *; auto. destruct (k =? id) eqn:Ek; [apply Nat.eqb_eq in Ek; subst; exfalso; auto|]. cbn. f_equal. auto.
  - eapply perm_trans; [apply perm_skip, (IH N' E)|apply perm_swap].
Qed.
Lemma allocs_app f g : allocs (f ++ g) = allocs f ++ allocs g.
Proof. unfold allocs. now rewrite flat_map_app. Qed.
Lemma allocs_perm f g : Permutation f g -> Permutation (allocs f) (allocs g).
Proof. intros H. unfold allocs. now apply Permutation_flat_map. Qed.
Lemma allocs_incl f x : In x (allocs f) -> In x (map fst f).
Proof. unfold allocs. intros H. apply in_flat_map in H as ([k s] & Hi & H). apply in_map_iff. exists (k, s). split; auto. destruct s; cbn in *; intuition. Qed.
Lemma start_perm P n : Permutation P (seq 0 n) -> Permutation (n :: P) (seq 0 (S n)).
Proof. intros H. rewrite seq_S. cbn [Nat.add]. rewrite H. apply Permutation_cons_append. Qed.
Lemma nodup_app_l {A} (a b : list A) : NoDup (a ++ b) -> NoDup a.
Proof. induction a as [|x a IH]; cbn; intros H; [constructor|]. inversion H as [|y z H1 H2]; subst. constructor; auto. intros Hx. apply H1. apply in_or_app. now left. Qed.
Lemma nodup_app_r {A} (a b : list A) : NoDup (a ++ b) -> NoDup b.
Proof. induction a as [|x a IH]; cbn; intros H; auto. inversion H; auto. Qed.
Lemma nodup_pending st : Permutation (places st) (seq 0 (next_id st)) -> NoDup (map fst (pending st)).
Proof.
  intros H. assert (N : NoDup (places st)) by (eapply Permutation_NoDup; [symmetry; exact H|apply seq_NoDup]). unfold places in N. clear H. apply nodup_app_r in N. now apply nodup_app_l in N.
Qed.
Lemma inv2_same l0 st st' : inv2 l0 st -> rd st' = rd st -> next_id st' = next_id st -> pending st' = pending st -> flights st' = flights st -> inp st' = inp st -> resolved st' = resolved st -> inv2 l0 st'.
Proof. unfold inv2, places. intros H -> -> -> -> -> ->. exact H. Qed.
Lemma inv2_reader l0 st r : inv2 l0 st -> told (rd st) = [] -> told r = [] -> match r with RResp id o | RInvoke id _ o => reply dec_err l0 id o | _ => True end -> inv2 l0 (set_reader st r).
Proof. unfold inv2, places. cbn. intros (A & B & C & D & E & F) H1 H2 Hr. rewrite H1 in A. rewrite H2. auto 6. Qed.
Lemma inv2_start l0 st h : inv2 l0 st -> inv2 l0 (start st h).
Proof.
  unfold inv2, places. cbn. intros (A & B & C & D & E & F). split.
  - rewrite allocs_app. cbn. rewrite <- app_assoc. cbn. rewrite <- Permutation_middle. now apply start_perm.
  - split; [|split; [|auto]].
    + rewrite map_app. cbn. eapply Permutation_NoDup; [apply Permutation_cons_append|]. constructor; auto. intros H. apply in_map_iff in H as (x & Ex & Hx). rewrite Forall_forall in C. specialize (C x Hx). lia.
    + apply Forall_app. split; [eapply Forall_impl; [|exact C]; cbn; intros; lia|]. constructor; auto.
Qed.
Lemma inv2_disconnect l0 l : forall st, pending st = l -> inv2 l0 st -> inv2 l0 (disconnect_loop st l).
Proof.
  induction l as [|[id h] l IH]; intros st Ep H; cbn [disconnect_loop].
  - eapply inv2_same; [exact H| | | | | |]; auto.
  - assert (H1 : inv2 l0 (resolve (set_pending st l) id ODisconnect)).
    { unfold inv2, places in *. cbn. rewrite Ep in H. destruct H as (A & B & C & D & E & F). split; [|split; [|split; [|split; [|split]]]]; auto.
      - rewrite <- A. rewrite map_app. cbn [map fst]. apply Permutation_app_head. cbn [app]. rewrite <- (Permutation_cons_append (map fst (resolved st))). rewrite !app_assoc. symmetry. apply Permutation_middle.
      - apply Forall_app. split; auto. constructor; auto. left. reflexivity. }
    destruct h as [|[|]]; [apply IH; auto|eapply inv2_same; [exact H1| | | | | |]; auto|apply IH; auto].
Qed.
Lemma reader_inv2 l0 st st' : inv2 l0 st -> step_reader st = Some st' -> inv2 l0 st'.
Proof.
  intros H E. unfold RpcModel.step_reader in E. destruct (rd st) as [| |e|e|x|id r|id h r|id| |] eqn:Er; try discriminate.
  - injection E as <-. apply inv2_reader; auto; [now rewrite Er| |]; now destruct (needs_exit st).
  - destruct H as (A & B & C & (pre & D) & G & F). unfold places in A. rewrite Er in A. destruct (inp st) as [|[| |o] i'] eqn:Ei; cbn [read_next] in E; injection E as <-; unfold inv2, places; cbn.
    + split; [exact A|]. split; auto. split; auto. split; [now exists pre|]. auto.
    + split; [exact A|]. split; auto. split; auto. split; [exists (pre ++ [LBad]); rewrite <- app_assoc; auto|]. auto.
    + split; [exact A|]. split; auto. split; auto. split; [exists (pre ++ [LNotObj]); rewrite <- app_assoc; auto|]. auto.
    + split; [destruct (is_response o); [destruct (get_id o)|]; exact A|]. split; auto. split; auto. split; [exists (pre ++ [LObj o]); rewrite <- app_assoc; auto|]. split; auto.
      destruct (is_response o) eqn:Eo; auto. destruct (get_id o) as [id|] eqn:Eid; auto. exists o. split; auto. rewrite D. apply in_or_app. right. now left.
  - injection E as <-. apply inv2_reader; auto; [now rewrite Er| |]; now destruct (blocked st).
  - destruct (dead st); [discriminate|]. pose proof (inv2_disconnect l0 _ st eq_refl H) as H1. unfold disconnect in E. destruct (dead (disconnect_loop st (pending st))); injection E as <-; auto. apply inv2_reader; auto. destruct (disconnect_loop_view (pending st) st) as (_ & -> & _). now rewrite Er.
  - injection E as <-. apply inv2_reader; [eapply inv2_same; [exact H| | | | | |]; auto|cbn; now rewrite Er| |]; now destruct x.
  - destruct (dead st); [discriminate|]. injection E as <-. destruct (take id (pending st)) as [[h p]|] eqn:Et; [|apply inv2_reader; auto; now rewrite Er].
    pose proof H as (A & B & C & D & G & F). pose proof (take_perm _ _ _ _ (nodup_pending st A) Et) as Pt. rewrite Er in F. unfold inv2, places in *. cbn. split; [|auto 6]. rewrite Er in A. cbn in A. rewrite <- A. apply Permutation_app_head. rewrite (Permutation_map fst Pt). cbn [map fst].
    change (id :: map fst (resolved st)) with ([id] ++ map fst (resolved st)). change ((id :: map fst p) ++ map fst (resolved st)) with (id :: map fst p ++ map fst (resolved st)). cbn [app]. symmetry. apply Permutation_middle.
  - injection E as <-. pose proof H as (A & B & C & D & G & F). rewrite Er in F. unfold places in A. rewrite Er in A. cbn [told] in A.
    assert (H1 : inv2 l0 (set_reader (resolve st id r) RTop)).
    { unfold inv2, places. cbn. split; [|split; [|split; [|split; [|split]]]]; auto.
      - rewrite <- A. apply Permutation_app_head, Permutation_app_head. rewrite map_app. cbn. symmetry. apply Permutation_cons_append.
      - apply Forall_app. split; auto. constructor; auto. right. right. exact F. }
    destruct h as [|[|]]; auto. apply (inv2_start _ _ (Callback false)) in H1. eapply (inv2_reader _ _ (RCall (next_id st))) in H1; auto.
  - destruct (absent id (flights st)); [|discriminate]. injection E as <-. apply inv2_reader; auto. now rewrite Er.
Qed.
Lemma main_inv2 l0 st a ok now st' : inv2 l0 st -> step_main st a ok now = Some st' -> inv2 l0 st'.
Proof.
  intros H E. unfold RpcModel.step_main in E.
  assert (Same : forall s2, rd s2 = rd st -> next_id s2 = next_id st -> pending s2 = pending st -> flights s2 = flights st -> inp s2 = inp st -> resolved s2 = resolved st -> inv2 l0 s2) by (intros; eapply inv2_same; eauto).
  destruct (mn st) as [|[o|e]|w|w|id w|id w|id r|e| |e|] eqn:Em; try discriminate.
  - destruct (queue st) as [|x q]; [destruct (check_timers now (timers st)) as [[x t]|]; [injection E as <-; apply Same; auto|]; destruct (idle st) as [|token i]; [discriminate|]; injection E as <-; apply Same; auto|injection E as <-; apply Same; auto].
  - injection E as <-. destruct (into_rpc dec_req dec_notif o); try destruct (is_some (get_method o)); apply Same; auto.
  - injection E as <-. destruct (idle st); apply Same; auto.
  - injection E as <-. destruct a as [again| |token|t token|r|]; try (apply Same; auto; fail).
    + apply (inv2_start _ _ (Callback again)) in H. eapply inv2_same; [exact H| | | | | |]; auto.
    + destruct w; apply Same; auto.
  - injection E as <-. apply (inv2_start _ _ Chan) in H. eapply inv2_same; [exact H| | | | | |]; auto.
  - destruct (_ && _); [|discriminate]. injection E as <-. apply Same; auto.
  - destruct (absent _ _); [|discriminate]. injection E as <-. apply Same; auto.
  - injection E as <-. apply Same; auto.
  - destruct (dead st); [discriminate|]. pose proof (inv2_disconnect l0 _ st eq_refl H) as H1. unfold disconnect in E. destruct (dead (disconnect_loop st (pending st))); injection E as <-; exact H1.
  - destruct (dead st); [discriminate|]. pose proof (inv2_disconnect l0 _ st eq_refl H) as H1. unfold disconnect in E. destruct (dead (disconnect_loop st (pending st))); injection E as <-; exact H1.
Qed.
Lemma fly_inv2 l0 st id ok st' : inv2 l0 st -> fly st id ok = Some st' -> inv2 l0 st'.
Proof.
  intros H E. unfold fly in E. pose proof H as (A & B & C & D & G & F). destruct (take id (flights st)) as [[s f]|] eqn:Et; [|discriminate]. cbn [bind] in E. pose proof (take_perm _ _ _ _ B Et) as Pt.
  assert (Bf : NoDup (id :: map fst f)) by (eapply Permutation_NoDup; [exact (Permutation_map fst Pt)|exact B]).
  assert (Cf : Forall (fun x => fst x < next_id st) ((id, s) :: f)) by (eapply Permutation_Forall; eauto). inversion Cf as [|x y Cid Cf']; subst. cbn [fst] in Cid. inversion Bf as [|x y Bn Bf']; subst.
  pose proof (allocs_perm _ _ Pt) as Pa. cbn [allocs flat_map snd fst] in Pa. fold (allocs f) in Pa.
  assert (Nf : forall s', NoDup (map fst (f ++ [(id, s')])) /\ Forall (fun x => fst x < next_id st) (f ++ [(id, s')])).
  { intros s'. split; [|apply Forall_app; split; auto]. rewrite map_app. cbn. eapply Permutation_NoDup; [apply Permutation_cons_append|]. now constructor. }
  unfold places in A. destruct s as [h| |].
  - destruct (dead st); [discriminate|]. injection E as <-. unfold inv2, places. cbn. split; [|split; [apply Nf|split; [apply Nf|auto]]]. rewrite <- A, Pa. rewrite allocs_app, map_app. cbn. rewrite app_nil_r, <- app_assoc. cbn. rewrite <- Permutation_middle. rewrite <- Permutation_middle. reflexivity.
  - cbn [app] in Pa. destruct ok; [injection E as <-; unfold inv2, places; cbn; split; [rewrite <- Pa; auto|auto 6]|]. destruct (dead st); [discriminate|]. destruct (take id (pending st)) as [[h p]|] eqn:Ep.
    + pose proof (take_perm _ _ _ _ (nodup_pending st A) Ep) as Pp.
      assert (Ares : Permutation (allocs f ++ map fst p ++ told (rd st) ++ map fst (resolved st ++ [(id, OIo)])) (seq 0 (next_id st))).
      { rewrite <- A, Pa, (Permutation_map fst Pp). apply Permutation_app_head. cbn [map fst app]. rewrite map_app. cbn [map fst]. rewrite <- (Permutation_cons_append (map fst (resolved st))). rewrite !app_assoc. symmetry. apply Permutation_middle. }
      assert (Gres : Forall (fun x => from l0 (fst x) (snd x)) (resolved st ++ [(id, OIo)])) by (apply Forall_app; split; auto; constructor; auto; right; now left).
      destruct h as [|[|]]; injection E as <-; unfold inv2, places; cbn; [auto 8| |auto 8]. split; [rewrite allocs_app; cbn; rewrite app_nil_r; exact Ares|]. split; [apply Nf|split; [apply Nf|auto]].
    + injection E as <-. unfold inv2, places. cbn. split; [rewrite <- Pa; auto|auto 6].
  - discriminate.
Qed.
Lemma step_inv2 l0 st l st' : inv2 l0 st -> step st l = Some st' -> inv2 l0 st'.
Proof.
  intros H E. destruct l as [|a ok now|h|token|id ok]; cbn [RpcModel.step] in E; [eapply reader_inv2; eauto|eapply main_inv2; eauto|injection E as <-; now apply inv2_start|injection E as <-; eapply inv2_same; [exact H| | | | | |]; auto|eapply fly_inv2; eauto].
Qed.
Lemma run_inv2 l0 ls st : run (initial l0) ls = Some st -> inv2 l0 st.
Proof.
  apply (run_inv_gen (inv2 l0) (step_inv2 l0)). unfold inv2, places. cbn. split; [constructor|]. split; [constructor|]. split; [constructor|]. split; [now exists []|]. split; [constructor|exact Logic.I].
Qed.

(** ** Idle work *)
Definition inv3 (st : state) : Prop :=
  asked st = ran st ++ idle st /\ Permutation (asked_timers st) (map snd (fired st) ++ timers st) /\ Forall (fun x => fst (snd x) <= fst x) (fired st).
Lemma earliest_in (l : list (nat * nat)) : forall acc : option (nat * nat), match fold_left (fun acc t => match acc with None => Some t | Some a => if fst t <? fst a then Some t else acc end) l acc with Some t => acc = Some t \/ In t l | None => acc = None end.
Proof.
  induction l as [|x l IH]; intros acc; cbn [fold_left]; [destruct acc; auto|]. destruct acc as [a|]; [destruct (fst x <? fst a)|].
  - specialize (IH (Some x)). destruct (fold_left _ l (Some x)); [destruct IH as [E|E]; [injection E as ->; right; now left|right; now right]|discriminate].
  - specialize (IH (Some a)). destruct (fold_left _ l (Some a)); [destruct IH as [E|E]; [now left|right; now right]|discriminate].
  - specialize (IH (Some x)). destruct (fold_left _ l (Some x)); [destruct IH as [E|E]; [injection E as ->; right; now left|right; now right]|discriminate].
Qed.
Lemma remove_timer_perm t l : In t l -> Permutation l (t :: remove_timer t l).
Proof.
  induction l as [|[a b] l IH]; intros H; [destruct H|]. cbn [remove_timer]. destruct t as [c d]. cbn [fst snd]. destruct ((a =? c) && (b =? d)) eqn:E.
  - apply andb_true_iff in E as [E1 E2]. apply Nat.eqb_eq in E1, E2. subst. reflexivity.
  - destruct H as [H|H]; [injection H as -> ->; rewrite !Nat.eqb_refl in E; discriminate|]. eapply perm_trans; [apply perm_skip, (IH H)|apply perm_swap].
Qed.
Lemma inv3_same st st' : inv3 st -> asked st' = asked st -> ran st' = ran st -> idle st' = idle st -> asked_timers st' = asked_timers st -> fired st' = fired st -> timers st' = timers st -> inv3 st'.
Proof. unfold inv3. intros H -> -> -> -> -> ->. exact H. Qed.
Lemma disconnect_work l : forall st, let st' := disconnect_loop st l in asked st' = asked st /\ ran st' = ran st /\ idle st' = idle st /\ asked_timers st' = asked_timers st /\ fired st' = fired st /\ timers st' = timers st.
Proof. induction l as [|[id h] l IH]; intros st; cbn [disconnect_loop]; [cbn; auto 6|]. destruct h as [|[|]]; [apply (IH (resolve (set_pending st l) id ODisconnect))|cbn; auto 6|apply (IH (resolve (set_pending st l) id ODisconnect))]. Qed.
Lemma inv3_disconnect st : inv3 st -> inv3 (disconnect st).
Proof. intros H. destruct (disconnect_work (pending st) st) as (A & B & C & D & E & F). unfold disconnect. eapply inv3_same; eauto. Qed.
Lemma step_inv3 st l st' : inv3 st -> step st l = Some st' -> inv3 st'.
Proof.
  intros H E. assert (Same : forall s2, asked s2 = asked st -> ran s2 = ran st -> idle s2 = idle st -> asked_timers s2 = asked_timers st -> fired s2 = fired st -> timers s2 = timers st -> inv3 s2) by (intros; eapply inv3_same; eauto).
  assert (Hs : forall token, inv3 (schedule st token)). { intros token. destruct H as (A & B & C). unfold inv3. cbn. split; auto. rewrite A, <- app_assoc. reflexivity. }
  assert (Hr : forall token i, idle st = token :: i -> inv3 (run_idle st token i)). { intros token i Ei. destruct H as (A & B & C). unfold inv3. cbn. split; auto. rewrite A, Ei, <- app_assoc. reflexivity. }
  destruct l as [|a ok now|h|token|id ok]; cbn [RpcModel.step] in E.
  - unfold RpcModel.step_reader in E. destruct (rd st) as [| |e|e|x|id r|id h r|id| |]; try discriminate.
    + injection E as <-. apply Same; auto.
    + destruct (read_next (inp st)) as [x i]. injection E as <-. apply Same; auto.
    + injection E as <-. apply Same; auto.
    + destruct (dead st); [discriminate|]. pose proof (inv3_disconnect st H) as H1. destruct (dead (disconnect st)); injection E as <-; auto.
    + injection E as <-. apply Same; auto.
    + destruct (dead st); [discriminate|]. injection E as <-. destruct (take id (pending st)) as [[h p]|]; apply Same; auto.
    + injection E as <-. destruct h as [|[|]]; apply Same; auto.
    + destruct (absent id (flights st)); [|discriminate]. injection E as <-. apply Same; auto.
  - unfold RpcModel.step_main in E. destruct (mn st) as [|[o|e]|w|w|id w|id w|id r|e| |e|] eqn:Em; try discriminate.
    + destruct (queue st) as [|x q]; [|injection E as <-; apply Same; auto]. destruct (check_timers now (timers st)) as [[x t]|] eqn:Ec.
      * injection E as <-. unfold check_timers in Ec. pose proof (earliest_in (timers st) None) as Hi. unfold earliest in Ec. destruct (fold_left _ (timers st) None) as [y|]; [|discriminate]. destruct (fst y <=? now) eqn:El; [|discriminate]. injection Ec as -> <-. destruct Hi as [Hi|Hi]; [discriminate|].
        destruct H as (A & B & C). unfold inv3. cbn. split; auto. split; [|apply Forall_app; split; auto; constructor; auto; cbn; lia]. rewrite B, map_app, <- app_assoc. cbn. apply Permutation_app_head. now apply remove_timer_perm.
      * destruct (idle st) as [|token i] eqn:Ei; [discriminate|]. injection E as <-. exact (Hr token i eq_refl).
    + injection E as <-. destruct (into_rpc dec_req dec_notif o); try destruct (is_some (get_method o)); apply Same; auto.
    + injection E as <-. destruct (idle st) as [|token i] eqn:Ei; [apply Same; auto|exact (Hr token i eq_refl)].
    + injection E as <-. destruct a as [again| |token|t token|r|]; try (apply Same; auto; fail); [apply Hs| |destruct w; apply Same; auto].
      destruct H as (A & B & C). unfold inv3. cbn. split; auto. split; auto. rewrite B, <- app_assoc. reflexivity.
    + injection E as <-. apply Same; auto.
    + destruct (_ && _); [|discriminate]. injection E as <-. apply Same; auto.
    + destruct (absent _ _); [|discriminate]. injection E as <-. apply Same; auto.
    + injection E as <-. apply Same; auto.
    + destruct (dead st); [discriminate|]. pose proof (inv3_disconnect st H) as H1. destruct (dead (disconnect st)); injection E as <-; auto.
    + destruct (dead st); [discriminate|]. pose proof (inv3_disconnect st H) as H1. destruct (dead (disconnect st)); injection E as <-; auto.
  - injection E as <-. apply Same; auto.
  - injection E as <-. apply Hs.
  - unfold fly in E. destruct (take id (flights st)) as [[s f]|]; [|discriminate]. cbn [bind] in E. destruct s as [h| |]; [destruct (dead st); [discriminate|]; injection E as <-; apply Same; auto| |discriminate].
    destruct ok; [injection E as <-; apply Same; auto|]. destruct (dead st); [discriminate|]. destruct (take id (pending st)) as [[h p]|]; [|injection E as <-; apply Same; auto]. destruct h as [|[|]]; injection E as <-; apply Same; auto.
Qed.
Lemma run_inv3 l0 ls st : run (initial l0) ls = Some st -> inv3 st.
Proof. apply (run_inv_gen inv3 step_inv3). unfold inv3. cbn. auto. Qed.
End Rpc.
