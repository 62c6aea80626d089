(** Two peers that edit and merge: an edit extends the lattice of the pair by a row or a
    column, a merge moves an engine along it. *)
From Coq Require Import List Arith Bool Lia ZifyBool.
From Verif Require Import Base ListLib MultisetModel MultisetSpec MultisetProofs SpreadFacts
  DeltaModel DeltaSpec ExpandProofs SynthProofs DeltaProofs RebaseFacts EngineModel EngineSpec EngineFacts
  EngineInv EngineHist MergeModel MergeFacts MergeLattice MergePath MergeRebase MergeSys MergeSpec.
Import ListNotations.

Lemma priority_leb_ne p q : snd p <> snd q -> priority_leb p q = negb (priority_leb q p).
Proof.
  destruct p as [p [s1 s2]], q as [q [t1 t2]]. unfold priority_leb, session_leb. cbn [fst snd]. intros H.
  assert (s1 <> t1 \/ s2 <> t2) by (destruct (Nat.eq_dec s1 t1), (Nat.eq_dec s2 t2); auto; exfalso; apply H; congruence).
  lia.
Qed.

Section Peers.
Context {A : Type} (tok : rev_id -> nat).
Implicit Types (L : lat (A := A)) (e a b : engine A) (o : op (A := A)).

(** The new edit [o] of the first peer carried over the later edits of the second. *)
Fixpoint col L (j : nat) o (p : full_priority) (n : nat) : op :=
  match n with
  | 0 => o
  | S n' => mv (priority_leb (pb L (j + n)) p) (col L j o p n') (eb L (na L) (j + n))
  end.

Definition upd {T} (k : nat) (f : nat -> T) (x : T) : nat -> T := fun h => if h =? k then x else f h.

Definition ext L (j : nat) o (id : rev_id) (p : full_priority) (g : nat) : lat :=
  Lat (S (na L)) (nb L) (upd (S (na L)) (ca L) j) (cb L) (upd (S (na L)) (ida L) id) (idb L)
    (upd (S (na L)) (pa L) p) (pb L) (upd (S (na L)) (ga L) g) (gb L)
    (upd (S (na L)) (ea L) (fun l => col L j o p (l - j)))
    (upd (S (na L)) (eb L) (fun l => mv (priority_leb p (pb L l)) (eb L (na L) l) (col L j o p (l - 1 - j))))
    (upd (S (na L)) (pt L) (fun l => act (col L j o p (l - j)) (pt L (na L) l))).

Lemma upd_eq {T} k (f : nat -> T) x : upd k f x k = x.
Proof. unfold upd. now rewrite Nat.eqb_refl. Qed.
Lemma upd_ne {T} k (f : nat -> T) x h : h <= k - 1 -> 1 <= k -> upd k f x h = f h.
Proof. unfold upd. intros. replace (h =? k) with false by lia. reflexivity. Qed.

Section Ext.
Context (L : lat (A := A)) (j : nat) (o : op (A := A)) (id : rev_id) (p : full_priority) (g : nat).
Context (HL : lat_ok L) (HV : valid L (na L) j) (HC : cb L (nb L) <= na L)
  (HF : fits o (pt L (na L) j))
  (HP : forall l, 1 <= l <= nb L -> snd (pb L l) <> snd p).
Notation L' := (ext L j o id p g).

Lemma ext_valid k l : k <= na L -> valid L' k l <-> valid L k l.
Proof.
  intros Hk. unfold valid. cbn [ext na nb ca cb]. rewrite upd_ne by lia. intuition lia.
Qed.
Lemma ext_valid_new l : valid L' (S (na L)) l <-> j <= l <= nb L.
Proof.
  unfold valid. cbn [ext na nb ca cb]. rewrite upd_eq. split; [lia|]. intros Hl.
  pose proof (l_cb L HL l (nb L)). lia.
Qed.
Lemma last_valid l : j <= l <= nb L -> valid L (na L) l.
Proof.
  intros Hl. unfold valid in *. pose proof (l_cb L HL l (nb L)). lia.
Qed.

Lemma col_fits n : j + n <= nb L -> fits (col L j o p n) (pt L (na L) (j + n)).
Proof.
  induction n as [|n IH]; intros Hn.
  - rewrite Nat.add_0_r. exact HF.
  - cbn [col]. destruct (l_eb L HL (na L) (j + n)) as [F1 F2].
    { apply last_valid. lia. }
    { apply last_valid. lia. }
    replace (j + S n) with (S (j + n)) by lia. rewrite F2.
    destruct (mv_ok (priority_leb p (pb L (S (j + n)))) _ _ _ (IH ltac:(lia)) F1) as (_ & M & _).
    rewrite (priority_leb_ne (pb L (S (j + n))) p); [exact M|]. apply HP. lia.
Qed.

Lemma ext_ok : lat_ok L'.
Proof.
  constructor.
  - intros k k' H1 H2. cbn [ext na ca] in *. unfold upd.
    destruct (Nat.eqb_spec k (S (na L))), (Nat.eqb_spec k' (S (na L))); try lia.
    + unfold valid in HV. pose proof (l_ca L HL k (na L)). lia.
    + apply (l_ca L HL); lia.
  - apply HL.
  - apply ext_valid; [lia|]. apply HL.
  - intros k l V. destruct (Nat.eq_dec k (S (na L))) as [->|Hk].
    + apply ext_valid_new in V. cbn [ext pt]. rewrite upd_eq.
      pose proof (col_fits (l - j)) as F. replace (j + (l - j)) with l in F by lia.
      destruct (act_length _ _ (F ltac:(lia))). lia.
    + assert (k <= na L) by (unfold valid in V; cbn [ext na] in V; lia). apply ext_valid in V; auto.
      cbn [ext pt]. rewrite upd_ne by lia. now apply HL.
  - intros k l V0 V1. destruct (Nat.eq_dec k (na L)) as [->|Hk].
    + apply ext_valid_new in V1. cbn [ext pt ea]. rewrite !upd_eq. rewrite upd_ne by lia.
      pose proof (col_fits (l - j)) as F. replace (j + (l - j)) with l in F by lia. split; auto. apply F. lia.
    + assert (k < na L) by (unfold valid in V1; cbn [ext na] in V1; lia).
      apply ext_valid in V0; [|lia]. apply ext_valid in V1; [|lia].
      cbn [ext pt ea]. rewrite !upd_ne by lia. now apply HL.
  - intros k l V0 V1. destruct (Nat.eq_dec k (S (na L))) as [->|Hk].
    + apply ext_valid_new in V0. apply ext_valid_new in V1. cbn [ext pt eb]. rewrite !upd_eq.
      replace (S l - 1 - j) with (l - j) by lia.
      pose proof (col_fits (l - j)) as F. replace (j + (l - j)) with l in F by lia.
      destruct (l_eb L HL (na L) l) as [F1 F2]; [apply last_valid; lia|apply last_valid; lia|].
      destruct (mv_ok (priority_leb p (pb L (S l))) _ _ _ (F ltac:(lia)) F1) as (M1 & M2 & M3 & _).
      split; auto. rewrite F2. rewrite M3. replace (S l - j) with (S (l - j)) by lia. cbn [col].
      replace (j + S (l - j)) with (S l) by lia. rewrite (priority_leb_ne (pb L (S l)) p); auto. apply HP. lia.
    + assert (k <= na L) by (unfold valid in V1; cbn [ext na] in V1; lia).
      apply ext_valid in V0; [|lia]. apply ext_valid in V1; [|lia].
      cbn [ext pt eb]. rewrite !upd_ne by lia. now apply HL.
  - intros k l V0 V1 V2. destruct (Nat.eq_dec k (na L)) as [->|Hk].
    + apply ext_valid_new in V1. apply ext_valid in V2; [|lia]. unfold valid in V2.
      cbn [ext ea eb pa pb]. rewrite !upd_eq. rewrite upd_ne by lia.
      replace (S l - j) with (S (l - j)) by lia. replace (S l - 1 - j) with (l - j) by lia. cbn [col].
      replace (j + S (l - j)) with (S l) by lia. auto.
    + assert (k < na L) by (unfold valid in V1; cbn [ext na] in V1; lia).
      apply ext_valid in V0; [|lia]. apply ext_valid in V1; [|lia]. apply ext_valid in V2; [|lia].
      cbn [ext pt ea eb pa pb]. rewrite !upd_ne by lia. now apply HL.
  - intros k l H1 H2. cbn [ext na nb pa pb] in *. unfold upd. destruct (Nat.eqb_spec k (S (na L))).
    + apply priority_leb_ne. intros C. now apply (HP l).
    + apply (l_prio L HL); lia.
Qed.

Lemma ext_path l k m : path L l k m -> path L' l k m.
Proof.
  induction 1 as [|l k m r P IH V R|l k m r P IH V R].
  - constructor.
  - assert (S k <= na L) by (unfold valid in V; lia).
    apply path_a; auto; [apply ext_valid; auto|]. cbn [ext ida pa ga ea]. rewrite !upd_ne by lia. exact R.
  - assert (k <= na L) by (unfold valid in V; lia).
    apply path_b; auto; [apply ext_valid; auto|]. cbn [ext idb pb gb eb]. rewrite !upd_ne by lia. exact R.
Qed.

Lemma ext_point e k m : k <= na L -> at_point L e k m -> at_point L' e k m.
Proof.
  intros Hk [H1 H2 H3 (r0 & l & H4 & H5 & H6)].
  constructor; cbn [ext pt]; rewrite ?upd_ne by lia; auto. exists r0, l. repeat split; auto. now apply ext_path.
Qed.
End Ext.

Lemma point_valid L e k m : lat_ok L -> at_point L e k m -> valid L k m.
Proof. intros HL [_ _ _ (r0 & l & _ & _ & P)]. now apply path_valid in P. Qed.

(** One edit of the first peer. *)
Lemma edit_sys L a b i j p g t d : sys L a b i j -> wf_delta d ->
  forall a' res, try_edit_rev tok a p g t d = Some (a', res) ->
  (res <> Ok tt /\ a' = a) \/
  (res = Ok tt /\ exists L', sys L' a' b i j /\ session a' = session a /\
     forall e k m, at_point L e k m -> at_point L' e k m).
Proof.
  intros [HL PA PB Hne Hsa Hsb] W a' res E.
  destruct PA as [Ia Da Ua (ra & la & Ra & Ra0 & Pa)].
  destruct (find_rev_token tok a t) as [ix|] eqn:Ef.
  2: { left. unfold try_edit_rev, mk_new_rev in E. rewrite Ef in E. injection E as <- <-. split; auto. discriminate. }
  pose proof (edit_ok tok a _ 0 p g t d ix Ia W Ef) as X. cbv zeta in X.
  destruct (base_len d =? zeros (counts_at a ix)) eqn:En.
  2: { left. rewrite X in E. injection E as <- <-. split; auto. discriminate. }
  right. set (w := rb _ _ _) in X. set (del := spread _ _ (marks w)) in X.
  destruct X as (e' & ins & dels & E' & I' & K & Ci & Fi & Cd & Fd & Ld & S' & C' & U' & D' & mx & R').
  rewrite E' in E. injection E as <- <-. split; [reflexivity|].
  pose proof (path_valid L _ _ _ HL Pa) as Va. destruct PB as [Ib Db Ub (rb & lb & Rb & Rb0 & Pb)].
  pose proof (path_valid L _ _ _ HL Pb) as Vb.
  assert (HF : fits (w, del) (pt L (na L) j)).
  { split; [exact K|]. split; [|exact Ld]. apply (l_st L HL). exact Va. }
  assert (HC : cb L (nb L) <= na L) by (unfold valid in Vb; lia).
  assert (HP : forall l, 1 <= l <= nb L -> snd (pb L l) <> snd (p, session a)).
  { intros l Hl. destruct (Hsb l Hl) as [-> _]. cbn. congruence. }
  assert (EL : lat_ok (ext L j (w, del) (next_rev_id a) (p, session a) g)) by (apply ext_ok; auto).
  exists (ext L j (w, del) (next_rev_id a) (p, session a) g).
  split; [|split; [exact S'|]].
  2: { intros e k m He. pose proof (point_valid L e k m HL He) as Ve.
       assert (k <= na L) by (unfold valid in Ve; lia). apply ext_point; auto. }
  rewrite Ua in D'. cbn [mem existsb] in D'.
  constructor; auto.
  - constructor.
    + cbn [ext na pt]. rewrite upd_eq, Nat.sub_diag. cbn [col]. unfold act. cbn [fst snd]. exact I'.
    + cbn [ext na pt]. rewrite upd_eq, Nat.sub_diag. cbn [col]. unfold act. cbn [fst snd]. rewrite D', Da. reflexivity.
    + congruence.
    + exists ra. eexists. split; [rewrite R', Ra; reflexivity|]. split; auto.
      cbn [ext na]. apply path_a.
      * apply ext_path; auto.
      * apply ext_valid_new; auto. unfold valid in Va. lia.
      * cbn [ext ida pa ga ea]. rewrite !upd_eq, Nat.sub_diag. cbn [col]. exists mx, ins, dels. cbn [fst snd].
        repeat split; auto. unfold next_rev_id, session_of. cbn. now destruct (session a).
  - assert (i <= na L) by (unfold valid in Vb; lia). apply ext_point; auto. constructor; auto. exists rb, lb. auto.
  - now rewrite S'.
  - intros k Hk. cbn [ext na pa ida] in *. unfold upd. destruct (Nat.eqb_spec k (S (na L))).
    + rewrite S'. split; auto. unfold next_rev_id, session_of. cbn. now destruct (session a).
    + rewrite S'. apply Hsa. lia.
Qed.
End Peers.

Section Net.
Context {A : Type} (tok : rev_id -> nat).
Implicit Types (L : lat (A := A)) (e a b : engine A) (x y : list (engine A)).

(** The lattice up to the [m]-th edit of the second peer. *)
Definition trunc L (m : nat) : lat :=
  Lat (na L) m (ca L) (cb L) (ida L) (idb L) (pa L) (pb L) (ga L) (gb L) (ea L) (eb L) (pt L).

Lemma trunc_valid L m k l : m <= nb L -> valid (trunc L m) k l <-> valid L k l /\ l <= m.
Proof. unfold valid. cbn. lia. Qed.

Lemma trunc_ok L m : m <= nb L -> lat_ok L -> lat_ok (trunc L m).
Proof.
  intros Hm H. constructor; cbn [trunc na nb ca cb ida idb pa pb ga gb ea eb pt]; intros; rewrite ?trunc_valid in * by auto;
    repeat match goal with h : _ /\ _ <= m |- _ => destruct h end.
  - now apply H.
  - apply H; auto; lia.
  - split; [apply H|lia].
  - now apply H.
  - now apply H.
  - now apply H.
  - now apply H.
  - apply (l_prio L H); lia.
Qed.

Lemma trunc_path L m l k j : m <= nb L -> j <= m -> path L l k j -> path (trunc L m) l k j.
Proof.
  intros Hm Hj P. induction P as [|l k j r P IH V R|l k j r P IH V R].
  - constructor.
  - apply path_a; auto. apply trunc_valid; auto.
  - apply path_b; auto; [apply IH; lia|]. apply trunc_valid; auto.
Qed.

Lemma untrunc_path L m l k j : m <= nb L -> path (trunc L m) l k j -> path L l k j.
Proof.
  intros Hm P. induction P as [|l k j r P IH V R|l k j r P IH V R].
  - constructor.
  - apply path_a; auto. now apply trunc_valid in V.
  - apply path_b; auto. now apply trunc_valid in V.
Qed.

Lemma trunc_point L m e k j : m <= nb L -> j <= m -> at_point L e k j <-> at_point (trunc L m) e k j.
Proof.
  intros Hm Hj. split; intros [H1 H2 H3 (r0 & l & H4 & H5 & H6)]; constructor; auto; exists r0, l; repeat split; auto.
  - now apply trunc_path.
  - now apply untrunc_path in H6.
Qed.

(** States of the second peer on their way to the first, who holds [j] of its edits. *)
Fixpoint inbox L (sb : session_id) (j : nat) x : Prop :=
  match x with
  | [] => True
  | s :: x' => exists k m, j <= m /\ at_point L s k m /\ session s = sb /\ inbox L sb m x'
  end.

Lemma inbox_le L sb j j' x : j' <= j -> inbox L sb j x -> inbox L sb j' x.
Proof.
  destruct x as [|s x]; cbn [inbox]; auto. intros H (k & m & H1 & H2). exists k, m. split; [lia|auto].
Qed.

Lemma inbox_map L L' sb x : (forall e k m, at_point L e k m -> at_point L' e k m) ->
  forall j, inbox L sb j x -> inbox L' sb j x.
Proof.
  intros H. induction x as [|s x IH]; cbn [inbox]; auto. intros j (k & m & H1 & H2 & H3 & H4). exists k, m. auto.
Qed.

Lemma inbox_snoc L sb x e k n : at_point L e k n -> session e = sb -> (forall e k m, at_point L e k m -> m <= n) ->
  forall j, j <= n -> inbox L sb j x -> inbox L sb j (x ++ [e]).
Proof.
  intros He Hs Hn. induction x as [|s x IH]; cbn [inbox app]; intros j Hj.
  - intros _. exists k, n. auto.
  - intros (k' & m & H1 & H2 & H3 & H4). exists k', m. split; [auto|split; [auto|split; [auto|]]]. apply IH; auto.
    eapply Hn; eauto.
Qed.

Record net_ok L a b x y i j : Prop := {
  n_sys : sys L a b i j;
  n_x : inbox L (session b) j x;
  n_y : inbox (swap L) (session a) i y }.

Lemma net_swap L a b x y i j : net_ok L a b x y i j -> net_ok (swap L) b a y x j i.
Proof.
  intros [H1 H2 H3]. constructor; auto; [now apply sys_swap|].
  eapply inbox_map; [|exact H2]. intros e k m P. destruct L. exact P.
Qed.

Lemma at_swap2 L e k m : at_point (swap (swap L)) e k m -> at_point L e k m.
Proof. now destruct L. Qed.

Lemma net_swap2 L a b x y i j : net_ok (swap (swap L)) a b x y i j -> net_ok L a b x y i j.
Proof. now destruct L. Qed.

(** Every exchange is described by some lattice. *)
Lemma start_ok s1 s2 e a b : s1 <> s2 -> empty_engine = Some e -> set_session_id e s1 = Some a ->
  set_session_id e s2 = Some b -> exists L, net_ok L a b [] [] 0 0 /\ session a = s1 /\ session b = s2.
Proof.
  intros Hne He Ha Hb. destruct (session_inv e s1 a He Ha) as (Ia & Ta & Ua). destruct (session_inv e s2 b He Hb) as (Ib & Tb & Ub).
  unfold set_session_id in Ha, Hb. destruct (length (revs e) =? 1); [|discriminate].
  injection Ha as <-. injection Hb as <-. cbn [session] in *.
  unfold empty_engine in He. destruct (subset_new_ok 0) as (s & Es & Cs & Fs). rewrite Es in He. cbn [bind] in He.
  injection He as <-. cbn [session rev_id_counter text tombstones deletes_from_union undone_groups revs] in *.
  set (z := fun _ : nat => 0). set (zi := fun _ : nat => RevId 0 0 0). set (zp := fun _ : nat => (0, (0, 0)) : full_priority).
  set (zo := fun _ _ : nat => (([], []) : op (A := A))).
  exists (Lat 0 0 z z zi zi zp zp z z zo zo (fun _ _ => ([], []))).
  split; [|auto]. constructor; [|exact I|exact I].
  assert (HLt : forall k l, valid (Lat 0 0 z z zi zi zp zp z z zo zo (fun _ _ => ([], []))) k l <-> k = 0 /\ l = 0).
  { intros. unfold valid, z. cbn. lia. }
  constructor; cbn [session]; auto.
  - constructor; cbn [na nb ca cb pt]; intros; rewrite ?HLt in *; unfold z; try lia; auto.
  - constructor; cbn [pt fst snd]; auto. eexists. exists []. split; [reflexivity|]. split; [reflexivity|constructor].
  - constructor; cbn [pt fst snd]; auto. eexists. exists []. split; [reflexivity|]. split; [reflexivity|constructor].
  - cbn. intros. lia.
  - cbn. intros. lia.
Qed.

Lemma net_edit L a b x y i j p g t d a' res : net_ok L a b x y i j -> wf_delta d ->
  try_edit_rev tok a p g t d = Some (a', res) ->
  exists L', net_ok L' a' b x y i j /\ session a' = session a.
Proof.
  intros [HS HX HY] W E. destruct (edit_sys tok L a b i j p g t d HS W a' res E) as [[_ ->]|(_ & L' & H)].
  { exists L. split; auto. constructor; auto. }
  destruct H as (HS' & Es & HM). exists L'. split; auto. constructor; auto.
  - now apply (inbox_map L).
  - rewrite Es. apply (inbox_map (swap L)); auto. intros e k m He. apply at_point_swap, HM. apply at_point_swap in He.
    now apply at_swap2.
Qed.

Lemma net_send L a b x y i j : net_ok L a b x y i j -> net_ok L a b (x ++ [b]) y i j.
Proof.
  intros [HS HX HY]. constructor; auto. destruct HS as [HL PA PB _ _ _]. eapply inbox_snoc; eauto.
  - intros e k m He. apply point_valid in He; auto. unfold valid in He. lia.
  - apply point_valid in PA; auto. unfold valid in PA. lia.
Qed.

Lemma net_recv L a b s x y i j : net_ok L a b (s :: x) y i j ->
  exists a' m, merge a s = Some a' /\ net_ok L a' b x y i m /\ session a' = session a /\
    rev_id_counter a' = rev_id_counter a /\
    (forall id, In id (map r_id (revs a')) <-> In id (map r_id (revs a)) \/ In id (map r_id (revs s))).
Proof.
  intros [HS HX HY]. cbn [inbox] in HX. destruct HX as (k & m & Hjm & Ps & Ss & HX).
  destruct HS as [HL PA PB Hne Hsa Hsb].
  pose proof (point_valid L s k m HL Ps) as Vs. assert (Hm : m <= nb L) by (unfold valid in Vs; lia).
  assert (HT : sys (trunc L m) a s k j).
  { constructor; cbn [trunc na nb pa pb ida idb]; auto.
    - now apply trunc_ok.
    - now apply trunc_point.
    - now apply trunc_point.
    - congruence.
    - intros h Hh. rewrite Ss. apply Hsb. lia. }
  destruct (merge_ok _ _ _ _ _ HT) as (a' & E & [_ PA' _ _ _ _] & E1 & E2 & _). cbn [trunc na nb] in PA'.
  apply trunc_point in PA'; auto.
  exists a', m. split; auto. split; [|split; [auto|split; [auto|]]].
  - constructor; auto; [|now rewrite E1]. constructor; auto; rewrite E1; auto.
  - intros id. destruct PA as [_ _ _ (ra & la & Ra & Ra0 & Pa)]. destruct PA' as [_ _ _ (ra' & la' & Ra' & Ra0' & Pa')].
    destruct Ps as [_ _ _ (rs & ls & Rs & Rs0 & Ps)]. rewrite Ra, Ra', Rs. cbn [map In]. rewrite Ra0, Ra0', Rs0.
    rewrite (path_ids _ _ _ _ Pa id), (path_ids _ _ _ _ Pa' id), (path_ids _ _ _ _ Ps id).
    unfold valid in Vs. split.
    + intros [?|[?|(h & ? & ?)]]; auto. right. right. right. exists h. auto.
    + intros [[?|[?|(h & ? & ?)]]|[?|[(h & ? & ?)|(h & ? & ?)]]]; auto.
      * right. right. exists h. split; auto; lia.
      * right. left. exists h. split; auto; lia.
      * right. right. exists h. split; auto; lia.
Qed.

Theorem exchange_ok s1 s2 w : s1 <> s2 -> exchange tok s1 s2 w ->
  exists L i j, net_ok L (left w) (right w) (to_left w) (to_right w) i j /\
    session (left w) = s1 /\ session (right w) = s2.
Proof.
  intros Hne X. induction X as [e a b He Ha Hb|a b x y p g t d a' res X IH W E|a b x y p g t d b' res X IH W E
    |a b x y X IH|a b x y X IH|a b m x y a' X IH E|a b m x y b' X IH E|a b m x y X IH|a b m x y X IH];
    cbn [left right to_left to_right] in *.
  1: { destruct (start_ok s1 s2 e a b Hne He Ha Hb) as (L & H). exists L, 0, 0. exact H. }
  all: destruct IH as (L & i & j & N & S1 & S2).
  - destruct (net_edit _ _ _ _ _ _ _ _ _ _ _ _ _ N W E) as (L' & N' & Es). exists L', i, j. split; auto. split; congruence.
  - apply net_swap in N. destruct (net_edit _ _ _ _ _ _ _ _ _ _ _ _ _ N W E) as (L' & N' & Es).
    apply net_swap in N'. exists (swap L'), i, j. split; auto. split; congruence.
  - exists L, i, j. split; auto. apply net_swap in N. apply net_send in N. apply net_swap in N. now apply net_swap2.
  - exists L, i, j. split; auto. now apply net_send.
  - destruct (net_recv _ _ _ _ _ _ _ _ N) as (a'' & k & E' & N' & Es & _). rewrite E in E'. injection E' as <-.
    exists L, i, k. split; auto. split; congruence.
  - apply net_swap in N. destruct (net_recv _ _ _ _ _ _ _ _ N) as (a'' & k & E' & N' & Es & _). rewrite E in E'. injection E' as <-.
    apply net_swap in N'. exists L, k, j. split; [now apply net_swap2|]. split; congruence.
  - exists L, i, j. split; auto. destruct N as [N1 N2 N3]. constructor; auto. cbn [inbox] in N2.
    destruct N2 as (k & m' & H1 & _ & _ & H2). eapply inbox_le; eauto.
  - exists L, i, j. split; auto. destruct N as [N1 N2 N3]. constructor; auto. cbn [inbox] in N3.
    destruct N3 as (k & m' & H1 & _ & _ & H2). eapply inbox_le; eauto.
Qed.

(** Equal sets of revisions: equal points. *)
Theorem same_revs_same_text L a b i j : sys L a b i j ->
  (forall id, In id (map r_id (revs a)) <-> In id (map r_id (revs b))) ->
  text a = text b /\ tombstones a = tombstones b /\ flat (deletes_from_union a) = flat (deletes_from_union b).
Proof.
  intros [HL PA PB Hne Hsa Hsb] H.
  pose proof (point_valid _ _ _ _ HL PA) as Va. pose proof (point_valid _ _ _ _ HL PB) as Vb.
  assert (Q : i = na L /\ j = nb L).
  { destruct PA as [Ia Da Ua (ra & la & Ra & Ra0 & Pa)]. destruct PB as [Ib Db Ub (rb & lb & Rb & Rb0 & Pb)].
    destruct (i_ids _ _ _ Ia) as [Na _]. destruct (i_ids _ _ _ Ib) as [Nb _].
    rewrite Ra in Na. rewrite Rb in Nb. cbn [map] in Na, Nb. apply NoDup_cons_iff in Na as [Na0 Na].
    apply NoDup_cons_iff in Nb as [Nb0 Nb]. rewrite Ra, Rb in H. cbn [map In] in H. rewrite Ra0 in *. rewrite Rb0 in *.
    pose proof (path_ids L _ _ _ Pa) as Ja. pose proof (path_ids L _ _ _ Pb) as Jb.
    pose proof (path_inj L _ _ _ Pa Na) as Inja.
    pose proof (path_inj (swap L) _ _ _ (path_swap _ _ _ _ Pb) Nb) as Injb. cbn [swap ida] in Injb.
    assert (Hab : forall h h', 1 <= h <= na L -> 1 <= h' <= nb L -> ida L h <> idb L h').
    { intros h h' H1 H2 E. apply Hne. destruct (Hsa h H1) as [_ <-]. destruct (Hsb h' H2) as [_ <-]. now rewrite E. }
    unfold valid in *. split.
    - destruct (Nat.eq_dec (na L) 0); [lia|].
      assert (In (ida L (na L)) (map r_id la)) by (apply Ja; left; exists (na L); split; auto; lia).
      destruct (proj1 (H (ida L (na L)))) as [C|C]; auto.
      + exfalso. apply Na0. rewrite C. auto.
      + apply Jb in C as [(h & H1 & H2)|(h & H1 & H2)].
        * apply Inja in H2; lia.
        * exfalso. revert H2. apply Hab; lia.
    - destruct (Nat.eq_dec (nb L) 0); [lia|].
      assert (In (idb L (nb L)) (map r_id lb)) by (apply Jb; right; exists (nb L); split; auto; lia).
      destruct (proj2 (H (idb L (nb L)))) as [C|C]; auto.
      + exfalso. apply Nb0. rewrite C. auto.
      + apply Ja in C as [(h & H1 & H2)|(h & H1 & H2)].
        * exfalso. symmetry in H2. revert H2. apply Hab; lia.
        * apply Injb in H2; lia. }
  destruct Q as [-> ->]. destruct PA as [Ia Da _ _], PB as [Ib Db _ _].
  split; [|split].
  - rewrite (i_text _ _ _ Ia), (i_text _ _ _ Ib). congruence.
  - rewrite (i_tomb _ _ _ Ia), (i_tomb _ _ _ Ib). congruence.
  - congruence.
Qed.
End Net.
