(** C69: the workspace of a document. *)
From Coq Require Import List Arith Lia Bool.
From Verif Require Import WorkspaceModel WorkspaceSpec.
Import ListNotations.

Lemma has_entry_iff name l : has_entry name l = true <-> In (Some name) l.
Proof.
  induction l as [|[n|] l IH]; cbn; [easy| |rewrite IH; split; [now right|intros [|]; [discriminate|auto]]]. destruct (Nat.eqb_spec n name) as [->|N]; [split; auto|]. rewrite IH. split; [now right|]. intros [E|]; auto. congruence.
Qed.
Lemma above_parent p x : above p x -> exists y, parent x = Some y /\ (p = y \/ above p y).
Proof.
  intros (r & N & ->). destruct (p ++ r) as [|z u] eqn:E; [now destruct p, r|]. exists (removelast (z :: u)). split; auto. rewrite <- E. rewrite removelast_app by auto. destruct (removelast r) as [|a r'] eqn:R; [left; now rewrite app_nil_r|right]. exists (a :: r'). split; auto. discriminate.
Qed.
Lemma parent_above x y : parent x = Some y -> above y x /\ length x = S (length y).
Proof.
  destruct x as [|z u]; [discriminate|]. cbn [parent]. intros [= <-]. assert (N : z :: u <> []) by discriminate. pose proof (app_removelast_last 0 N) as E. split; [exists [last (z :: u) 0]; split; [discriminate|exact E]|]. rewrite E at 1. rewrite app_length. cbn. lia.
Qed.
Lemma above_trans p y x : above p y -> above y x -> above p x.
Proof. intros (r & N & ->) (r' & N' & ->). exists (r ++ r'). split; [|now rewrite app_assoc]. intros E. now apply app_eq_nil in E. Qed.
Lemma above_length p x : above p x -> length p < length x.
Proof. intros (r & N & ->). rewrite app_length. destruct r; [easy|cbn; lia]. Qed.

(** What is found is told by the nearest folder that has the name or cannot be read; *)
Definition stops (t : tree) (name : nat) (p : path) : Prop := has t name p \/ ~ readable t p.
Lemma climb_ok t name : forall fuel x, length x < fuel ->
  match climb fuel t name x with
  | Root p => nearest (stops t name) p x /\ has t name p
  | IoError => exists p, nearest (stops t name) p x /\ ~ readable t p
  | PathError => forall p, above p x -> ~ stops t name p
  end.
Proof.
  induction fuel as [|f IH]; intros x H; [lia|]. cbn [climb]. destruct (parent x) as [y|] eqn:P.
  - destruct (parent_above x y P) as [A L]. assert (Near : forall q, above q x -> length q <= length y) by (intros q Q; apply above_length in Q; lia). unfold stops, has, readable in *. destruct (t y) as [l|] eqn:T.
    + destruct (has_entry name l) eqn:E.
      * apply has_entry_iff in E. split; [|eauto]. split; auto. split; [left; eauto|]. intros q Q _. auto.
      * assert (Ny : ~ ((exists l, t y = Some l /\ In (Some name) l) \/ ~ (t y <> None))). { rewrite T. intros [(l' & [= <-] & I)|I]; [apply has_entry_iff in I; congruence|]. apply I. discriminate. }
        assert (Up : forall p, nearest (fun p => (exists l, t p = Some l /\ In (Some name) l) \/ ~ (t p <> None)) p y -> nearest (fun p => (exists l, t p = Some l /\ In (Some name) l) \/ ~ (t p <> None)) p x).
        { intros p (N1 & N2 & N3). split; [now apply (above_trans p y)|]. split; auto. intros q Q S. destruct (above_parent q x Q) as (y' & P' & [->|Q']); rewrite P in P'; injection P' as <-; [easy|auto]. }
        specialize (IH y ltac:(lia)). destruct (climb f t name y).
        -- destruct IH. auto.
        -- intros p Q. destruct (above_parent p x Q) as (y' & P' & [->|Q']); rewrite P in P'; injection P' as <-; auto.
        -- destruct IH as (p & N & R). exists p. auto.
    + exists y. rewrite T. split; [|auto]. split; auto.
  - intros p A. destruct (above_parent p x A) as (y & E & _). congruence.
Qed.
(** the workspace is the nearest folder the document is in that has the name, as far as the folders up to it can be read. *)
Theorem C69_root : forall t name doc p, get_workspace_root t name doc = Root p <->
  nearest (has t name) p doc /\ forall q, above q doc -> length p <= length q -> readable t q.
Proof.
  intros t name doc p. unfold get_workspace_root. pose proof (climb_ok t name (S (length doc)) doc ltac:(lia)) as H.
  assert (Same : forall q q', above q doc -> above q' doc -> length q = length q' -> q = q'). { intros q q' (r & _ & E) (r' & _ & E') L. rewrite E in E'. clear E. revert q' E' L. induction q as [|a q IH]; intros [|b q'] E' L; cbn in *; try lia; auto. injection E' as -> E'. f_equal. apply IH; auto. }
  split.
  - intros E. rewrite E in H. destruct H as ((N1 & _ & N3) & Hp). split; [split; auto; split; auto; intros q Q S; apply N3; auto; now left|]. intros q Q L R. assert (S : stops t name q) by (right; intros X; now apply X). pose proof (N3 q Q S). assert (q = p) by (apply Same; auto; lia). subst q. destruct Hp as (l & T & _). congruence.
  - intros ((N1 & N2 & N3) & R). destruct (climb _ t name doc) as [p'| |].
    + destruct H as ((M1 & _ & M3) & Hp). f_equal. apply Same; auto. pose proof (N3 p' M1 Hp). pose proof (M3 p N1 (or_introl N2)). lia.
    + destruct (H p N1). now left.
    + destruct H as (q & (M1 & _ & M3) & Nr). destruct Nr. apply R; auto. apply M3; auto. now left.
Qed.
Print Assumptions C69_root.
(** There is none only if no folder the document is in has the name; else there is an error, when one of them cannot be read. *)
Theorem C69_none : forall t name doc, get_workspace_root t name doc = PathError <-> forall p, above p doc -> readable t p /\ ~ has t name p.
Proof.
  intros t name doc. unfold get_workspace_root. pose proof (climb_ok t name (S (length doc)) doc ltac:(lia)) as H. split.
  - intros E. rewrite E in H. intros p A. specialize (H p A). split; [intros T; apply H; right; intros X; now apply X|intros X; apply H; now left].
  - intros N. destruct (climb _ t name doc) as [p| |]; auto.
    + destruct H as ((M1 & _) & Hp). now destruct (N p M1).
    + destruct H as (p & (M1 & _) & Hp). now destruct (N p M1).
Qed.
Print Assumptions C69_none.
(** A folder that cannot be read hides a workspace above it. *)
Theorem C69_unreadable_refuted : exists t name doc p, nearest (has t name) p doc /\ get_workspace_root t name doc = IoError.
Proof.
  exists (fun p => match p with [] => Some [Some 1; Some 7] | [1] => None | _ => Some [] end), 7, [1; 3], []. split; [|reflexivity]. split; [exists [1; 3]; split; [discriminate|reflexivity]|]. split; [eexists; split; [reflexivity|cbn; auto]|].
  intros q (r & N & E) (l & T & I). destruct q as [|a [|b q]]; [auto| |]; injection E as <- E; [discriminate|]. destruct q; [destruct r; [easy|]|]; discriminate.
Qed.
Print Assumptions C69_unreadable_refuted.

(** ** A case: /1/2/3/4.rs with the name 7 in / and in /1/2, next to an entry that cannot be read. *)
Definition ex_tree : tree := fun p => match p with [] => Some [Some 1; Some 7] | [1] => Some [Some 2] | [1; 2] => Some [None; Some 3; Some 7] | [1; 2; 3] => Some [Some 4] | _ => None end.
Example ex_root : get_workspace_root ex_tree 7 [1; 2; 3; 4] = Root [1; 2]. Proof. reflexivity. Qed.
Example ex_nearest : nearest (has ex_tree 7) [1; 2] [1; 2; 3; 4].
Proof. now apply C69_root. Qed.
Example ex_none : get_workspace_root ex_tree 8 [1; 2; 3; 4] = PathError. Proof. reflexivity. Qed.
