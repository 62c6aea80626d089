(** The client's side of the update protocol, after docs/docs/frontend-protocol.md 435-600, and what it
    means for the client to be in step with the view. *)
From Coq Require Import List Arith Bool.
From Verif Require Import Base ShadowModel.
Import ListNotations.

Section Client.
Context {T S : Type}.

(** A line in the client's cache; the number is absent when the line starts at a soft break. *)
Record cline := CLine { ctext : T; cstyle : S; ccur : list nat; cln : option nat }.
Definition cache := list (option cline).

(** frontend-protocol.md 529-533: the first of the copied lines gets the number; if it starts at
    a soft break, the next numbered one gets the next number. The client counts on through the
    lines it has. *)
Fixpoint count_on (next : nat) (l : cache) : cache :=
  match l with
  | Some c :: l' =>
      match cln c with
      | Some _ => Some (CLine (ctext c) (cstyle c) (ccur c) (Some next)) :: count_on (next + 1) l'
      | None => Some c :: count_on next l'
      end
  | _ => l
  end.
Definition renumber (ln : nat) (l : cache) : cache :=
  match l with
  | Some c :: _ => count_on (match cln c with Some _ => ln | None => ln + 1 end) l
  | _ => l
  end.
(** frontend-protocol.md 569-572. The document asks for absent carets to be left as
    they are; a lenient client takes them as none. *)
Definition update_line (strict : bool) (c : option cline) (u : caret_line) : option cline :=
  match c with
  | Some c => Some (CLine (ctext c) (cstyle c)
      (match l_cur u with Some x => x | None => if strict then ccur c else [] end)
      (match l_ln u with Some n => Some n | None => cln c end))
  | None => None
  end.
(** frontend-protocol.md 565-567. *)
Definition insert_line (f : full_line T S) : option cline :=
  Some (CLine (f_text f) (f_style f) (match f_cur f with Some x => x | None => [] end) (f_ln f)).

(** frontend-protocol.md 519-550: [ix] is [old_ix]; [None] if there are not enough old lines. *)
Fixpoint client_apply (strict : bool) (old : cache) (ops : list (update_op T S)) (ix : nat) (new : cache) : option cache :=
  match ops with
  | [] => Some new
  | OpCopy n ln :: ops' =>
      check (ix + n <=? length old) (client_apply strict old ops' (ix + n) (new ++ renumber ln (firstn n (skipn ix old))))
  | OpSkip n :: ops' => client_apply strict old ops' (ix + n) new
  | OpInvalidate n :: ops' => client_apply strict old ops' ix (new ++ repeat None n)
  | OpUpdate ls _ :: ops' =>
      check (ix + length ls <=? length old)
        (client_apply strict old ops' (ix + length ls)
           (new ++ map (fun p => update_line strict (fst p) (snd p)) (combine (skipn ix old) ls)))
  | OpInsert ls :: ops' => client_apply strict old ops' ix (new ++ map insert_line ls)
  end.

(** ** What happens in an editing session *)
Inductive vevent :=
  (** The lines from [start] to [end_] are replaced by others (view.rs 971 and 990). *)
  | Replace (start end_ : nat) (new : list (vline T S))
  (** Of the lines from [start] to [end_], the parts in [what] (styles, carets) change (view.rs 400-436). *)
  | Change (start end_ : nat) (what : validity) (view : list (vline T S))
  (** Anything may have changed (view.rs 943). *)
  | Reset (view : list (vline T S))
  (** An update is sent for a window of [height] lines at [first] (view.rs 905-920); lines [a] to
      [b] are asked for besides (view.rs 923-938). *)
  | Update (first height : nat)
  | Request (first height a b : nat).

Record session := Session { s_view : list (vline T S); s_shadow : shadow; s_cache : cache }.
Definition plan_for (view : list (vline T S)) (first height : nat) : plan := plan_create (length view) first height.
Definition send (strict : bool) (st : session) (p : plan) : option session :=
  let? (ops, sh) := send_update (s_view st) (s_shadow st) p in
  let? c := client_apply strict (s_cache st) ops 0 [] in
  Some (Session (s_view st) sh c).
Definition step (strict : bool) (st : session) (e : vevent) : option session :=
  match e with
  | Replace a b new => Some (Session (firstn a (s_view st) ++ new ++ skipn b (s_view st)) (shadow_edit (s_shadow st) a b (length new)) (s_cache st))
  | Change a b what view => Some (Session view (partial_invalidate (s_shadow st) a b what) (s_cache st))
  | Reset view => Some (Session view (set_dirty view) (s_cache st))
  | Update f h => send strict st (plan_for (s_view st) f h)
  | Request f h a b => let? p := request_lines (plan_for (s_view st) f h) a b in send strict st p
  end.
Fixpoint steps (strict : bool) (st : session) (l : list vevent) : option session :=
  match l with [] => Some st | e :: l' => let? st' := step strict st e in steps strict st' l' end.
(** A new view: nothing is in the client's cache, everything is dirty (event_context.rs 500-510). *)
Definition session_start (view : list (vline T S)) : session := Session view (set_dirty view) [].

(** There is always a line, and the first starts a logical line. *)
Definition lines_ok (view : list (vline T S)) : Prop := match view with [] => False | l :: _ => vhard l = true end.
(** What the callers see to. *)
Definition event_ok (view : list (vline T S)) (e : vevent) : Prop :=
  match e with
  | Replace a b new => a <= b <= length view /\ lines_ok (firstn a view ++ new ++ skipn b view)
  | Change a b what view' =>
      a <= b /\ lines_ok view' /\ length view' = length view /\
      forall i l l', nth_error view i = Some l -> nth_error view' i = Some l' ->
        vtext l' = vtext l /\ vhard l' = vhard l /\
        (a <= i < b /\ v_styles what = true \/ vstyle l' = vstyle l) /\
        (a <= i < b /\ v_cursor what = true \/ vcur l' = vcur l)
  | Reset view' => lines_ok view'
  | Update _ _ => True
  | Request _ _ a b => a <= b
  end.
Definition view_after (view : list (vline T S)) (e : vevent) : list (vline T S) :=
  match e with
  | Replace a b new => firstn a view ++ new ++ skipn b view
  | Change _ _ _ view' => view'
  | Reset view' => view'
  | _ => view
  end.
Fixpoint events_ok (view : list (vline T S)) (l : list vevent) : Prop :=
  match l with [] => True | e :: l' => event_ok view e /\ events_ok (view_after view e) l' end.

(** ** In step *)
(** The line at [i] is numbered with the logical lines started before it, counting from one. *)
Definition number_of (view : list (vline T S)) (i : nat) : nat := 1 + length (filter vhard (firstn i view)).
Definition same_line (view : list (vline T S)) (i : nat) (l : vline T S) (c : cline) : Prop :=
  ctext c = vtext l /\ cstyle c = vstyle l /\ cln c = if vhard l then Some (number_of view i) else None.
(** Every line in the cache shows the text, styles and number of the view's line, and there are as many. *)
Definition in_step (view : list (vline T S)) (c : cache) : Prop :=
  length c = length view /\
  forall i l x, nth_error view i = Some l -> nth_error c i = Some (Some x) -> same_line view i l x.
Definition shows (view : list (vline T S)) (c : cache) (i : nat) : Prop :=
  exists l x, nth_error view i = Some l /\ nth_error c i = Some (Some x) /\ same_line view i l x /\ ccur x = vcur l.
Definition has_line (c : cache) (i : nat) : Prop := exists x, nth_error c i = Some (Some x).
(** The window and two lines around it. *)
Definition in_window (view : list (vline T S)) (first height i : nat) : Prop :=
  i < length view /\ min first (length view) <= i + 2 /\ i < min first (length view) + height + 2.
End Client.
Arguments cline : clear implicits.
Arguments cache : clear implicits.
Arguments vevent : clear implicits.
Arguments session : clear implicits.
