(** Model of rust/core-lib/src/layers.rs, and of the part of rust/core-lib/src/editor.rs that
    takes the spans of a plugin.

    Simplifications: a scope is a number, and so is a plugin. The highlighter of a theme is a
    function from stacks of scopes to modifiers. The names that are not scopes have already been
    left out of a stack. The map of the layers is a list in the order of the plugins; sets and
    caches are lists. [debug_print_spans] only logs and is left out. *)
From Coq Require Import List Arith Bool.
From Verif Require Import Base TreeModel DeltaModel SpansModel.
Import ListNotations.

Section Layers.
(** [St] and [M] are syntect's and styles.rs' styles and modifiers. [st_eqb] is their equality,
    [st_merge] is styles.rs 123-134, [m_apply] syntect's [StyleModifier::apply], [to_style]
    styles.rs' [from_syntect_style_mod]. *)
Context {St M : Type} (st_eqb : St -> St -> bool) (st_merge : St -> St -> St) (m_def : M) (m_apply : M -> M -> M) (to_style : M -> St).
Notation theme := (list nat -> M).
Notation stack := (list nat).

(** layers.rs 41-52, [ScopeLayer]. *)
Record layer := Layer { ly_stacks : list stack; ly_lookup : list St; ly_cache : list (stack * M);
  ly_scope : node (sleaf nat) unit; ly_style : node (sleaf St) unit }.
(** layers.rs 34-38, [Layers]. *)
Record layers := Layers { ls_layers : list (nat * layer); ls_deleted : list nat; ls_merged : node (sleaf St) unit }.

Fixpoint stack_eqb (a b : stack) : bool :=
  match a, b with [], [] => true | x :: a', y :: b' => (x =? y) && stack_eqb a' b' | _, _ => false end.
(** [HashMap::get], the last insertion first. *)
Fixpoint cache_get (c : list (stack * M)) (k : stack) : option M :=
  match c with [] => None | (k', m) :: c' => if stack_eqb k' k then Some m else cache_get c' k end.
(** layers.rs 242-249: the longest proper prefix of the stack, not empty, that is in the cache;
    [n] is its length or more. *)
Fixpoint longest (c : list (stack * M)) (s : stack) (n : nat) : option (M * nat) :=
  match n with
  | 0 => None
  | S n' => match cache_get c (firstn n s) with Some m => Some (m, n) | None => longest c s n' end
  end.
(** layers.rs 253-257. *)
Fixpoint apply_from (hl : theme) (s : stack) (n i : nat) (base : M) : M :=
  match n with 0 => base | S n' => apply_from hl s n' (S i) (m_apply base (hl (firstn (S i) s))) end.
(** layers.rs 236-262, one stack. The length minus one of an empty stack is a panic. *)
Definition style_for_stack (hl : theme) (c : list (stack * M)) (s : stack) : option (St * list (stack * M)) :=
  match s with
  | [] => None
  | _ =>
      let (base, upper) := match longest c s (length s - 1) with Some (m, n) => (m, n) | None => (m_def, length s) end in
      let m := apply_from hl s (length s - upper) upper base in
      Some (to_style m, (s, m) :: c)
  end.
(** layers.rs 228-265, [styles_for_stacks]. *)
Fixpoint styles_for_stacks (hl : theme) (c : list (stack * M)) (stacks : list stack) : option (list St * list (stack * M)) :=
  match stacks with
  | [] => Some ([], c)
  | s :: stacks' => let? (st, c1) := style_for_stack hl c s in let? (l, c2) := styles_for_stacks hl c1 stacks' in Some (st :: l, c2)
  end.

(** layers.rs 183-191, [ScopeLayer::new]. *)
Definition layer_new (len : nat) : option layer :=
  let? a := sb_build (sb_new len) in let? b := sb_build (sb_new len) in Some (Layer [] [] [] a b).
(** layers.rs 205-226, [ScopeLayer::add_scopes]. *)
Definition layer_add_scopes (hl : theme) (ly : layer) (stacks : list stack) : option layer :=
  let? (l, c) := styles_for_stacks hl (ly_cache ly) stacks in
  Some (Layer (ly_stacks ly ++ stacks) (ly_lookup ly ++ l) c (ly_scope ly) (ly_style ly)).
(** interval.rs 106-116, [union]. *)
Definition union (s e s' e' : nat) : nat * nat :=
  if e <=? s then (s', e') else if e' <=? s' then (s, e) else (Nat.min s s', Nat.max e e').
(** layers.rs 299-310, the loop of [update_styles]; [s], [e], [v] is [prev]. *)
Fixpoint styles_loop (lookup : list St) (s e v : nat) (rest : list (nat * nat * nat)) (sb : sbuilder St) : option (sbuilder St) :=
  match rest with
  | [] => let? x := nth_error lookup v in add_span sb s e x
  | (ns, ne, nv) :: rest' =>
      let? same := (if ns =? e then let? x := nth_error lookup v in let? y := nth_error lookup nv in Some (st_eqb x y) else Some false) in
      if (same : bool) then let (s1, e1) := union s e ns ne in styles_loop lookup s1 e1 v rest' sb
      else let? x := nth_error lookup v in let? sb1 := add_span sb s e x in styles_loop lookup ns ne nv rest' sb1
  end.
(** layers.rs 282-313, [update_styles]. *)
Definition update_styles (ly : layer) (s e : nat) (spans : node (sleaf nat) unit) : option layer :=
  let? l := iter spans in
  let? sb := match l with [] => Some (sb_new (n_len spans)) | (ps, pe, pv) :: l' => styles_loop (ly_lookup ly) ps pe pv l' (sb_new (n_len spans)) end in
  let? new := sb_build sb in
  let? st := edit sp_ops (ly_style ly) s e new in
  Some (Layer (ly_stacks ly) (ly_lookup ly) (ly_cache ly) (ly_scope ly) st).
(** layers.rs 267-270, [update_scopes]. *)
Definition update_scopes (ly : layer) (s e : nat) (spans : node (sleaf nat) unit) : option layer :=
  let? sc := edit sp_ops (ly_scope ly) s e spans in
  update_styles (Layer (ly_stacks ly) (ly_lookup ly) (ly_cache ly) sc (ly_style ly)) s e spans.
(** layers.rs 275-278, [blank_scopes]. *)
Definition blank_scopes {A} (ly : layer) (d : delta A) : option layer :=
  let? st := apply_shape (ly_style ly) d in let? sc := apply_shape (ly_scope ly) d in
  Some (Layer (ly_stacks ly) (ly_lookup ly) (ly_cache ly) sc st).
(** layers.rs 193-203, [ScopeLayer::theme_changed]. *)
Definition layer_theme (hl : theme) (ly : layer) : option layer :=
  let? (l, c) := styles_for_stacks hl (ly_cache ly) (ly_stacks ly) in
  let? st := sb_build (sb_new (n_len (ly_style ly))) in
  update_styles (Layer (ly_stacks ly) l c (ly_scope ly) st) 0 (n_len (ly_style ly)) (ly_scope ly).

(** The map of the layers: [get], [insert], [remove]. *)
Fixpoint lm_get (m : list (nat * layer)) (p : nat) : option layer :=
  match m with [] => None | (q, l) :: m' => if q =? p then Some l else lm_get m' p end.
Fixpoint lm_put (m : list (nat * layer)) (p : nat) (l : layer) : list (nat * layer) :=
  match m with
  | [] => [(p, l)]
  | (q, k) :: m' => if q <? p then (q, k) :: lm_put m' p l else if q =? p then (p, l) :: m' else (p, l) :: (q, k) :: m'
  end.
Definition lm_remove (m : list (nat * layer)) (p : nat) : list (nat * layer) := filter (fun x => negb (fst x =? p)) m.
Fixpoint lm_all (f : layer -> option layer) (m : list (nat * layer)) : option (list (nat * layer)) :=
  match m with [] => Some [] | (q, k) :: m' => let? k1 := f k in let? r := lm_all f m' in Some ((q, k1) :: r) end.

(** layers.rs 131-135: the style where two layers meet. *)
Definition over (a : St) (b : option St) : St := match b with Some b => st_merge a b | None => a end.
(** layers.rs 128-136. *)
Fixpoint resolve_loop (m : list (nat * layer)) (s e : nat) (resolved : node (sleaf St) unit) : option (node (sleaf St) unit) :=
  match m with
  | [] => Some resolved
  | (_, k) :: m' =>
      let? sp := subseq sp_ops (ly_style k) s e in
      check (n_len resolved =? n_len sp)
        (let? r := merge over resolved sp in resolve_loop m' s e r)
  end.
(** layers.rs 122-138, [resolve_styles]. *)
Definition resolve_styles (ls : layers) (s e : nat) : option layers :=
  match ls_layers ls with
  | [] => Some ls
  | (_, k) :: m' =>
      let? r0 := subseq sp_ops (ly_style k) s e in
      let? r := resolve_loop m' s e r0 in
      let? mg := edit sp_ops (ls_merged ls) s e r in
      Some (Layers (ls_layers ls) (ls_deleted ls) mg)
  end.
(** layers.rs 159-167, [create_if_missing]: [None] inside is its [Err]. *)
Definition create_if_missing (ls : layers) (p : nat) : option (option layers) :=
  if existsb (Nat.eqb p) (ls_deleted ls) then Some None
  else match lm_get (ls_layers ls) p with
       | Some _ => Some (Some ls)
       | None => let? k := layer_new (n_len (ls_merged ls)) in Some (Some (Layers (lm_put (ls_layers ls) p k) (ls_deleted ls) (ls_merged ls)))
       end.
(** layers.rs 60-71, [add_scopes]. *)
Definition add_scopes (ls : layers) (p : nat) (stacks : list stack) (hl : theme) : option layers :=
  let? c := create_if_missing ls p in
  match c with
  | None => Some ls
  | Some ls1 => let? k := lm_get (ls_layers ls1) p in let? k1 := layer_add_scopes hl k stacks in Some (Layers (lm_put (ls_layers ls1) p k1) (ls_deleted ls1) (ls_merged ls1))
  end.
(** layers.rs 78-86, [update_all]. *)
Definition update_all {A} (ls : layers) (d : delta A) : option layers :=
  let? mg := apply_shape (ls_merged ls) d in
  let? m := lm_all (fun k => blank_scopes k d) (ls_layers ls) in
  let '((s, e), _) := summary d in
  resolve_styles (Layers m (ls_deleted ls) mg) s e.
(** layers.rs 89-95, [update_layer]. *)
Definition update_layer (ls : layers) (p s e : nat) (spans : node (sleaf nat) unit) : option layers :=
  let? c := create_if_missing ls p in
  match c with
  | None => Some ls
  | Some ls1 =>
      let? k := lm_get (ls_layers ls1) p in
      let? k1 := update_scopes k s e spans in
      resolve_styles (Layers (lm_put (ls_layers ls1) p k1) (ls_deleted ls1) (ls_merged ls1)) s e
  end.
(** layers.rs 99-109, [remove_layer]; the result says whether there was one. *)
Definition remove_layer (ls : layers) (p : nat) : option (bool * layers) :=
  let del := p :: ls_deleted ls in
  match lm_get (ls_layers ls) p with
  | None => Some (false, Layers (ls_layers ls) del (ls_merged ls))
  | Some _ =>
      let? mg := sb_build (sb_new (n_len (ls_merged ls))) in
      let? r := resolve_styles (Layers (lm_remove (ls_layers ls) p) del mg) 0 (n_len (ls_merged ls)) in
      Some (true, r)
  end.
(** layers.rs 111-118, [theme_changed]. *)
Definition theme_changed (ls : layers) (hl : theme) : option layers :=
  let? m := lm_all (layer_theme hl) (ls_layers ls) in
  let? mg := sb_build (sb_new (n_len (ls_merged ls))) in
  resolve_styles (Layers m (ls_deleted ls) mg) 0 (n_len (ls_merged ls)).

(** layers.rs 33, [Layers::default]; editor.rs 94-122, [with_text], starts with it, whatever the
    text. *)
Definition layers_default : layers := Layers [] [] (from_leaf sp_ops (SLeaf 0 [])).
(** editor.rs 596-630, [update_spans], without the view. [since] is the delta from the revision
    the plugin has seen to the head, if they differ and it is known. *)
Definition update_spans {A} (ls : layers) (p start len : nat) (l : list (nat * nat * nat)) (since : option (delta A)) : option layers :=
  let? sb := add_spans (sb_new len) l in
  let? sp := sb_build sb in
  match since with
  | None => update_layer ls p start (start + len) sp
  | Some d =>
      let? sp1 := (if interval_untouched d start (start + len) then Some sp else transform sp start (start + len) d) in
      update_layer ls p (transform_ix d start false) (transform_ix d (start + len) true) sp1
  end.
End Layers.
Arguments layer : clear implicits.
Arguments layers : clear implicits.
