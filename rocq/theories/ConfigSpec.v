(** What a user is told about settings (docs/docs/config.md): every source gives some keys a
    value, and a buffer has for each key the value of the most specific source that gives one. *)
From Coq Require Import List Arith Bool String ZArith.
From Verif Require Import Base DetectModel ConfigModel.
Import ListNotations.

Definition source := string -> option value.
Definition nothing : source := fun _ => None.
(** The value a table gives a key. *)
Definition given (t : table) : source := fun k =>
  match List.find (fun p => String.eqb (fst p) k) t with Some p => Some (snd p) | None => None end.
(** The tables of a JSON or TOML document have each key once. *)
Definition keys_once (t : table) : Prop := NoDup (map fst t).
Definition keys_once_opt (t : option table) : Prop := match t with Some t => keys_once t | None => True end.
(** A table is acceptable if every setting it gives has a value of the setting's type; other
    keys may have any value. *)
Definition acceptable (t : table) : bool :=
  forallb (fun p => is_null (snd p)
                    || forallb (fun f => negb (String.eqb (fst f) (fst p)) || fits (snd f) (snd p)) fields) t.
(** Every setting is given. *)
Definition complete (t : table) : Prop :=
  forall k kd, In (k, kd) fields -> exists x, given t k = Some x /\ fits kd x = true.
Definition no_null (t : table) : Prop := forall k, ~ In (k, VNull) t.

Section Spec.
Variable base : table.
Variable defs : list language.

(** The language with this name, if a plugin defines it: the last definition counts. *)
Definition definition_of (l : string) : option language := List.find (fun d => String.eqb (l_name d) l) (rev defs).
Definition language_default (l : string) : source :=
  match definition_of l with
  | Some d => match l_default d with Some t => given t | None => nothing end
  | None => nothing
  end.
(** The language of a file with this extension. *)
Definition language_of_path (p : string) : option string :=
  match List.find (fun d => existsb (String.eqb p) (l_extensions d)) (rev defs) with
  | Some d => Some (l_name d)
  | None => None
  end.

(** What the user and the system have set so far. *)
Record sheet := { s_user : domain -> source;            (* settings made for a domain *)
                  s_path : nat -> string;               (* the language a view's path says it has *)
                  s_chosen : nat -> option string;      (* the language chosen for a view *)
                  s_open : list nat; s_wait : list nat; (* open views; views not yet announced *)
                  s_next : nat }.
Definition language_of (s : sheet) (v : nat) : string :=
  match s_chosen s v with Some l => l | None => s_path s v end.
Fixpoint first_of (l : list (option value)) : option value :=
  match l with [] => None | Some x :: _ => Some x | None :: l' => first_of l' end.
(** A buffer's settings: what is set for the buffer, then what was found in its file, then what
    is set for its language, the language's defaults, the general preferences, the defaults. *)
Definition setting (s : sheet) (v : nat) (k : string) : option value :=
  let l := language_of s v in
  let of_language := match definition_of l with Some _ => [s_user s (Language l) k; language_default l k] | None => [] end in
  first_of ([s_user s (UserOverride v) k; s_user s (SysOverride v) k] ++ of_language ++ [s_user s General k; given base k]).

Definition put {X} (f : nat -> X) (v : nat) (x : X) : nat -> X := fun u => if u =? v then x else f u.
Definition put_source (f : domain -> source) (d : domain) (x : source) : domain -> source :=
  fun e => if domain_eqb e d then x else f e.
(** Changes give keys new values; null takes a key's value away. *)
Definition changed_by (f : source) (t : table) : source := fun k =>
  match given t k with Some VNull => None | Some x => Some x | None => f k end.
Definition set_source (s : sheet) (d : domain) (f : source) : sheet :=
  {| s_user := put_source (s_user s) d f; s_path := s_path s; s_chosen := s_chosen s;
     s_open := s_open s; s_wait := s_wait s; s_next := s_next s |}.
Definition domain_of_file (stem : string) : option domain :=
  if String.eqb stem "preferences" then Some General
  else match definition_of stem with Some _ => Some (Language stem) | None => None end.
Definition opened (s : sheet) (v : nat) : bool := existsb (Nat.eqb v) (s_open s).
(** What the text of a view says: tabs or spaces, and how many, and how lines end. *)
Definition found_setting (f : found) : source := fun k =>
  if String.eqb k "translate_tabs_to_spaces" then match f_indent f with Found Tabs => Some (VBool false) | Found (Spaces _) => Some (VBool true) | _ => None end
  else if String.eqb k "tab_size" then match f_indent f with Found (Spaces n) => Some (VInt (Z.of_nat n)) | _ => None end
  else if String.eqb k "line_ending" then
    match f_ending f with
    | Found CrLf => Some (VStr (String (Ascii.ascii_of_nat 13) (String (Ascii.ascii_of_nat 10) EmptyString)))
    | Found Lf => Some (VStr (String (Ascii.ascii_of_nat 10) EmptyString))
    | _ => None end
  else None.
(** A new view's whitespace settings come from its text, if that is on and there is a text. *)
Definition announce (read : nat -> found) (s : sheet) (v : nat) : sheet :=
  if opened s v && negb (f_empty (read v))
     && match setting s v "autodetect_whitespace" with Some (VBool true) => true | _ => false end
     && acceptable (detected_changes (read v))
  then set_source s (SysOverride v) (changed_by (s_user s (SysOverride v)) (detected_changes (read v)))
  else s.
Definition s_step (s : sheet) (e : event) : sheet :=
  match e with
  | NewView p =>
      let l := match p with Some p => match language_of_path p with Some l => l | None => PLAIN end | None => PLAIN end in
      {| s_user := s_user s; s_path := put (s_path s) (s_next s) l; s_chosen := put (s_chosen s) (s_next s) None;
         s_open := s_next s :: s_open s; s_wait := s_wait s ++ [s_next s]; s_next := s_next s + 1 |}
  | Save v p =>
      if opened s v then
        let l := match language_of_path p with Some l => l | None => EmptyString end in
        {| s_user := s_user s; s_path := put (s_path s) v l; s_chosen := s_chosen s;
           s_open := s_open s; s_wait := s_wait s; s_next := s_next s |}
      else s
  | CloseView v =>
      {| s_user := s_user s; s_path := s_path s; s_chosen := s_chosen s;
         s_open := filter (fun u => negb (u =? v)) (s_open s); s_wait := s_wait s; s_next := s_next s |}
  | ModifyUserConfig d t =>
      let known := match d with UserOverride v => opened s v | SysOverride _ => false | _ => true end in
      if known && acceptable t then set_source s d (changed_by (s_user s d) t) else s
  | SetLanguage v l =>
      if opened s v then
        {| s_user := s_user s; s_path := s_path s; s_chosen := put (s_chosen s) v (Some l);
           s_open := s_open s; s_wait := s_wait s; s_next := s_next s |}
      else s
  | ConfigFile stem t =>
      match domain_of_file stem with
      | Some d => if acceptable t then set_source s d (given t) else s
      | None => s
      end
  | ConfigFileRemoved stem =>
      match domain_of_file stem with Some d => set_source s d nothing | None => s end
  | Idle read =>
      let s' := fold_left (announce read) (s_wait s) s in
      {| s_user := s_user s'; s_path := s_path s'; s_chosen := s_chosen s';
         s_open := s_open s'; s_wait := []; s_next := s_next s' |}
  end.
Definition s_run (s : sheet) (es : list event) : sheet := fold_left s_step es s.
Definition from_file (t : option table) : source :=
  match t with Some t => if acceptable t then given t else nothing | None => nothing end.
Definition s_start (preferences : option table) (files : string -> option table) : sheet :=
  {| s_user := fun d => match d with
                        | General => from_file preferences
                        | Language l => match definition_of l with Some _ => from_file (files l) | None => nothing end
                        | _ => nothing end;
     s_path := fun _ => PLAIN; s_chosen := fun _ => None; s_open := []; s_wait := []; s_next := 1 |}.
(** No view is closed before it is announced: when the idle handler runs, every view it is to
    announce is open. *)
Definition in_time (s : sheet) (e : event) : Prop :=
  match e with Idle _ => forall v, In v (s_wait s) -> opened s v = true | _ => True end.
Fixpoint in_time_all (s : sheet) (es : list event) : Prop :=
  match es with [] => True | e :: es' => in_time s e /\ in_time_all (s_step s e) es' end.
End Spec.

(** Tables in events have each key once. *)
Definition event_once (e : event) : Prop :=
  match e with ModifyUserConfig _ t => keys_once t | ConfigFile _ t => keys_once t | _ => True end.

(** A configuration file holds no null: TOML has none. *)
Definition event_sound (e : event) : Prop := match e with ConfigFile _ t => no_null t | _ => True end.
Definition no_null_opt (t : option table) : Prop := match t with Some t => no_null t | None => True end.
(** The defaults the plugins bring are acceptable. *)
Definition defaults_sound (defs : list language) : Prop :=
  forall d t, In d defs -> l_default d = Some t -> keys_once t /\ acceptable t = true /\ no_null t.

(** A client keeps the values it is told for a view, the newest for each key. *)
Definition client_step (v : nat) (have : source) (m : message) : source :=
  match m with
  | Initial u t | Changed u t =>
      if u =? v then fun k => match given t k with Some x => Some x | None => have k end else have
  | _ => have
  end.
Definition client (v : nat) (ms : list message) : source := fold_left (client_step v) ms nothing.
(** The last language a client was told for a view. *)
Definition client_language (v : nat) (ms : list message) : option string :=
  fold_left (fun l m => match m with Told u x => if u =? v then Some x else l | _ => l end) ms None.
(** The first settings a client hears of for a view are the ones it starts with. *)
Definition settings_for (v : nat) (m : message) : bool :=
  match m with Initial u _ | Changed u _ => u =? v | _ => false end.
Definition starts_first (v : nat) (ms : list message) : Prop :=
  exists t rest, filter (settings_for v) ms = Initial v t :: rest.
