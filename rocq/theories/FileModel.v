(** Model of rust/core-lib/src/file.rs and of its use in tabs.rs: opening, saving and reloading
    files, with the file system's own steps. *)
From Coq Require Import List Arith Bool.
From Verif Require Import Base TreeModel CursorModel RopeModel RopeSpec FindModel ConfigModel.
Import ListNotations.

(** ** Paths *)
(** A path with a file name: its directory and the name, as bytes. *)
Record path := Path { p_dir : str; p_name : str }.
Definition path_eqb (a b : path) : bool := bytes_eqb (p_dir a) (p_dir b) && bytes_eqb (p_name a) (p_name b).
(** [Path::file_stem] and [Path::extension] of the standard library: the name is split at its
    last dot, unless that is where it begins. *)
Definition DOT := 46.
Fixpoint last_dot (s : str) : option nat :=
  match s with
  | [] => None
  | b :: s' => match last_dot s' with Some i => Some (S i) | None => if b =? DOT then Some 0 else None end
  end.
Definition file_stem (n : str) : str := match last_dot n with Some (S i) => firstn (S i) n | _ => n end.
Definition extension (n : str) : option str := match last_dot n with Some (S i) => Some (skipn (S (S i)) n) | _ => None end.
(** [Path::with_extension] of the standard library. *)
Definition with_extension (p : path) (ext : str) : path :=
  Path (p_dir p) (file_stem (p_name p) ++ match ext with [] => [] | _ => DOT :: ext end).
(** file.rs 204-212: the name of the temporary file. *)
Definition SWP : str := [115; 119; 112].
Definition tmp_path (p : path) : path :=
  with_extension p (match extension (p_name p) with None => SWP | Some ext => ext ++ DOT :: SWP end).

(** ** The file system *)
(** A file: its bytes, its modification time and its permissions. Simplified: no links and no
    directories. *)
Record file := { f_bytes : str; f_time : nat; f_mode : nat }.
Definition disk := path -> option file.
Definition put (d : disk) (p : path) (f : option file) : disk := fun q => if path_eqb q p then f else d q.
(** What [try_save] asks of it. [Create] empties a file that is there, which keeps its
    permissions, or else makes one with permissions [m]; [t] is the time of the writing. *)
Inductive op := Create (p : path) (m t : nat) | Append (p : path) (s : str) (t : nat) | Rename (p q : path) | Chmod (p : path) (m : nat).
Definition exec (d : disk) (o : op) : disk :=
  match o with
  | Create p m t => put d p (Some {| f_bytes := []; f_time := t; f_mode := match d p with Some f => f_mode f | None => m end |})
  | Append p s t => match d p with
                    | Some f => put d p (Some {| f_bytes := f_bytes f ++ s; f_time := t; f_mode := f_mode f |})
                    | None => d end
  | Rename p q => match d p with Some f => put (put d q (Some f)) p None | None => d end
  | Chmod p m => match d p with
                 | Some f => put d p (Some {| f_bytes := f_bytes f; f_time := f_time f; f_mode := m |})
                 | None => d end
  end.
Fixpoint exec_all (d : disk) (os : list op) : disk := match os with [] => d | o :: os' => exec_all (exec d o) os' end.
(** Interrupted: the first [n] steps are done, and of a write that comes next only [k] bytes. *)
Definition part (k : nat) (o : op) : list op := match o with Append p s t => [Append p (firstn k s) t] | _ => [] end.
Definition exec_upto (d : disk) (os : list op) (n k : nat) : disk :=
  exec_all d (firstn n os ++ match nth_error os n with Some o => part k o | None => [] end).

(** ** Encodings *)
(** file.rs 38, [UTF8_BOM], and 65-69, [CharacterEncoding], as whether there is a mark;
    263-269, [guess]. *)
Definition BOM : str := [239; 187; 191].
Definition guess (s : str) : bool := starts_with s BOM.
(** [str::from_utf8]: whether the bytes are text. *)
Definition utf8b (s : str) : bool := forallb utf8_char (chars s).
(** file.rs 247-260, [try_decode]; [None] is [FileError::UnknownEncoding]. *)
Definition try_decode (s : str) (bom : bool) : option str :=
  if utf8b s then Some (if bom then skipn (length BOM) s else s) else None.

(** ** The file manager *)
(** file.rs 49-57, [FileInfo], and 40-47, [FileManager]. Whom the watcher tells of a change is
    left to the events below. *)
Record info := { i_bom : bool; i_path : path; i_time : option nat; i_changed : bool; i_mode : option nat }.
Record files := { open_files : list (path * nat); file_info : list (nat * info) }.
Definition get_info (m : files) (id : nat) : option info := aget Nat.eqb (file_info m) id.
Definition get_editor (m : files) (p : path) : option nat := aget path_eqb (open_files m) p.
(** file.rs 274-276, [get_mod_time], and 280-283, [get_permissions]. *)
Definition get_mod_time (d : disk) (p : path) : option nat := match d p with Some f => Some (f_time f) | None => None end.
Definition get_permissions (d : disk) (p : path) : option nat := match d p with Some f => Some (f_mode f) | None => None end.
Definition opt_eqb (a b : option nat) : bool :=
  match a, b with Some x, Some y => x =? y | None, None => true | _, _ => false end.
(** file.rs 98-107, [check_file]. *)
Definition check_file (m : files) (d : disk) (p : path) (id : nat) : files * bool :=
  match get_info m id with
  | None => (m, false)
  | Some i =>
      let changed := if opt_eqb (get_mod_time d p) (i_time i) then i_changed i else true in
      ({| open_files := open_files m;
          file_info := aset Nat.eqb (file_info m) id
            {| i_bom := i_bom i; i_path := i_path i; i_time := i_time i; i_changed := changed; i_mode := i_mode i |} |}, changed)
  end.
(** What others do to the file at [p] between the reading or writing of its bytes and the look
    at its modification time. *)
Definition meanwhile (d : disk) (p : path) (x : option (option file)) : disk :=
  match x with Some f => put d p f | None => d end.
(** file.rs 176-198, [try_load_file], for a file that can be read: the text and what is noted;
    [None] is an error. *)
Definition try_load_file (d : disk) (p : path) (f : file) (x : option (option file)) : option (str * info) :=
  let bom := guess (f_bytes f) in
  let? text := try_decode (f_bytes f) bom in
  let d := meanwhile d p x in
  Some (text, {| i_bom := bom; i_path := p; i_time := get_mod_time d p; i_changed := false; i_mode := get_permissions d p |}).
(** file.rs 109-122, [open]. The last component says which bytes were read, if any. *)
Definition fm_open (m : files) (d : disk) (p : path) (id : nat) (x : option (option file)) : option (files * str * option str) :=
  match d p with
  | None => Some (m, [], None)
  | Some f =>
      let? r := try_load_file d p f x in
      Some ({| open_files := aset path_eqb (open_files m) p id; file_info := aset Nat.eqb (file_info m) id (snd r) |},
            fst r, Some (f_bytes f))
  end.
(** file.rs 124-130, [close]. *)
Definition fm_close (m : files) (id : nat) : files :=
  match get_info m id with
  | Some i => {| open_files := arem path_eqb (open_files m) (i_path i); file_info := arem Nat.eqb (file_info m) id |}
  | None => m
  end.

(** file.rs 200-245, [try_save]: the steps that can fail, and the last one, whose failure is
    ignored. [chunks] are the pieces of the rope; [m] are the permissions of a new file. *)
Definition save_steps (p : path) (chunks : list str) (bom : bool) (m t : nat) : list op :=
  Create (tmp_path p) m t :: (if bom then [Append (tmp_path p) BOM t] else [])
  ++ map (fun s => Append (tmp_path p) s t) chunks ++ [Rename (tmp_path p) p].
Definition DEFAULT_MODE := 420.
Definition last_step (p : path) (i : option info) : list op :=
  match i with
  | Some i => [Chmod p (match i_mode i with Some m => m | None => DEFAULT_MODE end)]
  | None => []
  end.
Definition all_steps (p : path) (chunks : list str) (bom : bool) (i : option info) (m t : nat) : list op :=
  save_steps p chunks bom m t ++ last_step p i.
(** How a save goes: through, with the permissions set or not, or it stops in step [n] of those
    that can fail, with [k] bytes of a write done. *)
Inductive outcome := Through (perms : bool) | Stops (n k : nat).
Definition try_save (d : disk) (p : path) (chunks : list str) (bom : bool) (i : option info) (m t : nat) (o : outcome) : disk * bool :=
  let steps := save_steps p chunks bom m t in
  match o with
  | Through perms => (exec_all d (steps ++ if perms then last_step p i else []), true)
  | Stops n k => if n <? length steps then (exec_upto d steps n k, false)
                 else (exec_all d (steps ++ last_step p i), true)
  end.
(** How [save] ends. *)
Inductive saved := Written | HasChanged | Failed.
(** file.rs 141-156, [save_new]. [x] is as above. *)
Definition save_new (fm : files) (d : disk) (p : path) (chunks : list str) (id : nat) (m t : nat) (o : outcome) (x : option (option file))
  : files * disk * saved :=
  let r := try_save d p chunks false (get_info fm id) m t o in
  if snd r then
    let d := meanwhile (fst r) p x in
    ({| open_files := aset path_eqb (open_files fm) p id;
        file_info := aset Nat.eqb (file_info fm) id
          {| i_bom := false; i_path := p; i_time := get_mod_time d p; i_changed := false; i_mode := get_permissions d p |} |}, d, Written)
  else (fm, fst r, Failed).
(** file.rs 158-174, [save_existing]; 132-139, [save]. *)
Definition fm_save (fm : files) (d : disk) (p : path) (chunks : list str) (id : nat) (m t : nat) (o : outcome) (x : option (option file))
  : files * disk * saved :=
  match get_info fm id with
  | None => save_new fm d p chunks id m t o x
  | Some i =>
      if negb (path_eqb (i_path i) p) then
        let '(fm, d, r) := save_new fm d p chunks id m t o x in
        match r with
        | Written => ({| open_files := arem path_eqb (open_files fm) (i_path i); file_info := file_info fm |}, d, Written)
        | _ => (fm, d, r)
        end
      else if i_changed i then (fm, d, HasChanged)
      else
        let r := try_save d p chunks (i_bom i) (Some i) m t o in
        if snd r then
          let d := meanwhile (fst r) p x in
          ({| open_files := open_files fm;
              file_info := aset Nat.eqb (file_info fm) id
                {| i_bom := i_bom i; i_path := i_path i; i_time := get_mod_time d p; i_changed := i_changed i; i_mode := i_mode i |} |}, d, Written)
        else (fm, fst r, Failed)
  end.

(** ** The core *)
(** event_context.rs 528-549, [text_for_save], on the text; [text_for_save_rope] is on the rope. *)
Fixpoint ends_with (s suffix : str) : bool := bytes_eqb s suffix || match s with [] => false | _ :: s' => ends_with s' suffix end.
Definition text_for_save (s : str) (newline : bool) (ending : str) : str :=
  if (length s <? 1) || negb newline then s else if ends_with s ending then s else s ++ ending.
Definition text_for_save_rope (r : rope) (newline : bool) (ending : str) : option rope :=
  let len := n_len r in
  if (len <? 1) || negb newline then Some r
  else
    let? c := c_new r len in
    let? l := c_get_leaf c in
    let? l := l in
    if ends_with (fst l) ending then Some r else rope_edit r len len ending.

(** An editor: its text, the text when [set_pristine] was last called, and whether there has been
    no edit since. editor.rs 152-158: a buffer is pristine if its revision is equivalent to the
    one noted then; it is if there was no edit, and if it is the text is that of then
    (C19_equivalent_sound); whether it is after edits that end at the same text is left open
    ([equivalent]). *)
Record editor := { e_text : str; e_saved : str; e_clean : bool }.
Definition fresh (s : str) : editor := {| e_text := s; e_saved := s; e_clean := true |}.
Definition set_pristine (e : editor) : editor := fresh (e_text e).
Definition is_pristine (e : editor) (equivalent : bool) : bool :=
  e_clean e || equivalent && bytes_eqb (e_text e) (e_saved e).
(** The core; a buffer and its view have one number. *)
Record core := { k_disk : disk; k_files : files; k_editors : list (nat * editor); k_next : nat }.
(** What is seen from outside: which bytes are taken from or written to the file of a buffer,
    and errors. *)
Inductive output := Loaded (id : nat) (bytes : str) | Wrote (id : nat) (bytes : str) | Refused (id : nat) | Broken (id : nat) | NotText.

Section Core.
(** The pieces in which a rope gives its text ([iter_chunks]). *)
Context (chunks : str -> list str).

Inductive event :=
| Open (p : path) (x : option (option file)) | New
| Edit (id : nat) (s : str)
| Save (id : nat) (p : path) (newline : bool) (ending : str) (m t : nat) (o : outcome) (x : option (option file))
| Close (id : nat)
| Other (p : path) (f : option file)
| Notified (p : path) (equivalent : bool).

(** tabs.rs 365-395, [do_new_view]. *)
Definition do_new_view (c : core) (p : option path) (x : option (option file)) : core * list output :=
  let id := k_next c in
  match p with
  | None => ({| k_disk := k_disk c; k_files := k_files c; k_editors := aset Nat.eqb (k_editors c) id (fresh []); k_next := id + 1 |}, [])
  | Some p =>
      let d := match k_disk c p with Some _ => meanwhile (k_disk c) p x | None => k_disk c end in
      match fm_open (k_files c) (k_disk c) p id x with
      | Some (fm, text, b) =>
          ({| k_disk := d; k_files := fm; k_editors := aset Nat.eqb (k_editors c) id (fresh text); k_next := id + 1 |},
           match b with Some b => [Loaded id b] | None => [] end)
      | None => ({| k_disk := d; k_files := k_files c; k_editors := k_editors c; k_next := id + 1 |}, [NotText])
      end
  end.
(** tabs.rs 397-429, [do_save]; event_context.rs 428-434, [after_save]. *)
Definition do_save (c : core) (id : nat) (p : path) (newline : bool) (ending : str) (m t : nat) (o : outcome) (x : option (option file)) : core * list output :=
  match aget Nat.eqb (k_editors c) id with
  | None => (c, [])
  | Some e =>
      let text := text_for_save (e_text e) newline ending in
      let bom := match get_info (k_files c) id with Some i => path_eqb (i_path i) p && i_bom i | None => false end in
      let '(fm, d, r) := fm_save (k_files c) (k_disk c) p (chunks text) id m t o x in
      match r with
      | Written => ({| k_disk := d; k_files := fm; k_editors := aset Nat.eqb (k_editors c) id (set_pristine e); k_next := k_next c |},
                    [Wrote id ((if bom then BOM else []) ++ text)])
      | HasChanged => ({| k_disk := d; k_files := fm; k_editors := k_editors c; k_next := k_next c |}, [Refused id])
      | Failed => ({| k_disk := d; k_files := fm; k_editors := k_editors c; k_next := k_next c |}, [Broken id])
      end
  end.
(** tabs.rs 431-443, [do_close_view]. *)
Definition do_close_view (c : core) (id : nat) : core * list output :=
  match aget Nat.eqb (k_editors c) id with
  | None => (c, [])
  | Some _ => ({| k_disk := k_disk c; k_files := fm_close (k_files c) id; k_editors := arem Nat.eqb (k_editors c) id; k_next := k_next c |}, [])
  end.
(** tabs.rs 703-742, [handle_open_file_fs_event], for an event of the kinds it looks at;
    editor.rs 172-176, [reload], whose delta gives the new text (C27). The outer [None] is the
    [unwrap] of the editor. *)
Definition handle_open_file_fs_event (c : core) (p : path) (equivalent : bool) : option (core * list output) :=
  match get_editor (k_files c) p with
  | None => Some (c, [])
  | Some id =>
      let '(fm, changed) := check_file (k_files c) (k_disk c) p id in
      let? e := aget Nat.eqb (k_editors c) id in
      if changed && is_pristine e equivalent then
        match fm_open fm (k_disk c) p id None with
        | Some (fm, text, b) =>
            Some ({| k_disk := k_disk c; k_files := fm; k_editors := aset Nat.eqb (k_editors c) id (fresh text); k_next := k_next c |},
                  match b with Some b => [Loaded id b] | None => [] end)
        | None => Some ({| k_disk := k_disk c; k_files := fm; k_editors := k_editors c; k_next := k_next c |}, [NotText])
        end
      else Some ({| k_disk := k_disk c; k_files := fm; k_editors := k_editors c; k_next := k_next c |}, [])
  end.
(** One event. [Edit] stands for whatever the user does to the text; [Other] for what other
    programs do to a file. *)
Definition step (c : core) (e : event) : option (core * list output) :=
  match e with
  | Open p x => Some (do_new_view c (Some p) x)
  | New => Some (do_new_view c None None)
  | Edit id s =>
      Some (match aget Nat.eqb (k_editors c) id with
            | Some ed => {| k_disk := k_disk c; k_files := k_files c;
                            k_editors := aset Nat.eqb (k_editors c) id {| e_text := s; e_saved := e_saved ed; e_clean := false |}; k_next := k_next c |}
            | None => c end, [])
  | Save id p newline ending m t o x => Some (do_save c id p newline ending m t o x)
  | Close id => Some (do_close_view c id)
  | Other p f => Some ({| k_disk := put (k_disk c) p f; k_files := k_files c; k_editors := k_editors c; k_next := k_next c |}, [])
  | Notified p equivalent => handle_open_file_fs_event c p equivalent
  end.
Fixpoint run (c : core) (es : list event) : option (core * list output) :=
  match es with
  | [] => Some (c, [])
  | e :: es' => let? r := step c e in let? q := run (fst r) es' in Some (fst q, snd r ++ snd q)
  end.
Definition start (d : disk) : core := {| k_disk := d; k_files := {| open_files := []; file_info := [] |}; k_editors := []; k_next := 1 |}.
End Core.
