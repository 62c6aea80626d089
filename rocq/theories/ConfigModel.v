(** Model of rust/core-lib/src/config.rs, of the language lookup in syntax.rs, and of the calls
    to them in tabs.rs: where a buffer's settings come from, and what the client is told. *)
From Coq Require Import List Arith Bool String ZArith.
From Verif Require Import Base DetectModel.
Import ListNotations.

(** A setting's value ([serde_json::Value]). Simplified: numbers with a fraction are opaque
    labels, the arrays the settings use are lists of pairs of strings, and every other array or
    object, which no setting accepts, is an opaque label. *)
Inductive value :=
| VNull | VBool (b : bool) | VInt (z : Z) | VFloat (label : nat) | VStr (s : string)
| VPairs (l : list (string * string)) | VOther (label : nat).
Definition value_dec : forall a b : value, {a = b} + {a <> b}.
Proof.
  decide equality; try apply Nat.eq_dec; try apply Z.eq_dec; try apply string_dec; try apply bool_dec.
  apply list_eq_dec. intros [x y] [z w].
  destruct (string_dec x z); [destruct (string_dec y w)|]; [left; congruence|right; congruence|right; congruence].
Defined.
Definition value_eqb (a b : value) : bool := if value_dec a b then true else false.

(** Maps ([HashMap], [BTreeMap], [serde_json::Map]) as association lists; the order of the
    entries stands for the map's own, which nothing below depends on. *)
Fixpoint aget {K V} (eqb : K -> K -> bool) (m : list (K * V)) (k : K) : option V :=
  match m with [] => None | (j, v) :: m' => if eqb j k then Some v else aget eqb m' k end.
Fixpoint aset {K V} (eqb : K -> K -> bool) (m : list (K * V)) (k : K) (v : V) : list (K * V) :=
  match m with [] => [(k, v)] | (j, w) :: m' => if eqb j k then (j, v) :: m' else (j, w) :: aset eqb m' k v end.
Definition arem {K V} (eqb : K -> K -> bool) (m : list (K * V)) (k : K) : list (K * V) :=
  filter (fun p => negb (eqb (fst p) k)) m.

(** config.rs 60, [Table]. *)
Definition table := list (string * value).
Definition tget : table -> string -> option value := aget String.eqb.
Definition tset : table -> string -> value -> table := aset String.eqb.
Definition trem : table -> string -> table := arem String.eqb.

(** config.rs 62-76, [ConfigDomain]. *)
Inductive domain := General | Language (l : string) | UserOverride (b : nat) | SysOverride (b : nat).
Definition domain_eqb (a b : domain) : bool :=
  match a, b with
  | General, General => true
  | Language x, Language y => String.eqb x y
  | UserOverride x, UserOverride y => x =? y
  | SysOverride x, SysOverride y => x =? y
  | _, _ => false
  end.

(** config.rs 104-112, [ConfigPair]. *)
Record pair := { p_base : option table; p_user : option table; p_cache : table }.
Definition table_or_default (t : option table) : table := match t with Some t => t | None => [] end.
(** config.rs 194-198, [with_base]. *)
Definition with_base (t : option table) : pair :=
  {| p_base := t; p_user := None; p_cache := table_or_default t |}.
(** config.rs 230-238, [rebuild]. *)
Definition rebuild (p : pair) : pair :=
  let cache := table_or_default (p_base p) in
  let cache := match p_user p with
               | Some user => fold_left (fun c kv => tset c (fst kv) (snd kv)) user cache
               | None => cache end in
  {| p_base := p_base p; p_user := p_user p; p_cache := cache |}.
(** config.rs 202-207, [new_with_base]. *)
Definition new_with_base (p : pair) (t : option table) : pair :=
  let n := with_base t in
  rebuild {| p_base := p_base n; p_user := p_user p; p_cache := p_cache n |}.
(** config.rs 209-212, [set_table]. *)
Definition set_table (p : pair) (user : table) : pair :=
  rebuild {| p_base := p_base p; p_user := Some user; p_cache := p_cache p |}.
(** config.rs 216-228, [ConfigPair::table_for_update]. *)
Definition is_null (v : value) : bool := match v with VNull => true | _ => false end.
Definition pair_table_for_update (p : pair) (user : table) : table :=
  fold_left (fun t kv => if is_null (snd kv) then trem t (fst kv) else tset t (fst kv) (snd kv))
            user (table_or_default (p_user p)).

(** config.rs 159-190: the fields of [BufferItems] and what serde accepts for each. *)
Inductive kind := KStr | KPositive | KNat | KBool | KNumber | KPairs.
Definition fits (k : kind) (v : value) : bool :=
  match k, v with
  | KStr, VStr _ => true
  | KPositive, VInt z => (0 <? z)%Z
  | KNat, VInt z => (0 <=? z)%Z
  | KBool, VBool _ => true
  | KNumber, VInt _ => true
  | KNumber, VFloat _ => true
  | KPairs, VPairs _ => true
  | _, _ => false
  end.
Definition fields : list (string * kind) :=
  [("line_ending"%string, KStr); ("tab_size"%string, KPositive); ("translate_tabs_to_spaces"%string, KBool);
   ("use_tab_stops"%string, KBool); ("font_face"%string, KStr); ("font_size"%string, KNumber);
   ("auto_indent"%string, KBool); ("scroll_past_end"%string, KBool); ("wrap_width"%string, KNat);
   ("word_wrap"%string, KBool); ("autodetect_whitespace"%string, KBool);
   ("surrounding_pairs"%string, KPairs); ("save_with_newline"%string, KBool)].
(** [serde_json::from_value::<BufferItems>]: every field must be there and fit, other keys are
    ignored. Simplified: the items keep the JSON value, and integers have no upper limit. *)
Fixpoint from_value_of (fs : list (string * kind)) (t : table) : option (list (string * value)) :=
  match fs with
  | [] => Some []
  | (k, kd) :: fs' =>
      match tget t k with
      | Some v => if fits kd v then let? r := from_value_of fs' t in Some ((k, v) :: r) else None
      | None => None
      end
  end.
Definition from_value (t : table) : option (list (string * value)) := from_value_of fields t.

(** assets/defaults.toml, as config.rs 30-57 [load_base_config] loads it off Windows. *)
Definition default_table : table :=
  [("tab_size"%string, VInt 4); ("translate_tabs_to_spaces"%string, VBool true); ("use_tab_stops"%string, VBool true);
   ("plugin_search_path"%string, VPairs []); ("font_face"%string, VStr "InconsolataGo"); ("font_size"%string, VInt 14);
   ("line_ending"%string, VStr (String (Ascii.ascii_of_nat 10) EmptyString)); ("auto_indent"%string, VBool true);
   ("scroll_past_end"%string, VBool false); ("wrap_width"%string, VInt 0); ("word_wrap"%string, VBool false);
   ("autodetect_whitespace"%string, VBool true);
   ("surrounding_pairs"%string, VPairs [("""", """"); ("'", "'"); ("{", "}"); ("[", "]")]%string);
   ("save_with_newline"%string, VBool true)].

(** config.rs 144, [TableStack]; the first table has priority. config.rs 567-581, [collate]. *)
Definition collate_one (out : table) (t : table) : table :=
  fold_left (fun out kv => match tget out (fst kv) with Some _ => out | None => tset out (fst kv) (snd kv) end) t out.
Definition collate (st : list table) : table := fold_left collate_one st [].
(** config.rs 596-603, [get]. *)
Fixpoint stack_get (st : list table) (k : string) : option value :=
  match st with
  | [] => None
  | t :: st' => match tget t k with Some v => Some v | None => stack_get st' k end
  end.
(** config.rs 607-617, [diff]. *)
Definition opt_value_eqb (a b : option value) : bool :=
  match a, b with Some x, Some y => value_eqb x y | None, None => true | _, _ => false end.
Definition diff (this other : list table) : option table :=
  fold_left (fun out kv =>
               if opt_value_eqb (stack_get other (fst kv)) (Some (snd kv)) then out
               else Some (tset (table_or_default out) (fst kv) (snd kv)))
            (collate this) None.
(** config.rs 147-153, [Config]; 584-592, [into_config], which panics if the table is bad. *)
Record config := { c_source : list table; c_items : list (string * value) }.
Definition into_config (st : list table) : option config :=
  let? items := from_value (collate st) in Some {| c_source := st; c_items := items |}.
(** config.rs 621-623, [to_table]. *)
Definition to_table (c : config) : table := collate (c_source c).
(** config.rs 629-634, [changes_from]. *)
Definition changes_from (c : config) (other : option config) : option table :=
  match other with Some o => diff (c_source c) (c_source o) | None => Some (collate (c_source c)) end.

(** syntax.rs 33-41, [LanguageDefinition], with the fields used here. *)
Record language := { l_name : string; l_extensions : list string; l_default : option table }.
(** syntax.rs 44-63, [Languages] and [new]. *)
Record languages := { named : list (string * language); extensions : list (string * language) }.
Definition languages_new (defs : list language) : languages :=
  fold_left (fun ls l =>
               {| named := aset String.eqb (named ls) (l_name l) l;
                  extensions := fold_left (fun m e => aset String.eqb m e l) (l_extensions l) (extensions ls) |})
            defs {| named := []; extensions := [] |}.
(** syntax.rs 65-70, [language_for_path]. A path is given by its extension, or its file name if
    it has none. *)
Definition language_for_path (ls : languages) (p : string) : option language := aget String.eqb (extensions ls) p.
(** syntax.rs 72-77, [language_for_name]. *)
Definition language_for_name (ls : languages) (n : string) : option language := aget String.eqb (named ls) n.
(** syntax.rs 81-87, [difference]. *)
Definition difference (ls other : languages) : list language :=
  map snd (filter (fun p => match aget String.eqb (named other) (fst p) with Some _ => false | None => true end) (named ls)).

(** config.rs 117-121 and 647-672, [LanguageTag]. *)
Record tag := { t_detected : string; t_user : option string }.
Definition resolve (t : tag) : string := match t_user t with Some u => u | None => t_detected t end.
Definition set_detected (t : tag) (d : string) : tag * bool :=
  let n := {| t_detected := d; t_user := t_user t |} in (n, negb (String.eqb (resolve t) (resolve n))).
Definition opt_str_eqb (a b : option string) : bool :=
  match a, b with Some x, Some y => String.eqb x y | None, None => true | _, _ => false end.
Definition set_user (t : tag) (u : option string) : tag * bool :=
  ({| t_detected := t_detected t; t_user := u |}, negb (opt_str_eqb (t_user t) u)).

(** config.rs 123-139, [ConfigManager]. *)
Record manager := { m_configs : list (domain * pair); m_languages : languages;
                    m_tags : list (nat * tag); m_buffers : list (nat * config) }.
Definition get_pair (m : manager) (d : domain) : option pair := aget domain_eqb (m_configs m) d.
Definition with_configs (m : manager) (c : list (domain * pair)) : manager :=
  {| m_configs := c; m_languages := m_languages m; m_tags := m_tags m; m_buffers := m_buffers m |}.
Definition with_tags (m : manager) (t : list (nat * tag)) : manager :=
  {| m_configs := m_configs m; m_languages := m_languages m; m_tags := t; m_buffers := m_buffers m |}.
Definition with_buffers (m : manager) (b : list (nat * config)) : manager :=
  {| m_configs := m_configs m; m_languages := m_languages m; m_tags := m_tags m; m_buffers := b |}.
(** config.rs 242-254, [new]. *)
Definition manager_new (base : table) : manager :=
  {| m_configs := [(General, with_base (Some base))]; m_languages := languages_new []; m_tags := []; m_buffers := [] |}.

(** config.rs 358-383, [generate_buffer_config]. *)
Definition opt_list {X} (o : option X) : list X := match o with Some x => [x] | None => [] end.
Definition stack_of (m : manager) (id : nat) : list table :=
  let lang := match aget Nat.eqb (m_tags m) id with
              | Some t => match language_for_name (m_languages m) (resolve t) with Some l => Some (l_name l) | None => None end
              | None => None end in
  let configs := opt_list (get_pair m General)
                 ++ (match lang with Some s => opt_list (get_pair m (Language s)) | None => [] end)
                 ++ opt_list (get_pair m (SysOverride id)) ++ opt_list (get_pair m (UserOverride id)) in
  rev (map p_cache configs).
Definition generate_buffer_config (m : manager) (id : nat) : option config := into_config (stack_of m id).
(** config.rs 341-346, [update_buffer_config]. *)
Definition update_buffer_config (m : manager) (id : nat) : option (manager * option table) :=
  let? c := generate_buffer_config m id in
  let changes := changes_from c (aget Nat.eqb (m_buffers m) id) in
  Some (with_buffers m (aset Nat.eqb (m_buffers m) id c), changes).
(** config.rs 348-356, [update_all_buffer_configs]. *)
Fixpoint update_buffers (m : manager) (ids : list nat) : option (manager * list (nat * table)) :=
  match ids with
  | [] => Some (m, [])
  | id :: ids' =>
      let? r := update_buffer_config m id in
      let? q := update_buffers (fst r) ids' in
      Some (fst q, (match snd r with Some c => [(id, c)] | None => [] end) ++ snd q)
  end.
Definition update_all_buffer_configs (m : manager) : option (manager * list (nat * table)) :=
  update_buffers m (map fst (m_buffers m)).

(** config.rs 286-292, [add_buffer]. *)
Definition PLAIN : string := "Plain Text".
Definition add_buffer (m : manager) (id : nat) (path : option string) : option (manager * table) :=
  let lang := match path with
              | Some p => match language_for_path (m_languages m) p with Some l => l_name l | None => PLAIN end
              | None => PLAIN end in
  match aget Nat.eqb (m_tags m) id with
  | Some _ => None
  | None =>
      let? r := update_buffer_config (with_tags m (aset Nat.eqb (m_tags m) id {| t_detected := lang; t_user := None |})) id in
      match snd r with Some t => Some (fst r, t) | None => None end
  end.
(** config.rs 299-309, [update_buffer_path]. *)
Definition update_buffer_path (m : manager) (id : nat) (path : string) : option (manager * option table) :=
  let? t := aget Nat.eqb (m_tags m) id in
  let lang := match language_for_path (m_languages m) path with Some l => l_name l | None => EmptyString end in
  let r := set_detected t lang in
  let m := with_tags m (aset Nat.eqb (m_tags m) id (fst r)) in
  if snd r then update_buffer_config m id else Some (m, None).
(** config.rs 316-320, [remove_buffer]. *)
Definition remove_buffer (m : manager) (id : nat) : option manager :=
  let? _ := aget Nat.eqb (m_tags m) id in
  Some (with_buffers (with_tags m (arem Nat.eqb (m_tags m) id)) (arem Nat.eqb (m_buffers m) id)).
(** config.rs 324-339, [override_language]. *)
Definition override_language (m : manager) (id : nat) (l : string) : option (manager * option table) :=
  let? t := aget Nat.eqb (m_tags m) id in
  let r := set_user t (Some l) in
  let m := with_tags m (aset Nat.eqb (m_tags m) id (fst r)) in
  if snd r then update_buffer_config m id else Some (m, None).
(** config.rs 392-394 and 401-403, [get_buffer_config] and [get_buffer_language]. *)
Definition get_buffer_config (m : manager) (id : nat) : option config := aget Nat.eqb (m_buffers m) id.
Definition get_buffer_language (m : manager) (id : nat) : option string :=
  let? t := aget Nat.eqb (m_tags m) id in Some (resolve t).

(** config.rs 514-529, [check_table]; the outer [None] is the [expect]. *)
Definition check_table (m : manager) (t : table) : option bool :=
  let? p := get_pair m General in
  let? defaults := p_base p in
  let defaults := fold_left (fun d kv => if is_null (snd kv) then d else tset d (fst kv) (snd kv)) t defaults in
  Some (match from_value defaults with Some _ => true | None => false end).
(** config.rs 461-469, [set_user_config]; the inner [None] is an error returned to the caller. *)
Definition entry (m : manager) (d : domain) : pair := match get_pair m d with Some p => p | None => with_base None end.
Definition set_user_config (m : manager) (d : domain) (t : table) : option (manager * option (list (nat * table))) :=
  let? ok := check_table m t in
  if ok then
    let m := with_configs m (aset domain_eqb (m_configs m) d (set_table (entry m d) t)) in
    let? r := update_all_buffer_configs m in Some (fst r, Some (snd r))
  else Some (m, None).
(** config.rs 490-495, [table_for_update]. *)
Definition table_for_update (m : manager) (d : domain) (changes : table) : manager * table :=
  (with_configs m (aset domain_eqb (m_configs m) d (entry m d)), pair_table_for_update (entry m d) changes).
(** config.rs 498-512, [domain_for_path], for a file with the right extension and this stem. *)
Definition domain_for_path (m : manager) (stem : string) : option domain :=
  if String.eqb stem "preferences" then Some General
  else match language_for_name (m_languages m) stem with Some l => Some (Language (l_name l)) | None => None end.
(** config.rs 406-433, [set_languages]. [files l] is the table [load_user_config_file] finds for
    language [l], if it finds one it can parse. *)
Fixpoint set_language_configs (m : manager) (ls : list language) (files : string -> option table) : option manager :=
  match ls with
  | [] => Some m
  | l :: ls' =>
      let d := Language (l_name l) in
      let p := match get_pair m d with
               | Some p => new_with_base p (l_default l)
               | None => with_base (l_default l) end in
      let m := with_configs m (aset domain_eqb (m_configs m) d p) in
      let? m := match files (l_name l) with
                | Some t => let? r := set_user_config m d t in Some (fst r)
                | None => Some m end in
      set_language_configs m ls' files
  end.
Definition set_languages (m : manager) (ls : languages) (files : string -> option table) : option manager :=
  let m := fold_left (fun m l => match get_pair m (Language (l_name l)) with
                                 | Some p => with_configs m (aset domain_eqb (m_configs m) (Language (l_name l)) (new_with_base p None))
                                 | None => m end)
                     (difference (m_languages m) ls) m in
  let? m := set_language_configs m (map snd (named ls)) files in
  let m := {| m_configs := m_configs m; m_languages := ls; m_tags := m_tags m; m_buffers := m_buffers m |} in
  let? r := update_all_buffer_configs m in Some (fst r).

(** tabs.rs: the core, as far as settings go. A view and its buffer have one number, since
    [do_new_view] makes both and nothing else makes a view. *)
Record core := { k_manager : manager; k_views : list nat; k_pending : list (nat * table); k_next : nat }.
Definition with_manager (c : core) (m : manager) : core :=
  {| k_manager := m; k_views := k_views c; k_pending := k_pending c; k_next := k_next c |}.
(** What the client is sent: the settings a new view starts with ([finish_init]), changes to
    them, a view's language, and alerts. *)
Inductive message := Initial (v : nat) (t : table) | Changed (v : nat) (t : table) | Told (v : nat) (l : string) | Alert.
(** tabs.rs 275-302, [make_context]; its outer [None] is a panic in it or in the [unwrap] of its
    result. Its result here is the view's language. *)
Definition has_view (c : core) (v : nat) : bool := existsb (Nat.eqb v) (k_views c).
Definition make_context (c : core) (v : nat) : option string :=
  if has_view c v then
    let? _ := get_buffer_config (k_manager c) v in get_buffer_language (k_manager c) v
  else None.
(** tabs.rs 255-268, [handle_config_changes]. *)
Fixpoint handle_config_changes (c : core) (changes : list (nat * table)) : option (list message) :=
  match changes with
  | [] => Some []
  | (v, t) :: rest =>
      let? _ := make_context c v in
      let? r := handle_config_changes c rest in Some (Changed v t :: r)
  end.
(** tabs.rs 247-252, [set_config]. *)
Definition set_config (c : core) (d : domain) (t : table) : option (core * list message) :=
  let? r := set_user_config (k_manager c) d t in
  let c := with_manager c (fst r) in
  match snd r with
  | None => Some (c, [Alert])
  | Some changes => let? ms := handle_config_changes c changes in Some (c, ms)
  end.
(** tabs.rs 365-395, [do_new_view], when the file, if any, can be opened. *)
Definition do_new_view (c : core) (path : option string) : option (core * list message) :=
  let id := k_next c in
  let? r := add_buffer (k_manager c) id path in
  let c := {| k_manager := fst r; k_views := id :: k_views c; k_pending := k_pending c; k_next := id + 1 |} in
  let? _ := make_context c id in
  Some ({| k_manager := k_manager c; k_views := k_views c; k_pending := k_pending c ++ [(id, snd r)]; k_next := k_next c |}, []).
(** tabs.rs 397-429, [do_save], when the file can be written. *)
Definition do_save (c : core) (v : nat) (path : string) : option (core * list message) :=
  if has_view c v then
    let? _ := make_context c v in
    let? r := update_buffer_path (k_manager c) v path in
    let? l := get_buffer_language (fst r) v in
    let c := with_manager c (fst r) in
    let? _ := make_context c v in
    Some (c, Told v l :: match snd r with Some t => [Changed v t] | None => [] end)
  else Some (c, []).
(** tabs.rs 431-443, [do_close_view]; a view has no siblings. *)
Definition do_close_view (c : core) (v : nat) : option (core * list message) :=
  if has_view c v then
    let? _ := make_context c v in
    let? m := remove_buffer (k_manager c) v in
    Some ({| k_manager := m; k_views := filter (fun u => negb (u =? v)) (k_views c); k_pending := k_pending c; k_next := k_next c |}, [])
  else Some (c, []).
(** tabs.rs 473-486, [do_modify_user_config]; a domain for a view names the view. *)
Definition do_modify_user_config (c : core) (d : domain) (changes : table) : option (core * list message) :=
  let known := match d with UserOverride v => has_view c v | SysOverride _ => false | _ => true end in
  if known then
    let r := table_for_update (k_manager c) d changes in
    set_config (with_manager c (fst r)) d (snd r)
  else Some (c, []).
(** tabs.rs 503-514, [do_set_language]. *)
Definition do_set_language (c : core) (v : nat) (l : string) : option (core * list message) :=
  if has_view c v then
    let? r := override_language (k_manager c) v l in
    let c := with_manager c (fst r) in
    let? _ := make_context c v in
    Some (c, Told v l :: match snd r with Some t => [Changed v t] | None => [] end)
  else Some (c, []).
(** tabs.rs 234-244, [load_file_based_config], for a file that can be parsed. *)
Definition load_file_based_config (c : core) (stem : string) (t : table) : option (core * list message) :=
  match domain_for_path (k_manager c) stem with
  | Some d => set_config c d t
  | None => Some (c, [Alert])
  end.
(** tabs.rs 765-769, [remove_config_at_path]. *)
Definition remove_config_at_path (c : core) (stem : string) : option (core * list message) :=
  match domain_for_path (k_manager c) stem with
  | Some d => set_config c d []
  | None => Some (c, [])
  end.
(** tabs.rs 591-657, [detect_whitespace]. The buffer's text comes in as whether it is empty and
    what [Indentation::parse] and [LineEnding::parse] (DetectModel.v) find in it. The result has
    the outer [None] for a panic and the inner one for [None]. *)
Record found := { f_empty : bool; f_indent : detected indentation; f_ending : detected line_ending }.
Definition CRLF_S : string := String (Ascii.ascii_of_nat 13) (String (Ascii.ascii_of_nat 10) EmptyString).
Definition LF_S : string := String (Ascii.ascii_of_nat 10) EmptyString.
Definition detected_changes (f : found) : table :=
  let c := match f_indent f with
           | Found Tabs => tset [] "translate_tabs_to_spaces" (VBool false)
           | Found (Spaces n) => tset (tset [] "translate_tabs_to_spaces" (VBool true)) "tab_size" (VInt (Z.of_nat n))
           | _ => [] end in
  match f_ending f with
  | Found CrLf => tset c "line_ending" (VStr CRLF_S)
  | Found Lf => tset c "line_ending" (VStr LF_S)
  | _ => c
  end.
Definition extend (t u : table) : table := fold_left (fun c kv => tset c (fst kv) (snd kv)) u t.
Definition detect_whitespace (c : core) (v : nat) (config : table) (f : found) : option (core * option table) :=
  if has_view c v then
    if f_empty f then Some (c, None)
    else
      let? cfg := get_buffer_config (k_manager c) v in
      match tget (c_items cfg) "autodetect_whitespace" with
      | Some (VBool true) =>
          let r := table_for_update (k_manager c) (SysOverride v) (detected_changes f) in
          let? q := set_user_config (fst r) (SysOverride v) (snd r) in
          let c := with_manager c (fst q) in
          match snd q with
          | Some [] => Some (c, None)
          | Some [(_, t)] => Some (c, Some (extend config t))
          | Some _ => None
          | None => Some (c, None)
          end
      | _ => Some (c, None)
      end
  else Some (c, None).
(** tabs.rs 579-588, [finalize_new_views]; event_context.rs 395-413, [finish_init]. *)
Fixpoint finalize_new_views (c : core) (to_start : list (nat * table)) (read : nat -> found) : option (core * list message) :=
  match to_start with
  | [] => Some (c, [])
  | (v, config) :: rest =>
      let? r := detect_whitespace c v config (read v) in
      let config := match snd r with Some t => t | None => config end in
      let? l := make_context (fst r) v in
      let? q := finalize_new_views (fst r) rest read in
      Some (fst q, Initial v config :: Told v l :: snd q)
  end.

(** What can happen to the core that concerns settings. [Idle read] is the idle handler that
    finishes new views, with what it finds in each buffer's text. *)
Inductive event :=
| NewView (path : option string) | Save (v : nat) (path : string) | CloseView (v : nat)
| ModifyUserConfig (d : domain) (changes : table) | SetLanguage (v : nat) (l : string)
| ConfigFile (stem : string) (t : table) | ConfigFileRemoved (stem : string) | Idle (read : nat -> found).
Definition step (c : core) (e : event) : option (core * list message) :=
  match e with
  | NewView p => do_new_view c p
  | Save v p => do_save c v p
  | CloseView v => do_close_view c v
  | ModifyUserConfig d t => do_modify_user_config c d t
  | SetLanguage v l => do_set_language c v l
  | ConfigFile stem t => load_file_based_config c stem t
  | ConfigFileRemoved stem => remove_config_at_path c stem
  | Idle read =>
      finalize_new_views {| k_manager := k_manager c; k_views := k_views c; k_pending := []; k_next := k_next c |} (k_pending c) read
  end.
Fixpoint run (c : core) (es : list event) : option (core * list message) :=
  match es with
  | [] => Some (c, [])
  | e :: es' => let? r := step c e in let? q := run (fst r) es' in Some (fst q, snd r ++ snd q)
  end.
(** tabs.rs 202-231, [finish_setup]: the preferences file, if there is one, then the languages
    the plugins define, each with its own file. *)
Definition start (base : table) (defs : list language) (preferences : option table) (files : string -> option table) : option core :=
  let c := {| k_manager := manager_new base; k_views := []; k_pending := []; k_next := 1 |} in
  let? r := match preferences with Some t => load_file_based_config c "preferences" t | None => Some (c, []) end in
  let? m := set_languages (k_manager (fst r)) (languages_new defs) files in
  Some (with_manager (fst r) m).
(** tabs.rs 488-495, [do_get_config]. *)
Definition get_config (c : core) (v : nat) : option table :=
  if has_view c v then let? cfg := get_buffer_config (k_manager c) v in Some (to_table cfg) else None.
(** The settings the core itself uses for a view ([EventContext.config], tabs.rs 284 and 292). *)
Definition items (c : core) (v : nat) : option (list (string * value)) :=
  let? cfg := get_buffer_config (k_manager c) v in Some (c_items cfg).
