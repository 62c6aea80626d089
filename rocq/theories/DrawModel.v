(** Model of what rust/core-lib/src/view.rs draws on a visual line besides its text, and of the
    numbers styles have for the client (rust/core-lib/src/styles.rs). The carets and selections of a
    line are in [ViewModel]. Not modelled: loading of themes, the theme's own colours. *)
From Coq Require Import List Arith ZArith Bool.
From Verif Require Import Base TreeModel CursorModel SpansModel SelectionModel ViewModel.
Import ListNotations.
Local Notation region := SelectionModel.region.
Local Open Scope nat_scope.

(** styles.rs 36-62, [Style]. *)
Record style := Style { sy_prio : nat; sy_fg : option nat; sy_bg : option nat; sy_weight : option nat; sy_underline : option bool; sy_italic : option bool }.
Definition style_eq (x y : style) : {x = y} + {x <> y}.
Proof. repeat decide equality. Defined.
(** [Option::or]. *)
Definition or {X} (a b : option X) : option X := match a with Some _ => a | None => b end.
(** styles.rs 81-103, [new]: the assertion panics. *)
Definition style_new (p : nat) (fg bg w : option nat) (u i : option bool) : option style := check (p <=? 1000) (Some (Style p fg bg w u i)).
(** styles.rs 118-134, [merge]. *)
Definition style_merge (x y : style) : option style :=
  let (p1, p2) := if sy_prio y <? sy_prio x then (x, y) else (y, x) in
  style_new (sy_prio p1) (or (sy_fg p1) (sy_fg p2)) (or (sy_bg p1) (sy_bg p2)) (or (sy_weight p1) (sy_weight p2))
    (or (sy_underline p1) (sy_underline p2)) (or (sy_italic p1) (sy_italic p2)).

(** styles.rs 32, [N_RESERVED_STYLES]. *)
Definition N_RESERVED := 8.
(** styles.rs 153-173, [ThemeStyleMap]: the default style, the map and the styles. *)
Record style_map := SMap { sm_default : style; sm_map : list (style * nat); sm_styles : list style }.
(** styles.rs 104-114, [default_for_theme], of a theme with foreground [fg]; 176-198, [new]. *)
Definition default_style (fg : nat) : style := Style 0 (Some fg) None None None None.
Definition sm_new (fg : nat) : style_map := SMap (default_style fg) [] [].
(** styles.rs 226-244, [set_theme], to a theme that is there. *)
Definition set_theme (sm : style_map) (fg : nat) : style_map := SMap (default_style fg) [] [].
(** styles.rs 250-252, [lookup]: the last one put in for a key. *)
Fixpoint map_get (m : list (style * nat)) (x : style) : option nat :=
  match m with [] => None | (y, k) :: m' => if style_eq x y then Some k else map_get m' x end.
Definition lookup (sm : style_map) (x : style) : option nat := map_get (sm_map sm) x.
(** styles.rs 254-259, [add]. *)
Definition sm_add (sm : style_map) (x : style) : style_map * nat :=
  let result := length (sm_styles sm) + N_RESERVED in
  (SMap (sm_default sm) ((x, result) :: sm_map sm) (sm_styles sm ++ [x]), result).
(** A [def_style] message to the client: the number and what it stands for. *)
Definition message := (nat * style)%type.
(** view.rs 733-743, [get_or_def_style_id]; with the message sent, if any. *)
Definition get_or_def_style_id (sm : style_map) (x : style) : option (style_map * nat * list message) :=
  match lookup sm x with
  | Some ix => Some (sm, ix, [])
  | None =>
      let (sm', ix) := sm_add sm x in
      let? y := style_merge (sm_default sm') x in
      Some (sm', ix, [(ix, y)])
  end.

(** view.rs 710-723: the triples for pieces of one kind; [ix] is where the last one ended. *)
Fixpoint encode_pieces (ps : list (nat * nat)) (id : nat) (ix : Z) : list Z * Z :=
  match ps with
  | [] => ([], ix)
  | (a, b) :: ps' =>
      let (l, ix') := encode_pieces ps' id (Z.of_nat b) in
      ((Z.of_nat a - ix)%Z :: (Z.of_nat b - Z.of_nat a)%Z :: Z.of_nat id :: l, ix')
  end.
(** view.rs 710-717: the highlights of each of the queries. *)
Fixpoint encode_hls (hls : list (list (nat * nat))) (index : nat) (ix : Z) : list Z * Z :=
  match hls with
  | [] => ([], ix)
  | ps :: hls' =>
      let (l, ix1) := encode_pieces ps (index + 1) ix in
      let (l', ix2) := encode_hls hls' (index + 1) ix1 in
      (l ++ l', ix2)
  end.
(** view.rs 724-730: the spans of styles. *)
Fixpoint encode_spans (l : list (nat * nat * style)) (sm : style_map) (ix : Z) : option (list Z * style_map * list message) :=
  match l with
  | [] => Some ([], sm, [])
  | (a, b, x) :: l' =>
      let? (sm1, id, ms) := get_or_def_style_id sm x in
      let? (out, sm2, ms') := encode_spans l' sm1 (Z.of_nat b) in
      Some ((Z.of_nat a - ix)%Z :: (Z.of_nat b - Z.of_nat a)%Z :: Z.of_nat id :: out, sm2, ms ++ ms')
  end.
(** view.rs 692-732, [encode_styles]; the new map and the messages sent besides. *)
Definition encode_styles (sm : style_map) (start e : nat) (sel : list (nat * nat)) (hls : list (list (nat * nat))) (t : node (sleaf style) unit)
  : option (list Z * style_map * list message) :=
  check (start <=? e)
    (let? t' := subseq sp_ops t start e in
     let? l := iter t' in
     let (o1, ix1) := encode_hls hls 0 0%Z in
     let (o2, ix2) := encode_pieces sel 0 ix1 in
     let? (o3, sm', ms) := encode_spans l sm ix2 in
     Some (o1 ++ o2 ++ o3, sm', ms)).
(** view.rs 652-667 of [encode_line]: the highlights of the queries, each with its occurrences. *)
Fixpoint line_hls (finds : list (list region)) (start_pos pos : nat) : option (list (list (nat * nat))) :=
  match finds with
  | [] => Some []
  | f :: fs => let? ps := line_selections f start_pos pos in let? r := line_hls fs start_pos pos in Some (ps :: r)
  end.
(** view.rs 617-690, [encode_line]: the styles of a line, given the occurrences found if they are to
    be highlighted. *)
Definition line_styles (sm : style_map) (sel : list region) (finds : list (list region)) (highlight : bool) (start_pos pos : nat) (t : node (sleaf style) unit)
  : option (list Z * style_map * list message) :=
  let? ss := line_selections sel start_pos pos in
  let? hls := if highlight then line_hls finds start_pos pos else Some [] in
  encode_styles sm start_pos pos ss hls t.
