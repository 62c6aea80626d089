(** What line breaking is to do: UTF-8, the classes, and the rules of Unicode Standard Annex 14
    ("Unicode Line Breaking Algorithm", revision 39, for Unicode 10.0). *)
From Coq Require Import List Arith NArith Bool.
Import ListNotations.

(** ** Characters *)

(** A Unicode scalar value. *)
Definition scalar (cp : N) : Prop := (cp < 0xD800 \/ 0xE000 <= cp /\ cp < 0x110000)%N.
(** Its UTF-8 form. *)
Definition encode (cp : N) : list nat :=
  map N.to_nat
   (if cp <? 0x80 then [cp]
    else if cp <? 0x800 then [0xC0 + cp / 64; 0x80 + cp mod 64]
    else if cp <? 0x10000 then [0xE0 + cp / 4096; 0x80 + (cp / 64) mod 64; 0x80 + cp mod 64]
    else [0xF0 + cp / 262144; 0x80 + (cp / 4096) mod 64; 0x80 + (cp / 64) mod 64; 0x80 + cp mod 64])%N.
Definition text_of (cps : list N) : list nat := flat_map encode cps.

(** ** Classes *)

Inductive cls :=
| XX | AI | AL | B2 | BA | BB | BK | CB | CL | CM | CR | EX | GL | HY | ID | IN | IS | LF | NS | NU | OP | PO
| PR | QU | SA | SG | SP | SY | ZW | NL | WJ | H2 | H3 | JL | JT | JV | CP | CJ | HL | RI | EB | EM | ZWJ.
(** In the order of their numbers (those of ICU's [ULineBreak]). *)
Definition classes : list cls :=
 [XX; AI; AL; B2; BA; BB; BK; CB; CL; CM; CR; EX; GL; HY; ID; IN; IS; LF; NS; NU; OP; PO;
  PR; QU; SA; SG; SP; SY; ZW; NL; WJ; H2; H3; JL; JT; JV; CP; CJ; HL; RI; EB; EM; ZWJ].
Definition class_no (c : cls) : N :=
  match c with
  | XX => 0 | AI => 1 | AL => 2 | B2 => 3 | BA => 4 | BB => 5 | BK => 6 | CB => 7 | CL => 8 | CM => 9
  | CR => 10 | EX => 11 | GL => 12 | HY => 13 | ID => 14 | IN => 15 | IS => 16 | LF => 17 | NS => 18 | NU => 19
  | OP => 20 | PO => 21 | PR => 22 | QU => 23 | SA => 24 | SG => 25 | SP => 26 | SY => 27 | ZW => 28 | NL => 29
  | WJ => 30 | H2 => 31 | H3 => 32 | JL => 33 | JT => 34 | JV => 35 | CP => 36 | CJ => 37 | HL => 38 | RI => 39
  | EB => 40 | EM => 41 | ZWJ => 42
  end.
Definition cls_eqb (a b : cls) : bool := (class_no a =? class_no b)%N.
Definition among (l : list cls) (c : cls) : bool := existsb (cls_eqb c) l.
Definition among_o (l : list cls) (c : option cls) : bool := match c with Some c => among l c | None => false end.

(** ** The rules *)

(** May a line be broken here? Must it? *)
Inductive decision := No | May | Must.

(** LB1: the classes that stand for others. (Of the class SA, the rule makes combining marks CM; here, as
    in the code under study, all are AL.) *)
Definition resolve (c : cls) : cls :=
  match c with AI | SG | XX | SA => AL | CJ => NS | _ => c end.

(** A context is the list of the classes of the characters before a place, nearest first. *)
Definition mark (c : cls) : bool := among [CM; ZWJ] c.
Definition joins (l : list cls) : bool := match l with [] => false | x :: _ => negb (among [BK; CR; LF; NL; SP; ZW] x) end.
(** LB9 and LB10: combining marks belong to the character before them, and are letters if there is none
    they can belong to. *)
Fixpoint joined (raw : list cls) : list cls :=
  match raw with
  | [] => []
  | c :: raw' => if mark (resolve c) then (if joins (joined raw') then joined raw' else AL :: joined raw')
                 else resolve c :: joined raw'
  end.
Fixpoint no_spaces (l : list cls) : list cls :=
  match l with SP :: l' => no_spaces l' | _ => l end.
Fixpoint ri_odd (l : list cls) : bool :=
  match l with RI :: l' => negb (ri_odd l') | _ => false end.
(** What the rules look at: *)
Record look := Look {
  k_before : option cls;  (** the class before, *)
  k_base : option cls;    (** the last class that is not a space, *)
  k_zwj : bool;           (** whether the character just before is a joiner, *)
  k_hl : bool;            (** whether the class before the one before is HL, *)
  k_ri : bool;            (** whether an odd number of RI stand before. *)
}.
Definition look_of (raw : list cls) : look :=
  let l := joined raw in
  Look (hd_error l) (hd_error (no_spaces l))
       (match raw with ZWJ :: _ => true | _ => false end)
       (match l with _ :: HL :: _ => true | _ => false end)
       (ri_odd l).

(** The first rule that applies decides. *)
Fixpoint first_rule (rs : list (bool * decision)) : decision :=
  match rs with [] => May (* LB31 *) | (b, d) :: rs' => if b then d else first_rule rs' end.
Definition rules (k : look) (c0 : cls) : decision :=
  let c := resolve c0 in
  let before l := among_o l (k_before k) in
  let base l := among_o l (k_base k) in
  let joined_on := mark c && match k_before k with Some b => negb (among [BK; CR; LF; NL; SP; ZW] b) | None => false end in
  let r := if mark c then AL else c in
  let next l := among l r in
  let hangul := [JL; JV; JT; H2; H3] in
  first_rule [
   (* LB4 *) (before [BK], Must);
   (* LB5 *) (before [CR] && among [LF] c, No); (before [CR; LF; NL], Must);
   (* LB6 *) (among [BK; CR; LF; NL] c, No);
   (* LB7 *) (among [SP; ZW] c, No);
   (* LB8 *) (base [ZW], May);
   (* LB8a *) (k_zwj k && among [ID; EB; EM] c, No);
   (* LB9 *) (joined_on, No);
   (* LB11 *) (next [WJ] || before [WJ], No);
   (* LB12 *) (before [GL], No);
   (* LB12a *) (next [GL] && negb (before [SP; BA; HY]), No);
   (* LB13 *) (next [CL; CP; EX; IS; SY], No);
   (* LB14 *) (base [OP], No);
   (* LB15 *) (base [QU] && next [OP], No);
   (* LB16 *) (base [CL; CP] && next [NS], No);
   (* LB17 *) (base [B2] && next [B2], No);
   (* LB18 *) (before [SP], May);
   (* LB19 *) (next [QU] || before [QU], No);
   (* LB20 *) (next [CB] || before [CB], May);
   (* LB21 *) (next [BA; HY; NS] || before [BB], No);
   (* LB21a *) (k_hl k && before [HY; BA], No);
   (* LB21b *) (before [SY] && next [HL], No);
   (* LB22 *) (before [AL; HL; EX; ID; EB; EM; IN; NU] && next [IN], No);
   (* LB23 *) (before [AL; HL] && next [NU] || before [NU] && next [AL; HL], No);
   (* LB23a *) (before [PR] && next [ID; EB; EM] || before [ID; EB; EM] && next [PO], No);
   (* LB24 *) (before [PR; PO] && next [AL; HL] || before [AL; HL] && next [PR; PO], No);
   (* LB25 *) (before [CL; CP; NU] && next [PO; PR] || before [PO; PR] && next [OP; NU]
               || before [HY; IS; NU; SY] && next [NU], No);
   (* LB26 *) (before [JL] && next [JL; JV; H2; H3] || before [JV; H2] && next [JV; JT]
               || before [JT; H3] && next [JT], No);
   (* LB27 *) (before hangul && next [IN; PO] || before [PR] && next hangul, No);
   (* LB28 *) (before [AL; HL] && next [AL; HL], No);
   (* LB29 *) (before [IS] && next [AL; HL], No);
   (* LB30 *) (before [AL; HL; NU] && next [OP] || before [CP] && next [AL; HL; NU], No);
   (* LB30a *) (k_ri k && next [RI], No);
   (* LB30b *) (before [EB] && next [EM], No)].
(** What UAX 14 says of the place after the characters [raw] and before one of class [c]. *)
Definition uax14 (raw : list cls) (c : cls) : decision := rules (look_of raw) c.

(** LB2, LB3: no break at the start, one at the end, which is mandatory after a newline of any kind. *)
Definition newline_class (c : cls) : bool := among [BK; CR; LF; NL] c.
(** The breaks of the rest of a text: the classes and lengths of its characters. *)
Fixpoint uax_from (raw : list cls) (pos : nat) (cs : list (cls * nat)) : list (nat * bool) :=
  match cs with
  | [] => [(pos, match raw with c :: _ => newline_class c | [] => false end)]
  | (c, len) :: cs' =>
      match uax14 raw c with No => [] | May => [(pos, false)] | Must => [(pos, true)] end
      ++ uax_from (c :: raw) (pos + len) cs'
  end.
Definition uax_breaks (cs : list (cls * nat)) : list (nat * bool) :=
  match cs with [] => [] | (c, len) :: cs' => uax_from [c] len cs' end.

(** ** Where the code is known to depart from the rules *)

Fixpoint strip (raw : list cls) : list cls :=
  match raw with [] => [] | c :: raw' => if mark (resolve c) || cls_eqb (resolve c) SP then strip raw' else raw end.
Fixpoint spaced (raw : list cls) : bool :=
  match raw with
  | [] => false
  | c :: raw' => if cls_eqb (resolve c) SP then true else if mark (resolve c) then spaced raw' else false
  end.
Record odd := Odd {
  o_first : bool;          (** there is only one character before; *)
  o_two : bool;            (** two spaces stand before; *)
  o_core : option cls;     (** the class that is left when spaces and marks are taken away, *)
  o_spaced : bool;         (** whether there was a space among these, *)
  o_hl : bool;             (** whether HL stands before that class, *)
  o_ri : bool;             (** whether, being an RI, it ends an odd number of them. *)
}.
Definition odd_of (raw : list cls) : odd :=
  let core := joined (strip raw) in
  Odd (match raw with [_] => true | _ => false end)
      (match joined raw with SP :: SP :: _ => true | _ => false end)
      (hd_error core) (spaced raw)
      (match core with _ :: HL :: _ => true | _ => false end)
      (ri_odd core).
(** - a joiner, not at the start of the text, before ID, EB or EM (LB8a);
    - two or more spaces after ZW, OP, QU, CL, CP or B2 (LB8, LB14-LB17);
    - CL before PR (LB25);
    - HL, then HY or BA, then a space, perhaps more spaces and marks (LB18);
    - an even number of RI, then a space, perhaps more spaces and marks, or GL (LB18, LB12a). *)
Definition doubtful_at (k : look) (o : odd) (c0 : cls) : bool :=
  let c := resolve c0 in
  k_zwj k && among [ID; EB; EM] c && negb (o_first o)
  || o_two o && among_o [ZW; OP; QU; CL; CP; B2] (k_base k)
  || among_o [CL] (k_before k) && among [PR] c
  || o_spaced o && o_hl o && among_o [HY; BA] (o_core o)
  || among_o [RI] (o_core o) && negb (o_ri o) && (o_spaced o || among [GL] c).
Definition doubtful (raw : list cls) (c : cls) : bool := doubtful_at (look_of raw) (odd_of raw) c.

(** ** Characters *)
(** The characters of the classes that UAX 14 (Unicode 10) lists in full or that are given by a name or a
    property of other standard tables: newlines, spaces, joiners and hyphens, emoji modifiers and regional
    indicators, Hangul, Hebrew letters. *)
Definition listed : list (cls * list (N * N)) := [
  (BK, [(0xB, 0xC); (0x2028, 0x2029)]); (CR, [(0xD, 0xD)]); (LF, [(0xA, 0xA)]); (NL, [(0x85, 0x85)]);
  (SP, [(0x20, 0x20)]); (ZW, [(0x200B, 0x200B)]); (ZWJ, [(0x200D, 0x200D)]); (WJ, [(0x2060, 0x2060); (0xFEFF, 0xFEFF)]);
  (GL, [(0xA0, 0xA0); (0x34F, 0x34F); (0x35C, 0x362); (0xF08, 0xF08); (0xF0C, 0xF0C); (0xF12, 0xF12); (0xFD9, 0xFDA);
        (0x180E, 0x180E); (0x2007, 0x2007); (0x2011, 0x2011); (0x202F, 0x202F)]);
  (HY, [(0x2D, 0x2D)]); (CP, [(0x29, 0x29); (0x5D, 0x5D)]); (SY, [(0x2F, 0x2F)]); (CB, [(0xFFFC, 0xFFFC)]);
  (B2, [(0x2014, 0x2014); (0x2E3A, 0x2E3B)]);
  (IN, [(0x2024, 0x2026); (0x22EF, 0x22EF); (0xFE19, 0xFE19); (0x10AF6, 0x10AF6)]);
  (IS, [(0x2C, 0x2C); (0x2E, 0x2E); (0x3A, 0x3B); (0x37E, 0x37E); (0x589, 0x589); (0x60C, 0x60D); (0x7F8, 0x7F8);
        (0x2044, 0x2044); (0xFE10, 0xFE10); (0xFE13, 0xFE14)]);
  (RI, [(0x1F1E6, 0x1F1FF)]); (EM, [(0x1F3FB, 0x1F3FF)]);
  (JL, [(0x1100, 0x115F); (0xA960, 0xA97C)]); (JV, [(0x1160, 0x11A7); (0xD7B0, 0xD7C6)]); (JT, [(0x11A8, 0x11FF); (0xD7CB, 0xD7FB)]);
  (HL, [(0x5D0, 0x5EA); (0x5F0, 0x5F2); (0xFB1D, 0xFB1D); (0xFB1F, 0xFB28); (0xFB2A, 0xFB36); (0xFB38, 0xFB3C); (0xFB3E, 0xFB3E);
        (0xFB40, 0xFB41); (0xFB43, 0xFB44); (0xFB46, 0xFB4F)])]%N.
Definition within (rs : list (N * N)) (cp : N) : Prop := exists a b, In (a, b) rs /\ (a <= cp <= b)%N.
(** Hangul syllables: without ([H2]) and with ([H3]) a final consonant. *)
Definition hangul_lv (cp : N) : Prop := (0xAC00 <= cp <= 0xD7A3)%N /\ ((cp - 0xAC00) mod 28 = 0)%N.
Definition hangul_lvt (cp : N) : Prop := (0xAC00 <= cp <= 0xD7A3)%N /\ ((cp - 0xAC00) mod 28 <> 0)%N.

(** ** Line wrapping *)
(** The breaks [breaks] of the rest of the text [s] from [a] on, as offsets into [s]; at the end of the
    text, the flag says whether its last byte is a newline. *)
Definition moved (s : list nat) (a : nat) (breaks : list (nat * bool)) : list (nat * bool) :=
  map (fun b => ((a + fst b)%nat, if (a + fst b =? length s)%nat then (List.last s 0 =? 10)%nat else snd b)) breaks.
(** No line of the text begins with a joiner (but for the first). *)
Definition no_line_joiner (s : list nat) : Prop := forall a b, s <> a ++ [10; 0xE2; 0x80; 0x8D] ++ b.

(** ** Newlines *)
(** The characters after which a line must end. *)
Definition newline_char (cp : N) : Prop := In cp [0xA; 0xB; 0xC; 0xD; 0x85; 0x2028; 0x2029]%N.
(** A line must end [x] bytes into the text: after such a character, but not between CR and LF. *)
Definition must_end (cps : list N) (x : nat) : Prop :=
  exists c1 y c2, cps = c1 ++ y :: c2 /\ x = length (text_of (c1 ++ [y])) /\ newline_char y /\ ~ (y = 0xD%N /\ exists c3, c2 = 0xA%N :: c3).
