(** The tables of rust/unicode/src/tables.rs, number for number: the line breaking classes of the code
    points (lines 20-1151) and the state machine (1156-1513). *)
From Coq Require Import List NArith.
Import ListNotations.
Local Open Scope N_scope.

(** tables.rs 20-105. *)
Definition LINEBREAK_1_2 : list N := [
9; 9; 9; 9; 9; 9; 9; 9; 9; 4; 17; 6; 6; 10; 9; 9; 9; 9; 9; 9; 9; 9; 9; 9; 9; 9; 9; 9; 9; 9; 9; 9; 26; 11; 23;
2; 22; 21; 2; 23; 20; 36; 2; 22; 16; 13; 16; 27; 19; 19; 19; 19; 19; 19; 19; 19; 19; 19; 16; 16; 2; 2; 2; 11;
2; 2; 2; 2; 2; 2; 2; 2; 2; 2; 2; 2; 2; 2; 2; 2; 2; 2; 2; 2; 2; 2; 2; 2; 2; 2; 2; 20; 22; 36; 2; 2; 2; 2; 2; 2;
2; 2; 2; 2; 2; 2; 2; 2; 2; 2; 2; 2; 2; 2; 2; 2; 2; 2; 2; 2; 2; 2; 2; 20; 4; 8; 2; 9; 9; 9; 9; 9; 9; 29; 9; 9;
9; 9; 9; 9; 9; 9; 9; 9; 9; 9; 9; 9; 9; 9; 9; 9; 9; 9; 9; 9; 9; 9; 9; 9; 12; 20; 21; 22; 22; 22; 2; 1; 1; 2; 1;
23; 2; 4; 2; 2; 21; 22; 1; 1; 5; 2; 1; 1; 1; 1; 1; 23; 1; 1; 1; 20; 2; 2; 2; 2; 2; 2; 2; 2; 2; 2; 2; 2; 2; 2;
2; 2; 2; 2; 2; 2; 2; 2; 2; 1; 2; 2; 2; 2; 2; 2; 2; 2; 2; 2; 2; 2; 2; 2; 2; 2; 2; 2; 2; 2; 2; 2; 2; 2; 2; 2; 2;
2; 2; 2; 2; 1; 2; 2; 2; 2; 2; 2; 2; 2; 2; 2; 2; 2; 2; 2; 2; 2; 2; 2; 2; 2; 2; 2; 2; 2; 2; 2; 2; 2; 2; 2; 2; 2;
2; 2; 2; 2; 2; 2; 2; 2; 2; 2; 2; 2; 2; 2; 2; 2; 2; 2; 2; 2; 2; 2; 2; 2; 2; 2; 2; 2; 2; 2; 2; 2; 2; 2; 2; 2; 2;
2; 2; 2; 2; 2; 2; 2; 2; 2; 2; 2; 2; 2; 2; 2; 2; 2; 2; 2; 2; 2; 2; 2; 2; 2; 2; 2; 2; 2; 2; 2; 2; 2; 2; 2; 2; 2;
2; 2; 2; 2; 2; 2; 2; 2; 2; 2; 2; 2; 2; 2; 2; 2; 2; 2; 2; 2; 2; 2; 2; 2; 2; 2; 2; 2; 2; 2; 2; 2; 2; 2; 2; 2; 2;
2; 2; 2; 2; 2; 2; 2; 2; 2; 2; 2; 2; 2; 2; 2; 2; 2; 2; 2; 2; 2; 2; 2; 2; 2; 2; 2; 2; 2; 2; 2; 2; 2; 2; 2; 2; 2;
2; 2; 2; 2; 2; 2; 2; 2; 2; 2; 2; 2; 2; 2; 2; 2; 2; 2; 2; 2; 2; 2; 2; 2; 2; 2; 2; 2; 2; 2; 2; 2; 2; 2; 2; 2; 2;
2; 2; 2; 2; 2; 2; 2; 2; 2; 2; 2; 2; 2; 2; 2; 2; 2; 2; 2; 2; 2; 2; 2; 2; 2; 2; 2; 2; 2; 2; 2; 2; 2; 2; 2; 2; 2;
2; 2; 2; 2; 2; 2; 2; 2; 2; 2; 2; 2; 2; 2; 2; 2; 2; 2; 2; 2; 2; 2; 2; 2; 2; 2; 2; 2; 2; 2; 2; 2; 2; 2; 2; 2; 2;
2; 2; 2; 2; 2; 2; 2; 2; 2; 2; 2; 2; 2; 2; 2; 2; 2; 2; 2; 2; 2; 2; 2; 2; 2; 2; 2; 2; 2; 2; 2; 2; 2; 2; 2; 2; 2;
2; 2; 2; 2; 2; 2; 2; 2; 2; 2; 2; 2; 2; 2; 2; 2; 2; 2; 2; 2; 2; 2; 2; 2; 2; 2; 2; 2; 2; 2; 2; 2; 2; 2; 2; 2; 2;
2; 2; 2; 2; 2; 2; 2; 2; 2; 2; 2; 2; 2; 2; 2; 2; 2; 2; 2; 2; 2; 2; 2; 2; 2; 2; 2; 2; 2; 2; 2; 2; 2; 2; 2; 2; 2;
2; 2; 2; 2; 2; 2; 2; 2; 2; 2; 2; 2; 2; 2; 2; 2; 2; 2; 2; 2; 2; 2; 2; 2; 2; 2; 2; 2; 2; 2; 2; 2; 2; 2; 2; 2; 2;
2; 2; 2; 2; 2; 2; 2; 2; 2; 2; 2; 2; 2; 2; 2; 2; 2; 2; 2; 2; 2; 2; 2; 2; 1; 5; 1; 1; 1; 5; 1; 2; 2; 1; 2; 2; 2;
2; 2; 2; 2; 1; 1; 1; 1; 2; 1; 2; 5; 2; 2; 2; 2; 2; 2; 2; 2; 2; 2; 2; 2; 2; 2; 2; 2; 2; 2; 2; 2; 2; 2; 2; 2; 2;
2; 2; 2; 2; 2; 2; 2; 9; 9; 9; 9; 9; 9; 9; 9; 9; 9; 9; 9; 9; 9; 9; 9; 9; 9; 9; 9; 9; 9; 9; 9; 9; 9; 9; 9; 9; 9;
9; 9; 9; 9; 9; 9; 9; 9; 9; 9; 9; 9; 9; 9; 9; 9; 9; 9; 9; 9; 9; 9; 9; 9; 9; 9; 9; 9; 9; 9; 9; 9; 9; 9; 9; 9; 9;
9; 9; 9; 9; 9; 9; 9; 9; 9; 9; 9; 9; 12; 9; 9; 9; 9; 9; 9; 9; 9; 9; 9; 9; 9; 12; 12; 12; 12; 12; 12; 12; 9; 9;
9; 9; 9; 9; 9; 9; 9; 9; 9; 9; 9; 2; 2; 2; 2; 2; 2; 2; 2; 0; 0; 2; 2; 2; 2; 16; 2; 0; 0; 0; 0; 2; 2; 2; 2; 2;
2; 2; 0; 2; 0; 2; 2; 2; 2; 2; 2; 2; 2; 2; 2; 2; 2; 2; 2; 2; 2; 2; 2; 2; 2; 0; 2; 2; 2; 2; 2; 2; 2; 2; 2; 2; 2;
2; 2; 2; 2; 2; 2; 2; 2; 2; 2; 2; 2; 2; 2; 2; 2; 2; 2; 2; 2; 2; 2; 2; 2; 2; 2; 2; 2; 2; 2; 2; 2; 2; 2; 2; 2; 2;
2; 2; 2; 2; 2; 2; 2; 2; 2; 2; 2; 2; 2; 2; 2; 2; 2; 2; 2; 2; 2; 2; 2; 2; 2; 2; 2; 2; 2; 2; 2; 2; 2; 2; 2; 2; 2;
2; 2; 2; 2; 2; 2; 2; 2; 2; 2; 2; 2; 2; 2; 2; 2; 2; 2; 2; 2; 2; 2; 2; 2; 2; 2; 2; 2; 2; 2; 2; 2; 2; 2; 2; 2; 2;
2; 2; 2; 2; 2; 2; 2; 2; 2; 2; 2; 2; 2; 2; 2; 2; 2; 2; 2; 2; 2; 2; 2; 2; 2; 2; 2; 2; 2; 2; 2; 2; 2; 2; 2; 2; 2;
2; 2; 2; 2; 2; 2; 2; 2; 2; 2; 2; 2; 2; 2; 2; 2; 2; 2; 2; 2; 2; 2; 2; 2; 2; 2; 2; 2; 2; 2; 2; 2; 2; 2; 2; 2; 2;
2; 2; 2; 2; 2; 2; 2; 2; 2; 2; 2; 2; 2; 2; 2; 2; 2; 2; 2; 2; 2; 2; 2; 2; 2; 2; 2; 2; 9; 9; 9; 9; 9; 9; 9; 2; 2;
2; 2; 2; 2; 2; 2; 2; 2; 2; 2; 2; 2; 2; 2; 2; 2; 2; 2; 2; 2; 2; 2; 2; 2; 2; 2; 2; 2; 2; 2; 2; 2; 2; 2; 2; 2; 2;
2; 2; 2; 2; 2; 2; 2; 2; 2; 2; 2; 2; 2; 2; 2; 2; 2; 2; 2; 2; 2; 2; 2; 2; 2; 2; 2; 2; 2; 2; 2; 2; 2; 2; 2; 2; 2;
2; 2; 2; 2; 2; 2; 2; 2; 2; 2; 2; 2; 2; 2; 2; 2; 2; 2; 2; 2; 2; 2; 2; 2; 2; 2; 2; 2; 2; 2; 2; 2; 2; 2; 2; 2; 2;
2; 2; 2; 2; 2; 2; 2; 2; 2; 2; 2; 2; 2; 2; 2; 2; 2; 2; 2; 2; 2; 2; 2; 2; 2; 2; 2; 2; 2; 2; 2; 2; 2; 2; 2; 2; 2;
2; 2; 2; 2; 2; 2; 2; 2; 2; 2; 2; 2; 2; 2; 2; 2; 0; 2; 2; 2; 2; 2; 2; 2; 2; 2; 2; 2; 2; 2; 2; 2; 2; 2; 2; 2; 2;
2; 2; 2; 2; 2; 2; 2; 2; 2; 2; 2; 2; 2; 2; 2; 2; 2; 2; 0; 0; 2; 2; 2; 2; 2; 2; 2; 0; 2; 2; 2; 2; 2; 2; 2; 2; 2;
2; 2; 2; 2; 2; 2; 2; 2; 2; 2; 2; 2; 2; 2; 2; 2; 2; 2; 2; 2; 2; 2; 2; 2; 2; 2; 2; 2; 2; 2; 0; 16; 4; 0; 0; 2;
2; 22; 0; 9; 9; 9; 9; 9; 9; 9; 9; 9; 9; 9; 9; 9; 9; 9; 9; 9; 9; 9; 9; 9; 9; 9; 9; 9; 9; 9; 9; 9; 9; 9; 9; 9;
9; 9; 9; 9; 9; 9; 9; 9; 9; 9; 9; 9; 4; 9; 2; 9; 9; 2; 9; 9; 11; 9; 0; 0; 0; 0; 0; 0; 0; 0; 38; 38; 38; 38; 38;
38; 38; 38; 38; 38; 38; 38; 38; 38; 38; 38; 38; 38; 38; 38; 38; 38; 38; 38; 38; 38; 38; 0; 0; 0; 0; 0; 38; 38;
38; 2; 2; 0; 0; 0; 0; 0; 0; 0; 0; 0; 0; 0; 2; 2; 2; 2; 2; 2; 2; 2; 2; 21; 21; 21; 16; 16; 2; 2; 9; 9; 9; 9; 9;
9; 9; 9; 9; 9; 9; 11; 9; 0; 11; 11; 2; 2; 2; 2; 2; 2; 2; 2; 2; 2; 2; 2; 2; 2; 2; 2; 2; 2; 2; 2; 2; 2; 2; 2; 2;
2; 2; 2; 2; 2; 2; 2; 2; 2; 2; 2; 2; 2; 2; 2; 2; 2; 2; 9; 9; 9; 9; 9; 9; 9; 9; 9; 9; 9; 9; 9; 9; 9; 9; 9; 9; 9;
9; 9; 19; 19; 19; 19; 19; 19; 19; 19; 19; 19; 21; 19; 19; 2; 2; 2; 9; 2; 2; 2; 2; 2; 2; 2; 2; 2; 2; 2; 2; 2;
2; 2; 2; 2; 2; 2; 2; 2; 2; 2; 2; 2; 2; 2; 2; 2; 2; 2; 2; 2; 2; 2; 2; 2; 2; 2; 2; 2; 2; 2; 2; 2; 2; 2; 2; 2; 2;
2; 2; 2; 2; 2; 2; 2; 2; 2; 2; 2; 2; 2; 2; 2; 2; 2; 2; 2; 2; 2; 2; 2; 2; 2; 2; 2; 2; 2; 2; 2; 2; 2; 2; 2; 2; 2;
2; 2; 2; 2; 2; 2; 2; 2; 2; 2; 2; 2; 11; 2; 9; 9; 9; 9; 9; 9; 9; 2; 2; 9; 9; 9; 9; 9; 9; 2; 2; 9; 9; 2; 9; 9;
9; 9; 2; 2; 19; 19; 19; 19; 19; 19; 19; 19; 19; 19; 2; 2; 2; 2; 2; 2; 2; 2; 2; 2; 2; 2; 2; 2; 2; 2; 2; 2; 2;
2; 0; 2; 2; 9; 2; 2; 2; 2; 2; 2; 2; 2; 2; 2; 2; 2; 2; 2; 2; 2; 2; 2; 2; 2; 2; 2; 2; 2; 2; 2; 2; 2; 2; 2; 9; 9;
9; 9; 9; 9; 9; 9; 9; 9; 9; 9; 9; 9; 9; 9; 9; 9; 9; 9; 9; 9; 9; 9; 9; 9; 9; 0; 0; 2; 2; 2; 2; 2; 2; 2; 2; 2; 2;
2; 2; 2; 2; 2; 2; 2; 2; 2; 2; 2; 2; 2; 2; 2; 2; 2; 2; 2; 2; 2; 2; 2; 2; 2; 2; 2; 2; 2; 2; 2; 2; 2; 2; 2; 2; 2;
2; 2; 2; 2; 2; 2; 2; 2; 2; 2; 2; 2; 2; 2; 2; 2; 2; 2; 2; 2; 2; 2; 2; 2; 2; 2; 2; 2; 2; 2; 2; 2; 2; 2; 2; 2; 2;
2; 2; 2; 2; 2; 9; 9; 9; 9; 9; 9; 9; 9; 9; 9; 9; 2; 0; 0; 0; 0; 0; 0; 0; 0; 0; 0; 0; 0; 0; 0; 19; 19; 19; 19;
19; 19; 19; 19; 19; 19; 2; 2; 2; 2; 2; 2; 2; 2; 2; 2; 2; 2; 2; 2; 2; 2; 2; 2; 2; 2; 2; 2; 2; 2; 2; 2; 2; 2; 2;
2; 2; 2; 2; 9; 9; 9; 9; 9; 9; 9; 9; 9; 2; 2; 2; 2; 16; 11; 2; 0; 0; 0; 0; 0].

(** tables.rs 108-174. *)
Definition LINEBREAK_3_ROOT : list N := [
255; 255; 255; 255; 255; 255; 255; 255; 255; 255; 255; 255; 255; 255; 255; 255; 255; 255; 255; 255; 255; 255;
255; 255; 255; 255; 255; 255; 255; 255; 255; 255; 0; 1; 2; 3; 4; 5; 6; 7; 8; 9; 10; 11; 12; 13; 14; 15; 16;
17; 18; 19; 20; 21; 22; 23; 24; 25; 26; 27; 28; 29; 30; 31; 32; 33; 34; 35; 36; 37; 38; 39; 40; 41; 42; 43;
44; 45; 46; 47; 48; 40; 40; 40; 40; 40; 40; 40; 40; 40; 49; 50; 51; 52; 32; 53; 54; 55; 56; 57; 58; 59; 60;
61; 62; 63; 64; 65; 66; 67; 68; 69; 70; 71; 72; 73; 40; 40; 40; 74; 40; 40; 40; 40; 75; 76; 77; 78; 79; 80;
81; 82; 83; 84; 85; 86; 87; 88; 89; 90; 91; 40; 40; 92; 93; 94; 95; 96; 95; 97; 98; 99; 100; 101; 102; 103;
104; 105; 106; 107; 40; 40; 40; 40; 40; 40; 108; 109; 40; 40; 40; 40; 40; 110; 111; 112; 113; 114; 40; 115;
116; 117; 118; 119; 120; 121; 122; 123; 124; 124; 124; 125; 126; 127; 128; 129; 130; 124; 131; 132; 133; 134;
124; 135; 124; 124; 124; 124; 124; 124; 124; 124; 124; 124; 124; 124; 124; 124; 124; 124; 124; 124; 124; 124;
124; 124; 124; 124; 124; 124; 124; 124; 124; 124; 124; 124; 124; 124; 124; 124; 124; 124; 124; 124; 124; 124;
124; 124; 124; 124; 124; 124; 124; 124; 124; 124; 124; 124; 124; 124; 124; 124; 124; 124; 124; 124; 124; 124;
124; 124; 124; 124; 124; 124; 124; 124; 124; 124; 124; 124; 124; 124; 124; 124; 124; 124; 124; 124; 124; 124;
124; 124; 124; 124; 124; 124; 124; 124; 124; 124; 124; 124; 124; 124; 124; 124; 124; 124; 124; 124; 124; 40;
124; 124; 124; 124; 124; 124; 124; 124; 124; 124; 124; 124; 124; 124; 124; 124; 124; 124; 124; 124; 124; 124;
124; 124; 124; 124; 124; 124; 124; 124; 124; 124; 124; 124; 124; 124; 124; 124; 124; 124; 124; 124; 124; 124;
124; 124; 124; 124; 124; 124; 124; 124; 124; 124; 124; 124; 124; 124; 124; 124; 124; 124; 124; 124; 124; 124;
124; 124; 124; 124; 124; 124; 124; 124; 124; 124; 124; 124; 124; 124; 124; 124; 124; 124; 124; 124; 124; 124;
124; 124; 124; 124; 124; 124; 124; 124; 124; 124; 124; 124; 124; 124; 124; 124; 124; 124; 124; 124; 124; 124;
124; 124; 124; 124; 124; 124; 124; 124; 124; 124; 124; 124; 124; 124; 124; 124; 124; 124; 124; 124; 124; 124;
124; 124; 124; 124; 124; 124; 124; 124; 124; 124; 124; 124; 124; 124; 124; 124; 124; 124; 124; 124; 124; 124;
124; 124; 124; 124; 124; 124; 124; 124; 124; 124; 124; 124; 124; 124; 124; 124; 124; 124; 124; 124; 124; 124;
124; 124; 124; 124; 124; 124; 124; 124; 124; 124; 124; 124; 124; 124; 124; 124; 124; 124; 124; 124; 124; 124;
124; 124; 124; 124; 124; 124; 124; 124; 124; 124; 124; 124; 124; 124; 124; 124; 124; 124; 124; 124; 124; 124;
124; 124; 124; 124; 124; 124; 124; 124; 124; 124; 124; 124; 124; 124; 124; 124; 124; 124; 124; 124; 124; 124;
124; 124; 124; 124; 124; 124; 124; 124; 124; 124; 124; 124; 124; 124; 124; 124; 124; 124; 124; 124; 124; 124;
124; 124; 124; 124; 124; 124; 124; 124; 124; 124; 124; 124; 124; 124; 124; 124; 124; 124; 124; 124; 124; 124;
124; 124; 124; 124; 124; 124; 124; 124; 124; 124; 124; 124; 124; 124; 124; 124; 124; 124; 124; 124; 124; 124;
124; 124; 124; 124; 124; 124; 124; 124; 124; 124; 124; 124; 124; 124; 124; 124; 124; 124; 124; 124; 136; 124;
124; 124; 124; 124; 124; 124; 124; 124; 124; 124; 124; 124; 124; 124; 124; 124; 137; 138; 40; 40; 40; 40; 139;
140; 141; 142; 40; 40; 143; 144; 145; 146; 147; 148; 149; 150; 151; 152; 153; 154; 32; 155; 156; 157; 40; 158;
159; 160; 161; 162; 163; 164; 165; 159; 160; 161; 162; 163; 164; 165; 159; 160; 161; 162; 163; 164; 165; 159;
160; 161; 162; 163; 164; 165; 159; 160; 161; 162; 163; 164; 165; 159; 160; 161; 162; 163; 164; 165; 159; 160;
161; 162; 163; 164; 165; 159; 160; 161; 162; 163; 164; 165; 159; 160; 161; 162; 163; 164; 165; 159; 160; 161;
162; 163; 164; 165; 159; 160; 161; 162; 163; 164; 165; 159; 160; 161; 162; 163; 164; 165; 159; 160; 161; 162;
163; 164; 165; 159; 160; 161; 162; 163; 164; 165; 159; 160; 161; 162; 163; 164; 165; 159; 160; 161; 162; 163;
164; 165; 159; 160; 161; 162; 163; 164; 165; 159; 160; 161; 162; 163; 164; 165; 159; 160; 161; 162; 163; 164;
165; 159; 160; 161; 162; 163; 164; 165; 159; 160; 161; 162; 163; 164; 165; 159; 160; 161; 162; 163; 164; 165;
159; 160; 161; 162; 163; 164; 165; 159; 160; 161; 162; 163; 164; 165; 159; 160; 161; 162; 163; 164; 166; 167;
168; 168; 168; 168; 168; 168; 168; 168; 168; 168; 168; 168; 168; 168; 168; 168; 168; 168; 168; 168; 168; 168;
168; 168; 168; 168; 168; 168; 168; 168; 168; 168; 65; 65; 65; 65; 65; 65; 65; 65; 65; 65; 65; 65; 65; 65; 65;
65; 65; 65; 65; 65; 65; 65; 65; 65; 65; 65; 65; 65; 65; 65; 65; 65; 65; 65; 65; 65; 65; 65; 65; 65; 65; 65;
65; 65; 65; 65; 65; 65; 65; 65; 65; 65; 65; 65; 65; 65; 65; 65; 65; 65; 65; 65; 65; 65; 65; 65; 65; 65; 65;
65; 65; 65; 65; 65; 65; 65; 65; 65; 65; 65; 65; 65; 65; 65; 65; 65; 65; 65; 65; 65; 65; 65; 65; 65; 65; 65;
65; 65; 65; 65; 124; 124; 124; 124; 124; 124; 124; 124; 169; 170; 40; 171; 40; 40; 40; 40; 172; 173; 174; 175;
176; 177; 40; 178; 179; 180; 181; 182].

(** tables.rs 177-688. *)
Definition LINEBREAK_3_CHILD : list N := [
2; 2; 2; 2; 2; 2; 2; 2; 2; 2; 2; 2; 2; 2; 2; 2; 2; 2; 2; 2; 2; 2; 9; 9; 9; 9; 2; 9; 9; 9; 9; 9; 9; 9; 9; 9; 2;
9; 9; 9; 2; 9; 9; 9; 9; 9; 0; 0; 2; 2; 2; 2; 2; 2; 2; 2; 2; 2; 2; 2; 2; 2; 2; 0; 2; 2; 2; 2; 2; 2; 2; 2; 2; 2;
2; 2; 2; 2; 2; 2; 2; 2; 2; 2; 2; 2; 2; 2; 2; 9; 9; 9; 0; 0; 2; 0; 2; 2; 2; 2; 2; 2; 2; 2; 2; 2; 2; 0; 0; 0; 0;
0; 0; 0; 0; 0; 0; 0; 0; 0; 0; 0; 0; 0; 0; 0; 0; 0; 0; 0; 0; 0; 0; 0; 0; 0; 0; 0; 0; 0; 0; 0; 0; 0; 0; 0; 0; 0;
0; 0; 0; 0; 0; 0; 0; 0; 0; 0; 0; 0; 2; 2; 2; 2; 2; 2; 2; 2; 2; 2; 2; 2; 2; 2; 2; 2; 2; 2; 2; 2; 2; 0; 2; 2; 2;
2; 2; 2; 2; 2; 0; 0; 0; 0; 0; 0; 0; 0; 0; 0; 0; 0; 0; 0; 0; 0; 0; 0; 0; 0; 0; 0; 9; 9; 9; 9; 9; 9; 9; 9; 9; 9;
9; 9; 9; 9; 2; 9; 9; 9; 9; 9; 9; 9; 9; 9; 9; 9; 9; 9; 9; 9; 9; 9; 9; 9; 9; 9; 9; 9; 9; 9; 9; 9; 9; 9; 9; 9; 9;
9; 2; 2; 2; 2; 2; 2; 2; 2; 2; 2; 2; 2; 2; 2; 2; 2; 2; 2; 2; 2; 2; 2; 2; 2; 2; 2; 2; 2; 2; 2; 2; 2; 2; 2; 2; 2;
2; 2; 2; 2; 2; 2; 2; 2; 2; 2; 2; 2; 2; 2; 2; 2; 2; 2; 9; 9; 9; 2; 9; 9; 9; 9; 9; 9; 9; 9; 9; 9; 9; 9; 9; 9; 9;
9; 9; 9; 2; 9; 9; 9; 9; 9; 9; 9; 2; 2; 2; 2; 2; 2; 2; 2; 2; 2; 9; 9; 4; 4; 19; 19; 19; 19; 19; 19; 19; 19; 19;
19; 2; 2; 2; 2; 2; 2; 2; 2; 2; 2; 2; 2; 2; 2; 2; 2; 2; 9; 9; 9; 0; 2; 2; 2; 2; 2; 2; 2; 2; 0; 0; 2; 2; 0; 0;
2; 2; 2; 2; 2; 2; 2; 2; 2; 2; 2; 2; 2; 2; 2; 2; 2; 2; 2; 2; 2; 2; 0; 2; 2; 2; 2; 2; 2; 2; 0; 2; 0; 0; 0; 2; 2;
2; 2; 0; 0; 9; 2; 9; 9; 9; 9; 9; 9; 9; 0; 0; 9; 9; 0; 0; 9; 9; 9; 2; 0; 0; 0; 0; 0; 0; 0; 0; 9; 0; 0; 0; 0; 2;
2; 0; 2; 2; 2; 9; 9; 0; 0; 19; 19; 19; 19; 19; 19; 19; 19; 19; 19; 2; 2; 21; 21; 2; 2; 2; 2; 2; 21; 2; 22; 2;
2; 0; 0; 0; 9; 9; 9; 0; 2; 2; 2; 2; 2; 2; 0; 0; 0; 0; 2; 2; 0; 0; 2; 2; 2; 2; 2; 2; 2; 2; 2; 2; 2; 2; 2; 2; 2;
2; 2; 2; 2; 2; 2; 2; 0; 2; 2; 2; 2; 2; 2; 2; 0; 2; 2; 0; 2; 2; 0; 2; 2; 0; 0; 9; 0; 9; 9; 9; 9; 9; 0; 0; 0; 0;
9; 9; 0; 0; 9; 9; 9; 0; 0; 0; 9; 0; 0; 0; 0; 0; 0; 0; 2; 2; 2; 2; 0; 2; 0; 0; 0; 0; 0; 0; 0; 19; 19; 19; 19;
19; 19; 19; 19; 19; 19; 9; 9; 2; 2; 2; 9; 0; 0; 0; 0; 0; 0; 0; 0; 0; 0; 0; 9; 9; 9; 0; 2; 2; 2; 2; 2; 2; 2; 2;
2; 0; 2; 2; 2; 0; 2; 2; 2; 2; 2; 2; 2; 2; 2; 2; 2; 2; 2; 2; 2; 2; 2; 2; 2; 2; 2; 2; 0; 2; 2; 2; 2; 2; 2; 2; 0;
2; 2; 0; 2; 2; 2; 2; 2; 0; 0; 9; 2; 9; 9; 9; 9; 9; 9; 9; 9; 0; 9; 9; 9; 0; 9; 9; 9; 0; 0; 2; 0; 0; 0; 0; 0; 0;
0; 0; 0; 0; 0; 0; 0; 0; 0; 2; 2; 9; 9; 0; 0; 19; 19; 19; 19; 19; 19; 19; 19; 19; 19; 2; 22; 0; 0; 0; 0; 0; 0;
0; 2; 9; 9; 9; 9; 9; 9; 0; 9; 9; 9; 0; 2; 2; 2; 2; 2; 2; 2; 2; 0; 0; 2; 2; 0; 0; 2; 2; 2; 2; 2; 2; 2; 2; 2; 2;
2; 2; 2; 2; 2; 2; 2; 2; 2; 2; 2; 2; 0; 2; 2; 2; 2; 2; 2; 2; 0; 2; 2; 0; 2; 2; 2; 2; 2; 0; 0; 9; 2; 9; 9; 9; 9;
9; 9; 9; 0; 0; 9; 9; 0; 0; 9; 9; 9; 0; 0; 0; 0; 0; 0; 0; 0; 9; 9; 0; 0; 0; 0; 2; 2; 0; 2; 2; 2; 9; 9; 0; 0;
19; 19; 19; 19; 19; 19; 19; 19; 19; 19; 2; 2; 2; 2; 2; 2; 2; 2; 0; 0; 0; 0; 0; 0; 0; 0; 0; 0; 9; 2; 0; 2; 2;
2; 2; 2; 2; 0; 0; 0; 2; 2; 2; 0; 2; 2; 2; 2; 0; 0; 0; 2; 2; 0; 2; 0; 2; 2; 0; 0; 0; 2; 2; 0; 0; 0; 2; 2; 2; 0;
0; 0; 2; 2; 2; 2; 2; 2; 2; 2; 2; 2; 2; 2; 0; 0; 0; 0; 9; 9; 9; 9; 9; 0; 0; 0; 9; 9; 9; 0; 9; 9; 9; 9; 0; 0; 2;
0; 0; 0; 0; 0; 0; 9; 0; 0; 0; 0; 0; 0; 0; 0; 0; 0; 0; 0; 0; 0; 19; 19; 19; 19; 19; 19; 19; 19; 19; 19; 2; 2;
2; 2; 2; 2; 2; 2; 2; 22; 2; 0; 0; 0; 0; 0; 9; 9; 9; 9; 0; 2; 2; 2; 2; 2; 2; 2; 2; 0; 2; 2; 2; 0; 2; 2; 2; 2;
2; 2; 2; 2; 2; 2; 2; 2; 2; 2; 2; 2; 2; 2; 2; 2; 2; 2; 2; 0; 2; 2; 2; 2; 2; 2; 2; 2; 2; 2; 2; 2; 2; 2; 2; 2; 0;
0; 0; 2; 9; 9; 9; 9; 9; 9; 9; 0; 9; 9; 9; 0; 9; 9; 9; 9; 0; 0; 0; 0; 0; 0; 0; 9; 9; 0; 2; 2; 2; 0; 0; 0; 0; 0;
2; 2; 9; 9; 0; 0; 19; 19; 19; 19; 19; 19; 19; 19; 19; 19; 0; 0; 0; 0; 0; 0; 0; 0; 2; 2; 2; 2; 2; 2; 2; 2; 2;
9; 9; 9; 0; 2; 2; 2; 2; 2; 2; 2; 2; 0; 2; 2; 2; 0; 2; 2; 2; 2; 2; 2; 2; 2; 2; 2; 2; 2; 2; 2; 2; 2; 2; 2; 2; 2;
2; 2; 2; 0; 2; 2; 2; 2; 2; 2; 2; 2; 2; 2; 0; 2; 2; 2; 2; 2; 0; 0; 9; 2; 9; 9; 9; 9; 9; 9; 9; 0; 9; 9; 9; 0; 9;
9; 9; 9; 0; 0; 0; 0; 0; 0; 0; 9; 9; 0; 0; 0; 0; 0; 0; 0; 2; 0; 2; 2; 9; 9; 0; 0; 19; 19; 19; 19; 19; 19; 19;
19; 19; 19; 0; 2; 2; 0; 0; 0; 0; 0; 0; 0; 0; 0; 0; 0; 0; 0; 9; 9; 9; 9; 0; 2; 2; 2; 2; 2; 2; 2; 2; 0; 2; 2; 2;
0; 2; 2; 2; 2; 2; 2; 2; 2; 2; 2; 2; 2; 2; 2; 2; 2; 2; 2; 2; 2; 2; 2; 2; 2; 2; 2; 2; 2; 2; 2; 2; 2; 2; 2; 2; 2;
2; 2; 2; 2; 2; 9; 9; 2; 9; 9; 9; 9; 9; 9; 9; 0; 9; 9; 9; 0; 9; 9; 9; 9; 2; 2; 0; 0; 0; 0; 2; 2; 2; 9; 2; 2; 2;
2; 2; 2; 2; 2; 2; 2; 9; 9; 0; 0; 19; 19; 19; 19; 19; 19; 19; 19; 19; 19; 2; 2; 2; 2; 2; 2; 2; 2; 2; 21; 2; 2;
2; 2; 2; 2; 0; 0; 9; 9; 0; 2; 2; 2; 2; 2; 2; 2; 2; 2; 2; 2; 2; 2; 2; 2; 2; 2; 2; 0; 0; 0; 2; 2; 2; 2; 2; 2; 2;
2; 2; 2; 2; 2; 2; 2; 2; 2; 2; 2; 2; 2; 2; 2; 2; 2; 0; 2; 2; 2; 2; 2; 2; 2; 2; 2; 0; 2; 0; 0; 2; 2; 2; 2; 2; 2;
2; 0; 0; 0; 9; 0; 0; 0; 0; 9; 9; 9; 9; 9; 9; 0; 9; 0; 9; 9; 9; 9; 9; 9; 9; 9; 0; 0; 0; 0; 0; 0; 19; 19; 19;
19; 19; 19; 19; 19; 19; 19; 0; 0; 9; 9; 2; 0; 0; 0; 0; 0; 0; 0; 0; 0; 0; 0; 0; 24; 24; 24; 24; 24; 24; 24; 24;
24; 24; 24; 24; 24; 24; 24; 24; 24; 24; 24; 24; 24; 24; 24; 24; 24; 24; 24; 24; 24; 24; 24; 24; 24; 24; 24;
24; 24; 24; 24; 24; 24; 24; 24; 24; 24; 24; 24; 24; 24; 24; 24; 24; 24; 24; 24; 24; 24; 24; 0; 0; 0; 0; 22;
24; 24; 24; 24; 24; 24; 24; 24; 24; 24; 24; 24; 24; 24; 24; 2; 19; 19; 19; 19; 19; 19; 19; 19; 19; 19; 4; 4;
0; 0; 0; 0; 0; 0; 0; 0; 0; 0; 0; 0; 0; 0; 0; 0; 0; 0; 0; 0; 0; 0; 0; 0; 0; 0; 0; 0; 0; 0; 0; 0; 0; 0; 0; 0; 0;
24; 24; 0; 24; 0; 0; 24; 24; 0; 24; 0; 0; 24; 0; 0; 0; 0; 0; 0; 24; 24; 24; 24; 0; 24; 24; 24; 24; 24; 24; 24;
0; 24; 24; 24; 0; 24; 0; 24; 0; 0; 24; 24; 0; 24; 24; 24; 24; 24; 24; 24; 24; 24; 24; 24; 24; 24; 0; 24; 24;
24; 0; 0; 24; 24; 24; 24; 24; 0; 24; 0; 24; 24; 24; 24; 24; 24; 0; 0; 19; 19; 19; 19; 19; 19; 19; 19; 19; 19;
0; 0; 24; 24; 24; 24; 0; 0; 0; 0; 0; 0; 0; 0; 0; 0; 0; 0; 0; 0; 0; 0; 0; 0; 0; 0; 0; 0; 0; 0; 0; 0; 0; 0; 0;
0; 0; 0; 2; 5; 5; 5; 5; 2; 5; 5; 12; 5; 5; 4; 12; 11; 11; 11; 11; 11; 12; 2; 11; 2; 2; 2; 9; 9; 2; 2; 2; 2; 2;
2; 19; 19; 19; 19; 19; 19; 19; 19; 19; 19; 2; 2; 2; 2; 2; 2; 2; 2; 2; 2; 4; 9; 2; 9; 2; 9; 20; 8; 20; 8; 9; 9;
2; 2; 2; 2; 2; 2; 2; 2; 0; 2; 2; 2; 2; 2; 2; 2; 2; 2; 2; 2; 2; 2; 2; 2; 2; 2; 2; 2; 2; 2; 2; 2; 2; 2; 2; 2; 2;
2; 2; 2; 2; 2; 2; 2; 2; 0; 0; 0; 0; 9; 9; 9; 9; 9; 9; 9; 9; 9; 9; 9; 9; 9; 9; 4; 9; 9; 9; 9; 9; 4; 9; 9; 2; 2;
2; 2; 2; 9; 9; 9; 9; 9; 9; 9; 9; 9; 9; 9; 0; 9; 9; 9; 9; 9; 9; 9; 9; 9; 9; 9; 9; 9; 9; 9; 9; 9; 9; 9; 9; 9; 9;
9; 9; 9; 9; 9; 9; 9; 9; 9; 9; 9; 9; 9; 9; 0; 4; 4; 2; 2; 2; 2; 2; 2; 9; 2; 2; 2; 2; 2; 2; 0; 2; 2; 5; 5; 4; 5;
2; 2; 2; 2; 2; 12; 12; 0; 0; 0; 0; 0; 0; 0; 0; 0; 0; 0; 0; 0; 0; 0; 0; 0; 0; 0; 0; 0; 0; 0; 0; 0; 0; 0; 0; 0;
0; 0; 0; 0; 0; 0; 0; 0; 24; 24; 24; 24; 24; 24; 24; 24; 24; 24; 24; 24; 24; 24; 24; 24; 24; 24; 24; 24; 24;
24; 24; 24; 24; 24; 24; 24; 24; 24; 24; 24; 24; 24; 24; 24; 24; 24; 24; 24; 24; 24; 24; 24; 24; 24; 24; 24;
24; 24; 24; 24; 24; 24; 24; 24; 24; 24; 24; 24; 24; 24; 24; 24; 19; 19; 19; 19; 19; 19; 19; 19; 19; 19; 4; 4;
2; 2; 2; 2; 24; 24; 24; 24; 24; 24; 24; 24; 24; 24; 24; 24; 24; 24; 24; 24; 24; 24; 24; 24; 24; 24; 24; 24;
24; 24; 24; 24; 24; 24; 24; 24; 24; 24; 24; 24; 24; 24; 24; 24; 24; 24; 24; 24; 24; 24; 24; 24; 24; 24; 24;
24; 24; 24; 24; 24; 24; 24; 24; 24; 24; 24; 24; 24; 19; 19; 19; 19; 19; 19; 19; 19; 19; 19; 24; 24; 24; 24;
24; 24; 2; 2; 2; 2; 2; 2; 2; 2; 2; 2; 2; 2; 2; 2; 2; 2; 2; 2; 2; 2; 2; 2; 2; 2; 2; 2; 2; 2; 2; 2; 2; 2; 2; 2;
2; 2; 2; 2; 0; 2; 0; 0; 0; 0; 0; 2; 0; 0; 2; 2; 2; 2; 2; 2; 2; 2; 2; 2; 2; 2; 2; 2; 2; 2; 2; 2; 2; 2; 2; 2; 2;
2; 2; 2; 2; 2; 2; 2; 2; 2; 2; 2; 2; 2; 2; 2; 2; 2; 2; 2; 2; 2; 2; 2; 2; 2; 33; 33; 33; 33; 33; 33; 33; 33; 33;
33; 33; 33; 33; 33; 33; 33; 33; 33; 33; 33; 33; 33; 33; 33; 33; 33; 33; 33; 33; 33; 33; 33; 33; 33; 33; 33;
33; 33; 33; 33; 33; 33; 33; 33; 33; 33; 33; 33; 33; 33; 33; 33; 33; 33; 33; 33; 33; 33; 33; 33; 33; 33; 33;
33; 33; 33; 33; 33; 33; 33; 33; 33; 33; 33; 33; 33; 33; 33; 33; 33; 33; 33; 33; 33; 33; 33; 33; 33; 33; 33;
33; 33; 33; 33; 33; 33; 35; 35; 35; 35; 35; 35; 35; 35; 35; 35; 35; 35; 35; 35; 35; 35; 35; 35; 35; 35; 35;
35; 35; 35; 35; 35; 35; 35; 35; 35; 35; 35; 35; 35; 35; 35; 35; 35; 35; 35; 35; 35; 35; 35; 35; 35; 35; 35;
35; 35; 35; 35; 35; 35; 35; 35; 35; 35; 35; 35; 35; 35; 35; 35; 35; 35; 35; 35; 35; 35; 35; 35; 34; 34; 34;
34; 34; 34; 34; 34; 34; 34; 34; 34; 34; 34; 34; 34; 34; 34; 34; 34; 34; 34; 34; 34; 34; 34; 34; 34; 34; 34;
34; 34; 34; 34; 34; 34; 34; 34; 34; 34; 34; 34; 34; 34; 34; 34; 34; 34; 34; 34; 34; 34; 34; 34; 34; 34; 34;
34; 34; 34; 34; 34; 34; 34; 34; 34; 34; 34; 34; 34; 34; 34; 34; 34; 34; 34; 34; 34; 34; 34; 34; 34; 34; 34;
34; 34; 34; 34; 2; 2; 2; 2; 2; 2; 2; 2; 2; 2; 2; 2; 2; 2; 2; 2; 2; 2; 2; 2; 2; 2; 2; 2; 2; 2; 2; 2; 2; 2; 2;
2; 2; 2; 2; 2; 2; 2; 2; 2; 2; 2; 2; 2; 2; 2; 2; 2; 2; 2; 2; 2; 2; 2; 2; 2; 2; 2; 2; 2; 2; 2; 2; 2; 2; 2; 2; 2;
2; 2; 2; 2; 2; 0; 2; 2; 2; 2; 0; 0; 2; 2; 2; 2; 2; 2; 2; 0; 2; 0; 2; 2; 2; 2; 0; 0; 2; 2; 2; 2; 2; 2; 2; 2; 2;
2; 2; 2; 2; 2; 2; 2; 2; 2; 2; 2; 2; 2; 2; 2; 2; 2; 2; 2; 2; 2; 2; 2; 2; 2; 2; 2; 2; 2; 2; 2; 2; 0; 2; 2; 2; 2;
0; 0; 2; 2; 2; 2; 2; 2; 2; 2; 2; 2; 2; 2; 2; 2; 2; 2; 2; 2; 2; 2; 2; 2; 2; 2; 2; 2; 2; 2; 2; 2; 2; 2; 2; 0; 2;
2; 2; 2; 0; 0; 2; 2; 2; 2; 2; 2; 2; 0; 2; 0; 2; 2; 2; 2; 0; 0; 2; 2; 2; 2; 2; 2; 2; 2; 2; 2; 2; 2; 2; 2; 2; 0;
2; 2; 2; 2; 2; 2; 2; 2; 2; 2; 2; 2; 2; 2; 2; 2; 2; 2; 2; 2; 2; 2; 2; 2; 2; 2; 2; 2; 2; 2; 2; 2; 2; 2; 2; 2; 2;
2; 2; 2; 2; 2; 2; 2; 2; 2; 2; 2; 2; 2; 2; 2; 2; 2; 2; 2; 2; 0; 2; 2; 2; 2; 0; 0; 2; 2; 2; 2; 2; 2; 2; 2; 2; 2;
2; 2; 2; 2; 2; 2; 2; 2; 2; 2; 2; 2; 2; 2; 2; 2; 2; 2; 2; 2; 2; 2; 2; 2; 2; 2; 2; 2; 2; 2; 2; 2; 2; 2; 2; 2; 2;
2; 2; 2; 2; 2; 2; 2; 2; 2; 2; 2; 2; 2; 2; 2; 2; 2; 2; 2; 2; 0; 0; 9; 9; 9; 2; 4; 2; 2; 2; 2; 2; 2; 2; 2; 2; 2;
2; 2; 2; 2; 2; 2; 2; 2; 2; 2; 2; 2; 2; 2; 2; 2; 2; 0; 0; 0; 2; 2; 2; 2; 2; 2; 2; 2; 2; 2; 2; 2; 2; 2; 2; 2; 2;
2; 2; 2; 2; 2; 2; 2; 2; 2; 0; 0; 0; 0; 0; 0; 2; 2; 2; 2; 2; 2; 2; 2; 2; 2; 2; 2; 2; 2; 2; 2; 2; 2; 2; 2; 2; 2;
2; 2; 2; 2; 2; 2; 2; 2; 2; 2; 2; 2; 2; 2; 2; 2; 2; 2; 2; 2; 2; 2; 2; 2; 2; 2; 2; 2; 2; 2; 2; 2; 2; 2; 2; 2; 2;
2; 2; 2; 2; 2; 2; 2; 2; 2; 2; 2; 2; 2; 2; 2; 2; 2; 2; 2; 2; 2; 2; 2; 2; 2; 2; 2; 0; 0; 2; 2; 2; 2; 2; 2; 0; 0;
4; 2; 2; 2; 2; 2; 2; 2; 2; 2; 2; 2; 2; 2; 2; 2; 2; 2; 2; 2; 2; 2; 2; 2; 2; 2; 2; 2; 2; 2; 2; 2; 2; 2; 2; 2; 2;
2; 2; 2; 2; 2; 2; 2; 2; 2; 2; 2; 2; 2; 2; 2; 2; 2; 2; 2; 2; 2; 2; 2; 2; 2; 2; 2; 4; 2; 2; 2; 2; 2; 2; 2; 2; 2;
2; 2; 2; 2; 2; 2; 2; 2; 2; 2; 2; 2; 2; 2; 2; 2; 2; 20; 8; 0; 0; 0; 2; 2; 2; 2; 2; 2; 2; 2; 2; 2; 2; 2; 2; 2;
2; 2; 2; 2; 2; 2; 2; 2; 2; 2; 2; 2; 2; 2; 2; 2; 2; 2; 2; 2; 2; 2; 2; 2; 2; 2; 2; 2; 2; 2; 2; 2; 2; 2; 2; 2; 2;
2; 2; 2; 2; 2; 2; 2; 2; 2; 2; 2; 2; 2; 2; 2; 2; 2; 2; 2; 2; 2; 2; 2; 2; 4; 4; 4; 2; 2; 2; 2; 2; 2; 2; 2; 2; 2;
2; 0; 0; 0; 0; 0; 0; 0; 2; 2; 2; 2; 2; 2; 2; 2; 2; 2; 2; 2; 2; 0; 2; 2; 2; 2; 9; 9; 9; 0; 0; 0; 0; 0; 0; 0; 0;
0; 0; 0; 2; 2; 2; 2; 2; 2; 2; 2; 2; 2; 2; 2; 2; 2; 2; 2; 2; 2; 9; 9; 9; 4; 4; 0; 0; 0; 0; 0; 0; 0; 0; 0; 2; 2;
2; 2; 2; 2; 2; 2; 2; 2; 2; 2; 2; 2; 2; 2; 2; 2; 9; 9; 0; 0; 0; 0; 0; 0; 0; 0; 0; 0; 0; 0; 2; 2; 2; 2; 2; 2; 2;
2; 2; 2; 2; 2; 2; 0; 2; 2; 2; 0; 9; 9; 0; 0; 0; 0; 0; 0; 0; 0; 0; 0; 0; 0; 24; 24; 24; 24; 24; 24; 24; 24; 24;
24; 24; 24; 24; 24; 24; 24; 24; 24; 24; 24; 4; 4; 18; 24; 4; 2; 4; 22; 24; 24; 0; 0; 19; 19; 19; 19; 19; 19;
19; 19; 19; 19; 0; 0; 0; 0; 0; 0; 2; 2; 2; 2; 2; 2; 2; 2; 2; 2; 0; 0; 0; 0; 0; 0; 2; 2; 11; 11; 4; 4; 5; 2;
11; 11; 2; 9; 9; 9; 12; 0; 19; 19; 19; 19; 19; 19; 19; 19; 19; 19; 0; 0; 0; 0; 0; 0; 2; 2; 2; 2; 2; 2; 2; 2;
2; 2; 2; 2; 2; 2; 2; 2; 2; 2; 2; 2; 2; 2; 2; 2; 2; 2; 2; 2; 2; 2; 2; 2; 2; 2; 2; 2; 2; 2; 2; 2; 2; 2; 2; 2; 2;
2; 2; 2; 2; 2; 2; 2; 2; 2; 2; 2; 2; 2; 2; 2; 2; 2; 2; 2; 2; 2; 2; 2; 2; 2; 2; 2; 2; 2; 2; 2; 2; 2; 2; 2; 2; 2;
2; 2; 2; 2; 2; 2; 0; 0; 0; 0; 0; 0; 0; 0; 2; 2; 2; 2; 2; 9; 9; 2; 2; 2; 2; 2; 2; 2; 2; 2; 2; 2; 2; 2; 2; 2; 2;
2; 2; 2; 2; 2; 2; 2; 2; 2; 2; 2; 2; 2; 2; 2; 2; 2; 2; 9; 2; 0; 0; 0; 0; 0; 2; 2; 2; 2; 2; 2; 2; 2; 2; 2; 2; 2;
2; 2; 2; 2; 2; 2; 2; 2; 2; 2; 2; 2; 2; 2; 2; 2; 2; 2; 2; 2; 2; 2; 2; 2; 2; 2; 2; 2; 2; 2; 2; 2; 2; 2; 2; 2; 2;
2; 2; 2; 2; 2; 2; 2; 2; 2; 2; 2; 2; 2; 2; 2; 2; 2; 2; 2; 2; 2; 0; 0; 0; 0; 0; 0; 0; 0; 0; 0; 2; 2; 2; 2; 2; 2;
2; 2; 2; 2; 2; 2; 2; 2; 2; 2; 2; 2; 2; 2; 2; 2; 2; 2; 2; 2; 2; 2; 2; 2; 2; 0; 9; 9; 9; 9; 9; 9; 9; 9; 9; 9; 9;
9; 0; 0; 0; 0; 9; 9; 9; 9; 9; 9; 9; 9; 9; 9; 9; 9; 0; 0; 0; 0; 2; 0; 0; 0; 11; 11; 19; 19; 19; 19; 19; 19; 19;
19; 19; 19; 24; 24; 24; 24; 24; 24; 24; 24; 24; 24; 24; 24; 24; 24; 24; 24; 24; 24; 24; 24; 24; 24; 24; 24;
24; 24; 24; 24; 24; 24; 0; 0; 24; 24; 24; 24; 24; 0; 0; 0; 0; 0; 0; 0; 0; 0; 0; 0; 24; 24; 24; 24; 24; 24; 24;
24; 24; 24; 24; 24; 24; 24; 24; 24; 24; 24; 24; 24; 24; 24; 24; 24; 24; 24; 24; 24; 24; 24; 24; 24; 24; 24;
24; 24; 24; 24; 24; 24; 24; 24; 24; 24; 0; 0; 0; 0; 24; 24; 24; 24; 24; 24; 24; 24; 24; 24; 24; 24; 24; 24;
24; 24; 24; 24; 24; 24; 24; 24; 24; 24; 24; 24; 0; 0; 0; 0; 0; 0; 19; 19; 19; 19; 19; 19; 19; 19; 19; 19; 24;
0; 0; 0; 24; 24; 2; 2; 2; 2; 2; 2; 2; 2; 2; 2; 2; 2; 2; 2; 2; 2; 2; 2; 2; 2; 2; 2; 2; 2; 2; 2; 2; 2; 2; 2; 2;
2; 2; 2; 2; 2; 2; 2; 2; 2; 2; 2; 2; 2; 2; 2; 2; 2; 2; 2; 2; 2; 2; 2; 2; 9; 9; 9; 9; 9; 0; 0; 2; 2; 24; 24; 24;
24; 24; 24; 24; 24; 24; 24; 24; 24; 24; 24; 24; 24; 24; 24; 24; 24; 24; 24; 24; 24; 24; 24; 24; 24; 24; 24;
24; 24; 24; 24; 24; 24; 24; 24; 24; 24; 24; 24; 24; 24; 24; 24; 24; 24; 24; 24; 24; 24; 24; 24; 24; 24; 24;
24; 24; 24; 24; 24; 24; 0; 24; 24; 24; 24; 24; 24; 24; 24; 24; 24; 24; 24; 24; 24; 24; 24; 24; 24; 24; 24; 24;
24; 24; 24; 24; 24; 24; 24; 24; 0; 0; 9; 19; 19; 19; 19; 19; 19; 19; 19; 19; 19; 0; 0; 0; 0; 0; 0; 19; 19; 19;
19; 19; 19; 19; 19; 19; 19; 0; 0; 0; 0; 0; 0; 24; 24; 24; 24; 24; 24; 24; 24; 24; 24; 24; 24; 24; 24; 0; 0; 9;
9; 9; 9; 9; 9; 9; 9; 9; 9; 9; 9; 9; 9; 9; 0; 0; 0; 0; 0; 0; 0; 0; 0; 0; 0; 0; 0; 0; 0; 0; 0; 0; 0; 0; 0; 0; 0;
0; 0; 0; 0; 0; 0; 0; 0; 0; 0; 0; 0; 0; 0; 0; 0; 0; 0; 0; 0; 0; 0; 0; 0; 0; 0; 0; 0; 0; 0; 0; 0; 0; 0; 0; 0; 0;
0; 0; 0; 0; 0; 9; 9; 9; 9; 9; 2; 2; 2; 2; 2; 2; 2; 2; 2; 2; 2; 2; 2; 2; 2; 2; 2; 2; 2; 2; 2; 2; 2; 2; 2; 2; 2;
2; 2; 2; 2; 2; 2; 2; 2; 2; 2; 2; 2; 2; 2; 2; 2; 2; 2; 2; 2; 9; 9; 9; 9; 9; 9; 9; 9; 9; 9; 9; 9; 9; 9; 9; 9; 9;
2; 2; 2; 2; 2; 2; 2; 0; 0; 0; 0; 19; 19; 19; 19; 19; 19; 19; 19; 19; 19; 4; 4; 2; 4; 4; 4; 4; 2; 2; 2; 2; 2;
2; 2; 2; 2; 2; 9; 9; 9; 9; 9; 9; 9; 9; 9; 2; 2; 2; 2; 2; 2; 2; 2; 2; 0; 0; 0; 9; 9; 9; 2; 2; 2; 2; 2; 2; 2; 2;
2; 2; 2; 2; 2; 2; 2; 2; 2; 2; 2; 2; 2; 2; 2; 2; 2; 2; 2; 2; 2; 2; 9; 9; 9; 9; 9; 9; 9; 9; 9; 9; 9; 9; 9; 2; 2;
19; 19; 19; 19; 19; 19; 19; 19; 19; 19; 2; 2; 2; 2; 2; 2; 2; 2; 2; 2; 2; 2; 2; 2; 2; 2; 2; 2; 2; 2; 2; 2; 2;
2; 2; 2; 2; 2; 2; 2; 2; 2; 2; 2; 2; 2; 2; 2; 2; 2; 2; 2; 2; 2; 9; 9; 9; 9; 9; 9; 9; 9; 9; 9; 9; 9; 9; 9; 0; 0;
0; 0; 0; 0; 0; 0; 2; 2; 2; 2; 2; 2; 2; 2; 2; 2; 2; 2; 2; 2; 2; 2; 2; 2; 2; 2; 2; 2; 2; 2; 2; 2; 2; 2; 2; 2; 2;
2; 2; 2; 2; 2; 2; 2; 2; 2; 9; 9; 9; 9; 9; 9; 9; 9; 9; 9; 9; 9; 9; 9; 9; 9; 9; 9; 9; 9; 0; 0; 0; 4; 4; 4; 4; 4;
19; 19; 19; 19; 19; 19; 19; 19; 19; 19; 0; 0; 0; 2; 2; 2; 19; 19; 19; 19; 19; 19; 19; 19; 19; 19; 2; 2; 2; 2;
2; 2; 2; 2; 2; 2; 2; 2; 2; 2; 2; 2; 2; 2; 2; 2; 2; 2; 2; 2; 2; 2; 2; 2; 2; 2; 2; 2; 2; 2; 2; 2; 4; 4; 2; 2; 2;
2; 2; 2; 2; 2; 2; 0; 0; 0; 0; 0; 0; 0; 0; 0; 0; 0; 0; 0; 0; 0; 0; 0; 0; 0; 0; 0; 0; 0; 0; 0; 0; 0; 0; 0; 0; 0;
0; 0; 0; 0; 0; 0; 0; 0; 0; 0; 0; 0; 0; 0; 0; 0; 0; 0; 0; 0; 0; 0; 0; 0; 2; 2; 2; 2; 2; 2; 2; 2; 0; 0; 0; 0; 0;
0; 0; 0; 9; 9; 9; 2; 9; 9; 9; 9; 9; 9; 9; 9; 9; 9; 9; 9; 9; 9; 9; 9; 9; 9; 9; 9; 9; 2; 2; 2; 2; 9; 2; 2; 2; 2;
9; 9; 9; 2; 2; 9; 9; 9; 0; 0; 0; 0; 0; 0; 9; 9; 9; 9; 9; 9; 9; 9; 9; 9; 9; 9; 9; 9; 9; 9; 9; 9; 9; 9; 9; 9; 9;
9; 9; 9; 9; 9; 9; 9; 9; 9; 9; 9; 9; 9; 9; 9; 9; 9; 9; 9; 9; 9; 9; 9; 9; 9; 9; 9; 9; 9; 9; 9; 9; 9; 9; 9; 0; 9;
9; 9; 9; 9; 2; 2; 2; 2; 2; 2; 2; 2; 2; 2; 2; 2; 2; 2; 2; 2; 2; 2; 2; 2; 2; 2; 0; 0; 2; 2; 2; 2; 2; 2; 0; 0; 2;
2; 2; 2; 2; 2; 2; 2; 2; 2; 2; 2; 2; 2; 2; 2; 2; 2; 2; 2; 2; 2; 2; 2; 2; 2; 2; 2; 2; 2; 2; 2; 2; 2; 2; 2; 2; 2;
0; 0; 2; 2; 2; 2; 2; 2; 0; 0; 2; 2; 2; 2; 2; 2; 2; 2; 0; 2; 0; 2; 0; 2; 0; 2; 2; 2; 2; 2; 2; 2; 2; 2; 2; 2; 2;
2; 2; 2; 2; 2; 2; 2; 2; 2; 2; 2; 2; 2; 2; 2; 2; 2; 2; 2; 0; 0; 2; 2; 2; 2; 2; 2; 2; 2; 2; 2; 2; 2; 2; 2; 2; 2;
2; 2; 2; 2; 2; 2; 2; 2; 2; 2; 2; 2; 2; 2; 2; 2; 2; 2; 2; 2; 2; 2; 2; 2; 2; 2; 2; 2; 2; 2; 2; 2; 2; 2; 2; 2; 2;
0; 2; 2; 2; 2; 2; 2; 2; 2; 2; 2; 2; 2; 2; 2; 2; 0; 2; 2; 2; 2; 2; 2; 2; 2; 2; 2; 2; 2; 2; 2; 0; 0; 2; 2; 2; 2;
2; 2; 0; 2; 2; 2; 2; 2; 2; 2; 2; 2; 2; 2; 2; 2; 2; 2; 2; 2; 2; 2; 0; 0; 2; 2; 2; 0; 2; 2; 2; 2; 2; 2; 2; 5; 2;
0; 4; 4; 4; 4; 4; 4; 4; 12; 4; 4; 4; 28; 9; 42; 9; 9; 4; 12; 4; 4; 3; 1; 1; 2; 23; 23; 20; 23; 23; 23; 20; 23;
1; 1; 2; 2; 15; 15; 15; 4; 6; 6; 9; 9; 9; 9; 9; 12; 21; 21; 21; 21; 21; 21; 21; 21; 2; 23; 23; 1; 18; 18; 2;
2; 2; 2; 2; 2; 16; 20; 8; 18; 18; 18; 2; 2; 2; 2; 2; 2; 2; 2; 2; 2; 2; 2; 4; 2; 4; 4; 4; 4; 2; 4; 4; 4; 30; 2;
2; 2; 2; 0; 9; 9; 9; 9; 9; 9; 9; 9; 9; 9; 2; 2; 0; 0; 1; 2; 2; 2; 2; 2; 2; 2; 2; 20; 8; 1; 2; 1; 1; 1; 1; 2;
2; 2; 2; 2; 2; 2; 2; 20; 8; 0; 2; 2; 2; 2; 2; 2; 2; 2; 2; 2; 2; 2; 2; 0; 0; 0; 22; 22; 22; 22; 22; 22; 22; 21;
22; 22; 22; 22; 22; 22; 22; 22; 22; 22; 22; 22; 22; 22; 21; 22; 22; 22; 22; 21; 22; 22; 21; 22; 22; 22; 22;
22; 22; 22; 22; 22; 22; 22; 22; 22; 22; 22; 22; 22; 9; 9; 9; 9; 9; 9; 9; 9; 9; 9; 9; 9; 9; 9; 9; 9; 9; 9; 9;
9; 9; 9; 9; 9; 9; 9; 9; 9; 9; 9; 9; 9; 9; 0; 0; 0; 0; 0; 0; 0; 0; 0; 0; 0; 0; 0; 0; 0; 2; 2; 2; 21; 2; 1; 2;
2; 2; 21; 2; 2; 2; 2; 2; 2; 2; 2; 2; 1; 2; 2; 22; 2; 2; 2; 2; 2; 2; 2; 2; 2; 2; 1; 1; 2; 2; 2; 2; 2; 2; 2; 2;
1; 2; 2; 2; 2; 2; 2; 2; 2; 2; 2; 2; 2; 2; 2; 2; 2; 2; 2; 2; 2; 2; 2; 2; 2; 2; 2; 2; 2; 2; 2; 2; 2; 2; 2; 2; 2;
2; 2; 2; 2; 1; 1; 2; 2; 2; 2; 2; 1; 2; 2; 1; 2; 1; 1; 1; 1; 1; 1; 1; 1; 1; 1; 1; 1; 2; 2; 2; 2; 1; 1; 1; 1; 1;
1; 1; 1; 1; 1; 2; 2; 2; 2; 2; 2; 2; 2; 2; 2; 2; 2; 2; 2; 2; 1; 2; 2; 0; 0; 0; 0; 1; 1; 1; 1; 1; 1; 1; 1; 1; 1;
2; 2; 2; 2; 2; 2; 2; 2; 2; 2; 2; 2; 2; 2; 2; 2; 2; 2; 2; 2; 2; 2; 2; 2; 2; 2; 2; 2; 2; 2; 2; 2; 2; 2; 2; 2; 2;
2; 2; 2; 2; 2; 2; 2; 2; 2; 2; 2; 2; 2; 2; 2; 2; 2; 2; 2; 1; 2; 1; 2; 2; 2; 2; 2; 2; 2; 2; 2; 2; 2; 2; 2; 2; 2;
2; 2; 2; 2; 2; 2; 2; 2; 2; 2; 2; 2; 2; 2; 2; 2; 2; 2; 2; 2; 2; 2; 2; 2; 2; 2; 2; 2; 1; 2; 1; 1; 2; 2; 2; 1; 1;
2; 2; 1; 2; 2; 2; 1; 2; 1; 22; 22; 2; 1; 2; 2; 2; 2; 1; 2; 2; 1; 1; 1; 1; 2; 2; 1; 2; 1; 2; 1; 1; 1; 1; 1; 1;
2; 1; 2; 2; 2; 2; 2; 1; 1; 1; 1; 2; 2; 2; 2; 1; 1; 2; 2; 2; 2; 2; 2; 2; 2; 2; 2; 1; 2; 2; 2; 1; 2; 2; 2; 2; 2;
1; 2; 2; 2; 2; 2; 2; 2; 2; 2; 2; 2; 2; 2; 1; 1; 2; 2; 1; 1; 1; 1; 2; 2; 1; 1; 2; 2; 1; 1; 2; 2; 2; 2; 2; 2; 2;
2; 2; 2; 2; 2; 2; 2; 2; 2; 2; 2; 1; 1; 2; 2; 1; 1; 2; 2; 2; 2; 2; 2; 2; 2; 2; 2; 2; 2; 2; 1; 2; 2; 2; 1; 2; 2;
2; 2; 2; 2; 2; 2; 2; 2; 2; 1; 2; 2; 2; 2; 2; 2; 2; 2; 2; 2; 2; 2; 2; 2; 2; 2; 2; 2; 2; 2; 2; 2; 2; 2; 2; 1; 2;
2; 2; 2; 2; 2; 2; 2; 2; 2; 2; 2; 2; 2; 2; 2; 2; 2; 2; 2; 2; 2; 2; 2; 2; 2; 2; 2; 2; 2; 2; 2; 2; 2; 2; 2; 2; 2;
2; 2; 2; 2; 2; 2; 2; 2; 2; 15; 2; 2; 2; 2; 2; 2; 2; 2; 2; 2; 2; 2; 2; 2; 2; 2; 2; 2; 2; 2; 2; 2; 2; 2; 20; 8;
20; 8; 2; 2; 2; 2; 2; 2; 1; 2; 2; 2; 2; 2; 2; 2; 14; 14; 2; 2; 2; 2; 2; 2; 2; 2; 2; 2; 2; 2; 2; 20; 8; 2; 2;
2; 2; 2; 2; 2; 2; 2; 2; 2; 2; 2; 2; 2; 2; 2; 2; 2; 2; 2; 2; 2; 2; 2; 2; 2; 2; 2; 2; 2; 2; 2; 2; 2; 2; 2; 2; 2;
2; 2; 2; 2; 2; 2; 2; 2; 2; 2; 2; 2; 2; 2; 2; 2; 2; 2; 2; 2; 2; 2; 2; 2; 2; 2; 2; 2; 2; 2; 14; 14; 14; 14; 2;
2; 2; 2; 2; 2; 2; 2; 2; 2; 2; 2; 2; 2; 2; 2; 2; 2; 2; 2; 2; 2; 2; 2; 2; 2; 2; 2; 2; 2; 2; 2; 2; 2; 2; 2; 2; 2;
2; 2; 2; 2; 2; 2; 2; 2; 2; 2; 2; 2; 2; 0; 0; 0; 0; 0; 0; 0; 0; 0; 0; 0; 0; 0; 0; 0; 0; 0; 0; 0; 0; 0; 0; 0; 0;
0; 2; 2; 2; 2; 2; 2; 2; 2; 2; 2; 2; 0; 0; 0; 0; 0; 0; 0; 0; 0; 0; 0; 0; 0; 0; 0; 0; 0; 0; 0; 0; 0; 1; 1; 1; 1;
1; 1; 1; 1; 1; 1; 1; 1; 1; 1; 1; 1; 1; 1; 1; 1; 1; 1; 1; 1; 1; 1; 1; 1; 1; 1; 1; 1; 1; 1; 1; 1; 1; 1; 1; 1; 1;
1; 1; 1; 1; 1; 1; 1; 1; 1; 1; 1; 1; 1; 1; 1; 1; 1; 1; 1; 1; 1; 1; 1; 1; 1; 1; 1; 1; 1; 1; 1; 1; 1; 1; 1; 1; 1;
1; 1; 1; 1; 1; 1; 1; 1; 1; 1; 1; 1; 1; 1; 1; 1; 1; 1; 1; 1; 1; 1; 1; 1; 1; 1; 1; 1; 1; 1; 1; 1; 1; 1; 1; 1; 1;
1; 1; 1; 1; 1; 1; 1; 1; 1; 1; 1; 1; 1; 1; 1; 1; 1; 1; 1; 1; 1; 1; 1; 1; 1; 1; 1; 1; 1; 1; 1; 1; 1; 1; 1; 1; 1;
1; 1; 1; 1; 1; 1; 1; 2; 1; 1; 1; 1; 1; 1; 1; 1; 1; 1; 1; 1; 2; 2; 2; 2; 1; 1; 1; 1; 1; 1; 1; 1; 1; 1; 1; 1; 1;
1; 1; 1; 1; 1; 1; 1; 1; 1; 1; 1; 1; 1; 1; 1; 1; 1; 1; 1; 1; 1; 1; 1; 1; 2; 2; 2; 2; 2; 2; 2; 2; 2; 2; 2; 1; 1;
1; 1; 1; 1; 1; 1; 1; 1; 1; 1; 1; 1; 1; 1; 2; 2; 1; 1; 1; 1; 2; 2; 2; 2; 2; 2; 2; 2; 2; 2; 1; 1; 2; 1; 1; 1; 1;
1; 1; 1; 2; 2; 2; 2; 2; 2; 2; 2; 1; 1; 2; 2; 1; 1; 2; 2; 2; 2; 1; 1; 2; 2; 1; 1; 2; 2; 2; 2; 1; 1; 1; 2; 2; 1;
2; 2; 1; 1; 1; 1; 2; 2; 2; 2; 2; 2; 2; 2; 2; 2; 2; 2; 2; 2; 2; 2; 1; 1; 1; 1; 2; 2; 2; 2; 2; 2; 2; 2; 2; 1; 2;
2; 2; 2; 2; 2; 2; 2; 2; 2; 2; 2; 2; 2; 2; 2; 14; 14; 14; 14; 2; 1; 1; 2; 2; 1; 2; 2; 2; 2; 1; 1; 2; 2; 2; 2;
14; 14; 1; 1; 14; 2; 14; 14; 14; 40; 14; 14; 2; 2; 2; 2; 2; 2; 2; 2; 2; 2; 2; 2; 2; 2; 2; 2; 2; 2; 2; 2; 2; 2;
2; 2; 2; 14; 14; 14; 2; 2; 2; 2; 1; 2; 1; 2; 2; 2; 2; 2; 2; 2; 2; 2; 2; 2; 2; 2; 2; 2; 2; 2; 2; 2; 2; 2; 2; 2;
2; 2; 2; 2; 2; 2; 1; 1; 2; 1; 1; 1; 2; 1; 14; 1; 1; 2; 1; 1; 2; 1; 2; 2; 2; 2; 2; 2; 2; 2; 2; 2; 2; 2; 2; 2;
2; 14; 2; 2; 2; 2; 2; 2; 2; 2; 2; 2; 2; 2; 2; 2; 2; 2; 2; 2; 2; 2; 2; 2; 2; 2; 2; 2; 2; 2; 2; 2; 1; 1; 2; 2;
2; 2; 2; 2; 2; 2; 2; 2; 2; 2; 2; 2; 2; 2; 2; 2; 2; 2; 2; 2; 2; 2; 2; 2; 2; 2; 2; 14; 14; 14; 14; 14; 14; 14;
14; 14; 14; 14; 14; 1; 1; 1; 1; 14; 2; 14; 14; 14; 1; 14; 14; 1; 1; 1; 14; 14; 1; 1; 14; 1; 1; 14; 14; 14; 2;
1; 2; 2; 2; 2; 1; 1; 14; 1; 1; 1; 1; 1; 1; 14; 14; 14; 14; 14; 1; 14; 14; 40; 14; 1; 1; 14; 14; 14; 14; 14;
14; 14; 14; 2; 2; 2; 14; 14; 40; 40; 40; 40; 2; 2; 2; 2; 2; 2; 2; 2; 2; 2; 2; 2; 2; 2; 2; 2; 2; 2; 2; 2; 2; 2;
2; 2; 2; 2; 2; 2; 2; 2; 2; 2; 2; 2; 2; 2; 2; 2; 2; 2; 2; 2; 2; 2; 2; 2; 2; 2; 2; 2; 2; 2; 2; 2; 2; 2; 2; 2; 2;
2; 2; 2; 2; 2; 2; 2; 2; 2; 2; 2; 2; 2; 2; 1; 2; 2; 2; 23; 23; 23; 23; 23; 23; 2; 11; 11; 14; 2; 2; 2; 20; 8;
20; 8; 20; 8; 20; 8; 20; 8; 20; 8; 20; 8; 1; 1; 1; 1; 1; 1; 1; 1; 1; 1; 1; 1; 1; 1; 1; 1; 1; 1; 1; 1; 1; 1; 1;
1; 1; 1; 1; 1; 1; 1; 2; 2; 2; 2; 2; 2; 2; 2; 2; 2; 2; 2; 2; 2; 2; 2; 2; 2; 2; 2; 2; 2; 2; 2; 2; 2; 2; 2; 2; 2;
2; 2; 2; 2; 2; 2; 2; 2; 2; 2; 2; 2; 2; 2; 2; 2; 2; 2; 2; 20; 8; 2; 2; 2; 2; 2; 2; 2; 2; 2; 2; 2; 2; 2; 2; 2;
2; 2; 2; 2; 2; 2; 2; 2; 2; 2; 2; 2; 2; 2; 2; 2; 20; 8; 20; 8; 20; 8; 20; 8; 20; 8; 2; 2; 2; 2; 2; 2; 2; 2; 2;
2; 2; 2; 2; 2; 2; 2; 2; 2; 2; 20; 8; 20; 8; 20; 8; 20; 8; 20; 8; 20; 8; 20; 8; 20; 8; 20; 8; 20; 8; 20; 8; 2;
2; 2; 2; 2; 2; 2; 2; 2; 2; 2; 2; 2; 2; 2; 2; 2; 2; 2; 2; 2; 2; 2; 2; 2; 2; 2; 2; 2; 2; 2; 2; 2; 2; 2; 2; 2; 2;
2; 2; 2; 2; 2; 2; 2; 2; 2; 2; 2; 2; 2; 2; 2; 2; 2; 2; 2; 2; 2; 2; 2; 2; 2; 20; 8; 20; 8; 2; 2; 2; 2; 2; 2; 2;
2; 2; 2; 2; 2; 2; 2; 2; 2; 2; 2; 2; 2; 2; 2; 2; 2; 2; 2; 2; 2; 2; 2; 2; 2; 20; 8; 2; 2; 2; 2; 2; 2; 2; 2; 2;
2; 2; 2; 2; 2; 2; 2; 2; 2; 2; 2; 2; 2; 2; 1; 1; 1; 1; 1; 2; 2; 2; 2; 2; 2; 2; 2; 2; 2; 2; 2; 2; 2; 2; 2; 2; 2;
2; 2; 2; 2; 2; 2; 2; 2; 0; 0; 2; 2; 2; 2; 2; 2; 2; 2; 2; 2; 2; 2; 2; 2; 2; 2; 2; 2; 2; 2; 2; 2; 2; 2; 2; 2; 2;
2; 2; 2; 2; 2; 0; 0; 2; 2; 2; 2; 2; 2; 2; 2; 2; 2; 2; 2; 2; 2; 2; 2; 2; 2; 2; 2; 2; 2; 2; 2; 2; 2; 2; 2; 2; 2;
2; 2; 2; 2; 0; 0; 0; 2; 2; 2; 2; 2; 2; 2; 2; 2; 2; 2; 2; 0; 2; 2; 2; 2; 2; 2; 2; 2; 2; 0; 0; 0; 0; 0; 0; 0; 0;
0; 0; 0; 0; 0; 0; 0; 0; 0; 0; 0; 0; 0; 0; 0; 0; 0; 2; 2; 2; 2; 0; 0; 0; 0; 0; 0; 0; 0; 0; 0; 0; 0; 0; 0; 0; 0;
2; 2; 2; 2; 2; 2; 2; 2; 2; 2; 2; 2; 2; 2; 2; 2; 2; 2; 2; 2; 2; 2; 2; 2; 2; 2; 2; 2; 2; 2; 2; 2; 2; 2; 2; 2; 2;
2; 2; 2; 2; 2; 2; 2; 2; 2; 2; 0; 2; 2; 2; 2; 2; 2; 2; 2; 2; 2; 2; 2; 2; 2; 2; 2; 2; 2; 2; 2; 2; 2; 2; 2; 2; 2;
2; 2; 2; 2; 2; 2; 2; 2; 2; 2; 2; 2; 2; 2; 2; 2; 2; 2; 2; 2; 2; 0; 2; 2; 2; 2; 2; 2; 2; 2; 2; 2; 2; 2; 2; 2; 2;
2; 2; 2; 2; 2; 2; 2; 2; 2; 2; 2; 2; 2; 2; 2; 2; 2; 2; 2; 2; 2; 2; 2; 2; 2; 2; 2; 2; 2; 2; 2; 2; 2; 2; 2; 2; 2;
2; 2; 2; 2; 2; 2; 2; 2; 2; 2; 2; 2; 2; 2; 2; 2; 2; 2; 2; 2; 2; 2; 2; 2; 2; 2; 2; 9; 9; 9; 2; 2; 0; 0; 0; 0; 0;
11; 4; 4; 4; 2; 11; 4; 2; 2; 2; 2; 2; 2; 2; 2; 2; 2; 2; 2; 2; 2; 2; 2; 2; 2; 2; 2; 2; 2; 2; 2; 2; 2; 2; 2; 2;
2; 2; 2; 2; 2; 2; 2; 2; 2; 0; 2; 0; 0; 0; 0; 0; 2; 0; 0; 2; 2; 2; 2; 2; 2; 2; 2; 2; 2; 2; 2; 2; 2; 2; 2; 2; 2;
2; 2; 2; 2; 2; 2; 2; 2; 2; 2; 2; 2; 2; 2; 2; 2; 2; 2; 2; 2; 2; 2; 2; 2; 2; 2; 2; 2; 2; 2; 2; 2; 2; 2; 2; 2; 2;
2; 0; 0; 0; 0; 0; 0; 0; 2; 4; 0; 0; 0; 0; 0; 0; 0; 0; 0; 0; 0; 0; 0; 0; 9; 2; 2; 2; 2; 2; 2; 2; 2; 2; 2; 2; 2;
2; 2; 2; 2; 2; 2; 2; 2; 2; 2; 2; 0; 0; 0; 0; 0; 0; 0; 0; 0; 2; 2; 2; 2; 2; 2; 2; 0; 2; 2; 2; 2; 2; 2; 2; 0; 2;
2; 2; 2; 2; 2; 2; 0; 2; 2; 2; 2; 2; 2; 2; 0; 2; 2; 2; 2; 2; 2; 2; 0; 2; 2; 2; 2; 2; 2; 2; 0; 2; 2; 2; 2; 2; 2;
2; 0; 2; 2; 2; 2; 2; 2; 2; 0; 9; 9; 9; 9; 9; 9; 9; 9; 9; 9; 9; 9; 9; 9; 9; 9; 9; 9; 9; 9; 9; 9; 9; 9; 9; 9; 9;
9; 9; 9; 9; 9; 23; 23; 23; 23; 23; 23; 23; 23; 23; 23; 23; 23; 23; 23; 4; 4; 4; 4; 4; 4; 4; 4; 2; 4; 20; 4; 2;
2; 23; 23; 2; 2; 23; 23; 20; 8; 20; 8; 20; 8; 20; 8; 4; 4; 4; 4; 11; 2; 4; 4; 2; 4; 4; 2; 2; 2; 2; 2; 3; 3; 4;
4; 4; 2; 4; 4; 20; 4; 4; 4; 4; 4; 4; 4; 0; 0; 0; 0; 0; 0; 0; 0; 0; 0; 0; 0; 0; 0; 0; 0; 0; 0; 0; 0; 0; 0; 0;
0; 0; 0; 0; 0; 0; 0; 0; 0; 0; 0; 0; 0; 0; 0; 0; 0; 0; 0; 0; 0; 0; 0; 0; 0; 0; 0; 0; 0; 0; 0; 14; 14; 14; 14;
14; 14; 14; 14; 14; 14; 14; 14; 14; 14; 14; 14; 14; 14; 14; 14; 14; 14; 14; 14; 14; 14; 0; 14; 14; 14; 14; 14;
14; 14; 14; 14; 14; 14; 14; 14; 14; 14; 14; 14; 14; 14; 14; 14; 14; 14; 14; 14; 14; 14; 14; 14; 14; 14; 14;
14; 14; 14; 14; 14; 14; 14; 14; 14; 14; 14; 14; 14; 14; 14; 14; 14; 14; 14; 14; 14; 14; 14; 14; 14; 14; 14;
14; 14; 14; 14; 14; 14; 14; 14; 14; 14; 14; 14; 14; 14; 14; 14; 14; 14; 14; 14; 14; 14; 14; 14; 14; 14; 14;
14; 14; 14; 0; 0; 0; 0; 0; 0; 0; 0; 0; 0; 0; 0; 14; 14; 14; 14; 14; 14; 14; 14; 14; 14; 14; 14; 14; 14; 14;
14; 14; 14; 14; 14; 14; 14; 14; 14; 14; 14; 14; 14; 14; 14; 14; 14; 14; 14; 14; 14; 14; 14; 14; 14; 14; 14;
14; 14; 14; 14; 14; 14; 14; 14; 14; 14; 14; 14; 14; 14; 14; 14; 14; 14; 14; 14; 14; 14; 14; 14; 14; 14; 14;
14; 14; 14; 14; 14; 14; 14; 14; 14; 14; 14; 14; 14; 14; 14; 14; 14; 0; 0; 0; 0; 0; 0; 0; 0; 0; 0; 0; 0; 0; 0;
0; 0; 0; 0; 0; 0; 0; 0; 0; 0; 0; 0; 14; 14; 14; 14; 14; 14; 14; 14; 14; 14; 14; 14; 0; 0; 0; 0; 4; 8; 8; 14;
14; 18; 14; 14; 20; 8; 20; 8; 20; 8; 20; 8; 20; 8; 14; 14; 20; 8; 20; 8; 20; 8; 20; 8; 18; 20; 8; 8; 14; 14;
14; 14; 14; 14; 14; 14; 14; 14; 9; 9; 9; 9; 9; 9; 14; 14; 14; 14; 14; 9; 14; 14; 14; 14; 14; 18; 18; 14; 14;
14; 0; 37; 14; 37; 14; 37; 14; 37; 14; 37; 14; 14; 14; 14; 14; 14; 14; 14; 14; 14; 14; 14; 14; 14; 14; 14; 14;
14; 14; 14; 14; 14; 14; 14; 14; 37; 14; 14; 14; 14; 14; 14; 14; 14; 14; 14; 14; 14; 14; 14; 14; 14; 14; 14;
14; 14; 14; 14; 14; 14; 14; 14; 14; 14; 14; 14; 14; 37; 14; 37; 14; 37; 14; 14; 14; 14; 14; 14; 37; 14; 14;
14; 14; 14; 14; 37; 37; 0; 0; 9; 9; 18; 18; 18; 18; 14; 18; 37; 14; 37; 14; 37; 14; 37; 14; 37; 14; 14; 14;
14; 14; 14; 14; 14; 14; 14; 14; 14; 14; 14; 14; 14; 14; 14; 14; 14; 14; 14; 14; 14; 14; 37; 14; 14; 14; 14;
14; 14; 14; 14; 14; 14; 14; 14; 14; 14; 14; 14; 14; 14; 14; 14; 14; 14; 14; 14; 14; 14; 14; 14; 14; 14; 14;
37; 14; 37; 14; 37; 14; 14; 14; 14; 14; 14; 37; 14; 14; 14; 14; 14; 14; 37; 37; 14; 14; 14; 14; 18; 37; 18;
18; 14; 0; 0; 0; 0; 0; 14; 14; 14; 14; 14; 14; 14; 14; 14; 14; 14; 14; 14; 14; 14; 14; 14; 14; 14; 14; 14; 14;
14; 14; 14; 14; 14; 14; 14; 14; 14; 14; 14; 14; 14; 14; 14; 14; 14; 14; 14; 14; 0; 0; 14; 14; 14; 14; 14; 14;
14; 14; 14; 14; 14; 14; 14; 14; 14; 14; 14; 14; 14; 14; 14; 14; 14; 14; 14; 14; 14; 14; 14; 14; 0; 14; 14; 14;
14; 14; 14; 14; 14; 14; 14; 14; 14; 14; 14; 14; 14; 14; 14; 14; 14; 14; 14; 14; 14; 14; 14; 14; 14; 14; 14;
14; 14; 14; 14; 14; 14; 14; 14; 14; 14; 14; 14; 14; 0; 0; 0; 0; 0; 14; 14; 14; 14; 14; 14; 14; 14; 14; 14; 14;
14; 14; 14; 14; 14; 14; 14; 14; 14; 14; 14; 14; 14; 14; 14; 14; 14; 14; 14; 14; 14; 14; 14; 14; 14; 0; 0; 0;
0; 0; 0; 0; 0; 0; 0; 0; 0; 37; 37; 37; 37; 37; 37; 37; 37; 37; 37; 37; 37; 37; 37; 37; 37; 14; 14; 14; 14; 14;
14; 14; 14; 14; 14; 14; 14; 14; 14; 14; 14; 14; 14; 14; 14; 14; 14; 14; 14; 14; 14; 14; 14; 14; 14; 14; 0; 14;
14; 14; 14; 14; 14; 14; 14; 14; 14; 14; 14; 14; 14; 14; 14; 14; 14; 14; 14; 14; 14; 14; 14; 14; 14; 14; 14;
14; 14; 14; 14; 14; 14; 14; 14; 14; 14; 14; 14; 1; 1; 1; 1; 1; 1; 1; 1; 14; 14; 14; 14; 14; 14; 14; 14; 14;
14; 14; 14; 14; 14; 14; 14; 14; 14; 14; 14; 14; 14; 14; 14; 14; 14; 14; 14; 14; 14; 14; 14; 14; 14; 14; 14;
14; 14; 14; 14; 14; 14; 14; 14; 14; 14; 14; 14; 14; 14; 14; 14; 14; 14; 14; 14; 14; 14; 14; 14; 14; 14; 14;
14; 14; 14; 14; 14; 14; 14; 14; 14; 14; 14; 14; 14; 14; 14; 14; 14; 14; 14; 14; 14; 14; 14; 14; 14; 14; 14;
14; 14; 14; 14; 14; 14; 14; 14; 14; 14; 14; 14; 14; 14; 14; 14; 14; 14; 14; 14; 14; 0; 14; 14; 14; 14; 14; 14;
14; 14; 14; 14; 14; 14; 14; 14; 14; 14; 14; 14; 14; 14; 14; 18; 14; 14; 14; 14; 14; 14; 14; 14; 14; 14; 14;
14; 14; 14; 14; 14; 14; 14; 14; 14; 14; 14; 14; 14; 14; 14; 14; 14; 14; 14; 14; 14; 14; 14; 14; 14; 14; 14;
14; 14; 14; 14; 14; 14; 14; 14; 14; 14; 14; 14; 14; 14; 14; 14; 14; 0; 0; 0; 14; 14; 14; 14; 14; 14; 14; 14;
14; 14; 14; 14; 14; 14; 14; 14; 14; 14; 14; 14; 14; 14; 14; 14; 14; 14; 14; 14; 14; 14; 14; 14; 14; 14; 14;
14; 14; 14; 14; 14; 14; 14; 14; 14; 14; 14; 14; 14; 14; 14; 14; 14; 14; 14; 14; 0; 0; 0; 0; 0; 0; 0; 0; 0; 2;
2; 2; 2; 2; 2; 2; 2; 2; 2; 2; 2; 2; 2; 2; 2; 2; 2; 2; 2; 2; 2; 2; 2; 2; 2; 2; 2; 2; 2; 2; 2; 2; 2; 2; 2; 2; 2;
2; 2; 2; 2; 2; 2; 2; 2; 4; 4; 2; 2; 2; 2; 2; 2; 2; 2; 2; 2; 2; 2; 2; 4; 11; 4; 2; 2; 2; 2; 2; 2; 2; 2; 2; 2;
2; 2; 2; 2; 2; 2; 19; 19; 19; 19; 19; 19; 19; 19; 19; 19; 2; 2; 0; 0; 0; 0; 0; 0; 0; 0; 0; 0; 0; 0; 0; 0; 0;
0; 0; 0; 0; 0; 2; 2; 2; 2; 2; 2; 2; 2; 2; 2; 2; 2; 2; 2; 2; 2; 2; 2; 2; 2; 2; 2; 2; 2; 2; 2; 2; 2; 2; 2; 2; 2;
2; 2; 2; 2; 2; 2; 2; 2; 2; 2; 2; 2; 2; 2; 2; 9; 9; 9; 9; 2; 9; 9; 9; 9; 9; 9; 9; 9; 9; 9; 2; 2; 2; 2; 2; 2; 2;
2; 2; 2; 2; 2; 2; 2; 2; 2; 2; 2; 2; 2; 2; 2; 2; 2; 2; 2; 2; 2; 2; 2; 2; 2; 9; 9; 2; 2; 2; 2; 2; 2; 2; 2; 2; 2;
2; 2; 2; 2; 2; 2; 2; 2; 2; 2; 2; 2; 2; 2; 2; 2; 2; 2; 2; 2; 2; 2; 2; 2; 2; 2; 2; 2; 2; 2; 2; 2; 2; 2; 2; 2; 2;
2; 2; 2; 2; 2; 2; 2; 2; 2; 2; 2; 2; 2; 2; 2; 2; 2; 2; 2; 2; 2; 2; 2; 2; 2; 2; 2; 2; 2; 2; 2; 2; 2; 9; 9; 2; 4;
4; 4; 4; 4; 0; 0; 0; 0; 0; 0; 0; 0; 2; 2; 2; 2; 2; 2; 2; 2; 2; 2; 2; 2; 2; 2; 2; 2; 2; 2; 2; 2; 2; 2; 2; 2; 2;
2; 2; 2; 2; 2; 2; 2; 2; 2; 2; 2; 2; 2; 2; 2; 2; 2; 2; 2; 2; 2; 2; 0; 2; 2; 2; 2; 2; 2; 2; 2; 0; 0; 0; 0; 0; 0;
0; 0; 0; 0; 0; 0; 0; 0; 0; 0; 0; 0; 0; 0; 0; 0; 0; 0; 0; 0; 0; 0; 0; 0; 0; 0; 0; 0; 0; 0; 0; 0; 0; 0; 0; 0; 0;
0; 0; 0; 0; 0; 0; 0; 0; 0; 0; 0; 0; 0; 0; 0; 0; 0; 0; 0; 0; 2; 2; 2; 2; 2; 2; 2; 2; 2; 2; 2; 9; 2; 2; 2; 9; 2;
2; 2; 2; 9; 2; 2; 2; 2; 2; 2; 2; 2; 2; 2; 2; 2; 2; 2; 2; 2; 2; 2; 2; 2; 2; 2; 2; 9; 9; 9; 9; 9; 2; 2; 2; 2; 0;
0; 0; 0; 2; 2; 2; 2; 2; 2; 2; 2; 21; 2; 0; 0; 0; 0; 0; 0; 2; 2; 2; 2; 2; 2; 2; 2; 2; 2; 2; 2; 2; 2; 2; 2; 2;
2; 2; 2; 2; 2; 2; 2; 2; 2; 2; 2; 2; 2; 2; 2; 2; 2; 2; 2; 2; 2; 2; 2; 2; 2; 2; 2; 2; 2; 2; 2; 2; 2; 2; 2; 5; 5;
11; 11; 0; 0; 0; 0; 0; 0; 0; 0; 9; 9; 2; 2; 2; 2; 2; 2; 2; 2; 2; 2; 2; 2; 2; 2; 2; 2; 2; 2; 2; 2; 2; 2; 2; 2;
2; 2; 2; 2; 2; 2; 2; 2; 2; 2; 2; 2; 2; 2; 2; 2; 2; 2; 2; 2; 2; 2; 2; 2; 2; 2; 9; 9; 9; 9; 9; 9; 9; 9; 9; 9; 9;
9; 9; 9; 9; 9; 9; 9; 0; 0; 0; 0; 0; 0; 0; 0; 4; 4; 19; 19; 19; 19; 19; 19; 19; 19; 19; 19; 0; 0; 0; 0; 0; 0;
9; 9; 9; 9; 9; 9; 9; 9; 9; 9; 9; 9; 9; 9; 9; 9; 9; 9; 2; 2; 2; 2; 2; 2; 2; 2; 2; 2; 5; 2; 0; 0; 19; 19; 19;
19; 19; 19; 19; 19; 19; 19; 2; 2; 2; 2; 2; 2; 2; 2; 2; 2; 2; 2; 2; 2; 2; 2; 2; 2; 2; 2; 2; 2; 2; 2; 2; 2; 2;
2; 9; 9; 9; 9; 9; 9; 9; 9; 4; 4; 2; 2; 2; 2; 2; 2; 2; 2; 2; 2; 2; 2; 2; 2; 2; 2; 2; 2; 2; 2; 2; 2; 2; 9; 9; 9;
9; 9; 9; 9; 9; 9; 9; 9; 9; 9; 0; 0; 0; 0; 0; 0; 0; 0; 0; 0; 0; 2; 33; 33; 33; 33; 33; 33; 33; 33; 33; 33; 33;
33; 33; 33; 33; 33; 33; 33; 33; 33; 33; 33; 33; 33; 33; 33; 33; 33; 33; 0; 0; 0; 9; 9; 9; 9; 2; 2; 2; 2; 2; 2;
2; 2; 2; 2; 2; 2; 2; 2; 2; 2; 2; 2; 2; 2; 2; 2; 2; 2; 2; 2; 2; 2; 2; 2; 2; 2; 2; 2; 2; 2; 2; 2; 2; 2; 2; 2; 2;
2; 2; 2; 2; 9; 9; 9; 9; 9; 9; 9; 9; 9; 9; 9; 9; 9; 9; 2; 2; 2; 2; 2; 2; 4; 4; 4; 2; 2; 2; 2; 0; 2; 19; 19; 19;
19; 19; 19; 19; 19; 19; 19; 0; 0; 0; 0; 2; 2; 24; 24; 24; 24; 24; 24; 24; 24; 24; 24; 24; 24; 24; 24; 24; 24;
19; 19; 19; 19; 19; 19; 19; 19; 19; 19; 24; 24; 24; 24; 24; 0; 2; 2; 2; 2; 2; 2; 2; 2; 2; 2; 2; 2; 2; 2; 2; 2;
2; 2; 2; 2; 2; 2; 2; 2; 2; 2; 2; 2; 2; 2; 2; 2; 2; 2; 2; 2; 2; 2; 2; 2; 2; 9; 9; 9; 9; 9; 9; 9; 9; 9; 9; 9; 9;
9; 9; 0; 0; 0; 0; 0; 0; 0; 0; 0; 2; 2; 2; 9; 2; 2; 2; 2; 2; 2; 2; 2; 9; 9; 0; 0; 19; 19; 19; 19; 19; 19; 19;
19; 19; 19; 0; 0; 2; 4; 4; 4; 24; 24; 24; 24; 24; 24; 24; 24; 24; 24; 24; 24; 24; 24; 24; 24; 24; 24; 24; 24;
24; 24; 24; 24; 24; 24; 24; 24; 24; 24; 24; 24; 24; 24; 24; 0; 0; 0; 0; 0; 0; 0; 0; 0; 0; 0; 0; 0; 0; 0; 0; 0;
0; 0; 0; 0; 0; 0; 0; 24; 24; 24; 24; 24; 2; 2; 2; 2; 2; 2; 2; 2; 2; 2; 2; 9; 9; 9; 9; 9; 4; 4; 2; 2; 2; 9; 9;
0; 0; 0; 0; 0; 0; 0; 0; 0; 0; 2; 2; 2; 2; 2; 2; 0; 0; 2; 2; 2; 2; 2; 2; 0; 0; 2; 2; 2; 2; 2; 2; 0; 0; 0; 0; 0;
0; 0; 0; 0; 2; 2; 2; 2; 2; 2; 2; 0; 2; 2; 2; 2; 2; 2; 2; 0; 2; 2; 2; 2; 2; 2; 2; 2; 2; 2; 2; 2; 2; 2; 2; 2; 2;
2; 2; 2; 2; 2; 2; 2; 2; 2; 2; 2; 2; 2; 2; 2; 2; 2; 2; 2; 2; 2; 2; 2; 2; 2; 2; 2; 2; 2; 2; 2; 2; 2; 2; 2; 2; 2;
0; 0; 0; 0; 0; 0; 0; 0; 0; 0; 2; 2; 2; 2; 2; 2; 2; 2; 2; 2; 2; 2; 2; 2; 2; 2; 2; 2; 2; 2; 2; 2; 2; 2; 2; 2; 2;
2; 2; 2; 2; 2; 2; 2; 2; 2; 2; 2; 2; 2; 2; 2; 2; 2; 2; 2; 2; 2; 2; 2; 2; 9; 9; 9; 9; 9; 9; 9; 9; 4; 9; 9; 0; 0;
19; 19; 19; 19; 19; 19; 19; 19; 19; 19; 0; 0; 0; 0; 0; 0; 31; 32; 32; 32; 32; 32; 32; 32; 32; 32; 32; 32; 32;
32; 32; 32; 32; 32; 32; 32; 32; 32; 32; 32; 32; 32; 32; 32; 31; 32; 32; 32; 32; 32; 32; 32; 32; 32; 32; 32;
32; 32; 32; 32; 32; 32; 32; 32; 32; 32; 32; 32; 32; 32; 32; 32; 31; 32; 32; 32; 32; 32; 32; 32; 32; 32; 32;
32; 32; 32; 32; 32; 32; 32; 32; 32; 32; 32; 32; 32; 32; 32; 32; 32; 31; 32; 32; 32; 32; 32; 32; 32; 32; 32;
32; 32; 32; 32; 32; 32; 32; 32; 32; 32; 32; 32; 32; 32; 32; 32; 32; 32; 31; 32; 32; 32; 32; 32; 32; 32; 32;
32; 32; 32; 32; 32; 32; 32; 32; 32; 32; 32; 32; 32; 32; 32; 32; 32; 32; 32; 31; 32; 32; 32; 32; 32; 32; 32;
32; 32; 32; 32; 32; 32; 32; 32; 32; 32; 32; 32; 32; 32; 32; 32; 32; 32; 32; 32; 31; 32; 32; 32; 32; 32; 32;
32; 32; 32; 32; 32; 32; 32; 32; 32; 32; 32; 32; 32; 32; 32; 32; 32; 32; 32; 32; 32; 31; 32; 32; 32; 32; 32;
32; 32; 32; 32; 32; 32; 32; 32; 32; 32; 32; 32; 32; 32; 32; 32; 32; 32; 32; 32; 32; 32; 31; 32; 32; 32; 32;
32; 32; 32; 32; 32; 32; 32; 32; 32; 32; 32; 32; 32; 32; 32; 32; 32; 32; 32; 32; 32; 32; 32; 31; 32; 32; 32;
32; 32; 32; 32; 32; 32; 32; 32; 32; 32; 32; 32; 32; 32; 32; 32; 32; 32; 32; 32; 32; 32; 32; 32; 31; 32; 32;
32; 32; 32; 32; 32; 32; 32; 32; 32; 32; 32; 32; 32; 32; 32; 32; 32; 32; 32; 32; 32; 32; 32; 32; 32; 31; 32;
32; 32; 32; 32; 32; 32; 32; 32; 32; 32; 32; 32; 32; 32; 32; 32; 32; 32; 32; 32; 32; 32; 32; 32; 32; 32; 31;
32; 32; 32; 32; 32; 32; 32; 32; 32; 32; 32; 32; 32; 32; 32; 32; 32; 32; 32; 32; 32; 32; 32; 32; 32; 32; 32;
31; 32; 32; 32; 32; 32; 32; 32; 32; 32; 32; 32; 32; 32; 32; 32; 32; 32; 32; 32; 32; 32; 32; 32; 32; 32; 32;
32; 31; 32; 32; 32; 32; 32; 32; 32; 32; 32; 32; 32; 32; 32; 32; 32; 32; 32; 32; 32; 32; 32; 32; 32; 32; 32;
32; 32; 31; 32; 32; 32; 32; 32; 32; 32; 32; 32; 32; 32; 32; 32; 32; 32; 32; 32; 32; 32; 32; 32; 32; 32; 32;
32; 32; 32; 32; 32; 32; 32; 32; 32; 32; 32; 31; 32; 32; 32; 32; 32; 32; 32; 32; 32; 32; 32; 32; 32; 32; 32;
32; 32; 32; 32; 32; 32; 32; 32; 32; 32; 32; 32; 0; 0; 0; 0; 0; 0; 0; 0; 0; 0; 0; 0; 35; 35; 35; 35; 35; 35;
35; 35; 35; 35; 35; 35; 35; 35; 35; 35; 35; 35; 35; 35; 35; 35; 35; 0; 0; 0; 0; 34; 34; 34; 34; 34; 34; 34;
34; 34; 34; 34; 34; 34; 34; 34; 34; 34; 34; 34; 34; 34; 34; 34; 34; 34; 34; 34; 34; 34; 34; 34; 34; 34; 34;
34; 34; 34; 34; 34; 34; 34; 34; 34; 34; 34; 34; 34; 34; 34; 0; 0; 0; 0; 25; 25; 25; 25; 25; 25; 25; 25; 25;
25; 25; 25; 25; 25; 25; 25; 25; 25; 25; 25; 25; 25; 25; 25; 25; 25; 25; 25; 25; 25; 25; 25; 25; 25; 25; 25;
25; 25; 25; 25; 25; 25; 25; 25; 25; 25; 25; 25; 25; 25; 25; 25; 25; 25; 25; 25; 25; 25; 25; 25; 25; 25; 25;
25; 2; 2; 2; 2; 2; 2; 2; 0; 0; 0; 0; 0; 0; 0; 0; 0; 0; 0; 0; 2; 2; 2; 2; 2; 0; 0; 0; 0; 0; 38; 9; 38; 38; 38;
38; 38; 38; 38; 38; 38; 38; 2; 38; 38; 38; 38; 38; 38; 38; 38; 38; 38; 38; 38; 38; 0; 38; 38; 38; 38; 38; 0;
38; 0; 38; 38; 0; 38; 38; 0; 38; 38; 38; 38; 38; 38; 38; 38; 38; 38; 2; 2; 2; 2; 2; 2; 2; 2; 2; 2; 2; 2; 2; 2;
2; 2; 2; 2; 2; 2; 2; 2; 2; 2; 2; 2; 2; 2; 2; 2; 2; 2; 2; 2; 2; 2; 2; 2; 2; 2; 2; 2; 2; 2; 2; 2; 2; 2; 2; 2; 0;
0; 0; 0; 0; 0; 0; 0; 0; 0; 0; 0; 0; 0; 0; 0; 0; 2; 2; 2; 2; 2; 2; 2; 2; 2; 2; 2; 2; 2; 2; 2; 2; 2; 2; 2; 2; 2;
2; 2; 2; 2; 2; 2; 2; 2; 2; 2; 2; 2; 2; 2; 2; 2; 2; 2; 2; 2; 2; 2; 2; 2; 2; 2; 2; 2; 2; 2; 2; 2; 2; 2; 2; 2; 2;
2; 2; 2; 2; 2; 2; 2; 2; 2; 2; 2; 2; 2; 2; 2; 2; 2; 2; 2; 2; 2; 2; 2; 2; 2; 2; 2; 2; 2; 2; 2; 2; 2; 2; 2; 2; 2;
2; 2; 2; 2; 2; 2; 2; 2; 2; 2; 2; 2; 8; 20; 0; 0; 0; 0; 0; 0; 0; 0; 0; 0; 0; 0; 0; 0; 0; 0; 2; 2; 2; 2; 2; 2;
2; 2; 2; 2; 2; 2; 2; 2; 2; 2; 2; 2; 2; 2; 2; 2; 2; 2; 2; 2; 2; 2; 2; 2; 2; 2; 2; 2; 2; 2; 2; 2; 2; 2; 2; 2; 2;
2; 2; 2; 2; 2; 2; 2; 2; 2; 2; 2; 2; 2; 2; 2; 2; 2; 2; 2; 2; 2; 0; 0; 2; 2; 2; 2; 2; 2; 2; 2; 2; 2; 2; 2; 2; 2;
2; 2; 2; 2; 2; 2; 2; 2; 2; 2; 2; 2; 2; 2; 2; 2; 2; 2; 2; 2; 2; 2; 2; 2; 2; 2; 2; 2; 2; 2; 2; 2; 2; 2; 2; 2; 2;
2; 2; 2; 0; 0; 0; 0; 0; 0; 0; 0; 0; 0; 0; 0; 0; 0; 0; 0; 0; 0; 0; 0; 0; 0; 0; 0; 0; 0; 0; 0; 0; 0; 0; 0; 0; 0;
0; 0; 0; 0; 0; 0; 2; 2; 2; 2; 2; 2; 2; 2; 2; 2; 2; 2; 21; 2; 0; 0; 9; 9; 9; 9; 9; 9; 9; 9; 9; 9; 9; 9; 9; 9;
9; 9; 16; 8; 8; 16; 16; 11; 11; 20; 8; 15; 0; 0; 0; 0; 0; 0; 9; 9; 9; 9; 9; 9; 9; 9; 9; 9; 9; 9; 9; 9; 9; 9;
14; 14; 14; 14; 14; 20; 8; 20; 8; 20; 8; 20; 8; 20; 8; 20; 8; 20; 8; 20; 8; 14; 14; 20; 8; 14; 14; 14; 14; 14;
14; 14; 8; 14; 8; 0; 18; 18; 11; 11; 14; 20; 8; 20; 8; 20; 8; 14; 14; 14; 14; 14; 14; 14; 14; 0; 14; 22; 21;
14; 0; 0; 0; 0; 2; 2; 2; 2; 2; 0; 2; 2; 2; 2; 2; 2; 2; 2; 2; 2; 2; 2; 2; 2; 2; 2; 2; 2; 2; 2; 2; 2; 2; 2; 2;
2; 2; 2; 2; 2; 2; 2; 2; 2; 2; 2; 2; 2; 2; 2; 2; 2; 2; 2; 2; 2; 2; 2; 2; 2; 2; 2; 2; 2; 2; 2; 2; 2; 2; 2; 2; 2;
2; 2; 2; 2; 2; 2; 2; 2; 2; 0; 0; 30; 0; 11; 14; 14; 22; 21; 14; 14; 20; 8; 14; 14; 8; 14; 8; 14; 14; 14; 14;
14; 14; 14; 14; 14; 14; 14; 18; 18; 14; 14; 14; 11; 14; 14; 14; 14; 14; 14; 14; 14; 14; 14; 14; 14; 14; 14;
14; 14; 14; 14; 14; 14; 14; 14; 14; 14; 14; 14; 14; 20; 14; 8; 14; 14; 14; 14; 14; 14; 14; 14; 14; 14; 14; 14;
14; 14; 14; 14; 14; 14; 14; 14; 14; 14; 14; 14; 14; 14; 14; 14; 14; 20; 14; 8; 14; 20; 8; 8; 20; 8; 8; 18; 14;
37; 37; 37; 37; 37; 37; 37; 37; 37; 37; 14; 14; 14; 14; 14; 14; 14; 14; 14; 14; 14; 14; 14; 14; 14; 14; 14;
14; 14; 14; 14; 14; 14; 14; 14; 14; 14; 14; 14; 14; 14; 14; 14; 14; 14; 14; 14; 14; 14; 14; 14; 14; 14; 14;
14; 18; 18; 14; 14; 14; 14; 14; 14; 14; 14; 14; 14; 14; 14; 14; 14; 14; 14; 14; 14; 14; 14; 14; 14; 14; 14;
14; 14; 14; 14; 14; 14; 14; 0; 0; 0; 14; 14; 14; 14; 14; 14; 0; 0; 14; 14; 14; 14; 14; 14; 0; 0; 14; 14; 14;
14; 14; 14; 0; 0; 14; 14; 14; 0; 0; 0; 21; 22; 14; 14; 14; 22; 22; 0; 2; 2; 2; 2; 2; 2; 2; 0; 0; 0; 0; 0; 0;
0; 0; 0; 0; 9; 9; 9; 7; 1; 0; 0].

(** tables.rs 691-704. *)
Definition LINEBREAK_4_ROOT : list N := [
255; 255; 255; 255; 255; 255; 255; 255; 255; 255; 255; 255; 255; 255; 255; 255; 0; 1; 2; 3; 4; 5; 6; 7; 8; 5;
5; 9; 5; 10; 11; 12; 7; 7; 7; 7; 7; 7; 7; 7; 7; 7; 7; 7; 7; 7; 7; 13; 7; 7; 7; 7; 7; 7; 7; 7; 7; 7; 7; 7; 7;
7; 7; 13; 5; 5; 5; 5; 5; 5; 5; 5; 5; 5; 5; 5; 5; 5; 5; 5; 5; 5; 5; 5; 5; 5; 5; 5; 5; 5; 5; 5; 5; 5; 5; 5; 5;
5; 5; 5; 5; 5; 5; 5; 5; 5; 5; 5; 5; 5; 5; 5; 5; 5; 5; 5; 5; 5; 5; 5; 5; 5; 5; 5; 5; 5; 5; 5; 5; 5; 5; 5; 5; 5;
5; 5; 5; 5; 5; 5; 5; 5; 5; 5; 5; 5; 5; 5; 5; 5; 5; 5; 5; 5; 5; 5; 5; 5; 5; 5; 5; 5; 5; 5; 5; 5; 5; 5; 5; 5; 5;
5; 5; 5; 5; 5; 5; 5; 5; 5; 5; 5; 5; 5; 5; 5; 5; 5; 5; 5; 5; 5; 5; 5; 5; 5; 5; 5; 5; 5; 5; 5; 5; 5; 5; 5; 5; 5;
5; 5; 5; 5; 5; 5; 5; 5; 5; 5; 5; 5; 5; 5; 5; 5; 14; 5; 5; 5; 5; 5; 5; 5; 5; 5; 5; 5; 5; 5; 5; 5; 5; 5; 5; 5;
5; 5; 5; 5; 5; 5; 5; 5; 5; 5; 5; 5; 5; 5; 5; 5; 5; 5; 5; 5; 5; 5; 5; 5; 5; 5; 5; 5].

(** tables.rs 707-752. *)
Definition LINEBREAK_4_MID : list N := [
0; 1; 2; 3; 4; 2; 5; 6; 7; 7; 8; 9; 10; 11; 12; 13; 2; 2; 14; 15; 16; 17; 7; 7; 2; 2; 2; 2; 18; 19; 7; 7; 20;
21; 22; 23; 24; 7; 25; 26; 27; 28; 29; 30; 31; 32; 33; 7; 2; 34; 35; 36; 7; 7; 7; 7; 7; 37; 7; 7; 7; 7; 7; 7;
38; 39; 40; 41; 42; 43; 44; 45; 46; 7; 47; 48; 49; 50; 7; 7; 51; 52; 53; 54; 7; 7; 55; 56; 53; 57; 58; 59; 60;
7; 7; 7; 7; 7; 61; 62; 7; 7; 7; 7; 63; 64; 65; 66; 7; 7; 7; 7; 67; 68; 69; 7; 70; 71; 7; 7; 7; 7; 7; 7; 7; 7;
7; 7; 2; 2; 2; 2; 2; 2; 2; 2; 2; 2; 2; 2; 2; 2; 72; 7; 2; 73; 2; 2; 2; 74; 7; 7; 7; 7; 7; 7; 7; 7; 7; 7; 7; 7;
7; 7; 7; 7; 7; 7; 7; 7; 7; 7; 7; 7; 7; 7; 7; 7; 7; 7; 7; 7; 7; 7; 7; 7; 7; 7; 7; 7; 7; 7; 2; 2; 2; 2; 2; 2; 2;
2; 2; 75; 76; 2; 2; 77; 2; 2; 78; 7; 7; 7; 7; 7; 7; 7; 7; 7; 7; 7; 7; 7; 7; 7; 7; 7; 7; 7; 7; 7; 7; 7; 7; 7;
7; 7; 7; 7; 7; 7; 7; 7; 7; 7; 7; 7; 7; 7; 7; 7; 7; 7; 7; 7; 7; 7; 7; 7; 7; 7; 7; 7; 7; 7; 7; 7; 7; 7; 7; 7; 7;
7; 2; 2; 2; 2; 2; 2; 2; 79; 2; 80; 7; 7; 7; 7; 7; 7; 7; 7; 7; 7; 7; 7; 7; 7; 7; 7; 7; 7; 7; 7; 7; 7; 7; 7; 7;
7; 7; 7; 7; 7; 7; 7; 7; 7; 7; 7; 7; 7; 7; 7; 7; 7; 7; 7; 7; 7; 7; 7; 7; 7; 7; 7; 7; 7; 7; 7; 7; 7; 7; 7; 7; 7;
7; 7; 7; 7; 7; 7; 7; 7; 7; 7; 7; 7; 7; 7; 7; 7; 7; 7; 7; 7; 7; 7; 7; 7; 7; 7; 7; 7; 7; 7; 7; 7; 7; 7; 7; 7; 7;
7; 7; 7; 7; 7; 7; 7; 7; 7; 7; 7; 7; 7; 7; 7; 7; 7; 7; 7; 7; 7; 7; 7; 7; 7; 7; 7; 7; 7; 7; 7; 7; 7; 7; 7; 2; 2;
2; 2; 2; 2; 2; 2; 66; 81; 7; 82; 83; 84; 85; 7; 7; 7; 7; 7; 7; 7; 7; 7; 7; 7; 7; 7; 2; 86; 87; 88; 89; 89; 89;
89; 89; 89; 89; 89; 89; 89; 89; 89; 89; 89; 89; 89; 89; 89; 89; 89; 89; 89; 89; 89; 89; 89; 89; 89; 89; 89;
89; 89; 89; 89; 89; 89; 89; 89; 89; 89; 89; 89; 89; 89; 89; 89; 89; 89; 89; 89; 89; 89; 89; 89; 89; 89; 89;
89; 89; 89; 89; 89; 89; 89; 89; 89; 89; 89; 89; 89; 89; 89; 89; 89; 89; 89; 89; 89; 89; 89; 89; 89; 89; 89;
89; 89; 89; 89; 89; 89; 89; 89; 89; 89; 89; 90; 89; 89; 89; 89; 89; 89; 89; 89; 89; 89; 89; 91; 7; 7; 7; 7; 7;
7; 7; 7; 7; 7; 7; 7; 7; 7; 7; 7; 7; 7; 7; 7; 89; 89; 89; 89; 92; 93; 89; 89; 89; 89; 89; 94; 7; 7; 7; 7; 7; 7;
7; 7; 7; 7; 7; 7; 7; 7; 7; 7; 7; 7; 7; 7; 7; 7; 7; 7; 7; 7; 7; 7; 7; 7; 7; 7; 7; 7; 7; 7; 2; 95; 96; 7; 7; 7;
7; 7; 7; 7; 7; 7; 7; 7; 7; 7; 2; 2; 2; 97; 98; 99; 100; 101; 2; 102; 7; 7; 2; 103; 7; 7; 2; 104; 105; 106;
107; 108; 2; 2; 2; 2; 109; 2; 2; 2; 2; 110; 2; 2; 2; 2; 2; 2; 2; 2; 111; 112; 113; 7; 7; 7; 7; 7; 7; 7; 7; 7;
7; 7; 7; 7; 7; 7; 7; 7; 7; 7; 7; 7; 114; 7; 7; 7; 7; 7; 7; 7; 7; 7; 7; 7; 7; 7; 7; 7; 7; 7; 7; 7; 7; 7; 7; 7;
7; 7; 7; 7; 7; 7; 7; 7; 2; 2; 2; 115; 2; 116; 7; 7; 7; 7; 7; 7; 7; 7; 7; 7; 7; 7; 7; 7; 7; 7; 7; 7; 117; 118;
119; 120; 7; 7; 7; 7; 89; 89; 89; 89; 121; 122; 123; 124; 89; 89; 89; 89; 89; 89; 125; 126; 89; 127; 128; 89;
129; 130; 131; 132; 89; 133; 134; 135; 2; 136; 2; 137; 138; 139; 140; 89; 141; 89; 89; 142; 89; 89; 89; 89;
89; 89; 89; 89; 89; 89; 89; 89; 89; 89; 89; 89; 89; 89; 89; 89; 89; 89; 89; 143; 89; 89; 89; 89; 89; 89; 89;
89; 89; 89; 89; 89; 89; 89; 89; 89; 89; 89; 89; 89; 89; 89; 89; 89; 89; 89; 89; 89; 89; 89; 89; 89; 89; 89;
89; 89; 89; 89; 89; 89; 89; 89; 89; 89; 89; 89; 89; 89; 89; 89; 89; 89; 89; 89; 89; 89; 89; 89; 89; 89; 89;
89; 89; 143; 144; 145; 7; 7; 145; 145; 145; 146; 7; 7; 7; 7; 7; 7; 7; 7; 7; 7; 7; 7; 7; 7; 7; 7; 7; 7; 7; 7;
7; 7; 7; 7; 7; 7; 7; 7; 7; 7; 7; 7; 7; 7; 7; 7; 7; 7; 7; 7; 7; 7; 7; 7; 7; 7; 7; 7; 7; 7; 7; 7; 7; 7; 7; 7].

(** tables.rs 755-1151. *)
Definition LINEBREAK_4_LEAVES : list N := [
2; 2; 2; 2; 2; 2; 2; 2; 2; 2; 2; 2; 0; 2; 2; 2; 2; 2; 2; 2; 2; 2; 2; 2; 2; 2; 2; 2; 2; 2; 2; 2; 2; 2; 2; 2; 2;
2; 2; 0; 2; 2; 2; 2; 2; 2; 2; 2; 2; 2; 2; 2; 2; 2; 2; 2; 2; 2; 2; 0; 2; 2; 0; 2; 2; 2; 2; 2; 2; 2; 2; 2; 2; 2;
2; 2; 2; 2; 0; 0; 2; 2; 2; 2; 2; 2; 2; 2; 2; 2; 2; 2; 2; 2; 0; 0; 0; 0; 0; 0; 0; 0; 0; 0; 0; 0; 0; 0; 0; 0; 0;
0; 0; 0; 0; 0; 0; 0; 0; 0; 0; 0; 0; 0; 0; 0; 0; 0; 2; 2; 2; 2; 2; 2; 2; 2; 2; 2; 2; 2; 2; 2; 2; 2; 2; 2; 2; 2;
2; 2; 2; 2; 2; 2; 2; 2; 2; 2; 2; 2; 2; 2; 2; 2; 2; 2; 2; 2; 2; 2; 2; 2; 2; 2; 2; 2; 2; 2; 2; 2; 2; 2; 2; 2; 2;
2; 2; 2; 2; 2; 2; 2; 2; 2; 2; 2; 2; 2; 2; 2; 2; 2; 2; 2; 2; 2; 2; 2; 2; 2; 2; 2; 2; 2; 2; 2; 2; 2; 2; 2; 2; 2;
2; 2; 2; 2; 2; 2; 2; 2; 2; 2; 2; 2; 2; 2; 2; 2; 2; 2; 2; 2; 2; 2; 2; 2; 2; 2; 2; 2; 2; 0; 0; 0; 0; 0; 4; 4; 4;
0; 0; 0; 0; 2; 2; 2; 2; 2; 2; 2; 2; 2; 2; 2; 2; 2; 2; 2; 2; 2; 2; 2; 2; 2; 2; 2; 2; 2; 2; 2; 2; 2; 2; 2; 2; 2;
2; 2; 2; 2; 2; 2; 2; 2; 2; 2; 2; 2; 0; 0; 0; 2; 2; 2; 2; 2; 2; 2; 2; 2; 2; 2; 2; 2; 2; 2; 2; 2; 2; 2; 2; 2; 2;
2; 2; 0; 2; 2; 2; 2; 2; 2; 2; 2; 2; 2; 2; 2; 0; 0; 0; 0; 2; 0; 0; 0; 0; 0; 0; 0; 0; 0; 0; 0; 0; 0; 0; 0; 0; 0;
0; 0; 0; 0; 0; 0; 0; 0; 0; 0; 0; 0; 0; 0; 0; 0; 0; 0; 0; 0; 0; 0; 0; 0; 0; 0; 0; 0; 0; 0; 2; 2; 2; 2; 2; 2; 2;
2; 2; 2; 2; 2; 2; 2; 2; 2; 2; 2; 2; 2; 2; 2; 2; 2; 2; 2; 2; 2; 2; 2; 2; 2; 2; 2; 2; 2; 2; 2; 2; 2; 2; 2; 2; 2;
2; 9; 0; 0; 0; 0; 0; 0; 0; 0; 0; 0; 0; 0; 0; 0; 0; 0; 0; 0; 0; 0; 0; 0; 0; 0; 0; 0; 0; 0; 0; 0; 0; 0; 0; 0; 0;
0; 0; 0; 0; 0; 0; 0; 0; 0; 0; 0; 0; 0; 0; 0; 0; 0; 0; 0; 0; 0; 0; 0; 0; 0; 0; 0; 0; 0; 0; 0; 2; 2; 2; 2; 2; 2;
2; 2; 2; 2; 2; 2; 2; 2; 2; 2; 2; 2; 2; 2; 2; 2; 2; 2; 2; 2; 2; 2; 2; 0; 0; 0; 2; 2; 2; 2; 2; 2; 2; 2; 2; 2; 2;
2; 2; 2; 2; 2; 2; 2; 2; 2; 2; 2; 2; 2; 2; 2; 2; 2; 2; 2; 2; 2; 2; 2; 2; 2; 2; 2; 2; 2; 2; 2; 2; 2; 2; 2; 2; 2;
2; 0; 0; 0; 0; 0; 0; 0; 0; 0; 0; 0; 0; 0; 0; 0; 9; 2; 2; 2; 2; 2; 2; 2; 2; 2; 2; 2; 2; 2; 2; 2; 2; 2; 2; 2; 2;
2; 2; 2; 2; 2; 2; 2; 0; 0; 0; 0; 2; 2; 2; 2; 2; 2; 2; 2; 2; 2; 2; 2; 2; 2; 2; 2; 2; 2; 2; 2; 2; 2; 2; 2; 2; 2;
2; 2; 2; 2; 2; 2; 2; 2; 2; 2; 0; 0; 0; 0; 0; 0; 0; 0; 0; 2; 2; 2; 2; 2; 2; 2; 2; 2; 2; 2; 2; 2; 2; 2; 2; 2; 2;
2; 2; 2; 2; 2; 2; 2; 2; 2; 2; 2; 2; 0; 0; 0; 0; 0; 2; 2; 2; 2; 2; 2; 2; 2; 2; 2; 2; 2; 2; 2; 2; 2; 2; 2; 2; 2;
2; 2; 2; 2; 2; 2; 2; 2; 2; 2; 2; 2; 2; 2; 2; 2; 2; 2; 9; 9; 9; 9; 9; 0; 0; 0; 0; 0; 2; 2; 2; 2; 2; 2; 2; 2; 2;
2; 2; 2; 2; 2; 2; 2; 2; 2; 2; 2; 2; 2; 2; 2; 2; 2; 2; 2; 2; 2; 0; 4; 2; 2; 2; 2; 2; 2; 2; 2; 2; 2; 2; 2; 2; 2;
2; 2; 2; 2; 2; 2; 2; 2; 2; 2; 2; 2; 2; 2; 2; 2; 2; 2; 2; 2; 2; 2; 0; 0; 0; 0; 2; 2; 2; 2; 2; 2; 2; 2; 4; 2; 2;
2; 2; 2; 0; 0; 0; 0; 0; 0; 0; 0; 0; 0; 0; 0; 0; 0; 0; 0; 0; 0; 0; 0; 0; 0; 0; 0; 0; 0; 0; 0; 0; 0; 0; 0; 0; 0;
0; 0; 0; 0; 0; 0; 0; 0; 2; 2; 2; 2; 2; 2; 2; 2; 2; 2; 2; 2; 2; 2; 2; 2; 2; 2; 2; 2; 2; 2; 2; 2; 2; 2; 2; 2; 2;
2; 0; 0; 19; 19; 19; 19; 19; 19; 19; 19; 19; 19; 0; 0; 0; 0; 0; 0; 2; 2; 2; 2; 2; 2; 2; 2; 2; 2; 2; 2; 2; 2;
2; 2; 2; 2; 2; 2; 2; 2; 2; 2; 2; 2; 2; 2; 2; 2; 2; 2; 2; 2; 2; 2; 0; 0; 0; 0; 2; 2; 2; 2; 2; 2; 2; 2; 2; 2; 2;
2; 2; 2; 2; 2; 2; 2; 2; 2; 2; 2; 2; 2; 2; 2; 2; 2; 2; 2; 2; 2; 2; 2; 2; 2; 0; 0; 0; 0; 2; 2; 2; 2; 2; 2; 2; 2;
2; 2; 2; 2; 2; 2; 2; 2; 2; 2; 2; 2; 2; 2; 2; 2; 2; 2; 2; 2; 2; 2; 2; 2; 2; 2; 2; 2; 2; 2; 2; 2; 0; 0; 0; 0; 0;
0; 0; 0; 2; 2; 2; 2; 2; 2; 2; 2; 2; 2; 2; 2; 2; 2; 2; 2; 2; 2; 2; 2; 2; 2; 2; 2; 2; 2; 2; 2; 2; 2; 2; 2; 2; 2;
2; 2; 2; 2; 2; 2; 2; 2; 2; 2; 2; 2; 2; 2; 2; 2; 2; 2; 0; 0; 0; 0; 0; 0; 0; 0; 0; 0; 0; 2; 0; 0; 0; 0; 0; 0; 0;
0; 0; 0; 0; 0; 0; 0; 0; 0; 2; 2; 2; 2; 2; 2; 2; 2; 2; 2; 2; 2; 2; 2; 2; 2; 2; 2; 2; 2; 2; 2; 2; 2; 2; 2; 2; 2;
2; 2; 2; 2; 2; 2; 2; 2; 2; 2; 2; 2; 2; 2; 2; 2; 2; 2; 2; 2; 2; 2; 2; 2; 2; 2; 2; 0; 0; 0; 0; 0; 0; 0; 0; 0; 2;
2; 2; 2; 2; 2; 2; 2; 2; 2; 2; 2; 2; 2; 2; 2; 2; 2; 2; 2; 2; 2; 0; 0; 0; 0; 0; 0; 0; 0; 0; 0; 2; 2; 2; 2; 2; 2;
2; 2; 0; 0; 0; 0; 0; 0; 0; 0; 0; 0; 0; 0; 0; 0; 0; 0; 0; 0; 0; 0; 0; 0; 0; 0; 2; 2; 2; 2; 2; 2; 0; 0; 2; 0; 2;
2; 2; 2; 2; 2; 2; 2; 2; 2; 2; 2; 2; 2; 2; 2; 2; 2; 2; 2; 2; 2; 2; 2; 2; 2; 2; 2; 2; 2; 2; 2; 2; 2; 2; 2; 2; 2;
2; 2; 2; 2; 2; 2; 0; 2; 2; 0; 0; 0; 2; 0; 0; 2; 2; 2; 2; 2; 2; 2; 2; 2; 2; 2; 2; 2; 2; 2; 2; 2; 2; 2; 2; 2; 2;
2; 0; 4; 2; 2; 2; 2; 2; 2; 2; 2; 2; 2; 2; 2; 2; 2; 2; 2; 2; 2; 2; 2; 2; 2; 2; 2; 2; 2; 2; 2; 2; 2; 2; 2; 2; 2;
2; 2; 2; 2; 2; 2; 2; 2; 2; 2; 2; 2; 2; 2; 2; 2; 2; 2; 2; 2; 2; 2; 2; 2; 2; 2; 2; 2; 2; 2; 2; 2; 2; 2; 2; 2; 2;
0; 0; 0; 0; 0; 0; 0; 0; 2; 2; 2; 2; 2; 2; 2; 2; 2; 0; 0; 0; 0; 0; 0; 0; 0; 0; 0; 0; 0; 0; 0; 0; 0; 0; 0; 0; 0;
0; 0; 0; 0; 0; 0; 0; 0; 0; 0; 0; 0; 0; 0; 0; 0; 0; 0; 0; 0; 0; 0; 0; 0; 0; 0; 0; 0; 2; 2; 2; 2; 2; 2; 2; 2; 2;
2; 2; 2; 2; 2; 2; 2; 2; 2; 2; 0; 2; 2; 0; 0; 0; 0; 0; 2; 2; 2; 2; 2; 2; 2; 2; 2; 2; 2; 2; 2; 2; 2; 2; 2; 2; 2;
2; 2; 2; 2; 2; 2; 2; 2; 2; 2; 2; 2; 2; 2; 0; 0; 0; 4; 2; 2; 2; 2; 2; 2; 2; 2; 2; 2; 2; 2; 2; 2; 2; 2; 2; 2; 2;
2; 2; 2; 2; 2; 2; 2; 0; 0; 0; 0; 0; 2; 2; 2; 2; 2; 2; 2; 2; 2; 2; 2; 2; 2; 2; 2; 2; 2; 2; 2; 2; 2; 2; 2; 2; 2;
2; 2; 2; 2; 2; 2; 2; 2; 2; 2; 2; 2; 2; 2; 2; 2; 2; 2; 2; 2; 2; 2; 2; 2; 2; 2; 2; 2; 2; 2; 2; 2; 0; 0; 0; 0; 2;
2; 2; 2; 2; 2; 2; 2; 2; 2; 2; 2; 2; 2; 2; 2; 2; 2; 2; 2; 0; 0; 2; 2; 2; 2; 2; 2; 2; 2; 2; 2; 2; 2; 2; 2; 2; 2;
2; 2; 2; 2; 2; 2; 2; 2; 2; 2; 2; 2; 2; 2; 2; 2; 2; 2; 2; 2; 2; 2; 2; 2; 2; 2; 2; 2; 2; 2; 2; 9; 9; 9; 0; 9; 9;
0; 0; 0; 0; 0; 9; 9; 9; 9; 2; 2; 2; 2; 0; 2; 2; 2; 0; 2; 2; 2; 2; 2; 2; 2; 2; 2; 2; 2; 2; 2; 2; 2; 2; 2; 2; 2;
2; 2; 2; 2; 2; 2; 2; 2; 0; 0; 0; 0; 9; 9; 9; 0; 0; 0; 0; 9; 2; 2; 2; 2; 2; 2; 2; 2; 0; 0; 0; 0; 0; 0; 0; 0; 4;
4; 4; 4; 4; 4; 4; 4; 2; 0; 0; 0; 0; 0; 0; 0; 2; 2; 2; 2; 2; 2; 2; 2; 2; 2; 2; 2; 2; 2; 2; 2; 2; 2; 2; 2; 2; 2;
2; 2; 2; 2; 2; 2; 2; 2; 2; 2; 2; 2; 2; 2; 2; 2; 2; 2; 2; 2; 2; 2; 2; 2; 2; 2; 2; 2; 2; 2; 2; 2; 2; 2; 2; 2; 2;
2; 2; 2; 2; 2; 0; 0; 0; 0; 0; 0; 0; 0; 0; 0; 0; 0; 0; 0; 0; 0; 0; 0; 0; 0; 0; 0; 0; 0; 0; 0; 0; 0; 0; 0; 0; 0;
2; 2; 2; 2; 2; 2; 2; 2; 2; 2; 2; 2; 2; 2; 2; 2; 2; 2; 2; 2; 2; 2; 2; 2; 2; 2; 2; 2; 2; 2; 2; 2; 2; 2; 2; 2; 2;
9; 9; 0; 0; 0; 0; 2; 2; 2; 2; 2; 4; 4; 4; 4; 4; 4; 15; 0; 0; 0; 0; 0; 0; 0; 0; 0; 2; 2; 2; 2; 2; 2; 2; 2; 2;
2; 2; 2; 2; 2; 2; 2; 2; 2; 2; 2; 2; 2; 2; 2; 2; 2; 2; 2; 2; 2; 2; 2; 2; 2; 2; 2; 2; 2; 2; 2; 2; 2; 2; 2; 2; 2;
2; 2; 2; 2; 2; 2; 2; 2; 0; 0; 0; 4; 4; 4; 4; 4; 4; 4; 2; 2; 2; 2; 2; 2; 2; 2; 2; 2; 2; 2; 2; 2; 2; 2; 2; 2; 2;
2; 2; 2; 0; 0; 2; 2; 2; 2; 2; 2; 2; 2; 2; 2; 2; 2; 2; 2; 2; 2; 2; 2; 2; 2; 2; 2; 2; 2; 2; 2; 2; 0; 0; 0; 0; 0;
2; 2; 2; 2; 2; 2; 2; 2; 2; 2; 2; 2; 2; 2; 2; 2; 2; 2; 2; 2; 2; 2; 2; 2; 2; 2; 0; 0; 0; 0; 0; 0; 0; 2; 2; 2; 2;
0; 0; 0; 0; 0; 0; 0; 0; 0; 0; 0; 0; 2; 2; 2; 2; 2; 2; 2; 0; 0; 0; 0; 0; 0; 0; 0; 0; 0; 0; 0; 0; 0; 0; 0; 2; 2;
2; 2; 2; 2; 2; 2; 2; 0; 0; 0; 0; 0; 0; 0; 0; 0; 0; 0; 0; 0; 0; 0; 0; 0; 0; 0; 0; 0; 0; 0; 0; 0; 0; 0; 0; 0; 0;
0; 0; 0; 0; 0; 0; 0; 0; 0; 0; 0; 0; 0; 0; 0; 0; 0; 0; 0; 0; 0; 0; 0; 0; 0; 2; 2; 2; 2; 2; 2; 2; 2; 2; 2; 2; 2;
2; 2; 2; 2; 2; 2; 2; 2; 2; 2; 2; 2; 2; 2; 2; 2; 2; 2; 2; 2; 2; 2; 2; 2; 2; 2; 2; 2; 2; 2; 2; 2; 2; 2; 2; 2; 2;
2; 2; 0; 0; 0; 0; 0; 0; 0; 0; 0; 0; 0; 0; 0; 2; 2; 2; 2; 2; 2; 2; 2; 2; 2; 2; 2; 2; 2; 2; 2; 2; 2; 2; 2; 2; 2;
2; 2; 2; 2; 2; 2; 2; 2; 2; 2; 2; 2; 2; 2; 2; 2; 2; 2; 2; 2; 2; 2; 2; 2; 2; 2; 2; 2; 2; 0; 0; 0; 0; 0; 0; 0; 2;
2; 2; 2; 2; 2; 0; 0; 0; 0; 0; 0; 0; 0; 0; 0; 0; 0; 0; 0; 0; 0; 0; 0; 0; 0; 0; 0; 0; 0; 0; 0; 0; 0; 0; 0; 0; 0;
2; 2; 2; 2; 2; 2; 2; 2; 2; 2; 2; 2; 2; 2; 2; 2; 2; 2; 2; 2; 2; 2; 2; 2; 2; 2; 2; 2; 2; 2; 2; 0; 9; 9; 9; 2; 2;
2; 2; 2; 2; 2; 2; 2; 2; 2; 2; 2; 2; 2; 2; 2; 2; 2; 2; 2; 2; 2; 2; 2; 2; 2; 2; 2; 2; 2; 2; 2; 2; 2; 2; 2; 2; 2;
2; 2; 2; 2; 2; 2; 2; 2; 2; 2; 2; 2; 2; 2; 9; 9; 9; 9; 9; 9; 9; 9; 9; 9; 9; 9; 9; 9; 9; 4; 4; 2; 2; 2; 2; 2; 0;
0; 0; 0; 2; 2; 2; 2; 2; 2; 2; 2; 2; 2; 2; 2; 2; 2; 2; 2; 2; 2; 2; 2; 19; 19; 19; 19; 19; 19; 19; 19; 19; 19;
0; 0; 0; 0; 0; 0; 0; 0; 0; 0; 0; 0; 0; 0; 0; 9; 9; 9; 9; 2; 2; 2; 2; 2; 2; 2; 2; 2; 2; 2; 2; 2; 2; 2; 2; 2; 2;
2; 2; 2; 2; 2; 2; 2; 2; 2; 2; 2; 2; 2; 2; 2; 2; 2; 2; 2; 2; 2; 2; 2; 2; 2; 2; 2; 9; 9; 9; 9; 9; 9; 9; 9; 9; 9;
9; 2; 2; 2; 4; 4; 4; 4; 0; 0; 0; 0; 0; 0; 0; 0; 0; 0; 0; 0; 0; 0; 2; 2; 2; 2; 2; 2; 2; 2; 2; 2; 2; 2; 2; 2; 2;
2; 2; 2; 2; 2; 2; 2; 2; 2; 2; 0; 0; 0; 0; 0; 0; 0; 19; 19; 19; 19; 19; 19; 19; 19; 19; 19; 0; 0; 0; 0; 0; 0;
9; 9; 9; 2; 2; 2; 2; 2; 2; 2; 2; 2; 2; 2; 2; 2; 2; 2; 2; 2; 2; 2; 2; 2; 2; 2; 2; 2; 2; 2; 2; 2; 2; 2; 2; 2; 2;
2; 2; 9; 9; 9; 9; 9; 9; 9; 9; 9; 9; 9; 9; 9; 9; 0; 19; 19; 19; 19; 19; 19; 19; 19; 19; 19; 4; 4; 4; 4; 0; 0;
0; 0; 0; 0; 0; 0; 0; 0; 0; 0; 2; 2; 2; 2; 2; 2; 2; 2; 2; 2; 2; 2; 2; 2; 2; 2; 2; 2; 2; 2; 2; 2; 2; 2; 2; 2; 2;
2; 2; 2; 2; 2; 2; 2; 2; 9; 2; 5; 2; 0; 0; 0; 0; 0; 0; 0; 0; 0; 9; 9; 9; 2; 2; 2; 2; 2; 2; 2; 2; 2; 2; 2; 2; 2;
2; 2; 2; 2; 2; 2; 2; 2; 2; 2; 2; 2; 2; 2; 2; 2; 2; 2; 2; 2; 2; 2; 2; 2; 2; 2; 2; 2; 2; 2; 2; 2; 2; 2; 2; 9; 9;
9; 9; 9; 9; 9; 9; 9; 9; 9; 9; 9; 9; 2; 2; 2; 2; 4; 4; 2; 4; 2; 9; 9; 9; 2; 0; 0; 19; 19; 19; 19; 19; 19; 19;
19; 19; 19; 2; 5; 2; 4; 4; 4; 0; 2; 2; 2; 2; 2; 2; 2; 2; 2; 2; 2; 2; 2; 2; 2; 2; 2; 2; 2; 2; 0; 0; 0; 0; 0; 0;
0; 0; 0; 0; 0; 2; 2; 2; 2; 2; 2; 2; 2; 2; 2; 2; 2; 2; 2; 2; 2; 2; 2; 0; 2; 2; 2; 2; 2; 2; 2; 2; 2; 2; 2; 2; 2;
2; 2; 2; 2; 2; 2; 2; 2; 2; 2; 2; 2; 9; 9; 9; 9; 9; 9; 9; 9; 9; 9; 9; 9; 4; 4; 2; 4; 4; 2; 9; 0; 2; 2; 2; 2; 2;
2; 2; 0; 2; 0; 2; 2; 2; 2; 0; 2; 2; 2; 2; 2; 2; 2; 2; 2; 2; 2; 2; 2; 2; 2; 0; 2; 2; 2; 2; 2; 2; 2; 2; 2; 2; 4;
0; 0; 0; 0; 0; 0; 2; 2; 2; 2; 2; 2; 2; 2; 2; 2; 2; 2; 2; 2; 2; 2; 2; 2; 2; 2; 2; 2; 2; 2; 2; 2; 2; 2; 2; 2; 2;
2; 2; 2; 2; 2; 2; 2; 2; 2; 2; 2; 2; 2; 2; 2; 2; 9; 9; 9; 9; 9; 9; 9; 9; 9; 9; 9; 9; 0; 0; 0; 0; 0; 19; 19; 19;
19; 19; 19; 19; 19; 19; 19; 0; 0; 0; 0; 0; 0; 9; 9; 9; 9; 0; 2; 2; 2; 2; 2; 2; 2; 2; 0; 0; 2; 2; 0; 0; 2; 2;
2; 2; 2; 2; 2; 2; 2; 2; 2; 2; 2; 2; 2; 2; 2; 2; 2; 2; 2; 2; 0; 2; 2; 2; 2; 2; 2; 2; 0; 2; 2; 0; 2; 2; 2; 2; 2;
0; 0; 9; 2; 9; 9; 9; 9; 9; 9; 9; 0; 0; 9; 9; 0; 0; 9; 9; 9; 0; 0; 2; 0; 0; 0; 0; 0; 0; 9; 0; 0; 0; 0; 0; 2; 2;
2; 2; 2; 9; 9; 0; 0; 9; 9; 9; 9; 9; 9; 9; 0; 0; 0; 9; 9; 9; 9; 9; 0; 0; 0; 0; 0; 0; 0; 0; 0; 0; 0; 2; 2; 2; 2;
2; 2; 2; 2; 2; 2; 2; 2; 2; 2; 2; 2; 2; 2; 2; 2; 2; 2; 2; 2; 2; 2; 2; 2; 2; 2; 2; 2; 2; 2; 2; 2; 2; 2; 2; 2; 2;
2; 2; 2; 2; 2; 2; 2; 2; 2; 2; 2; 2; 9; 9; 9; 9; 9; 9; 9; 9; 9; 9; 9; 9; 9; 9; 9; 9; 9; 9; 2; 2; 2; 2; 4; 4; 4;
4; 2; 19; 19; 19; 19; 19; 19; 19; 19; 19; 19; 0; 4; 0; 2; 0; 0; 0; 0; 0; 0; 0; 0; 0; 0; 0; 0; 0; 0; 0; 0; 0;
0; 0; 0; 0; 0; 0; 0; 0; 0; 0; 0; 0; 0; 0; 0; 0; 0; 2; 2; 2; 2; 2; 2; 2; 2; 2; 2; 2; 2; 2; 2; 2; 2; 2; 2; 2; 2;
2; 2; 2; 2; 2; 2; 2; 2; 2; 2; 2; 2; 2; 2; 2; 2; 2; 2; 2; 2; 2; 2; 2; 2; 2; 2; 2; 2; 9; 9; 9; 9; 9; 9; 9; 9; 9;
9; 9; 9; 9; 9; 9; 9; 9; 9; 9; 9; 2; 2; 2; 2; 0; 0; 0; 0; 0; 0; 0; 0; 19; 19; 19; 19; 19; 19; 19; 19; 19; 19;
0; 0; 0; 0; 0; 0; 0; 0; 0; 0; 0; 0; 0; 0; 0; 0; 0; 0; 0; 0; 0; 0; 0; 0; 0; 0; 0; 0; 0; 0; 0; 0; 0; 0; 0; 0; 0;
0; 2; 2; 2; 2; 2; 2; 2; 2; 2; 2; 2; 2; 2; 2; 2; 2; 2; 2; 2; 2; 2; 2; 2; 2; 2; 2; 2; 2; 2; 2; 2; 2; 2; 2; 2; 2;
2; 2; 2; 2; 2; 2; 2; 2; 2; 2; 2; 9; 9; 9; 9; 9; 9; 9; 0; 0; 9; 9; 9; 9; 9; 9; 9; 9; 9; 5; 4; 4; 11; 11; 2; 2;
2; 4; 4; 4; 4; 4; 4; 4; 4; 4; 4; 4; 4; 4; 4; 4; 2; 2; 2; 2; 9; 9; 0; 0; 0; 0; 0; 0; 0; 0; 0; 0; 0; 0; 0; 0; 0;
0; 0; 0; 0; 0; 0; 0; 0; 0; 0; 0; 0; 0; 0; 0; 0; 0; 0; 0; 9; 4; 4; 2; 2; 0; 0; 0; 0; 0; 0; 0; 0; 0; 0; 0; 19;
19; 19; 19; 19; 19; 19; 19; 19; 19; 0; 0; 0; 0; 0; 0; 5; 5; 5; 5; 5; 5; 5; 5; 5; 5; 5; 5; 5; 0; 0; 0; 0; 0; 0;
0; 0; 0; 0; 0; 0; 0; 0; 0; 0; 0; 0; 0; 2; 2; 2; 2; 2; 2; 2; 2; 2; 2; 2; 2; 2; 2; 2; 2; 2; 2; 2; 2; 2; 2; 2; 2;
2; 2; 2; 2; 2; 2; 2; 2; 2; 2; 2; 2; 2; 2; 2; 2; 2; 2; 2; 9; 9; 9; 9; 9; 9; 9; 9; 9; 9; 9; 9; 9; 0; 0; 0; 0; 0;
0; 0; 0; 19; 19; 19; 19; 19; 19; 19; 19; 19; 19; 0; 0; 0; 0; 0; 0; 0; 0; 0; 0; 0; 0; 0; 0; 0; 0; 0; 0; 0; 0;
0; 0; 0; 0; 0; 0; 0; 0; 0; 0; 0; 0; 0; 0; 0; 0; 0; 0; 0; 0; 0; 0; 0; 0; 0; 0; 0; 0; 0; 0; 0; 0; 0; 0; 24; 24;
24; 24; 24; 24; 24; 24; 24; 24; 24; 24; 24; 24; 24; 24; 24; 24; 24; 24; 24; 24; 24; 24; 24; 24; 0; 0; 0; 24;
24; 24; 24; 24; 24; 24; 24; 24; 24; 24; 24; 24; 24; 24; 0; 0; 0; 0; 19; 19; 19; 19; 19; 19; 19; 19; 19; 19;
24; 24; 4; 4; 4; 24; 0; 0; 0; 0; 0; 0; 0; 0; 0; 0; 0; 0; 0; 0; 0; 0; 0; 0; 0; 0; 0; 0; 0; 0; 0; 0; 0; 0; 0; 0;
0; 0; 2; 2; 2; 2; 2; 2; 2; 2; 2; 2; 2; 2; 2; 2; 2; 2; 2; 2; 2; 2; 2; 2; 2; 2; 2; 2; 2; 2; 2; 2; 2; 2; 2; 2; 2;
2; 2; 2; 2; 2; 2; 2; 2; 2; 2; 2; 2; 2; 2; 2; 2; 2; 2; 2; 2; 2; 2; 2; 2; 2; 2; 2; 2; 2; 19; 19; 19; 19; 19; 19;
19; 19; 19; 19; 2; 2; 2; 2; 2; 2; 2; 2; 2; 0; 0; 0; 0; 0; 0; 0; 0; 0; 0; 0; 0; 2; 2; 9; 9; 9; 9; 9; 9; 9; 9;
9; 9; 2; 2; 2; 2; 2; 2; 2; 2; 2; 2; 2; 2; 2; 2; 2; 2; 2; 2; 2; 2; 2; 2; 2; 2; 2; 2; 2; 2; 2; 2; 2; 2; 2; 2; 2;
2; 2; 2; 2; 2; 9; 9; 9; 9; 9; 9; 9; 2; 9; 9; 9; 9; 5; 2; 4; 4; 4; 4; 5; 2; 9; 0; 0; 0; 0; 0; 0; 0; 0; 2; 9; 9;
9; 9; 9; 9; 9; 9; 9; 9; 9; 2; 2; 2; 2; 2; 2; 2; 2; 2; 2; 2; 2; 2; 2; 2; 2; 2; 2; 2; 2; 2; 2; 2; 2; 2; 2; 2; 2;
2; 2; 2; 2; 2; 2; 2; 2; 2; 2; 2; 2; 0; 0; 2; 2; 2; 2; 9; 9; 9; 9; 9; 9; 9; 9; 9; 9; 9; 9; 9; 9; 9; 9; 4; 4; 4;
0; 5; 5; 5; 4; 4; 0; 0; 0; 0; 0; 0; 0; 0; 0; 0; 0; 0; 0; 0; 0; 0; 0; 0; 0; 0; 0; 0; 0; 0; 0; 0; 0; 0; 0; 2; 2;
2; 2; 2; 2; 2; 2; 2; 2; 2; 2; 2; 2; 2; 2; 2; 2; 2; 2; 2; 2; 2; 2; 2; 2; 2; 2; 2; 2; 2; 2; 2; 2; 2; 2; 2; 2; 2;
2; 2; 2; 2; 2; 2; 2; 2; 2; 2; 2; 2; 2; 2; 2; 2; 2; 2; 0; 0; 0; 0; 0; 0; 0; 2; 2; 2; 2; 2; 2; 2; 2; 2; 0; 2; 2;
2; 2; 2; 2; 2; 2; 2; 2; 2; 2; 2; 2; 2; 2; 2; 2; 2; 2; 2; 2; 2; 2; 2; 2; 2; 2; 2; 2; 2; 2; 2; 2; 2; 2; 2; 9; 9;
9; 9; 9; 9; 9; 9; 0; 9; 9; 9; 9; 9; 9; 9; 9; 2; 4; 4; 4; 4; 4; 0; 0; 0; 0; 0; 0; 0; 0; 0; 0; 19; 19; 19; 19;
19; 19; 19; 19; 19; 19; 2; 2; 2; 2; 2; 2; 2; 2; 2; 2; 2; 2; 2; 2; 2; 2; 2; 2; 2; 0; 0; 0; 5; 11; 2; 2; 2; 2;
2; 2; 2; 2; 2; 2; 2; 2; 2; 2; 2; 2; 2; 2; 2; 2; 2; 2; 2; 2; 2; 2; 2; 2; 2; 2; 0; 0; 9; 9; 9; 9; 9; 9; 9; 9; 9;
9; 9; 9; 9; 9; 9; 9; 9; 9; 9; 9; 9; 9; 0; 9; 9; 9; 9; 9; 9; 9; 9; 9; 9; 9; 9; 9; 9; 0; 0; 0; 0; 0; 0; 0; 0; 0;
2; 2; 2; 2; 2; 2; 2; 0; 2; 2; 0; 2; 2; 2; 2; 2; 2; 2; 2; 2; 2; 2; 2; 2; 2; 2; 2; 2; 2; 2; 2; 2; 2; 2; 2; 2; 2;
2; 2; 2; 2; 2; 2; 2; 2; 2; 2; 2; 2; 9; 9; 9; 9; 9; 9; 0; 0; 0; 9; 0; 9; 9; 0; 9; 9; 9; 9; 9; 9; 9; 2; 9; 0; 0;
0; 0; 0; 0; 0; 0; 19; 19; 19; 19; 19; 19; 19; 19; 19; 19; 0; 0; 0; 0; 0; 0; 0; 0; 0; 0; 0; 0; 0; 0; 0; 0; 0;
0; 0; 0; 0; 0; 0; 0; 0; 0; 0; 0; 0; 0; 0; 0; 0; 0; 0; 0; 0; 0; 2; 2; 2; 2; 2; 2; 2; 2; 2; 2; 2; 2; 2; 2; 2; 2;
2; 2; 2; 2; 2; 2; 2; 2; 2; 2; 0; 0; 0; 0; 0; 0; 0; 0; 0; 0; 0; 0; 0; 0; 0; 0; 0; 0; 0; 0; 0; 0; 0; 0; 0; 0; 0;
0; 0; 0; 0; 0; 0; 0; 0; 0; 0; 0; 2; 2; 2; 2; 2; 2; 2; 2; 2; 2; 2; 2; 2; 2; 2; 2; 2; 2; 2; 2; 2; 2; 2; 2; 2; 2;
2; 2; 2; 2; 2; 2; 2; 2; 2; 2; 2; 2; 2; 2; 2; 2; 2; 2; 2; 2; 2; 0; 4; 4; 4; 4; 4; 0; 0; 0; 0; 0; 0; 0; 0; 0; 0;
0; 2; 2; 2; 2; 0; 0; 0; 0; 0; 0; 0; 0; 0; 0; 0; 0; 0; 0; 0; 0; 0; 0; 0; 0; 0; 0; 0; 0; 0; 0; 0; 0; 0; 0; 0; 0;
0; 0; 0; 0; 0; 0; 0; 0; 0; 0; 0; 0; 0; 0; 0; 0; 0; 0; 0; 0; 0; 0; 0; 0; 0; 0; 0; 0; 2; 2; 2; 2; 2; 2; 2; 2; 2;
2; 2; 2; 2; 2; 2; 2; 2; 2; 2; 2; 2; 2; 2; 2; 20; 20; 20; 8; 8; 8; 2; 2; 2; 2; 2; 2; 2; 2; 2; 2; 2; 2; 2; 2; 2;
2; 2; 2; 2; 2; 2; 2; 2; 2; 2; 2; 2; 2; 2; 2; 2; 2; 2; 2; 2; 2; 8; 2; 2; 2; 20; 8; 20; 8; 2; 2; 2; 2; 2; 2; 2;
2; 2; 2; 2; 2; 2; 2; 2; 2; 2; 2; 2; 2; 2; 2; 2; 2; 2; 2; 2; 2; 2; 2; 2; 2; 2; 2; 2; 2; 2; 2; 2; 2; 2; 2; 2; 2;
2; 2; 2; 2; 2; 2; 2; 2; 2; 2; 2; 2; 2; 2; 2; 2; 2; 2; 2; 2; 2; 2; 2; 2; 2; 2; 2; 2; 2; 2; 2; 2; 2; 2; 2; 2; 2;
2; 2; 2; 2; 2; 2; 2; 2; 2; 2; 2; 2; 2; 2; 2; 2; 2; 2; 2; 2; 2; 2; 2; 2; 2; 2; 2; 2; 2; 2; 20; 8; 8; 2; 2; 2;
2; 2; 2; 2; 2; 2; 2; 2; 2; 2; 2; 2; 2; 2; 2; 2; 2; 2; 2; 2; 2; 2; 2; 2; 2; 2; 2; 2; 2; 2; 2; 2; 2; 2; 2; 2; 2;
2; 2; 2; 2; 2; 2; 2; 2; 2; 2; 2; 0; 0; 0; 0; 0; 0; 0; 0; 0; 0; 0; 0; 0; 0; 0; 0; 0; 2; 2; 2; 2; 2; 2; 2; 2; 2;
2; 2; 2; 2; 2; 20; 8; 2; 2; 2; 2; 2; 2; 2; 2; 2; 2; 2; 2; 2; 2; 2; 2; 2; 2; 2; 2; 2; 2; 2; 2; 2; 2; 2; 2; 2;
2; 2; 2; 2; 2; 2; 2; 2; 2; 2; 2; 2; 2; 2; 2; 2; 2; 2; 2; 2; 2; 2; 2; 2; 2; 2; 0; 0; 0; 0; 0; 0; 0; 0; 0; 0; 0;
0; 0; 0; 0; 0; 0; 0; 0; 0; 0; 0; 0; 0; 0; 0; 0; 0; 0; 0; 0; 0; 0; 0; 0; 0; 0; 0; 0; 0; 0; 0; 0; 0; 0; 0; 0; 0;
0; 0; 0; 0; 0; 0; 0; 0; 0; 2; 2; 2; 2; 2; 2; 2; 2; 2; 2; 2; 2; 2; 2; 2; 2; 2; 2; 2; 2; 2; 2; 2; 2; 2; 2; 2; 2;
2; 2; 2; 0; 19; 19; 19; 19; 19; 19; 19; 19; 19; 19; 0; 0; 0; 0; 4; 4; 0; 0; 0; 0; 0; 0; 0; 0; 0; 0; 0; 0; 0;
0; 0; 0; 0; 0; 0; 0; 0; 0; 0; 0; 0; 0; 0; 0; 0; 0; 0; 0; 2; 2; 2; 2; 2; 2; 2; 2; 2; 2; 2; 2; 2; 2; 2; 2; 2; 2;
2; 2; 2; 2; 2; 2; 2; 2; 2; 2; 2; 2; 0; 0; 9; 9; 9; 9; 9; 4; 0; 0; 0; 0; 0; 0; 0; 0; 0; 0; 2; 2; 2; 2; 2; 2; 2;
2; 2; 2; 2; 2; 2; 2; 2; 2; 2; 2; 2; 2; 2; 2; 2; 2; 2; 2; 2; 2; 2; 2; 2; 2; 2; 2; 2; 2; 2; 2; 2; 2; 2; 2; 2; 2;
2; 2; 2; 2; 9; 9; 9; 9; 9; 9; 9; 4; 4; 4; 2; 2; 2; 2; 2; 2; 2; 2; 2; 2; 4; 2; 0; 0; 0; 0; 0; 0; 0; 0; 0; 0;
19; 19; 19; 19; 19; 19; 19; 19; 19; 19; 0; 2; 2; 2; 2; 2; 2; 2; 0; 2; 2; 2; 2; 2; 2; 2; 2; 2; 2; 2; 2; 2; 2;
2; 2; 2; 2; 2; 2; 2; 0; 0; 0; 0; 0; 2; 2; 2; 2; 2; 2; 2; 2; 2; 2; 2; 2; 2; 2; 2; 2; 2; 2; 2; 0; 0; 0; 0; 0; 0;
0; 0; 0; 0; 0; 0; 0; 0; 0; 0; 0; 0; 0; 0; 0; 0; 0; 0; 0; 0; 0; 0; 0; 0; 0; 0; 0; 0; 0; 0; 0; 0; 0; 0; 0; 0; 0;
0; 0; 0; 0; 0; 2; 2; 2; 2; 2; 0; 0; 0; 0; 0; 0; 0; 0; 0; 0; 0; 2; 9; 9; 9; 9; 9; 9; 9; 9; 9; 9; 9; 9; 9; 9; 9;
9; 9; 9; 9; 9; 9; 9; 9; 9; 9; 9; 9; 9; 9; 9; 9; 9; 9; 9; 9; 9; 9; 9; 9; 9; 9; 9; 9; 9; 9; 9; 0; 0; 0; 0; 0; 0;
0; 0; 0; 0; 0; 0; 0; 0; 0; 0; 9; 9; 9; 9; 2; 2; 2; 2; 2; 2; 2; 2; 2; 2; 2; 2; 2; 0; 0; 0; 0; 0; 0; 0; 0; 0; 0;
0; 0; 0; 0; 0; 0; 0; 0; 0; 0; 0; 0; 0; 0; 0; 0; 0; 0; 0; 0; 0; 0; 0; 0; 0; 0; 0; 0; 0; 0; 0; 0; 0; 0; 0; 0; 0;
0; 0; 0; 0; 0; 0; 0; 0; 0; 0; 0; 0; 0; 0; 0; 0; 0; 18; 18; 0; 0; 0; 0; 0; 0; 0; 0; 0; 0; 0; 0; 0; 0; 0; 0; 0;
0; 0; 0; 0; 0; 0; 0; 0; 0; 0; 0; 0; 0; 14; 14; 14; 14; 14; 14; 14; 14; 14; 14; 14; 14; 14; 14; 14; 14; 14; 14;
14; 14; 14; 14; 14; 14; 14; 14; 14; 14; 14; 14; 14; 14; 14; 14; 14; 14; 14; 14; 14; 14; 14; 14; 14; 14; 14;
14; 14; 14; 14; 14; 14; 14; 14; 14; 14; 14; 14; 14; 14; 14; 14; 14; 14; 14; 14; 14; 14; 14; 14; 14; 14; 14;
14; 14; 14; 14; 14; 14; 14; 14; 14; 14; 14; 14; 14; 14; 14; 14; 14; 14; 14; 14; 14; 14; 14; 14; 14; 14; 14;
14; 14; 14; 14; 14; 14; 14; 14; 14; 14; 0; 0; 0; 0; 0; 0; 0; 0; 0; 0; 0; 0; 0; 0; 0; 0; 0; 0; 0; 14; 14; 14;
14; 14; 14; 14; 14; 14; 14; 14; 14; 14; 14; 14; 14; 14; 14; 14; 14; 14; 14; 14; 14; 14; 14; 14; 14; 14; 14;
14; 14; 14; 14; 14; 14; 14; 14; 14; 14; 14; 14; 14; 14; 14; 14; 14; 14; 14; 14; 14; 0; 0; 0; 0; 0; 0; 0; 0; 0;
0; 0; 0; 0; 14; 14; 14; 14; 14; 14; 14; 14; 14; 14; 14; 14; 14; 14; 14; 14; 14; 14; 14; 14; 14; 14; 14; 14;
14; 14; 14; 14; 14; 14; 14; 0; 0; 0; 0; 0; 0; 0; 0; 0; 0; 0; 0; 0; 0; 0; 0; 0; 0; 0; 0; 0; 0; 0; 0; 0; 0; 0;
0; 0; 0; 0; 0; 0; 0; 0; 0; 0; 0; 0; 0; 0; 0; 0; 0; 0; 0; 0; 0; 0; 0; 0; 0; 0; 0; 0; 0; 0; 0; 0; 0; 0; 0; 0; 0;
0; 0; 0; 0; 0; 0; 0; 0; 0; 0; 0; 0; 0; 0; 0; 0; 0; 14; 14; 14; 14; 14; 14; 14; 14; 14; 14; 14; 14; 14; 14; 14;
14; 14; 14; 14; 14; 14; 14; 14; 14; 14; 14; 14; 14; 14; 14; 14; 14; 14; 14; 14; 14; 14; 14; 14; 14; 14; 14;
14; 14; 14; 14; 14; 14; 14; 14; 14; 14; 14; 14; 14; 14; 14; 14; 14; 14; 14; 14; 14; 14; 14; 14; 14; 14; 14;
14; 14; 14; 14; 14; 14; 14; 0; 0; 0; 0; 2; 2; 2; 2; 2; 2; 2; 2; 2; 2; 2; 2; 2; 2; 2; 2; 2; 2; 2; 2; 2; 2; 2;
2; 2; 2; 2; 2; 2; 2; 2; 2; 2; 2; 2; 2; 2; 2; 2; 2; 2; 2; 2; 0; 0; 0; 0; 0; 2; 2; 2; 2; 2; 2; 2; 2; 2; 2; 2; 2;
2; 0; 0; 0; 2; 2; 2; 2; 2; 2; 2; 2; 2; 0; 0; 0; 0; 0; 0; 0; 2; 2; 2; 2; 2; 2; 2; 2; 2; 2; 0; 0; 2; 9; 9; 4; 9;
9; 9; 9; 0; 0; 0; 0; 0; 0; 0; 0; 0; 0; 0; 0; 0; 0; 0; 0; 0; 0; 0; 0; 0; 0; 0; 0; 0; 0; 0; 0; 2; 2; 2; 2; 2; 2;
2; 2; 2; 2; 2; 2; 2; 2; 2; 2; 2; 2; 2; 2; 2; 2; 2; 2; 2; 2; 2; 2; 2; 2; 2; 2; 2; 2; 2; 2; 2; 2; 2; 2; 2; 2; 2;
2; 2; 2; 2; 2; 2; 2; 2; 2; 2; 2; 0; 0; 0; 0; 0; 0; 0; 0; 0; 0; 2; 2; 2; 2; 2; 2; 2; 2; 2; 2; 2; 2; 2; 2; 2; 2;
2; 2; 2; 2; 2; 2; 2; 2; 2; 2; 2; 2; 2; 2; 2; 2; 2; 2; 2; 2; 2; 2; 2; 0; 0; 2; 2; 2; 2; 2; 2; 2; 2; 2; 2; 2; 2;
2; 2; 2; 2; 2; 2; 2; 2; 2; 2; 2; 2; 2; 2; 2; 2; 2; 2; 2; 2; 2; 2; 2; 2; 2; 2; 2; 2; 2; 2; 2; 2; 2; 2; 2; 2; 2;
2; 2; 2; 2; 2; 2; 2; 2; 2; 2; 2; 9; 9; 9; 9; 9; 2; 2; 2; 9; 9; 9; 9; 9; 9; 9; 9; 9; 9; 9; 9; 9; 9; 9; 9; 9; 9;
9; 9; 9; 9; 2; 2; 9; 9; 9; 9; 9; 9; 9; 2; 2; 2; 2; 2; 2; 2; 2; 2; 2; 2; 2; 2; 2; 2; 2; 2; 2; 2; 2; 2; 2; 2; 2;
2; 2; 2; 2; 2; 2; 9; 9; 9; 9; 2; 2; 2; 2; 2; 2; 2; 2; 2; 2; 2; 2; 2; 2; 2; 2; 2; 2; 2; 2; 2; 2; 2; 2; 2; 2; 2;
2; 2; 2; 2; 2; 2; 2; 2; 2; 2; 2; 2; 2; 2; 2; 2; 2; 2; 2; 2; 2; 2; 2; 2; 2; 2; 2; 2; 2; 2; 2; 2; 0; 0; 0; 0; 0;
0; 0; 0; 0; 0; 0; 0; 0; 0; 0; 0; 0; 0; 0; 0; 0; 0; 0; 2; 2; 9; 9; 9; 2; 0; 0; 0; 0; 0; 0; 0; 0; 0; 0; 0; 0; 0;
0; 0; 0; 0; 0; 0; 0; 0; 0; 0; 0; 0; 0; 0; 0; 0; 0; 0; 0; 0; 0; 0; 0; 0; 0; 0; 0; 0; 0; 0; 0; 0; 0; 0; 0; 0; 0;
0; 0; 0; 0; 0; 0; 0; 0; 2; 2; 2; 2; 2; 2; 2; 2; 2; 2; 2; 2; 2; 2; 2; 2; 2; 2; 2; 2; 2; 2; 2; 0; 0; 0; 0; 0; 0;
0; 0; 0; 2; 2; 2; 2; 2; 2; 2; 2; 2; 2; 2; 2; 2; 2; 2; 2; 2; 2; 0; 0; 0; 0; 0; 0; 0; 0; 0; 0; 0; 0; 0; 0; 2; 2;
2; 2; 2; 2; 2; 2; 2; 2; 2; 2; 2; 2; 2; 2; 2; 2; 2; 2; 2; 0; 2; 2; 2; 2; 2; 2; 2; 2; 2; 2; 2; 2; 2; 2; 2; 2; 2;
2; 2; 2; 2; 2; 2; 2; 2; 2; 2; 2; 2; 2; 2; 2; 2; 2; 2; 2; 2; 2; 2; 2; 2; 2; 2; 2; 2; 2; 2; 2; 2; 2; 2; 2; 2; 2;
2; 2; 2; 2; 2; 2; 2; 2; 2; 2; 2; 2; 2; 2; 2; 2; 2; 0; 2; 2; 0; 0; 2; 0; 0; 2; 2; 0; 0; 2; 2; 2; 2; 0; 2; 2; 2;
2; 2; 2; 2; 2; 2; 2; 2; 2; 0; 2; 0; 2; 2; 2; 2; 2; 2; 2; 0; 2; 2; 2; 2; 2; 2; 2; 2; 2; 2; 2; 2; 2; 2; 2; 2; 2;
2; 2; 2; 2; 2; 2; 2; 2; 2; 2; 2; 2; 2; 2; 2; 2; 2; 2; 2; 2; 2; 2; 2; 2; 2; 2; 2; 2; 2; 2; 2; 2; 2; 2; 2; 2; 2;
2; 2; 2; 2; 2; 2; 2; 2; 2; 2; 2; 0; 2; 2; 2; 2; 0; 0; 2; 2; 2; 2; 2; 2; 2; 2; 0; 2; 2; 2; 2; 2; 2; 2; 0; 2; 2;
2; 2; 2; 2; 2; 2; 2; 2; 2; 2; 2; 2; 2; 2; 2; 2; 2; 2; 2; 2; 2; 2; 2; 2; 2; 2; 0; 2; 2; 2; 2; 0; 2; 2; 2; 2; 2;
0; 2; 0; 0; 0; 2; 2; 2; 2; 2; 2; 2; 0; 2; 2; 2; 2; 2; 2; 2; 2; 2; 2; 2; 2; 2; 2; 2; 2; 2; 2; 2; 2; 2; 2; 2; 2;
2; 2; 2; 2; 2; 2; 2; 2; 2; 2; 2; 2; 2; 2; 2; 2; 2; 2; 2; 2; 2; 2; 2; 2; 2; 2; 2; 2; 2; 2; 2; 2; 2; 2; 2; 2; 2;
2; 2; 2; 2; 2; 2; 2; 2; 2; 2; 2; 2; 2; 2; 2; 2; 2; 2; 2; 2; 2; 2; 2; 0; 0; 2; 2; 2; 2; 2; 2; 2; 2; 2; 2; 2; 2;
2; 2; 2; 2; 2; 2; 2; 2; 2; 2; 2; 2; 2; 2; 2; 2; 2; 2; 2; 2; 2; 2; 2; 2; 0; 0; 19; 19; 19; 19; 19; 19; 19; 19;
19; 19; 19; 19; 19; 19; 19; 19; 19; 19; 19; 19; 19; 19; 19; 19; 19; 19; 19; 19; 19; 19; 19; 19; 19; 19; 19;
19; 19; 19; 19; 19; 19; 19; 19; 19; 19; 19; 19; 19; 19; 19; 9; 9; 9; 9; 9; 9; 9; 9; 9; 9; 9; 9; 9; 9; 9; 9; 9;
9; 9; 9; 9; 9; 9; 9; 9; 9; 9; 9; 9; 9; 9; 9; 9; 9; 9; 9; 9; 9; 9; 9; 9; 9; 9; 9; 9; 9; 9; 9; 9; 9; 9; 9; 9; 9;
9; 2; 2; 2; 2; 9; 9; 9; 9; 9; 9; 9; 9; 9; 9; 9; 9; 9; 9; 9; 9; 9; 9; 9; 9; 9; 9; 9; 9; 9; 9; 9; 9; 9; 9; 9; 9;
9; 9; 9; 9; 9; 9; 9; 9; 9; 9; 9; 9; 9; 9; 9; 9; 9; 9; 2; 2; 2; 2; 2; 2; 2; 2; 9; 2; 2; 2; 2; 2; 2; 2; 2; 2; 2;
2; 2; 2; 2; 9; 2; 2; 4; 4; 4; 4; 2; 0; 0; 0; 0; 0; 0; 0; 0; 0; 0; 0; 0; 0; 0; 0; 9; 9; 9; 9; 9; 0; 9; 9; 9; 9;
9; 9; 9; 9; 9; 9; 9; 9; 9; 9; 9; 0; 0; 0; 0; 0; 0; 0; 0; 0; 0; 0; 0; 0; 0; 0; 0; 9; 9; 9; 9; 9; 9; 9; 0; 9; 9;
9; 9; 9; 9; 9; 9; 9; 9; 9; 9; 9; 9; 9; 9; 9; 0; 0; 9; 9; 9; 9; 9; 9; 9; 0; 9; 9; 0; 9; 9; 9; 9; 9; 0; 0; 0; 0;
0; 0; 0; 0; 0; 0; 0; 0; 0; 0; 0; 0; 0; 0; 0; 0; 0; 2; 2; 2; 2; 2; 0; 0; 2; 2; 2; 2; 2; 2; 2; 2; 2; 9; 9; 9; 9;
9; 9; 9; 0; 0; 0; 0; 0; 0; 0; 0; 0; 0; 0; 0; 0; 0; 0; 0; 0; 0; 0; 0; 0; 0; 0; 0; 0; 0; 0; 0; 0; 0; 0; 0; 0; 0;
0; 0; 0; 0; 0; 0; 0; 2; 2; 2; 2; 9; 9; 9; 9; 9; 9; 9; 0; 0; 0; 0; 0; 19; 19; 19; 19; 19; 19; 19; 19; 19; 19;
0; 0; 0; 0; 20; 20; 0; 0; 0; 0; 0; 0; 0; 0; 0; 0; 0; 0; 0; 0; 0; 0; 0; 0; 0; 0; 0; 0; 0; 0; 0; 0; 0; 0; 0; 0;
0; 0; 2; 2; 2; 2; 0; 2; 2; 2; 2; 2; 2; 2; 2; 2; 2; 2; 2; 2; 2; 2; 2; 2; 2; 2; 2; 2; 2; 2; 2; 2; 2; 2; 0; 2; 2;
0; 2; 0; 0; 2; 0; 2; 2; 2; 2; 2; 2; 2; 2; 2; 2; 0; 2; 2; 2; 2; 0; 2; 0; 2; 0; 0; 0; 0; 0; 0; 2; 0; 0; 0; 0; 2;
0; 2; 0; 2; 0; 2; 2; 2; 0; 2; 2; 0; 2; 0; 0; 2; 0; 2; 0; 2; 0; 2; 0; 2; 0; 2; 2; 0; 2; 0; 0; 2; 2; 2; 2; 0; 2;
2; 2; 2; 2; 2; 2; 0; 2; 2; 2; 2; 0; 2; 2; 2; 2; 0; 2; 0; 2; 2; 2; 2; 2; 2; 2; 2; 2; 2; 0; 2; 2; 2; 2; 2; 2; 2;
2; 2; 2; 2; 2; 2; 2; 2; 2; 2; 0; 0; 0; 0; 0; 2; 2; 2; 0; 2; 2; 2; 2; 2; 0; 2; 2; 2; 2; 2; 2; 2; 2; 2; 2; 2; 2;
2; 2; 2; 2; 2; 0; 0; 0; 0; 0; 0; 0; 0; 0; 0; 0; 0; 0; 0; 0; 0; 0; 0; 0; 0; 0; 0; 0; 0; 0; 0; 0; 0; 0; 0; 0; 0;
0; 0; 0; 0; 0; 0; 0; 0; 0; 0; 0; 0; 0; 0; 0; 0; 0; 0; 0; 0; 2; 2; 0; 0; 0; 0; 0; 0; 0; 0; 0; 0; 0; 0; 0; 0; 1;
1; 1; 1; 1; 1; 1; 1; 1; 1; 1; 1; 1; 14; 14; 14; 1; 1; 1; 1; 1; 1; 1; 1; 1; 1; 1; 1; 1; 1; 1; 1; 1; 1; 1; 1; 1;
1; 1; 1; 1; 1; 1; 1; 1; 1; 2; 14; 1; 1; 1; 1; 1; 1; 1; 1; 1; 1; 1; 1; 1; 1; 1; 1; 1; 1; 1; 1; 1; 1; 1; 1; 1;
1; 1; 1; 1; 1; 1; 1; 1; 1; 1; 1; 1; 1; 1; 1; 1; 1; 1; 1; 1; 1; 1; 1; 1; 1; 1; 1; 1; 1; 1; 1; 1; 1; 2; 2; 14;
14; 14; 14; 1; 1; 1; 1; 1; 1; 1; 1; 1; 1; 1; 1; 1; 1; 1; 1; 1; 1; 1; 1; 1; 1; 1; 1; 1; 1; 1; 1; 1; 1; 1; 1; 1;
1; 1; 1; 1; 1; 1; 1; 1; 1; 1; 1; 1; 1; 1; 1; 1; 1; 1; 1; 1; 1; 1; 1; 1; 1; 1; 1; 1; 14; 14; 14; 14; 14; 14;
14; 14; 14; 14; 14; 14; 14; 14; 14; 14; 14; 14; 14; 14; 14; 14; 14; 14; 14; 14; 14; 14; 14; 14; 14; 14; 14;
14; 14; 14; 14; 14; 14; 14; 14; 14; 14; 14; 14; 14; 14; 14; 14; 14; 14; 14; 14; 14; 14; 14; 14; 39; 39; 39;
39; 39; 39; 39; 39; 39; 39; 39; 39; 39; 39; 39; 39; 39; 39; 39; 39; 39; 39; 39; 39; 39; 39; 14; 14; 14; 14;
14; 40; 14; 14; 14; 14; 14; 14; 14; 14; 14; 14; 14; 14; 14; 14; 14; 14; 14; 14; 14; 14; 14; 14; 2; 2; 14; 14;
14; 14; 14; 14; 14; 14; 14; 14; 14; 14; 14; 14; 14; 14; 14; 14; 14; 14; 14; 14; 14; 2; 2; 14; 14; 14; 14; 14;
2; 14; 14; 14; 14; 14; 40; 40; 40; 14; 14; 40; 14; 14; 40; 40; 40; 14; 14; 14; 14; 14; 14; 14; 14; 14; 14; 14;
14; 14; 14; 14; 14; 14; 14; 14; 14; 14; 14; 14; 14; 14; 14; 14; 14; 14; 14; 14; 14; 14; 14; 14; 14; 14; 14;
14; 14; 14; 14; 14; 14; 14; 14; 41; 41; 41; 41; 41; 14; 14; 40; 40; 14; 14; 40; 40; 40; 40; 40; 40; 40; 40;
40; 40; 40; 14; 14; 14; 14; 14; 14; 14; 14; 14; 14; 14; 14; 14; 14; 14; 14; 14; 14; 14; 14; 14; 40; 40; 40;
40; 14; 14; 14; 14; 40; 14; 40; 40; 40; 40; 40; 40; 40; 40; 40; 14; 14; 14; 40; 14; 14; 14; 14; 40; 40; 40;
14; 40; 40; 40; 14; 14; 14; 14; 14; 14; 14; 14; 14; 14; 14; 14; 14; 14; 14; 14; 14; 14; 14; 14; 14; 14; 14;
14; 2; 14; 2; 14; 2; 14; 14; 14; 14; 14; 40; 14; 14; 14; 14; 2; 14; 2; 2; 14; 14; 14; 14; 14; 14; 14; 14; 14;
14; 14; 14; 14; 2; 2; 2; 2; 2; 2; 2; 14; 14; 14; 14; 14; 14; 14; 14; 14; 14; 14; 14; 14; 14; 14; 14; 2; 2; 2;
2; 2; 2; 2; 2; 2; 2; 2; 2; 2; 2; 14; 14; 14; 14; 14; 14; 14; 14; 14; 14; 14; 14; 14; 2; 2; 2; 2; 2; 2; 2; 2;
2; 2; 2; 2; 2; 2; 2; 2; 2; 2; 2; 2; 2; 2; 2; 2; 14; 14; 14; 14; 14; 14; 14; 14; 14; 14; 14; 14; 14; 14; 14;
14; 14; 14; 14; 14; 14; 14; 14; 14; 14; 14; 14; 14; 14; 14; 14; 14; 14; 14; 14; 14; 14; 14; 14; 14; 14; 14;
40; 40; 14; 14; 14; 14; 40; 14; 14; 14; 14; 14; 14; 14; 14; 14; 14; 14; 14; 14; 14; 14; 14; 14; 14; 14; 14;
14; 40; 14; 14; 14; 14; 40; 40; 14; 14; 14; 14; 14; 14; 14; 14; 14; 14; 14; 14; 14; 14; 14; 14; 14; 14; 14;
14; 14; 14; 14; 14; 14; 14; 14; 14; 14; 14; 14; 14; 14; 14; 14; 14; 14; 14; 14; 14; 14; 14; 14; 14; 14; 14;
14; 14; 14; 14; 14; 14; 14; 14; 14; 14; 14; 14; 14; 14; 14; 2; 2; 2; 2; 2; 2; 2; 2; 14; 14; 14; 14; 14; 14;
14; 14; 14; 14; 14; 14; 14; 14; 14; 14; 14; 14; 14; 14; 14; 14; 14; 14; 2; 2; 2; 2; 2; 2; 14; 14; 14; 14; 14;
14; 14; 14; 14; 14; 14; 40; 40; 40; 14; 14; 14; 40; 40; 40; 40; 40; 2; 2; 2; 2; 2; 2; 2; 2; 2; 2; 2; 2; 2; 2;
2; 2; 2; 2; 2; 2; 2; 2; 2; 2; 2; 2; 2; 2; 2; 2; 2; 2; 2; 2; 2; 2; 2; 2; 23; 23; 23; 18; 18; 18; 2; 2; 2; 2;
14; 14; 14; 14; 14; 14; 14; 14; 14; 14; 14; 14; 14; 14; 14; 14; 14; 14; 14; 14; 14; 14; 14; 14; 14; 14; 14;
14; 14; 14; 14; 14; 14; 14; 14; 40; 14; 14; 14; 14; 14; 14; 14; 14; 14; 14; 14; 14; 14; 14; 14; 14; 40; 40;
40; 14; 14; 14; 14; 14; 14; 14; 14; 14; 40; 14; 14; 14; 14; 14; 14; 14; 14; 14; 14; 14; 40; 14; 14; 14; 14;
14; 14; 14; 14; 14; 14; 14; 14; 14; 14; 14; 14; 14; 14; 14; 14; 14; 14; 14; 14; 14; 14; 14; 14; 14; 14; 14;
14; 14; 14; 14; 14; 14; 14; 14; 14; 14; 14; 14; 14; 14; 14; 14; 14; 14; 14; 14; 2; 2; 2; 2; 2; 2; 2; 2; 2; 2;
2; 2; 2; 2; 2; 2; 2; 2; 2; 2; 2; 2; 2; 2; 2; 2; 2; 2; 2; 2; 2; 2; 2; 2; 2; 2; 2; 2; 2; 2; 2; 2; 2; 2; 2; 2; 2;
2; 2; 2; 2; 2; 14; 14; 14; 14; 14; 14; 14; 14; 14; 14; 14; 14; 2; 2; 2; 2; 2; 2; 2; 2; 2; 2; 2; 2; 2; 2; 2; 2;
2; 2; 2; 2; 2; 14; 14; 14; 14; 14; 14; 14; 14; 14; 14; 14; 14; 14; 14; 14; 14; 14; 14; 14; 14; 14; 14; 14; 14;
14; 14; 14; 14; 14; 14; 14; 14; 14; 14; 14; 14; 14; 14; 14; 14; 14; 14; 14; 2; 2; 2; 2; 2; 2; 2; 2; 2; 2; 2;
2; 14; 14; 14; 14; 2; 2; 2; 2; 2; 2; 2; 2; 2; 2; 2; 2; 2; 2; 2; 2; 2; 2; 2; 2; 2; 2; 2; 2; 2; 2; 2; 2; 2; 2;
2; 2; 2; 2; 2; 2; 2; 2; 2; 2; 2; 2; 2; 2; 2; 2; 2; 2; 2; 2; 2; 2; 2; 2; 2; 2; 14; 14; 14; 14; 14; 14; 14; 14;
2; 2; 2; 2; 2; 2; 2; 2; 2; 2; 14; 14; 14; 14; 14; 14; 2; 2; 2; 2; 2; 2; 2; 2; 2; 2; 2; 2; 2; 2; 2; 2; 2; 2; 2;
2; 2; 2; 2; 2; 2; 2; 2; 2; 2; 2; 2; 2; 2; 2; 2; 2; 2; 2; 2; 2; 14; 14; 14; 14; 14; 14; 14; 14; 2; 2; 2; 2; 2;
2; 2; 2; 2; 2; 2; 2; 2; 2; 2; 2; 2; 2; 2; 2; 2; 2; 2; 2; 2; 2; 2; 2; 2; 2; 14; 14; 14; 14; 14; 14; 14; 14; 14;
14; 14; 14; 14; 14; 14; 14; 14; 14; 2; 2; 2; 2; 2; 2; 2; 2; 2; 2; 2; 2; 14; 14; 14; 14; 14; 14; 14; 14; 14;
14; 14; 14; 40; 40; 40; 40; 40; 14; 40; 40; 14; 14; 14; 14; 14; 14; 40; 14; 14; 14; 14; 14; 14; 14; 14; 14;
40; 40; 40; 40; 40; 40; 40; 40; 40; 40; 14; 14; 14; 40; 40; 14; 14; 14; 14; 14; 14; 14; 14; 14; 14; 14; 14;
14; 14; 14; 14; 14; 14; 40; 40; 40; 40; 40; 40; 40; 40; 40; 40; 40; 40; 40; 14; 14; 14; 14; 14; 14; 14; 14;
14; 14; 14; 14; 14; 14; 14; 14; 14; 14; 14; 14; 14; 14; 14; 14; 14; 14; 14; 14; 14; 14; 14; 14; 14; 14; 14;
14; 14; 14; 14; 14; 14; 14; 14; 14; 14; 14; 14; 14; 14; 14; 14; 14; 14; 14; 14; 14; 14; 14; 14; 14; 14; 14;
14; 14; 14; 14; 14; 14; 14; 14; 14; 14; 14; 14; 14; 14; 14; 14; 14; 14; 14; 14; 14; 14; 14; 14; 14; 14; 14;
14; 14; 14; 14; 14; 14; 14; 0; 0; 0; 9; 0; 0; 0; 0; 0; 0; 0; 0; 0; 0; 0; 0; 0; 0; 0; 0; 0; 0; 0; 0; 0; 0; 0;
0; 0; 0; 0; 0; 0; 0; 9; 9; 9; 9; 9; 9; 9; 9; 9; 9; 9; 9; 9; 9; 9; 9; 9; 9; 9; 9; 9; 9; 9; 9; 9; 9; 9; 9; 9; 9;
9; 9; 9; 9; 9; 9; 9; 9; 9; 9; 9; 9; 9; 9; 9; 9; 9; 9; 9; 9; 9; 9; 9; 9; 9; 9; 9; 9; 9; 9; 9; 9; 9; 9; 9; 9; 9;
9; 9; 9; 9; 9; 9; 9; 9; 9; 9; 9; 9; 9; 9; 9; 9; 9; 9; 9; 9; 9; 9; 9; 9; 9; 9; 9; 9; 9; 9; 9; 9; 9; 9; 9; 9; 9;
9; 9; 9; 9; 9; 9; 9; 9; 9; 9; 9; 9; 9; 9; 9; 9; 9; 9; 9; 9; 9; 9; 9; 9; 9; 9; 9; 9; 9; 9; 9; 9; 9; 9; 9; 9; 9;
9; 9; 9; 0; 0; 0; 0; 0; 0; 0; 0; 0; 0; 0; 0; 0; 0; 0; 0].

(** tables.rs 1153. *)
Definition N_LINEBREAK_CATEGORIES : N := 43.

(** tables.rs 1156-1513, one row for each state. *)
Definition LINEBREAK_STATE_MACHINE : list N := concat [
(* state 0: XX *)
[0; 1; 2; 131; 4; 133; 6; 135; 8; 0; 10; 11; 12; 13; 142; 15; 16; 17; 18; 19; 20; 21; 22; 23; 24; 25; 46; 27;
28; 29; 30; 159; 160; 161; 162; 163; 36; 37; 38; 167; 168; 169; 0];
(* state 1: AI *)
[0; 1; 2; 131; 4; 133; 6; 135; 8; 1; 10; 11; 12; 13; 142; 15; 16; 17; 18; 19; 20; 21; 22; 23; 24; 25; 47; 27;
28; 29; 30; 159; 160; 161; 162; 163; 36; 37; 38; 167; 168; 169; 1];
(* state 2: AL *)
[0; 1; 2; 131; 4; 133; 6; 135; 8; 2; 10; 11; 12; 13; 142; 15; 16; 17; 18; 19; 20; 21; 22; 23; 24; 25; 48; 27;
28; 29; 30; 159; 160; 161; 162; 163; 36; 37; 38; 167; 168; 169; 2];
(* state 3: B2 *)
[128; 129; 130; 3; 4; 133; 6; 135; 8; 3; 10; 11; 12; 13; 142; 143; 16; 17; 18; 147; 148; 149; 150; 23; 152;
153; 49; 27; 28; 29; 30; 159; 160; 161; 162; 163; 36; 37; 166; 167; 168; 169; 3];
(* state 4: BA *)
[128; 129; 130; 131; 4; 133; 6; 135; 8; 4; 10; 11; 140; 13; 142; 143; 16; 17; 18; 147; 148; 149; 150; 23; 152;
153; 50; 27; 28; 29; 30; 159; 160; 161; 162; 163; 36; 37; 166; 167; 168; 169; 4];
(* state 5: BB *)
[0; 1; 2; 3; 4; 5; 6; 135; 8; 5; 10; 11; 12; 13; 14; 15; 16; 17; 18; 19; 20; 21; 22; 23; 24; 25; 51; 27; 28;
29; 30; 31; 32; 33; 34; 35; 36; 37; 38; 39; 40; 41; 5];
(* state 6: BK *)
[192; 193; 194; 195; 196; 197; 198; 199; 200; 194; 202; 203; 204; 205; 206; 207; 208; 209; 210; 211; 212; 213;
214; 215; 216; 217; 218; 219; 220; 221; 222; 223; 224; 225; 226; 227; 228; 229; 230; 231; 232; 233; 194];
(* state 7: CB *)
[128; 129; 130; 131; 132; 133; 6; 135; 8; 7; 10; 11; 12; 141; 142; 143; 16; 17; 146; 147; 148; 149; 150; 23;
152; 153; 53; 27; 28; 29; 30; 159; 160; 161; 162; 163; 36; 165; 166; 167; 168; 169; 7];
(* state 8: CL *)
[128; 129; 130; 131; 4; 133; 6; 135; 8; 8; 10; 11; 12; 13; 142; 143; 16; 17; 18; 147; 148; 21; 150; 23; 152;
153; 54; 27; 28; 29; 30; 159; 160; 161; 162; 163; 36; 37; 166; 167; 168; 169; 8];
(* state 9: CM *)
[0; 1; 2; 131; 4; 133; 6; 135; 8; 9; 10; 11; 12; 13; 142; 15; 16; 17; 18; 19; 20; 21; 22; 23; 24; 25; 55; 27;
28; 29; 30; 159; 160; 161; 162; 163; 36; 37; 38; 167; 168; 169; 9];
(* state 10: CR *)
[192; 193; 194; 195; 196; 197; 198; 199; 200; 194; 202; 203; 204; 205; 206; 207; 208; 17; 210; 211; 212; 213;
214; 215; 216; 217; 218; 219; 220; 221; 222; 223; 224; 225; 226; 227; 228; 229; 230; 231; 232; 233; 194];
(* state 11: EX *)
[128; 129; 130; 131; 4; 133; 6; 135; 8; 11; 10; 11; 12; 13; 142; 15; 16; 17; 18; 147; 148; 149; 150; 23; 152;
153; 57; 27; 28; 29; 30; 159; 160; 161; 162; 163; 36; 37; 166; 167; 168; 169; 11];
(* state 12: GL *)
[0; 1; 2; 3; 4; 5; 6; 7; 8; 12; 10; 11; 12; 13; 14; 15; 16; 17; 18; 19; 20; 21; 22; 23; 24; 25; 58; 27; 28; 29;
30; 31; 32; 33; 34; 35; 36; 37; 38; 39; 40; 41; 12];
(* state 13: HY *)
[128; 129; 130; 131; 4; 133; 6; 135; 8; 13; 10; 11; 140; 13; 142; 143; 16; 17; 18; 19; 148; 149; 150; 23; 152;
153; 59; 27; 28; 29; 30; 159; 160; 161; 162; 163; 36; 37; 166; 167; 168; 169; 13];
(* state 14: ID *)
[128; 129; 130; 131; 4; 133; 6; 135; 8; 14; 10; 11; 12; 13; 142; 15; 16; 17; 18; 147; 148; 21; 150; 23; 152;
153; 60; 27; 28; 29; 30; 159; 160; 161; 162; 163; 36; 37; 166; 167; 168; 169; 14];
(* state 15: IN *)
[128; 129; 130; 131; 4; 133; 6; 135; 8; 15; 10; 11; 12; 13; 142; 15; 16; 17; 18; 147; 148; 149; 150; 23; 152;
153; 61; 27; 28; 29; 30; 159; 160; 161; 162; 163; 36; 37; 166; 167; 168; 169; 15];
(* state 16: IS *)
[0; 1; 2; 131; 4; 133; 6; 135; 8; 16; 10; 11; 12; 13; 142; 143; 16; 17; 18; 19; 148; 149; 150; 23; 24; 25; 62;
27; 28; 29; 30; 159; 160; 161; 162; 163; 36; 37; 38; 167; 168; 169; 16];
(* state 17: LF *)
[192; 193; 194; 195; 196; 197; 198; 199; 200; 194; 202; 203; 204; 205; 206; 207; 208; 209; 210; 211; 212; 213;
214; 215; 216; 217; 218; 219; 220; 221; 222; 223; 224; 225; 226; 227; 228; 229; 230; 231; 232; 233; 194];
(* state 18: NS *)
[128; 129; 130; 131; 4; 133; 6; 135; 8; 18; 10; 11; 12; 13; 142; 143; 16; 17; 18; 147; 148; 149; 150; 23; 152;
153; 64; 27; 28; 29; 30; 159; 160; 161; 162; 163; 36; 37; 166; 167; 168; 169; 18];
(* state 19: NU *)
[0; 1; 2; 131; 4; 133; 6; 135; 8; 19; 10; 11; 12; 13; 142; 15; 16; 17; 18; 19; 20; 21; 22; 23; 24; 25; 65; 27;
28; 29; 30; 159; 160; 161; 162; 163; 36; 37; 38; 167; 168; 169; 19];
(* state 20: OP *)
[0; 1; 2; 3; 4; 5; 6; 7; 8; 20; 10; 11; 12; 13; 14; 15; 16; 17; 18; 19; 20; 21; 22; 23; 24; 25; 66; 27; 28; 29;
30; 31; 32; 33; 34; 35; 36; 37; 38; 39; 40; 41; 20];
(* state 21: PO *)
[0; 1; 2; 131; 4; 133; 6; 135; 8; 21; 10; 11; 12; 13; 142; 143; 16; 17; 18; 19; 20; 149; 150; 23; 24; 25; 67;
27; 28; 29; 30; 159; 160; 161; 162; 163; 36; 37; 38; 167; 168; 169; 21];
(* state 22: PR *)
[0; 1; 2; 131; 4; 133; 6; 135; 8; 22; 10; 11; 12; 13; 14; 143; 16; 17; 18; 19; 20; 149; 150; 23; 24; 25; 68;
27; 28; 29; 30; 31; 32; 33; 34; 35; 36; 37; 38; 167; 40; 41; 22];
(* state 23: QU *)
[0; 1; 2; 3; 4; 5; 6; 7; 8; 23; 10; 11; 12; 13; 14; 15; 16; 17; 18; 19; 20; 21; 22; 23; 24; 25; 69; 27; 28; 29;
30; 31; 32; 33; 34; 35; 36; 37; 38; 39; 40; 41; 23];
(* state 24: SA *)
[0; 1; 2; 131; 4; 133; 6; 135; 8; 24; 10; 11; 12; 13; 142; 15; 16; 17; 18; 19; 20; 21; 22; 23; 24; 25; 70; 27;
28; 29; 30; 159; 160; 161; 162; 163; 36; 37; 38; 167; 168; 169; 24];
(* state 25: SG *)
[0; 1; 2; 131; 4; 133; 6; 135; 8; 25; 10; 11; 12; 13; 142; 15; 16; 17; 18; 19; 20; 21; 22; 23; 24; 25; 71; 27;
28; 29; 30; 159; 160; 161; 162; 163; 36; 37; 38; 167; 168; 169; 25];
(* state 26: SP *)
[128; 129; 130; 131; 132; 133; 6; 135; 8; 130; 10; 11; 140; 141; 142; 143; 16; 17; 146; 147; 148; 149; 150;
151; 152; 153; 72; 27; 28; 29; 30; 159; 160; 161; 162; 163; 36; 165; 166; 167; 168; 169; 130];
(* state 27: SY *)
[128; 129; 130; 131; 4; 133; 6; 135; 8; 27; 10; 11; 12; 13; 142; 143; 16; 17; 18; 19; 148; 149; 150; 23; 152;
153; 73; 27; 28; 29; 30; 159; 160; 161; 162; 163; 36; 37; 38; 167; 168; 169; 27];
(* state 28: ZW *)
[128; 129; 130; 131; 132; 133; 6; 135; 136; 130; 10; 139; 140; 141; 142; 143; 144; 17; 146; 147; 148; 149; 150;
151; 152; 153; 74; 155; 28; 29; 158; 159; 160; 161; 162; 163; 164; 165; 166; 167; 168; 169; 130];
(* state 29: NL *)
[192; 193; 194; 195; 196; 197; 198; 199; 200; 194; 202; 203; 204; 205; 206; 207; 208; 209; 210; 211; 212; 213;
214; 215; 216; 217; 218; 219; 220; 221; 222; 223; 224; 225; 226; 227; 228; 229; 230; 231; 232; 233; 194];
(* state 30: WJ *)
[0; 1; 2; 3; 4; 5; 6; 7; 8; 30; 10; 11; 12; 13; 14; 15; 16; 17; 18; 19; 20; 21; 22; 23; 24; 25; 76; 27; 28; 29;
30; 31; 32; 33; 34; 35; 36; 37; 38; 39; 40; 41; 30];
(* state 31: H2 *)
[128; 129; 130; 131; 4; 133; 6; 135; 8; 31; 10; 11; 12; 13; 142; 15; 16; 17; 18; 147; 148; 21; 150; 23; 152;
153; 77; 27; 28; 29; 30; 159; 160; 161; 34; 35; 36; 37; 166; 167; 168; 169; 31];
(* state 32: H3 *)
[128; 129; 130; 131; 4; 133; 6; 135; 8; 32; 10; 11; 12; 13; 142; 15; 16; 17; 18; 147; 148; 21; 150; 23; 152;
153; 78; 27; 28; 29; 30; 159; 160; 161; 34; 163; 36; 37; 166; 167; 168; 169; 32];
(* state 33: JL *)
[128; 129; 130; 131; 4; 133; 6; 135; 8; 33; 10; 11; 12; 13; 142; 15; 16; 17; 18; 147; 148; 21; 150; 23; 152;
153; 79; 27; 28; 29; 30; 31; 32; 33; 162; 35; 36; 37; 166; 167; 168; 169; 33];
(* state 34: JT *)
[128; 129; 130; 131; 4; 133; 6; 135; 8; 34; 10; 11; 12; 13; 142; 15; 16; 17; 18; 147; 148; 21; 150; 23; 152;
153; 80; 27; 28; 29; 30; 159; 160; 161; 34; 163; 36; 37; 166; 167; 168; 169; 34];
(* state 35: JV *)
[128; 129; 130; 131; 4; 133; 6; 135; 8; 35; 10; 11; 12; 13; 142; 15; 16; 17; 18; 147; 148; 21; 150; 23; 152;
153; 81; 27; 28; 29; 30; 159; 160; 161; 34; 35; 36; 37; 166; 167; 168; 169; 35];
(* state 36: CP *)
[0; 1; 2; 131; 4; 133; 6; 135; 8; 36; 10; 11; 12; 13; 142; 143; 16; 17; 18; 19; 148; 21; 22; 23; 24; 25; 82;
27; 28; 29; 30; 159; 160; 161; 162; 163; 36; 37; 38; 167; 168; 169; 36];
(* state 37: CJ *)
[128; 129; 130; 131; 4; 133; 6; 135; 8; 37; 10; 11; 12; 13; 142; 143; 16; 17; 18; 147; 148; 149; 150; 23; 152;
153; 83; 27; 28; 29; 30; 159; 160; 161; 162; 163; 36; 37; 166; 167; 168; 169; 37];
(* state 38: HL *)
[0; 1; 2; 131; 44; 133; 6; 135; 8; 38; 10; 11; 12; 43; 142; 15; 16; 17; 18; 19; 20; 21; 22; 23; 24; 25; 84; 27;
28; 29; 30; 159; 160; 161; 162; 163; 36; 37; 38; 167; 168; 169; 38];
(* state 39: RI *)
[128; 129; 130; 131; 4; 133; 6; 135; 8; 39; 10; 11; 12; 13; 142; 143; 16; 17; 18; 147; 148; 149; 150; 23; 152;
153; 85; 27; 28; 29; 30; 159; 160; 161; 162; 163; 36; 37; 166; 45; 168; 169; 39];
(* state 40: EB *)
[128; 129; 130; 131; 4; 133; 6; 135; 8; 40; 10; 11; 12; 13; 142; 15; 16; 17; 18; 147; 148; 21; 150; 23; 152;
153; 86; 27; 28; 29; 30; 159; 160; 161; 162; 163; 36; 37; 166; 167; 168; 41; 40];
(* state 41: EM *)
[128; 129; 130; 131; 4; 133; 6; 135; 8; 41; 10; 11; 12; 13; 142; 15; 16; 17; 18; 147; 148; 21; 150; 23; 152;
153; 87; 27; 28; 29; 30; 159; 160; 161; 162; 163; 36; 37; 166; 167; 168; 169; 41];
(* state 42: ZWJ *)
[0; 1; 2; 131; 4; 133; 6; 135; 8; 2; 10; 11; 12; 13; 14; 15; 16; 17; 18; 19; 20; 21; 22; 23; 24; 25; 88; 27;
28; 29; 30; 159; 160; 161; 162; 163; 36; 37; 38; 167; 40; 41; 2];
(* state 43: HL+HY *)
[0; 1; 2; 3; 4; 5; 6; 135; 8; 43; 10; 11; 12; 13; 14; 15; 16; 17; 18; 19; 20; 21; 22; 23; 24; 25; 43; 27; 28;
29; 30; 31; 32; 33; 34; 35; 36; 37; 38; 39; 40; 41; 43];
(* state 44: HL+BA *)
[0; 1; 2; 3; 4; 5; 6; 135; 8; 44; 10; 11; 12; 13; 14; 15; 16; 17; 18; 19; 20; 21; 22; 23; 24; 25; 44; 27; 28;
29; 30; 31; 32; 33; 34; 35; 36; 37; 38; 39; 40; 41; 44];
(* state 45: RI+RI *)
[128; 129; 130; 131; 4; 133; 6; 135; 8; 45; 10; 11; 140; 13; 142; 143; 16; 17; 18; 147; 148; 149; 150; 23; 152;
153; 45; 27; 28; 29; 30; 159; 160; 161; 162; 163; 36; 37; 166; 167; 168; 169; 45];
(* state 46: SP+ XX *)
[128; 129; 130; 131; 132; 133; 6; 135; 8; 137; 10; 11; 140; 141; 142; 143; 16; 17; 146; 147; 148; 149; 150;
151; 152; 153; 26; 27; 28; 29; 30; 159; 160; 161; 162; 163; 36; 165; 166; 167; 168; 169; 170];
(* state 47: SP+ AI *)
[128; 129; 130; 131; 132; 133; 6; 135; 8; 137; 10; 11; 140; 141; 142; 143; 16; 17; 146; 147; 148; 149; 150;
151; 152; 153; 26; 27; 28; 29; 30; 159; 160; 161; 162; 163; 36; 165; 166; 167; 168; 169; 170];
(* state 48: SP+ AL *)
[128; 129; 130; 131; 132; 133; 6; 135; 8; 137; 10; 11; 140; 141; 142; 143; 16; 17; 146; 147; 148; 149; 150;
151; 152; 153; 26; 27; 28; 29; 30; 159; 160; 161; 162; 163; 36; 165; 166; 167; 168; 169; 170];
(* state 49: SP+ B2 *)
[128; 129; 130; 3; 132; 133; 6; 135; 8; 137; 10; 11; 140; 141; 142; 143; 16; 17; 146; 147; 148; 149; 150; 151;
152; 153; 26; 27; 28; 29; 30; 159; 160; 161; 162; 163; 36; 165; 166; 167; 168; 169; 170];
(* state 50: SP+ BA *)
[128; 129; 130; 131; 132; 133; 6; 135; 8; 137; 10; 11; 140; 141; 142; 143; 16; 17; 146; 147; 148; 149; 150;
151; 152; 153; 26; 27; 28; 29; 30; 159; 160; 161; 162; 163; 36; 165; 166; 167; 168; 169; 170];
(* state 51: SP+ BB *)
[128; 129; 130; 131; 132; 133; 6; 135; 8; 137; 10; 11; 140; 141; 142; 143; 16; 17; 146; 147; 148; 149; 150;
151; 152; 153; 26; 27; 28; 29; 30; 159; 160; 161; 162; 163; 36; 165; 166; 167; 168; 169; 170];
(* state 52: SP+ BK *)
[128; 129; 130; 131; 132; 133; 6; 135; 8; 130; 10; 11; 140; 141; 142; 143; 16; 17; 146; 147; 148; 149; 150;
151; 152; 153; 26; 27; 28; 29; 30; 159; 160; 161; 162; 163; 36; 165; 166; 167; 168; 169; 130];
(* state 53: SP+ CB *)
[128; 129; 130; 131; 132; 133; 6; 135; 8; 137; 10; 11; 140; 141; 142; 143; 16; 17; 146; 147; 148; 149; 150;
151; 152; 153; 26; 27; 28; 29; 30; 159; 160; 161; 162; 163; 36; 165; 166; 167; 168; 169; 170];
(* state 54: SP+ CL *)
[128; 129; 130; 131; 132; 133; 6; 135; 8; 137; 10; 11; 140; 141; 142; 143; 16; 17; 18; 147; 148; 149; 150; 151;
152; 153; 26; 27; 28; 29; 30; 159; 160; 161; 162; 163; 36; 37; 166; 167; 168; 169; 170];
(* state 55: SP+ CM *)
[128; 129; 130; 131; 132; 133; 6; 135; 8; 137; 10; 11; 140; 141; 142; 143; 16; 17; 146; 147; 148; 149; 150;
151; 152; 153; 26; 27; 28; 29; 30; 159; 160; 161; 162; 163; 36; 165; 166; 167; 168; 169; 170];
(* state 56: SP+ CR *)
[128; 129; 130; 131; 132; 133; 6; 135; 8; 130; 10; 11; 140; 141; 142; 143; 16; 17; 146; 147; 148; 149; 150;
151; 152; 153; 26; 27; 28; 29; 30; 159; 160; 161; 162; 163; 36; 165; 166; 167; 168; 169; 130];
(* state 57: SP+ EX *)
[128; 129; 130; 131; 132; 133; 6; 135; 8; 137; 10; 11; 140; 141; 142; 143; 16; 17; 146; 147; 148; 149; 150;
151; 152; 153; 26; 27; 28; 29; 30; 159; 160; 161; 162; 163; 36; 165; 166; 167; 168; 169; 170];
(* state 58: SP+ GL *)
[128; 129; 130; 131; 132; 133; 6; 135; 8; 137; 10; 11; 140; 141; 142; 143; 16; 17; 146; 147; 148; 149; 150;
151; 152; 153; 26; 27; 28; 29; 30; 159; 160; 161; 162; 163; 36; 165; 166; 167; 168; 169; 170];
(* state 59: SP+ HY *)
[128; 129; 130; 131; 132; 133; 6; 135; 8; 137; 10; 11; 140; 141; 142; 143; 16; 17; 146; 147; 148; 149; 150;
151; 152; 153; 26; 27; 28; 29; 30; 159; 160; 161; 162; 163; 36; 165; 166; 167; 168; 169; 170];
(* state 60: SP+ ID *)
[128; 129; 130; 131; 132; 133; 6; 135; 8; 137; 10; 11; 140; 141; 142; 143; 16; 17; 146; 147; 148; 149; 150;
151; 152; 153; 26; 27; 28; 29; 30; 159; 160; 161; 162; 163; 36; 165; 166; 167; 168; 169; 170];
(* state 61: SP+ IN *)
[128; 129; 130; 131; 132; 133; 6; 135; 8; 137; 10; 11; 140; 141; 142; 143; 16; 17; 146; 147; 148; 149; 150;
151; 152; 153; 26; 27; 28; 29; 30; 159; 160; 161; 162; 163; 36; 165; 166; 167; 168; 169; 170];
(* state 62: SP+ IS *)
[128; 129; 130; 131; 132; 133; 6; 135; 8; 137; 10; 11; 140; 141; 142; 143; 16; 17; 146; 147; 148; 149; 150;
151; 152; 153; 26; 27; 28; 29; 30; 159; 160; 161; 162; 163; 36; 165; 166; 167; 168; 169; 170];
(* state 63: SP+ LF *)
[128; 129; 130; 131; 132; 133; 6; 135; 8; 130; 10; 11; 140; 141; 142; 143; 16; 17; 146; 147; 148; 149; 150;
151; 152; 153; 26; 27; 28; 29; 30; 159; 160; 161; 162; 163; 36; 165; 166; 167; 168; 169; 130];
(* state 64: SP+ NS *)
[128; 129; 130; 131; 132; 133; 6; 135; 8; 137; 10; 11; 140; 141; 142; 143; 16; 17; 146; 147; 148; 149; 150;
151; 152; 153; 26; 27; 28; 29; 30; 159; 160; 161; 162; 163; 36; 165; 166; 167; 168; 169; 170];
(* state 65: SP+ NU *)
[128; 129; 130; 131; 132; 133; 6; 135; 8; 137; 10; 11; 140; 141; 142; 143; 16; 17; 146; 147; 148; 149; 150;
151; 152; 153; 26; 27; 28; 29; 30; 159; 160; 161; 162; 163; 36; 165; 166; 167; 168; 169; 170];
(* state 66: SP+ OP *)
[0; 1; 2; 3; 4; 5; 6; 7; 8; 9; 10; 11; 12; 13; 14; 15; 16; 17; 18; 19; 20; 21; 22; 23; 24; 25; 26; 27; 28; 29;
30; 31; 32; 33; 34; 35; 36; 37; 38; 39; 40; 41; 42];
(* state 67: SP+ PO *)
[128; 129; 130; 131; 132; 133; 6; 135; 8; 137; 10; 11; 140; 141; 142; 143; 16; 17; 146; 147; 148; 149; 150;
151; 152; 153; 26; 27; 28; 29; 30; 159; 160; 161; 162; 163; 36; 165; 166; 167; 168; 169; 170];
(* state 68: SP+ PR *)
[128; 129; 130; 131; 132; 133; 6; 135; 8; 137; 10; 11; 140; 141; 142; 143; 16; 17; 146; 147; 148; 149; 150;
151; 152; 153; 26; 27; 28; 29; 30; 159; 160; 161; 162; 163; 36; 165; 166; 167; 168; 169; 170];
(* state 69: SP+ QU *)
[128; 129; 130; 131; 132; 133; 6; 135; 8; 137; 10; 11; 140; 141; 142; 143; 16; 17; 146; 147; 20; 149; 150; 151;
152; 153; 26; 27; 28; 29; 30; 159; 160; 161; 162; 163; 36; 165; 166; 167; 168; 169; 170];
(* state 70: SP+ SA *)
[128; 129; 130; 131; 132; 133; 6; 135; 8; 137; 10; 11; 140; 141; 142; 143; 16; 17; 146; 147; 148; 149; 150;
151; 152; 153; 26; 27; 28; 29; 30; 159; 160; 161; 162; 163; 36; 165; 166; 167; 168; 169; 170];
(* state 71: SP+ SG *)
[128; 129; 130; 131; 132; 133; 6; 135; 8; 137; 10; 11; 140; 141; 142; 143; 16; 17; 146; 147; 148; 149; 150;
151; 152; 153; 26; 27; 28; 29; 30; 159; 160; 161; 162; 163; 36; 165; 166; 167; 168; 169; 170];
(* state 72: SP+ SP *)
[128; 129; 130; 131; 132; 133; 6; 135; 8; 130; 10; 11; 140; 141; 142; 143; 16; 17; 146; 147; 148; 149; 150;
151; 152; 153; 26; 27; 28; 29; 30; 159; 160; 161; 162; 163; 36; 165; 166; 167; 168; 169; 130];
(* state 73: SP+ SY *)
[128; 129; 130; 131; 132; 133; 6; 135; 8; 137; 10; 11; 140; 141; 142; 143; 16; 17; 146; 147; 148; 149; 150;
151; 152; 153; 26; 27; 28; 29; 30; 159; 160; 161; 162; 163; 36; 165; 166; 167; 168; 169; 170];
(* state 74: SP+ ZW *)
[128; 129; 130; 131; 132; 133; 6; 135; 136; 130; 10; 139; 140; 141; 142; 143; 144; 17; 146; 147; 148; 149; 150;
151; 152; 153; 26; 155; 28; 29; 158; 159; 160; 161; 162; 163; 164; 165; 166; 167; 168; 169; 130];
(* state 75: SP+ NL *)
[128; 129; 130; 131; 132; 133; 6; 135; 8; 130; 10; 11; 140; 141; 142; 143; 16; 17; 146; 147; 148; 149; 150;
151; 152; 153; 26; 27; 28; 29; 30; 159; 160; 161; 162; 163; 36; 165; 166; 167; 168; 169; 130];
(* state 76: SP+ WJ *)
[128; 129; 130; 131; 132; 133; 6; 135; 8; 137; 10; 11; 140; 141; 142; 143; 16; 17; 146; 147; 148; 149; 150;
151; 152; 153; 26; 27; 28; 29; 30; 159; 160; 161; 162; 163; 36; 165; 166; 167; 168; 169; 170];
(* state 77: SP+ H2 *)
[128; 129; 130; 131; 132; 133; 6; 135; 8; 137; 10; 11; 140; 141; 142; 143; 16; 17; 146; 147; 148; 149; 150;
151; 152; 153; 26; 27; 28; 29; 30; 159; 160; 161; 162; 163; 36; 165; 166; 167; 168; 169; 170];
(* state 78: SP+ H3 *)
[128; 129; 130; 131; 132; 133; 6; 135; 8; 137; 10; 11; 140; 141; 142; 143; 16; 17; 146; 147; 148; 149; 150;
151; 152; 153; 26; 27; 28; 29; 30; 159; 160; 161; 162; 163; 36; 165; 166; 167; 168; 169; 170];
(* state 79: SP+ JL *)
[128; 129; 130; 131; 132; 133; 6; 135; 8; 137; 10; 11; 140; 141; 142; 143; 16; 17; 146; 147; 148; 149; 150;
151; 152; 153; 26; 27; 28; 29; 30; 159; 160; 161; 162; 163; 36; 165; 166; 167; 168; 169; 170];
(* state 80: SP+ JT *)
[128; 129; 130; 131; 132; 133; 6; 135; 8; 137; 10; 11; 140; 141; 142; 143; 16; 17; 146; 147; 148; 149; 150;
151; 152; 153; 26; 27; 28; 29; 30; 159; 160; 161; 162; 163; 36; 165; 166; 167; 168; 169; 170];
(* state 81: SP+ JV *)
[128; 129; 130; 131; 132; 133; 6; 135; 8; 137; 10; 11; 140; 141; 142; 143; 16; 17; 146; 147; 148; 149; 150;
151; 152; 153; 26; 27; 28; 29; 30; 159; 160; 161; 162; 163; 36; 165; 166; 167; 168; 169; 170];
(* state 82: SP+ CP *)
[128; 129; 130; 131; 132; 133; 6; 135; 8; 137; 10; 11; 140; 141; 142; 143; 16; 17; 18; 147; 148; 149; 150; 151;
152; 153; 26; 27; 28; 29; 30; 159; 160; 161; 162; 163; 36; 37; 166; 167; 168; 169; 170];
(* state 83: SP+ CJ *)
[128; 129; 130; 131; 132; 133; 6; 135; 8; 137; 10; 11; 140; 141; 142; 143; 16; 17; 146; 147; 148; 149; 150;
151; 152; 153; 26; 27; 28; 29; 30; 159; 160; 161; 162; 163; 36; 165; 166; 167; 168; 169; 170];
(* state 84: SP+ HL *)
[128; 129; 130; 131; 132; 133; 6; 135; 8; 137; 10; 11; 140; 141; 142; 143; 16; 17; 146; 147; 148; 149; 150;
151; 152; 153; 26; 27; 28; 29; 30; 159; 160; 161; 162; 163; 36; 165; 166; 167; 168; 169; 170];
(* state 85: SP+ RI *)
[128; 129; 130; 131; 132; 133; 6; 135; 8; 137; 10; 11; 140; 141; 142; 143; 16; 17; 146; 147; 148; 149; 150;
151; 152; 153; 26; 27; 28; 29; 30; 159; 160; 161; 162; 163; 36; 165; 166; 167; 168; 169; 170];
(* state 86: SP+ EB *)
[128; 129; 130; 131; 132; 133; 6; 135; 8; 137; 10; 11; 140; 141; 142; 143; 16; 17; 146; 147; 148; 149; 150;
151; 152; 153; 26; 27; 28; 29; 30; 159; 160; 161; 162; 163; 36; 165; 166; 167; 168; 169; 170];
(* state 87: SP+ EM *)
[128; 129; 130; 131; 132; 133; 6; 135; 8; 137; 10; 11; 140; 141; 142; 143; 16; 17; 146; 147; 148; 149; 150;
151; 152; 153; 26; 27; 28; 29; 30; 159; 160; 161; 162; 163; 36; 165; 166; 167; 168; 169; 170];
(* state 88: SP+ ZWJ *)
[128; 129; 130; 131; 132; 133; 6; 135; 8; 137; 10; 11; 140; 141; 142; 143; 16; 17; 146; 147; 148; 149; 150;
151; 152; 153; 26; 27; 28; 29; 30; 159; 160; 161; 162; 163; 36; 165; 166; 167; 168; 169; 170]].
