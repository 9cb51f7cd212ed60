(** Model of the EBCDIC translation: parser_library/src/ebcdic_encoding.{h,cpp}.

    Text is a byte string held by a [std::string], so the byte behind its last one is the
    terminating NUL; the byte after that does not belong to the string.  The code walks a
    [const char*] over it, and [to_pseudoascii] itself moves that pointer.  A walk that steps
    over the terminating NUL leaves the string: the outcome [None] (undefined behaviour). *)
From Coq Require Import List NArith Bool.
From Verif Require Import Common.
Import ListNotations.
Open Scope N_scope.

(** ebcdic_encoding.h:28-45 *)
Definition a2e_table : list N :=
  [0; 1; 2; 3; 55; 45; 46; 47; 22; 5; 37; 11; 12; 13; 14; 15;
   16; 17; 18; 19; 60; 61; 50; 38; 24; 25; 63; 39; 28; 29; 30; 31;
   64; 79; 127; 123; 91; 108; 80; 125; 77; 93; 92; 78; 107; 96; 75; 97;
   240; 241; 242; 243; 244; 245; 246; 247; 248; 249; 122; 94; 76; 126; 110; 111;
   124; 193; 194; 195; 196; 197; 198; 199; 200; 201; 209; 210; 211; 212; 213; 214;
   215; 216; 217; 226; 227; 228; 229; 230; 231; 232; 233; 74; 224; 90; 95; 109;
   121; 129; 130; 131; 132; 133; 134; 135; 136; 137; 145; 146; 147; 148; 149; 150;
   151; 152; 153; 162; 163; 164; 165; 166; 167; 168; 169; 192; 106; 208; 161; 7;
   32; 33; 34; 35; 36; 21; 6; 23; 40; 41; 42; 43; 44; 9; 10; 27;
   48; 49; 26; 51; 52; 53; 54; 8; 56; 57; 58; 59; 4; 20; 62; 225;
   65; 66; 67; 68; 69; 70; 71; 72; 73; 81; 82; 83; 84; 85; 86; 87;
   88; 89; 98; 99; 100; 101; 102; 103; 104; 105; 112; 113; 114; 115; 116; 117;
   118; 119; 120; 128; 138; 139; 140; 141; 142; 143; 144; 154; 155; 156; 157; 158;
   159; 160; 170; 171; 172; 173; 174; 175; 176; 177; 178; 179; 180; 181; 182; 183;
   184; 185; 186; 187; 188; 189; 190; 191; 202; 203; 204; 205; 206; 207; 218; 219;
   220; 221; 222; 223; 234; 235; 236; 237; 238; 239; 250; 251; 252; 253; 254; 255].

(** ebcdic_encoding.h:47-64 *)
Definition e2a_table : list N :=
  [0; 1; 2; 3; 156; 9; 134; 127; 151; 141; 142; 11; 12; 13; 14; 15;
   16; 17; 18; 19; 157; 133; 8; 135; 24; 25; 146; 143; 28; 29; 30; 31;
   128; 129; 130; 131; 132; 10; 23; 27; 136; 137; 138; 139; 140; 5; 6; 7;
   144; 145; 22; 147; 148; 149; 150; 4; 152; 153; 154; 155; 20; 21; 158; 26;
   32; 160; 161; 162; 163; 164; 165; 166; 167; 168; 91; 46; 60; 40; 43; 33;
   38; 169; 170; 171; 172; 173; 174; 175; 176; 177; 93; 36; 42; 41; 59; 94;
   45; 47; 178; 179; 180; 181; 182; 183; 184; 185; 124; 44; 37; 95; 62; 63;
   186; 187; 188; 189; 190; 191; 192; 193; 194; 96; 58; 35; 64; 39; 61; 34;
   195; 97; 98; 99; 100; 101; 102; 103; 104; 105; 196; 197; 198; 199; 200; 201;
   202; 106; 107; 108; 109; 110; 111; 112; 113; 114; 203; 204; 205; 206; 207; 208;
   209; 126; 115; 116; 117; 118; 119; 120; 121; 122; 210; 211; 212; 213; 214; 215;
   216; 217; 218; 219; 220; 221; 222; 223; 224; 225; 226; 227; 228; 229; 230; 231;
   123; 65; 66; 67; 68; 69; 70; 71; 72; 73; 232; 233; 234; 235; 236; 237;
   125; 74; 75; 76; 77; 78; 79; 80; 81; 82; 238; 239; 240; 241; 242; 243;
   92; 159; 83; 84; 85; 86; 87; 88; 89; 90; 244; 245; 246; 247; 248; 249;
   48; 49; 50; 51; 52; 53; 54; 55; 56; 57; 250; 251; 252; 253; 254; 255].

Definition a2e (c : N) : N := nth (N.to_nat c) a2e_table 0.
Definition e2a (c : N) : N := nth (N.to_nat c) e2a_table 0.

(** ebcdic_encoding.h:26 *)
Definition SUB : N := 26.

(** [*(c + i)] for a pointer at the head of [s]; 0 at the terminating NUL. *)
Definition peek (s : bytes) (i : nat) : N := nth i s 0.

(** ebcdic_encoding.cpp:17-61 [to_pseudoascii]: the character and by how many bytes the
    pointer is moved.  Every byte it looks at lies in the string or is its terminating NUL
    (it looks at the third byte only when the second is not NUL). *)
Definition to_pseudoascii (s : bytes) : N * nat :=
  let x := peek s 0 in
  if x <? 128 then (x, 0%nat)                                        (* 19-22 *)
  else if peek s 1 =? 0 then (SUB, 0%nat)                            (* 23-26 *)
  else if N.land x 224 =? 192 then                                   (* 29 *)
    if negb (N.land x 28 =? 0) then (SUB, 1%nat)                     (* 31-35 *)
    else (N.lor (N.shiftl (N.land x 3) 6) (N.land (peek s 1) 63), 1%nat)
  else if N.land x 240 =? 224 then (SUB, 2%nat)                      (* 43-48: byte 1 is not NUL *)
  else if N.land x 248 =? 240 then                                   (* 49-55 *)
    (SUB, if peek s 2 =? 0 then 2%nat else 3%nat)
  else (SUB, 0%nat).                                                 (* 56-59 *)

(** The three ways the code loops over the characters of a string:
    - [until_nul]: [for (i = s.c_str(); *i != 0; ++i)] (ebcdic_encoding.cpp:88),
    - [until_end]: [for (c = begin; c != end; ++c)] (ca_function.cpp:496, 522),
    - [below_end]: [for (c = begin; c < end; ++c)] (ca_function.cpp:229). *)
Inductive walk := until_nul | until_end | below_end.

(** The pseudo-ASCII characters met by such a loop; [k] bytes are still to be skipped.
    When the string is over and bytes are still to be skipped the pointer is behind the
    terminating NUL: [below_end] stops there, the other two read on. *)
Fixpoint decode (w : walk) (k : nat) (s : bytes) : option bytes :=
  match s, k with
  | [], O => Some []
  | [], S _ => match w with below_end => Some [] | _ => None end
  | _ :: s', S k' => decode w k' s'
  | x :: s', O =>
      match w with
      | until_nul => if x =? 0 then Some []
                     else option_map (cons (fst (to_pseudoascii s)))
                            (decode w (snd (to_pseudoascii s)) s')
      | _ => option_map (cons (fst (to_pseudoascii s)))
               (decode w (snd (to_pseudoascii s)) s')
      end
  end.

(** ebcdic_encoding.cpp:84-91 [to_ebcdic(const std::string&)]. *)
Definition to_ebcdic (s : bytes) : option bytes :=
  option_map (map a2e) (decode until_nul 0 s).

(** ebcdic_encoding.cpp:66-73 [to_ascii(unsigned char)]. *)
Definition to_ascii (c : N) : bytes :=
  let v := e2a c in
  if v <? 128 then [v] else [N.lor (N.shiftr v 6) 192; N.lor (N.land v 63) 128].

(** ebcdic_encoding.cpp:75-82 [to_ascii(const std::string&)]: one byte each, not UTF-8. *)
Definition to_ascii_str (s : bytes) : bytes := map e2a s.
