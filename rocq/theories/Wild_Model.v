(** Program name patterns: parser_library/src/workspaces/wildcard.cpp.

    A pattern is turned into the text of an ECMAScript regular expression by successive
    textual replacements; that text is then compiled and matched by [std::regex].  Both halves
    are modelled: the replacements exactly, and the compiler and matcher on the fragment of
    the regex grammar that can be produced. *)
From Coq Require Import List NArith Arith Bool.
From Verif Require Import Common.
Import ListNotations.
Local Open Scope N_scope.

(** wildcard.cpp:22: ( [ { \ ^ - = $ ! | ] } ) . *)
Definition is_escaped (c : N) : bool :=
  existsb (N.eqb c) [40; 91; 123; 92; 94; 45; 61; 36; 33; 124; 93; 125; 41; 46].

(** [std::regex_replace] with a pattern that matches single characters is a map over the
    characters. *)
Definition replace_chars (f : N -> bytes) (s : bytes) : bytes := flat_map f s.

(** wildcard.cpp:31-35 (Windows only), 36, 37, 38. *)
Definition rep_slash (c : N) : bytes := if c =? 47 then [92] else [c].
Definition rep_escape (c : N) : bytes := if is_escaped c then [92; c] else [c].
Definition rep_question (c : N) : bytes := if c =? 63 then [46] else [c].
Definition rep_nongreedy (c : N) : bytes := if (c =? 42) || (c =? 43) then [46; c; 63] else [c].

(** wildcard.cpp:28-39 [wildcard2regex], up to the construction of the regex object. *)
Definition wildcard2regex (windows : bool) (w : bytes) : bytes :=
  let s := if windows then replace_chars rep_slash w else w in
  let s := replace_chars rep_escape s in
  let s := replace_chars rep_question s in
  replace_chars rep_nongreedy s.

(** The regex tokens: a literal character, one arbitrary character, and the two lazily
    repeated arbitrary characters. *)
Inductive retok := RLit (c : N) | RAny | RStar | RPlus.

(** Characters with a meaning in the ECMAScript grammar; unescaped they are not literals. *)
Definition is_special (c : N) : bool :=
  existsb (N.eqb c) [94; 36; 92; 46; 42; 43; 63; 40; 41; 91; 93; 123; 125; 124].

(** Letters and digits after a backslash are not identity escapes. *)
Definition is_word (c : N) : bool :=
  ((48 <=? c) && (c <=? 57)) || ((65 <=? c) && (c <=? 90)) || ((97 <=? c) && (c <=? 122)).

(** The regex compiler on the fragment; [None] = outside the fragment (would be a different
    construct or [std::regex_error]). *)
Fixpoint re_parse (s : bytes) : option (list retok) :=
  match s with
  | [] => Some []
  | 92 :: c :: s' =>
      if is_word c then None
      else match re_parse s' with Some ts => Some (RLit c :: ts) | None => None end
  | 46 :: 42 :: 63 :: s' =>
      match re_parse s' with Some ts => Some (RStar :: ts) | None => None end
  | 46 :: 43 :: 63 :: s' =>
      match re_parse s' with Some ts => Some (RPlus :: ts) | None => None end
  | 46 :: s' => match re_parse s' with Some ts => Some (RAny :: ts) | None => None end
  | c :: s' =>
      if is_special c then None
      else match re_parse s' with Some ts => Some (RLit c :: ts) | None => None end
  end.

(** ECMAScript [.] matches everything but a line terminator (LF, CR). *)
Definition any_char (c : N) : bool := negb ((c =? 10) || (c =? 13)).

(** [std::regex_match]: the whole name has to match. *)
Fixpoint re_match (ts : list retok) : bytes -> bool :=
  match ts with
  | [] => fun s => match s with [] => true | _ => false end
  | RLit c :: ts' => fun s => match s with x :: s' => (x =? c) && re_match ts' s' | [] => false end
  | RAny :: ts' => fun s => match s with x :: s' => any_char x && re_match ts' s' | [] => false end
  | RStar :: ts' =>
      fix star (s : bytes) : bool :=
        re_match ts' s || match s with x :: s' => any_char x && star s' | [] => false end
  | RPlus :: ts' =>
      fix plus (s : bytes) : bool :=
        match s with x :: s' => any_char x && (re_match ts' s' || plus s') | [] => false end
  end.

(** workspace.cpp:78-82, 143: the outcome of compiling the pattern and matching a name;
    [None] = the pattern does not compile to the fragment. *)
Definition pattern_match (windows : bool) (w name : bytes) : option bool :=
  match re_parse (wildcard2regex windows w) with
  | Some ts => Some (re_match ts name)
  | None => None
  end.

(** workspace.cpp:462-465 [is_wildcard]. *)
Definition is_wildcard (s : bytes) : bool := existsb (N.eqb 42) s || existsb (N.eqb 63) s.
