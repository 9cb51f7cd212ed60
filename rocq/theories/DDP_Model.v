(** * Parsing of a data definition

    Modelled file of /repo/parser_library/src: expressions/data_definition.cpp 371-638 (data_definition::parser),
    with expressions/data_definition.h 60-75 and 120-172.

    The grammar (parsing/grammar/data_def_rules.g4) hands over the text of the operand in which every expression in
    parentheses is replaced by the character [&] and the nominal value by a space, together with the list of the
    expressions and the nominal value.

    Simplifications.  Positions, ranges and highlighting are left out; a diagnostic is its code.  Indexing the string
    at its size gives the character 0, as the C++ standard says.  Taking an expression when none is left
    ([exprs_] past its end, guarded by an assert only) and using a nominal value that is not there are [Undef].  An
    expression moved out of the nominal value is kept in it: the grammar puts the space last, after which nothing is read. *)
From Coq Require Import List ZArith NArith Bool Ascii.
From Verif Require Import DD_Model.
Import ListNotations.
Open Scope Z_scope.

Inductive pdiag := D001 | D002 | D003 | D004 | D005 | D006.

(** toupper of the C locale, data_definition.cpp 371-383 *)
Definition upper (c : ascii) : ascii := if ch_between "a" "z" c then ascii_of_N (N_of_ascii c - 32) else c.

(** ** Numbers: data_definition.cpp 385-431 *)
Definition numch (c : ascii) : bool := digit c || (c =c "-").
Fixpoint number_end (l : text) : text := match l with c :: l' => if numch c then number_end l' else l | [] => [] end.
Definition digits_number (l : text) : Z := fold_left (fun a c => 10 * a + (Z.of_N (N_of_ascii c) - 48)) l 0.
(** std::stoi on a text that begins with a digit or a minus sign *)
Inductive converted := SNum (v : Z) (rest : text) | SRange | SInvalid.
Definition stoi (l : text) : converted :=
  let (neg, l1) := match l with c :: l' => if c =c "-" then (true, l') else (false, l) | [] => (false, l) end in
  let (ds, r) := span_digits l1 in
  match ds with
  | [] => SInvalid
  | _ => let v := if neg then - digits_number ds else digits_number ds in
         if (v <? - 2 ^ 31) || (2 ^ 31 <=? v) then SRange else SNum v r
  end.
Definition parse_number (l : text) : option Z * text * list pdiag :=
  match stoi l with
  | SNum v r => (Some v, r, [])
  | SRange => (None, number_end l, [D001])
  | SInvalid => (None, number_end l, [D002])
  end.

Section Parser.
  Context {Ex : Type}.

  Record pstate := PState {
    rest : text; exprs : list Ex; nominal_ : option (pnominal Ex); remaining : list ascii;
    result : definition Ex; diags : list pdiag
  }.
  Definition report_ (d : pdiag) (s : pstate) : pstate :=
    PState (rest s) (exprs s) (nominal_ s) (remaining s) (result s) (diags s ++ [d]).
  Definition go_to (r : text) (s : pstate) : pstate :=
    PState r (exprs s) (nominal_ s) (remaining s) (result s) (diags s).

  (** data_definition.cpp 471-480 *)
  Definition move_next_expression (s : pstate) : res (Ex * pstate) :=
    match exprs s with
    | e :: es => Val (e, PState (tl (rest s)) es (nominal_ s) (remaining s) (result s) (diags s))
    | [] => Undef
    end.

  (** data_definition.cpp 482-518 *)
  Definition modifier_value (s : pstate) : res (option (amount Ex) * pstate) :=
    match rest s with
    | c :: r =>
      if numch c then
        let '(v, r', ds) := parse_number (rest s) in
        Val (match v with Some v => Some (Const v) | None => None end,
             PState r' (exprs s) (nominal_ s) (remaining s) (result s) (diags s ++ ds))
      else if c =c "&" then let! es := move_next_expression s in Val (Some (Exp (fst es)), snd es)
      else if c =c " " then
        match nominal_ s with
        | Some (PExprs [PExpr e]) => Val (Some (Exp e), go_to r s)
        | Some _ => Val (None, report_ D003 (go_to r s))
        | None => Undef
        end
      else Val (None, s)
    | [] => Val (None, s)
    end.

  (** data_definition.cpp 520-540 *)
  Definition assign (m : ascii) (a : option (amount Ex)) (d : definition Ex) : definition Ex :=
    if m =c "P" then Definition_ (d_dup d) (d_type d) (d_ext d) a (d_len d) (d_bit d) (d_scale d) (d_exp d) (d_nom d)
    else if m =c "L" then Definition_ (d_dup d) (d_type d) (d_ext d) (d_prog d) a (d_bit d) (d_scale d) (d_exp d) (d_nom d)
    else if m =c "S" then Definition_ (d_dup d) (d_type d) (d_ext d) (d_prog d) (d_len d) (d_bit d) a (d_exp d) (d_nom d)
    else Definition_ (d_dup d) (d_type d) (d_ext d) (d_prog d) (d_len d) (d_bit d) (d_scale d) a (d_nom d).
  Definition bit_length (d : definition Ex) : definition Ex :=
    Definition_ (d_dup d) (d_type d) (d_ext d) (d_prog d) (d_len d) true (d_scale d) (d_exp d) (d_nom d).
  Definition with_nominal (n : option (pnominal Ex)) (d : definition Ex) : definition Ex :=
    Definition_ (d_dup d) (d_type d) (d_ext d) (d_prog d) (d_len d) (d_bit d) (d_scale d) (d_exp d) n.
  Definition set_result (d : definition Ex) (s : pstate) : pstate :=
    PState (rest s) (exprs s) (nominal_ s) (remaining s) d (diags s).

  (** the letters after the first [m], when there is one: std::string::find and substr *)
  Fixpoint after (m : ascii) (l : list ascii) : option (list ascii) :=
    match l with [] => None | c :: l' => if c =c m then Some l' else after m l' end.

  (** data_definition.cpp 542-587; [s] is the state behind the letter [m] *)
  Definition after_dot (m : ascii) (s : pstate) : res pstate :=
    let! vs := modifier_value s in
    let s := snd vs in
    let s := match after m (remaining s) with
             | None => report_ D004 s
             | Some l => PState (rest s) (exprs s) (nominal_ s) l (result s) (diags s)
             end in
    Val (set_result (assign m (fst vs) (result s)) s).
  Definition parse_modifier (m : ascii) (s : pstate) : res pstate :=
    match rest s with
    | [] => Val (report_ D003 s)
    | c :: r =>
      if c =c "." then
        let s := go_to r s in
        let s := if m =c "L" then set_result (bit_length (result s)) s else report_ D005 s in
        match r with
        | [] => Val (report_ D003 s)
        | _ => after_dot m s
        end
      else after_dot m s
    end.

  (** data_definition.cpp 466-469 *)
  Definition type_extension (c : ascii) : bool := one_of ["A"; "E"; "U"; "H"; "B"; "D"; "Q"; "Y"]%char c.
  Definition modifier_letter (c : ascii) : bool := one_of ["P"; "L"; "S"; "E"]%char c.

  Fixpoint skip_invalid (l : text) : text :=
    match l with
    | c :: l' => if modifier_letter c || (c =c " ") then l else skip_invalid l'
    | [] => []
    end.
  (** data_definition.cpp 609-634 *)
  Fixpoint modifiers (n : nat) (s : pstate) : res pstate :=
    match n with
    | O => Val s
    | S n' =>
      match rest s with
      | [] => Val s
      | c :: r =>
        if modifier_letter c then let! s' := parse_modifier c (go_to r s) in modifiers n' s'
        else if c =c " " then Val (go_to r (set_result (with_nominal (nominal_ s) (result s)) s))
        else modifiers n' (report_ D006 (go_to (skip_invalid (rest s)) s))
      end
    end.

  (** data_definition.cpp 440-461; gives the factor, what follows, the expressions left and the diagnostics *)
  Definition duplication (f : text) (es : list Ex) : res (amount Ex * text * list Ex * list pdiag) :=
    match f with
    | c :: r =>
      if numch c then
        let '(v, r', ds) := parse_number f in Val (Const (match v with Some v => v | None => 1 end), r', es, ds)
      else if c =c "&" then match es with e :: es' => Val (Exp e, r, es', []) | [] => Undef end
      else Val (Const 1, f, es, [])
    | [] => Val (Const 1, f, es, [])
    end.

  (** data_definition.cpp 589-638 *)
  Definition parse (format : text) (es : list Ex) (n : option (pnominal Ex)) : res (definition Ex * list pdiag) :=
    let f := map upper format in
    let! start := duplication f es in
    let '(dup, r, es, ds) := start in
    let new t x := Definition_ (Some dup) t x None None false None None None in
    match r with
    | [] => Val (new "000"%char None, ds)
    | t :: r1 =>
      match r1 with
      | [] => Val (new t None, ds)
      | c :: r2 =>
        let s := if type_extension c then PState r2 es n ["P"; "L"; "S"; "E"]%char (new t (Some c)) ds
                 else PState r1 es n ["P"; "L"; "S"; "E"]%char (new t None) ds in
        let! s := modifiers 5 s in
        Val (result s, diags s)
      end
    end.
End Parser.
