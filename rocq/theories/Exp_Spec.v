(** The meaning of a conditional assembly expression in a context that wants a number, a truth
    value or characters, written on the syntax of expressions alone: a context and an expression
    have one value, or are wrong, or are undefined.  What one operator or one function makes of
    its operands is that of C22-C26 and C47. *)
From Coq Require Import List NArith ZArith Bool.
From Verif Require Import Common Ca_Model Grp_Model Exp_Model.
Import ListNotations.
Open Scope Z_scope.

Inductive res (A : Type) := Is (x : A) | Wrong | Undefined.
Arguments Is {A}. Arguments Wrong {A}. Arguments Undefined {A}.
Definition andThen {A B} (r : res A) (f : A -> res B) : res B :=
  match r with Is x => f x | Wrong => Wrong | Undefined => Undefined end.
Definition of_out {A} (o : out A) : res A :=
  match o with Ok x => Is x | Fail _ => Wrong | Bad => Undefined end.
Definition maps {A B} (f : A -> B) (r : res A) : res B := andThen r (fun x => Is (f x)).
Fixpoint all {A} (l : list (res A)) : res (list A) :=
  match l with
  | [] => Is []
  | r :: t => andThen r (fun x => andThen (all t) (fun xs => Is (x :: xs)))
  end.

(** The number, the truth value and the characters of a value; a number other than 0 is true. *)
Definition number (v : val) : Z := match v with VNum z => z | VBool b => if b then 1 else 0 | VChar _ => 0 end.
Definition truth (v : val) : bool := match v with VNum z => negb (z =? 0) | VBool b => b | VChar _ => false end.
Definition chars (v : val) : bytes := match v with VChar s => s | _ => [] end.

(** A term that is a number is a number where a number or a truth value is wanted. *)
Definition a_number (k : kind) (z : Z) : res val := match k with KC => Wrong | _ => Is (VNum z) end.

(** The value [v] of a variable symbol. *)
Definition as_wanted (k : kind) (v : val) : res val :=
  match k, v with
  | KA, VNum z => Is (VNum z)
  | KA, VBool b => Is (VNum (if b then 1 else 0))
  | KA, VChar [] => Is (VNum 0)
  | KA, VChar s => maps VNum (of_out (self_defining_term s))
  | KB, VNum z => Is (VBool (negb (z =? 0)))
  | KB, VBool b => Is (VBool b)
  | KB, VChar s => maps VNum (of_out (self_defining_term s))
  | KC, VChar s => Is (VChar s)
  | KC, _ => Wrong
  end.

(** The text of a variable symbol in a string. *)
Definition text_of (v : val) : res bytes :=
  match v with
  | VNum z => if z =? INT_MIN then Undefined else Is (dec (Z.to_N (Z.abs z)))
  | VBool b => Is (s2b (if b then "1" else "0"))
  | VChar s => Is s
  end.

(** Strings: characters, variable symbols, and dots, of which one that ends the name of a
    variable symbol is not part of the string. *)
Definition string_of (f : expr -> res bytes) : bool -> list expr -> res bytes :=
  fix go (after_symbol : bool) (l : list expr) : res bytes :=
    match l with
    | [] => Is []
    | Dot :: r => maps (fun t => (if after_symbol then [] else s2b ".") ++ t) (go false r)
    | (VarSym _ _ _ as p) :: r => andThen (f p) (fun s => maps (fun t => s ++ t) (go true r))
    | Text s :: r => maps (fun t => s ++ t) (go false r)
    | _ :: r => go after_symbol r
    end.

(** A name has 1 to 63 letters, digits and underscores and does not start with a digit. *)
Definition a_name (s : bytes) : bool :=
  match s with
  | [] => false
  | c :: _ => Nat.leb (length s) 63 && negb ((48 <=? c)%N && (c <=? 57)%N) && forallb ord_char s
  end.

(** The functions: the kinds of the parameters, the kind of the result, the result. *)
Inductive meaning :=
  | num_char (g : bytes -> out Z)
  | num_char_char (g : bytes -> bytes -> Z)
  | char_num (g : Z -> out bytes)
  | char_char (g : bytes -> out bytes).
Definition meaning_of (f : func) : option meaning :=
  match f with
  | fB2A => Some (num_char B2A) | fC2A => Some (num_char C2A) | fD2A => Some (num_char D2A)
  | fX2A => Some (num_char X2A) | fDCLEN => Some (num_char (fun s => Ok (DCLEN s)))
  | fISBIN => Some (num_char ISBIN) | fISDEC => Some (num_char ISDEC)
  | fISHEX => Some (num_char ISHEX) | fISSYM => Some (num_char ISSYM)
  | fFIND => Some (num_char_char FIND) | fINDEX => Some (num_char_char INDEX)
  | fA2B => Some (char_num (fun n => Ok (A2B n))) | fA2C => Some (char_num (fun n => Ok (A2C n)))
  | fA2D => Some (char_num (fun n => Ok (A2D n))) | fA2X => Some (char_num (fun n => Ok (A2X n)))
  | fBYTE => Some (char_num BYTE) | fSIGNED => Some (char_num (fun n => Ok (SIGNED n)))
  | fB2C => Some (char_char B2C) | fB2D => Some (char_char B2D) | fB2X => Some (char_char B2X)
  | fC2B => Some (char_char C2B) | fC2D => Some (char_char C2D) | fC2X => Some (char_char C2X)
  | fD2B => Some (char_char D2B) | fD2C => Some (char_char D2C) | fD2X => Some (char_char D2X)
  | fX2B => Some (char_char X2B) | fX2C => Some (char_char X2C) | fX2D => Some (char_char X2D)
  | fDCVAL => Some (char_char (fun s => Ok (DCVAL s))) | fDEQUOTE => Some (char_char (fun s => Ok (DEQUOTE s)))
  | fDOUBLE => Some (char_char DOUBLE)
  | fLOWER => Some (char_char (fun s => Ok (LOWER s))) | fUPPER => Some (char_char (fun s => Ok (UPPER s)))
  | fESYM | fSYSATTRA | fSYSATTRP | fUNKNOWN => None
  end.
Definition result_kind (m : meaning) : kind :=
  match m with num_char _ | num_char_char _ => KA | _ => KC end.
Definition parameter_kind (m : meaning) : kind := match m with char_num _ => KA | _ => KC end.

(** A relation compares characters if its left operand is a string, a T' or O' attribute, or a
    concatenation that begins with one; otherwise it compares numbers. *)
Fixpoint characters (e : expr) : bool :=
  match e with
  | Str _ None _ _ => true
  | AttrRef c _ => c
  | Bas CONC l _ => characters l
  | _ => false
  end.
Definition relation_op (o : op) : bool := match o with EQ | NE | LE | LT | GE | GT => true | _ => false end.

(** The kind an operator wants its operands to have. *)
Definition wanted_by (o : op) (k : kind) (left_operand : expr) : kind :=
  match o with
  | EQ | NE | LE | LT | GE | GT => if characters left_operand then KC else KA
  | FIND_op | INDEX_op | DOUBLE_op | LOWER_op | UPPER_op => KC
  | BYTE_op | SIGNED_op => KA
  | _ => k
  end.

Definition unary_meaning (o : op) (k : kind) (v : val) : res val :=
  match k, o with
  | KA, NOT => Is (VNum (- number v - 1))
  | KB, NOT => Is (VBool (negb (truth v)))
  | KC, BYTE_op => maps VChar (of_out (BYTE (number v)))
  | KC, DOUBLE_op => maps VChar (of_out (DOUBLE (chars v)))
  | KC, LOWER_op => Is (VChar (LOWER (chars v)))
  | KC, SIGNED_op => Is (VChar (SIGNED (number v)))
  | KC, UPPER_op => Is (VChar (UPPER (chars v)))
  | _, _ => Wrong
  end.
Definition binary_meaning (o : op) (k : kind) (operands : kind) (x y : val) : res val :=
  match k, o with
  | KA, (SLA | SLL | SRA | SRL) => Is (VNum (shift_operands (number x) (number y) o))
  | KA, FIND_op => Is (VNum (FIND (chars x) (chars y)))
  | KA, INDEX_op => Is (VNum (INDEX (chars x) (chars y)))
  | KA, AND => Is (VNum (Z.land (number x) (number y)))
  | KA, OR => Is (VNum (Z.lor (number x) (number y)))
  | KA, XOR => Is (VNum (Z.lxor (number x) (number y)))
  | KB, (EQ | NE | LE | LT | GE | GT) =>
      maps VBool (of_out (match operands with
                          | KC => relational_c o (chars x) (chars y)
                          | _ => relational_a o (number x) (number y)
                          end))
  | KB, AND => Is (VBool (truth x && truth y))
  | KB, OR => Is (VBool (truth x || truth y))
  | KB, XOR => Is (VBool (negb (Bool.eqb (truth x) (truth y))))
  | KB, AND_NOT => Is (VBool (truth x && negb (truth y)))
  | KB, OR_NOT => Is (VBool (truth x || negb (truth y)))
  | KB, XOR_NOT => Is (VBool (Bool.eqb (truth x) (truth y)))
  | _, _ => Wrong
  end.
Definition in_range (z : Z) : res val :=
  if (INT_MIN <=? z) && (z <=? INT_MAX) then Is (VNum z) else Wrong.
Definition basic_meaning (o : basic) (x y : val) : res val :=
  match o with
  | ADD => in_range (number x + number y)
  | SUB => in_range (number x - number y)
  | MUL => in_range (number x * number y)
  | DIV => if number y =? 0 then Is (VNum 0) else in_range (Z.quot (number x) (number y))
  | CONC => if Nat.leb (length (chars x) + length (chars y)) (Z.to_nat MAX_STR_SIZE)
            then Is (VChar (chars x ++ chars y)) else Wrong
  end.

Section Meaning.
Variable w : world.

Definition duplicate_meaning (factor : option (res val)) (s : bytes) : res val :=
  match factor with
  | None => Is (VChar s)
  | Some r => andThen r (fun n => maps VChar (of_out (duplicate (number n) s)))
  end.

(** [None] asks for the value of a variable symbol as it is. *)
Fixpoint value (k : option kind) (e : expr) {struct e} : res val :=
  match e with
  | Const z => match k with Some q => a_number q z | None => Wrong end
  | OrdSym n => match k, absolute w n with Some q, Some z => a_number q z | _, _ => Wrong end
  | AttrRef true i =>
      match k, char_attribute w i with Some KC, inl s => Is (VChar s) | _, _ => Wrong end
  | AttrRef false i =>
      match k, num_attribute w i with Some q, inl z => a_number q z | _, _ => Wrong end
  | VarSym basic_name created subscript =>
      andThen (match basic_name with
               | Some n => Is n
               | None => andThen (string_of (fun p => andThen (value None p) text_of) false created)
                                 (fun s => if a_name s then Is s else Wrong)
               end) (fun n =>
      andThen (all (map (fun x => maps number (value (Some KA) x)) subscript)) (fun zs =>
      match variable w n zs with
      | inl v => match k with Some q => as_wanted q v | None => Is v end
      | inr _ => Wrong
      end))
  | Str v dupl start count =>
      match k with
      | Some KC =>
          andThen (string_of (fun p => andThen (value None p) text_of) false v) (fun s =>
          if Nat.leb (length s) (Z.to_nat MAX_STR_SIZE) then
            let dup := match dupl with Some x => Some (value (Some KA) x) | None => None end in
            match start with
            | None => duplicate_meaning dup s
            | Some x =>
                andThen (value (Some KA) x) (fun st =>
                andThen (match count with
                         | Some y => maps (fun n => Some (number n)) (value (Some KA) y)
                         | None => Is None
                         end) (fun n =>
                andThen (of_out (substring s (number st) n)) (fun r => duplicate_meaning dup r)))
            end
          else Wrong)
      | _ => Wrong
      end
  | Fun f ps dupl =>
      match k, meaning_of f with
      | Some q, Some m =>
          if kind_eqb q (result_kind m) then
            let dup := match dupl with Some x => Some (value (Some KA) x) | None => None end in
            match m, map (value (Some (parameter_kind m))) ps with
            | num_char g, [p] => andThen p (fun v => maps VNum (of_out (g (chars v))))
            | num_char_char g, [p; p'] =>
                andThen p (fun v => andThen p' (fun u => Is (VNum (g (chars v) (chars u)))))
            | char_num g, [p] =>
                andThen p (fun v => andThen (of_out (g (number v))) (duplicate_meaning dup))
            | char_char g, [p] =>
                andThen p (fun v => andThen (of_out (g (chars v))) (duplicate_meaning dup))
            | _, _ => Wrong
            end
          else Wrong
      | _, _ => Wrong
      end
  | Lst ta tb tc =>
      match k with
      | Some KA => match ta with Some t => value k t | None => Wrong end
      | Some KB => match tb with Some t => value k t | None => Wrong end
      | Some KC => match tc with Some t => value k t | None => Wrong end
      | None => Wrong
      end
  | Par x => value k x
  | Plus x => andThen (value (Some KA) x) (fun v => Is (VNum (number v)))
  | Minus x => andThen (value (Some KA) x) (fun v => if number v =? INT_MIN then Undefined else Is (VNum (- number v)))
  | Un o q x => andThen (value (Some (wanted_by o q x)) x) (unary_meaning o q)
  | Bas o l r =>
      let q := match o with CONC => KC | _ => KA end in
      andThen (value (Some q) l) (fun x => andThen (value (Some q) r) (basic_meaning o x))
  | Bin o q l r =>
      let p := wanted_by o q l in
      andThen (value (Some p) l) (fun x => andThen (value (Some p) r) (binary_meaning o q p x))
  | Text _ | Dot => Wrong
  end.

(** The value of an operand: in the end a number is a truth value only if it is 0 or 1. *)
Definition operand_value (k : kind) (e : expr) : res val :=
  andThen (value (Some k) e) (fun v =>
  match k, v with
  | KB, VNum z => if (z =? 0) || (z =? 1) then Is (VBool (z =? 1)) else Wrong
  | _, _ => Is v
  end).

(** The expressions the claim is about: operators are those of the kind they are used with (what
    C24 establishes), functions are those there are, T' and O' attributes and variable symbols
    that hold numbers do not stand where another kind is wanted.  [Text] and [Dot] are only parts
    of strings and names. *)
Definition holds_characters (n : option bytes) : Prop :=
  forall n' zs v, variable w n' zs = inl v -> n = Some n' \/ n = None -> exists s, v = VChar s.

Fixpoint sound (k : kind) (e : expr) {struct e} : Prop :=
  match e with
  | AttrRef c _ => c = true -> k = KC
  | VarSym n created subscript =>
      (k = KC -> holds_characters n) /\
      (fix every (l : list expr) : Prop :=
         match l with [] => True | (VarSym _ _ _ as x) :: r => sound KA x /\ every r | _ :: r => every r end) created /\
      (fix every (l : list expr) : Prop := match l with [] => True | x :: r => sound KA x /\ every r end) subscript
  | Str v d s c =>
      (fix every (l : list expr) : Prop :=
         match l with [] => True | (VarSym _ _ _ as x) :: r => sound KA x /\ every r | _ :: r => every r end) v /\
      (match d with Some x => sound KA x | None => True end) /\
      (match s with Some x => sound KA x | None => True end) /\
      (match c with Some x => sound KA x | None => True end)
  | Fun f ps d =>
      match meaning_of f with
      | Some m =>
          (fix every (l : list expr) : Prop :=
             match l with [] => True | x :: r => sound (parameter_kind m) x /\ every r end) ps /\
          (match d with Some x => sound KA x | None => True end)
      | None => False
      end
  | Lst ta tb tc =>
      match k with
      | KA => match ta with Some t => sound KA t | None => True end
      | KB => match tb with Some t => sound KB t | None => True end
      | KC => match tc with Some t => sound KC t | None => True end
      end
  | Un o q x => is_unary q o = true /\ sound (wanted_by o q x) x
  | Plus x | Minus x => sound KA x
  | Par x => sound k x
  | Bas o l r => let q := match o with CONC => KC | _ => KA end in sound q l /\ sound q r
  | Bin o q l r => is_binary q o = true /\ sound (wanted_by o q l) l /\ sound (wanted_by o q l) r
  | Text _ | Dot => False
  | Const _ | OrdSym _ => True
  end.

End Meaning.
