(** Macro prototypes, macro calls and the text of operands with variable symbols.

    Modelled: semantics/concatenation.cpp:51-148, concatenation_term.cpp;
    processing/statement_processors/macrodef_processor.cpp:199-322 (the prototype);
    processing/instruction_sets/macro_processor.cpp:182-337 (the operands of a call);
    context/macro.cpp:32-155; context/variables/macro_param.cpp, system_variable.cpp;
    processing/context_manager.cpp:99-109, 143-158.

    Simplifications: a variable symbol in a text is given by its value, which Var_Model gives,
    and by its printed name (concatenation.cpp:122-131); warnings and errors are only named;
    the macro that is called is given (C32); identifiers are in upper case (id_storage.cpp:49). *)
From Coq Require Import List NArith ZArith Bool.
From Verif Require Import Common Sub_Model Ca_Model.
Import ListNotations.
Open Scope N_scope.

Definition id := bytes.

(** ** Texts with variable symbols *)
(** The value of a symbol: SETA, SETB, SETC (or a parameter), undefined. *)
Inductive value := AVal (z : Z) | BVal (b : bool) | CVal (s : bytes) | NoVal.
Record varsym := { shown : bytes;           (* to_string of it, without & *)
                   plain_name : option id;  (* its name, if it is neither created nor subscripted *)
                   holds : value }.
Inductive point := Str (s : bytes) | Var (v : varsym) | Dot | Equ | Sub (l : list (list point)).
Definition chain := list point.

Definition DOT : N := 46. Definition EQUALS : N := 61. Definition AMP : N := 38.

(** concatenation_term.cpp:41-54; [None]: std::abs of the smallest int overflows. *)
Definition var_text (v : value) : option bytes :=
  match v with
  | AVal z => if (z =? -2147483648)%Z then None else Some (dec (Z.to_N (Z.abs z)))
  | BVal b => Some [if b then 49 else 48]
  | CVal s => Some s
  | NoVal => Some []
  end.

Definition cat (a b : option bytes) : option bytes :=
  match a, b with Some x, Some y => Some (x ++ y) | _, _ => None end.

(** concatenation.cpp:56-87 and sublist_conc::evaluate, concatenation_term.cpp:73-85. *)
Fixpoint evaluate_point (p : point) : option bytes :=
  match p with
  | Str s => Some s
  | Var v => var_text (holds v)
  | Dot => Some [DOT]
  | Equ => Some [EQUALS]
  | Sub l =>
      let texts :=
        (fix items (l : list (list point)) : option (list bytes) :=
           match l with
           | [] => Some []
           | c :: l' =>
               match
                 (fix go (was_var : bool) (c : list point) : option bytes :=
                    match c with
                    | [] => Some []
                    | Dot :: c' => if was_var then go false c' else cat (Some [DOT]) (go false c')
                    | p :: c' => cat (evaluate_point p) (go (match p with Var _ => true | _ => false end) c')
                    end) false c, items l' with
               | Some t, Some ts => Some (t :: ts)
               | _, _ => None
               end
           end) l in
      match texts with Some ts => Some (LPAR :: joined ts ++ [RPAR]) | None => None end
  end.
Fixpoint evaluate_from (was_var : bool) (c : chain) : option bytes :=
  match c with
  | [] => Some []
  | Dot :: c' => if was_var then evaluate_from false c' else cat (Some [DOT]) (evaluate_from false c')
  | p :: c' => cat (evaluate_point p) (evaluate_from (match p with Var _ => true | _ => false end) c')
  end.
Definition evaluate (c : chain) : option bytes := evaluate_from false c.

(** concatenation.cpp:105-148 *)
Fixpoint point_string (p : point) : bytes :=
  match p with
  | Str s => s
  | Var v => AMP :: shown v
  | Dot => [DOT]
  | Equ => [EQUALS]
  | Sub l => LPAR :: joined (map (fun c => flat_map point_string c) l) ++ [RPAR]
  end.
Definition to_string (c : chain) : bytes := flat_map point_string c.

(** 150-173 *)
Fixpoint point_has_var (p : point) : bool :=
  match p with
  | Var _ => true
  | Sub l => existsb (fun c => existsb point_has_var c) l
  | _ => false
  end.
Definition contains_var_sym (c : chain) : bool := existsb point_has_var c.

(** macro_processor.cpp:290-310, for the two functions it is called with. *)
Fixpoint point_data (text : chain -> option bytes) (p : point) : option data :=
  match p with
  | Sub l =>
      match
        (fix items (l : list (list point)) : option (list data) :=
           match l with
           | [] => Some []
           | c :: l' =>
               match (match c with
                      | [] => Some Dummy
                      | [p] => point_data text p
                      | _ => match text c with Some t => Some (Single t) | None => None end
                      end), items l' with
               | Some d, Some ds => Some (d :: ds)
               | _, _ => None
               end
           end) l
      with Some ds => Some (Composite ds) | None => None end
  | _ => match text [p] with Some t => Some (Single t) | None => None end
  end.
Definition create_inner (text : chain -> option bytes) (c : chain) : option data :=
  match c with
  | [] => Some Dummy
  | [p] => point_data text p
  | _ => match text c with Some t => Some (Single t) | None => None end
  end.
(** 329-337 *)
Definition create_data (c : chain) : option data := create_inner evaluate c.
(** 312-327; the error E064 and no value if there is a variable symbol. *)
Definition create_default (c : chain) : data :=
  if contains_var_sym c then Dummy
  else match create_inner (fun c => Some (to_string c)) c with Some d => d | None => Dummy end.

(** context_manager.cpp:99-109 *)
Definition symbol_name (s : bytes) : option id :=
  match s with
  | [] => None
  | c :: _ => if negb (is_digit c) && (length s <? 64)%nat && forallb ord_char s then Some (UPPER s) else None
  end.

(** ** The prototype *)
Inductive operand := Empty | Chain (c : chain).
Inductive note := W014 | E011 | E043.

(** The parameters of [result_.prototype]: name and default (macro_arg). *)
Definition param : Type := option id * option data.
Definition has (n : id) (l : list id) : bool := existsb (bytes_eqb n) l.

(** macrodef_processor.cpp:300-322: [inl]: the name; [inr]: what is pushed instead. *)
Definition test_validity (v : varsym) (names : list id) (add_empty : bool) : id + list param :=
  match plain_name v with
  | None => inr [(None, None)]
  | Some n => if has n names then inr (if add_empty then [(None, None)] else []) else inl n
  end.
(** 243-298 *)
Definition prototype_operand (names : list id) (op : operand) : list param * list id :=
  match op with
  | Empty => ([(None, None)], names)
  | Chain [] => ([(None, None)], names)
  | Chain [Var v] =>
      match test_validity v names true with
      | inl n => ([(Some n, None)], names ++ [n])
      | inr l => (l, names)
      end
  | Chain (Var v :: Equ :: c) =>
      match test_validity v names false with
      | inl n => ([(Some n, Some (create_default c))], names ++ [n])
      | inr l => (l, names)
      end
  | Chain _ => ([], names)
  end.
Fixpoint prototype_operands (names : list id) (ops : list operand) : list param :=
  match ops with
  | [] => []
  | op :: ops => let '(l, names) := prototype_operand names op in l ++ prototype_operands names ops
  end.
(** 199-227: the label, if it is a plain variable symbol. *)
Definition prototype (label : option varsym) (ops : list operand) : option id * list param :=
  let name_param := match label with Some v => plain_name v | None => None end in
  (name_param, prototype_operands (match name_param with Some n => [n] | None => [] end) ops).

(** ** The definition: macro.cpp:32-86 *)
Inductive kind := Positional | Keyword (default : data).
Record definition := { positional : list (option id);      (* positional_params_ *)
                       keywords : list (id * data);        (* keyword_params_ *)
                       named : list (id * kind) }.         (* named_params_ *)
Fixpoint lookup {A} (n : id) (l : list (id * A)) : option A :=
  match l with
  | [] => None
  | (m, a) :: l => if bytes_eqb n m then Some a else lookup n l
  end.
(** unordered_map::emplace keeps what is there. *)
Definition emplace {A} (n : id) (a : A) (l : list (id * A)) : list (id * A) :=
  match lookup n l with Some _ => l | None => l ++ [(n, a)] end.

(** [None]: "keyword parameter without name used" *)
Definition add_param (d : definition) (p : param) : option definition :=
  match p with
  | (None, Some _) => None
  | (Some n, Some v) => Some {| positional := positional d; keywords := keywords d ++ [(n, v)];
                                named := emplace n (Keyword v) (named d) |}
  | (Some n, None) => Some {| positional := positional d ++ [Some n]; keywords := keywords d;
                              named := emplace n Positional (named d) |}
  | (None, None) => Some {| positional := positional d ++ [None]; keywords := keywords d; named := named d |}
  end.
Fixpoint add_params (d : definition) (l : list param) : option definition :=
  match l with
  | [] => Some d
  | p :: l => match add_param d p with Some d => add_params d l | None => None end
  end.
Definition define (label : option id) (l : list param) : option definition :=
  add_params {| positional := [label]; keywords := [];
                named := match label with Some n => [(n, Positional)] | None => [] end |} l.

(** ** The operands of a call: macro_processor.cpp:201-288 *)
Definition arg : Type := option id * data.
Inductive got := Arg (a : arg) (keyword_params : list id) (notes : list note) | Overflow.

Definition keyword_of (c : chain) : option (bytes * id) :=
  match c with
  | Str s :: Equ :: _ => match symbol_name s with Some n => Some (s, n) | None => None end
  | _ => None
  end.
Definition parsed (t : option bytes) : option data :=
  match t with Some t => string_to_macrodata t | None => None end.
Definition get_arg (d : definition) (keyword_params : list id) (op : operand) : got :=
  let plain (r : option data) := match r with Some v => Arg (None, v) keyword_params [] | None => Overflow end in
  match op with
  | Empty => Arg (None, Dummy) keyword_params []
  | Chain c =>
      match keyword_of c with
      | Some (s, n) =>
          let value := tl (tl c) in
          match lookup n (named d) with
          | Some (Keyword _) =>
              let notes := if has n keyword_params then [E011] else [] in
              let seen := if has n keyword_params then keyword_params else keyword_params ++ [n] in
              match (match value with
                     | [Sub _] => create_data value
                     | _ => parsed (evaluate value)
                     end) with
              | Some v => Arg (Some n, v) seen notes
              | None => Overflow
              end
          | _ => Arg (None, Single (s ++ EQUALS :: to_string value)) keyword_params [W014]
          end
      | None =>
          match c with
          | [Var v] => plain (parsed (var_text (holds v)))
          | _ => plain (create_data c)
          end
      end
  end.
Fixpoint get_args (d : definition) (keyword_params : list id) (ops : list operand) : option (list arg * list note) :=
  match ops with
  | [] => Some ([], [])
  | op :: ops =>
      match get_arg d keyword_params op with
      | Overflow => None
      | Arg a seen notes =>
          match get_args d seen ops with
          | Some (l, more) => Some (a :: l, notes ++ more)
          | None => None
          end
      end
  end.

(** The label: 182-199. *)
Inductive label := NoLabel | SeqLabel | TextLabel (s : bytes) | ConcLabel (c : chain) | VarLabel (v : varsym).
Definition get_label (l : label) : option (option data) :=
  match l with
  | NoLabel | SeqLabel => Some None
  | TextLabel s => Some (Some (Single s))
  | ConcLabel c => match evaluate c with Some t => Some (Some (Single t)) | None => None end
  | VarLabel v => match var_text (holds v) with Some t => Some (Some (Single t)) | None => None end
  end.

(** ** The call: macro.cpp:88-155 *)
Inductive parameter := Pos (d : data) | Key (default : data) (assigned : option data) | Syslist (d : data).
Definition SYSLIST : id := [83; 89; 83; 76; 73; 83; 84].

(** [None]: "use of undefined keyword parameter" *)
Fixpoint bind_args (d : definition) (args : list arg) (named_cpy : list (id * parameter)) (syslist : list data)
  : option (list (id * parameter) * list data) :=
  match args with
  | [] => Some (named_cpy, syslist)
  | (Some n, v) :: args =>
      match lookup n (named d) with
      | Some (Keyword default) => bind_args d args (emplace n (Key default (Some v)) named_cpy) syslist
      | _ => None
      end
  | (None, v) :: args =>
      let named_cpy := match nth_error (positional d) (length syslist) with
                       | Some (Some n) => emplace n (Pos v) named_cpy
                       | _ => named_cpy
                       end in
      bind_args d args named_cpy (syslist ++ [v])
  end.
Definition bind_missing (l : list (option id)) (named_cpy : list (id * parameter)) : list (id * parameter) :=
  fold_left (fun m p => match p with Some n => emplace n (Pos Dummy) m | None => m end) l named_cpy.
Definition bind_defaults (l : list (id * data)) (named_cpy : list (id * parameter)) : list (id * parameter) :=
  fold_left (fun m '(n, v) => emplace n (Key v None) m) l named_cpy.
Definition call (d : definition) (label : option data) (args : list arg) : option (list (id * parameter)) :=
  let label := match label with Some v => v | None => Dummy end in
  let start := match positional d with Some n :: _ => [(n, Pos label)] | _ => [] end in
  match bind_args d args start [label] with
  | None => None
  | Some (m, syslist) =>
      let m := bind_missing (skipn (length syslist) (positional d)) m in
      let m := bind_defaults (keywords d) m in
      Some (emplace SYSLIST (Syslist (Composite syslist)) m)
  end.

(** ** Reading: macro_param.cpp:41-116, system_variable.cpp *)
Definition real_data (p : parameter) : data :=
  match p with
  | Pos d => d
  | Key default assigned => match assigned with Some d => d | None => default end
  | Syslist d => d
  end.
(** get_ith with the index minus one; an index of 0 becomes the largest size_t. *)
Definition down (d : data) (i : nat) : data := match i with O => match d with Dummy => d | _ => Dummy end | S i => get_ith d i end.
Definition get_data (p : parameter) (path : list nat) : data :=
  match p, path with
  | Syslist d, i :: path => fold_left down path (get_ith d i)
  | _, _ => fold_left down path (real_data p)
  end.
Definition read_value (p : parameter) (path : list nat) : bytes := get_value (get_data p path).
Definition read_number (p : parameter) (path : list nat) : Z :=
  match p, path with
  | Syslist d, [] => Z.of_nat (number d) - 1
  | Syslist d, i :: path => Z.of_nat (number (fold_left down (S i :: path) d))
  | _, _ => Z.of_nat (number (fold_left down path (real_data p)))
  end.
Definition read_count (p : parameter) (path : list nat) : Z :=
  match p, path with
  | Syslist d, [] => Z.of_nat (length (get_value (get_ith d 1)))
  | _, _ => Z.of_nat (length (read_value p path))
  end.
(** context_manager.cpp:143-158: the subscripts that are not rejected. *)
Definition readable (p : parameter) (subscripts : list Z) : bool :=
  match p, subscripts with
  | Syslist _, i :: r => ((0 <=? i) && forallb (fun j => 1 <=? j) r)%Z
  | _, _ => forallb (fun j => 1 <=? j)%Z subscripts
  end.
