(** * What a data definition is written like *)
From Coq Require Import List ZArith NArith Bool Ascii.
From Verif Require Import DD_Model DD_Spec.
Import ListNotations.
Open Scope Z_scope.

(** the value of a decimal digit *)
Definition digit_value (c : ascii) (v : Z) : Prop := exists n, (n < 10)%nat /\ v = Z.of_nat n /\ nth_error decimal n = Some c.
(** the value of a row of digits, the last one counting least *)
Inductive unsigned : text -> Z -> Prop :=
  | u_one : forall c v, digit_value c v -> unsigned [c] v
  | u_more : forall s w c v, unsigned s w -> digit_value c v -> unsigned (s ++ [c]) (10 * w + v).
(** a number that fits 32 bits *)
Definition numeral (s : text) (z : Z) : Prop :=
  int32 z /\ (unsigned s z \/ exists s', s = "-"%char :: s' /\ unsigned s' (- z)).

Section Written.
  Context {Ex : Type}.
  (** a number, or an expression in parentheses *)
  Definition amount_text (a : amount Ex) (s : text) (es : list Ex) : Prop :=
    match a with
    | Const z => numeral s z /\ es = []
    | Exp e => s = ["&"%char] /\ es = [e]
    end.
  Definition modifier_text (k : ascii) (bit : bool) (a : option (amount Ex)) (s : text) (es : list Ex) : Prop :=
    match a with
    | None => bit = false /\ s = [] /\ es = []
    | Some a => exists s', s = k :: (if bit then ["."%char] else []) ++ s' /\ amount_text a s' es
    end.
  Definition dup_text (a : option (amount Ex)) (s : text) (es : list Ex) : Prop :=
    match a with
    | Some a => amount_text a s es
    | None => s = [] /\ es = []
    end.
  Definition upper_letters : list ascii :=
    ["A"; "B"; "C"; "D"; "E"; "F"; "G"; "H"; "I"; "J"; "K"; "L"; "M"; "N"; "O"; "P"; "Q"; "R"; "S"; "T"; "U"; "V"; "W"; "X";
     "Y"; "Z"]%char.
  Definition lower_letters : list ascii :=
    ["a"; "b"; "c"; "d"; "e"; "f"; "g"; "h"; "i"; "j"; "k"; "l"; "m"; "n"; "o"; "p"; "q"; "r"; "s"; "t"; "u"; "v"; "w"; "x";
     "y"; "z"]%char.
  (** the same text in capitals *)
  Definition capital (x c : ascii) : Prop :=
    x = c /\ ~ In x lower_letters \/ exists n, nth_error lower_letters n = Some x /\ nth_error upper_letters n = Some c.
  Definition spelled (f g : text) : Prop := Forall2 capital f g.

  (** the duplication factor, the type, the extension and the modifiers in their order *)
  Definition head_text (d : definition Ex) (s : text) (es : list Ex) : Prop :=
    exists s0 e0 s1 e1 s2 e2 s3 e3 s4 e4,
      dup_text (d_dup d) s0 e0 /\ modifier_text "P" false (d_prog d) s1 e1 /\ modifier_text "L" (d_bit d) (d_len d) s2 e2 /\
      modifier_text "S" false (d_scale d) s3 e3 /\ modifier_text "E" false (d_exp d) s4 e4 /\
      s = s0 ++ d_type d :: match d_ext d with Some x => [x] | None => [] end ++ s1 ++ s2 ++ s3 ++ s4 /\
      es = e0 ++ e1 ++ e2 ++ e3 ++ e4.
  (** what the grammar hands over for the definition: a nominal value follows, or none; an expression in
      parentheses that is the last thing written is handed over as a nominal value *)
  Definition written (d : definition Ex) (f : text) (es : list Ex) (n : option (pnominal Ex)) : Prop :=
    exists s, head_text d s es /\ spelled f s /\ d_nom d = None /\ n = None \/
    (exists nv, d_nom d = Some nv /\ n = Some nv /\ head_text d s es /\ spelled f (s ++ [" "%char])) \/
    (exists e, d_nom d = None /\ n = Some (PExprs [PExpr e]) /\ head_text d (s ++ ["&"%char]) (es ++ [e]) /\ spelled f (s ++ [" "%char])).

  (** the type is a letter, the extension one that there is, and an exponent modifier does not follow the type at once *)
  Definition extensions : list ascii := ["A"; "B"; "D"; "E"; "H"; "Q"; "U"; "Y"]%char.
  Definition readable (d : definition Ex) : Prop :=
    In (d_type d) upper_letters /\ (forall x, d_ext d = Some x -> In x extensions) /\
    (d_ext d = None -> d_prog d = None -> d_len d = None -> d_scale d = None -> d_exp d = None).
  (** a duplication factor that is not written is 1 *)
  Definition as_read (d : definition Ex) : definition Ex :=
    Definition_ (Some match d_dup d with Some a => a | None => Const 1 end) (d_type d) (d_ext d) (d_prog d) (d_len d)
                (d_bit d) (d_scale d) (d_exp d) (d_nom d).

  (** the grammar puts the placeholder of the nominal value last, and only when there is one *)
  Definition space_last (f : text) (n : option (pnominal Ex)) : Prop :=
    match n with
    | None => ~ In " "%char f
    | Some _ => exists g, f = g ++ [" "%char] /\ ~ In " "%char g
    end.

  (** a modifier may be written without a value when more follows *)
  Definition loose_text (k : ascii) (bit : bool) (a : option (amount Ex)) (s : text) (es : list Ex) : Prop :=
    modifier_text k bit a s es \/ a = None /\ s = k :: (if bit then ["."%char] else []) /\ es = [].
  Definition loose_head (d : definition Ex) (s : text) (es : list Ex) : Prop :=
    exists s0 e0 s1 e1 s2 e2 s3 e3 s4 e4,
      dup_text (d_dup d) s0 e0 /\ loose_text "P" false (d_prog d) s1 e1 /\ loose_text "L" (d_bit d) (d_len d) s2 e2 /\
      loose_text "S" false (d_scale d) s3 e3 /\ loose_text "E" false (d_exp d) s4 e4 /\
      s = s0 ++ d_type d :: match d_ext d with Some x => [x] | None => [] end ++ s1 ++ s2 ++ s3 ++ s4 /\
      es = e0 ++ e1 ++ e2 ++ e3 ++ e4.
  Definition loosely_written (d : definition Ex) (f : text) (es : list Ex) (n : option (pnominal Ex)) : Prop :=
    exists s, loose_head d s es /\ spelled f s /\ d_nom d = None /\ n = None \/
    (exists nv, d_nom d = Some nv /\ n = Some nv /\ loose_head d s es /\ spelled f (s ++ [" "%char])) \/
    (exists e, d_nom d = None /\ n = Some (PExprs [PExpr e]) /\ loose_head d (s ++ ["&"%char]) (es ++ [e]) /\ spelled f (s ++ [" "%char])).

  Fixpoint placeholders (f : text) : nat :=
    match f with [] => O | c :: f' => if ascii_dec c "&" then S (placeholders f') else placeholders f' end.
End Written.
