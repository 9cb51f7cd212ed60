(** * Ddg_Spec: what the operand of DC or DS says, by how it is written

    Two descriptions.  The first has a tree for every form that an operand may
    take, as [Gram_Spec] has for the other instructions.  The second starts from a
    definition (duplication factor, type, extension, modifiers, nominal value) and
    says which tokens spell it. *)
From Coq Require Import String List ZArith Bool Ascii.
From Verif Require Import DD_Model DD_Spec DDP_Spec Gram_Model Gram_Spec Ddg_Model.
Import ListNotations.
Open Scope list_scope.

(** ** Forms *)

(** An expression in parentheses. *)
Record bracket : Type := Bracket { opening : tok; inner_ : tree; closing : tok }.
Definition btext (b : bracket) : list tok := opening b :: text (inner_ b) ++ [closing b].
Definition bproper (b : bracket) : Prop :=
  tk (opening b) = KLpar /\ proper (inner_ b) /\ tk (closing b) = KRpar.
Definition bmeans (b : bracket) (e : mexpr) : Prop := means (inner_ b) e.

(** The tokens that a word is made of, and its text. *)
Definition spells_word (k : kind) (w : string) : Prop :=
  k = KId w \/ k = KWord w \/ (exists v, k = KNum w v) \/ (k = KMinus /\ w = "-"%string).
Inductive word_text : list tok -> list ascii -> Prop :=
| wt_end : word_text [] []
| wt_more : forall t ts w f, spells_word (tk t) w -> word_text ts f ->
    word_text (t :: ts) (list_ascii_of_string w ++ f).

(** A string: apostrophes and ampersands are doubled. *)
Inductive quoted : list ascii -> list ascii -> Prop :=
| q_end : quoted [] []
| q_apostrophe : forall v s, quoted v s -> quoted ("'"%char :: v) ("'"%char :: "'"%char :: s)
| q_ampersand : forall v s, quoted v s -> quoted ("&"%char :: v) ("&"%char :: "&"%char :: s)
| q_plain : forall c v s, c <> "'"%char -> c <> "&"%char -> quoted v s -> quoted (c :: v) (c :: s).

(** A nominal value: a string, or expressions and addresses D(B) at commas in
    parentheses. *)
Inductive itree : Type :=
| ItExpr (e : tree)
| ItAddress (d : tree) (b : bracket).
Definition itext (i : itree) : list tok :=
  match i with ItExpr e => text e | ItAddress d b => text d ++ btext b end.
Definition iproper (i : itree) : Prop :=
  match i with ItExpr e => proper e | ItAddress d b => proper d /\ bproper b end.
Inductive imeans : itree -> pitem mexpr -> Prop :=
| im_expr : forall e m, means e m -> imeans (ItExpr e) (PExpr m)
| im_address : forall d b md mb, means d md -> bmeans b mb ->
    imeans (ItAddress d b) (PAddress mb md).

Inductive listed : list tok -> list (pitem mexpr) -> Prop :=
| li_one : forall i m, iproper i -> imeans i m -> listed (itext i) [m]
| li_more : forall i m c ts l, iproper i -> imeans i m -> tk c = KComma -> listed ts l ->
    listed (itext i ++ c :: ts) (m :: l).

Inductive nominal_text : list tok -> pnominal mexpr -> Prop :=
| nt_string : forall t s v, tk t = KStr s -> quoted v (list_ascii_of_string s) ->
    nominal_text [t] (PStr v)
| nt_list : forall p ts q l, tk p = KLpar -> tk q = KRpar -> listed ts l ->
    nominal_text (p :: ts ++ [q]) (PExprs l).

(** An operand: perhaps a duplication factor in parentheses, a word, up to three
    times an expression in parentheses with a word behind it, perhaps one more
    expression in parentheses, perhaps a nominal value.  An expression in
    parentheses at the very end is the nominal value. *)
Record form : Type := Form {
  factor : option bracket; first_word : list tok; pairs : list (bracket * list tok);
  last_ : option bracket; nominal_tokens : list tok
}.
Definition opt_text (b : option bracket) : list tok :=
  match b with Some b => btext b | None => [] end.
Fixpoint pairs_text (l : list (bracket * list tok)) : list tok :=
  match l with [] => [] | (b, w) :: l => btext b ++ w ++ pairs_text l end.
Definition ftext (o : form) : list tok :=
  opt_text (factor o) ++ first_word o ++ pairs_text (pairs o) ++ opt_text (last_ o) ++
  nominal_tokens o.

Definition opt_proper (b : option bracket) : Prop :=
  match b with Some b => bproper b | None => True end.
Definition fproper (o : form) : Prop :=
  opt_proper (factor o) /\ first_word o <> [] /\ (List.length (pairs o) <= 3)%nat /\
  Forall (fun p => bproper (fst p) /\ snd p <> []) (pairs o) /\
  opt_proper (last_ o) /\ (last_ o <> None -> nominal_tokens o <> []).

(** What is handed over: the text with & for every expression in parentheses and
    a space for the nominal value; the expressions; the nominal value. *)
Inductive opt_means : option bracket -> list ascii -> list mexpr -> Prop :=
| pm_none : opt_means None [] []
| pm_some : forall b e, bmeans b e -> opt_means (Some b) ["&"%char] [e].
Inductive pairs_mean : list (bracket * list tok) -> list ascii -> list mexpr -> Prop :=
| ps_none : pairs_mean [] [] []
| ps_more : forall b w l e fw f es, bmeans b e -> word_text w fw -> pairs_mean l f es ->
    pairs_mean ((b, w) :: l) ("&"%char :: fw ++ f) (e :: es).
Inductive nominal_means : list tok -> list ascii -> option (pnominal mexpr) -> Prop :=
| nm_none : nominal_means [] [] None
| nm_some : forall ts n, nominal_text ts n -> nominal_means ts [" "%char] (Some n).
Definition fmeans (o : form) (h : list ascii * list mexpr * option (pnominal mexpr)) : Prop :=
  exists f0 e0 f1 f2 e2 f3 e3 f4 n,
    opt_means (factor o) f0 e0 /\ word_text (first_word o) f1 /\ pairs_mean (pairs o) f2 e2 /\
    opt_means (last_ o) f3 e3 /\ nominal_means (nominal_tokens o) f4 n /\
    h = (f0 ++ f1 ++ f2 ++ f3 ++ f4, e0 ++ e2 ++ e3, n).

(** As an operand of a field. *)
Inductive dmeans (o : form) : dop -> Prop :=
| dm_def : forall h, fmeans o h -> dmeans o (DDef h).

(** ** Spellings of a definition *)

(** The lexer makes no word of nothing, and puts no ampersand and no space into
    one. *)
Definition lexed (ts : list tok) : Prop :=
  forall t w, In t ts -> spells_word (tk t) w ->
    w <> ""%string /\ ~ In "&"%char (list_ascii_of_string w) /\ ~ In " "%char (list_ascii_of_string w).

(** Words and expressions in parentheses, in any order; in the text an expression
    is an ampersand. *)
Inductive layout : list tok -> list ascii -> list mexpr -> Prop :=
| la_end : layout [] [] []
| la_word : forall t w ts f es, spells_word (tk t) w -> layout ts f es ->
    layout (t :: ts) (list_ascii_of_string w ++ f) es
| la_expr : forall b e ts f es, bproper b -> bmeans b e -> layout ts f es ->
    layout (btext b ++ ts) ("&"%char :: f) (e :: es).

(** The tokens of a definition: duplication factor, type, extension and modifiers
    as [head] (upper or lower case) says, then the nominal value if there is one. *)
Definition spells_as (head : definition mexpr -> list ascii -> list mexpr -> Prop)
    (d : definition mexpr) (ts : list tok) : Prop :=
  exists h nt s f es, ts = h ++ nt /\ layout h f es /\ head d s es /\ spelled f s /\
    match d_nom d with None => nt = [] | Some n => nominal_text nt n end.

Definition spells : definition mexpr -> list tok -> Prop := spells_as head_text.
(** The same, where modifiers may lack their values. *)
Definition spells_loosely : definition mexpr -> list tok -> Prop := spells_as loose_head.
