(** * Gram_Spec: what an operand means, by how it is written

    The specification starts from the other end: from trees whose leaves are the
    tokens, with [text] the tokens from left to right.  A tree is [proper] when
    its operators stand where the usual rules put them: * and / bind tighter than
    + and -, operators of one rank are applied from left to right, signs belong to
    the term behind them. *)
From Coq Require Import String List ZArith Bool.
From Verif Require Import Gram_Model.
Import ListNotations.
Open Scope list_scope.

(** ** Expressions *)
Inductive tree : Type :=
| Leaf (t : tok)
| Sign (t : tok) (e : tree)
| Paren (p : tok) (e : tree) (q : tok)
| Infix (l : tree) (t : tok) (r : tree).

Fixpoint text (e : tree) : list tok :=
  match e with
  | Leaf t => [t]
  | Sign t e => t :: text e
  | Paren p e q => p :: text e ++ [q]
  | Infix l t r => text l ++ t :: text r
  end.

(** 1: sum, 2: product, 3: the rest *)
Definition rank_of (k : kind) : nat :=
  match k with KPlus | KMinus => 1 | KStar | KSlash => 2 | _ => 0 end.

Definition rank (e : tree) : nat :=
  match e with Infix _ t _ => rank_of (tk t) | _ => 3 end.

Inductive term_kind : kind -> Prop :=
| tk_id : forall n, term_kind (KId n)
| tk_num : forall s v, term_kind (KNum s v)
| tk_self : forall v, term_kind (KSelf v)
| tk_attr : forall a s, term_kind (KAttr a s)
| tk_lit : term_kind KLit
| tk_loc : term_kind KStar.

Fixpoint proper (e : tree) : Prop :=
  match e with
  | Leaf t => term_kind (tk t)
  | Sign t e => (tk t = KPlus \/ tk t = KMinus) /\ rank e = 3 /\ proper e
  | Paren p e q => tk p = KLpar /\ tk q = KRpar /\ proper e
  | Infix l t r =>
      (1 <= rank_of (tk t))%nat /\ (rank_of (tk t) <= rank l)%nat /\
      (rank_of (tk t) < rank r)%nat /\ proper l /\ proper r
  end.

(** First and last token of a tree. *)
Fixpoint first_tok (e : tree) : tok :=
  match e with
  | Leaf t => t | Sign t _ => t | Paren p _ _ => p | Infix l _ _ => first_tok l
  end.
Fixpoint last_tok (e : tree) : tok :=
  match e with
  | Leaf t => t | Sign _ e => last_tok e | Paren _ _ q => q | Infix _ _ r => last_tok r
  end.

(** Every operation covers the source from its first to its last token. *)
Definition covers (e : tree) : span := (lo (first_tok e), hi (last_tok e)).

Inductive leaf_means : kind -> span -> mexpr -> Prop :=
| lm_id : forall n r, leaf_means (KId n) r (MAtom (ASymbol n) r)
| lm_num : forall s v r, leaf_means (KNum s v) r (MAtom (AConstant v) r)
| lm_self : forall v r, leaf_means (KSelf v) r (MAtom (AConstant v) r)
| lm_attr : forall a s r, leaf_means (KAttr a s) r (MAtom (AAttribute a s) r)
| lm_lit : forall r, leaf_means KLit r (MAtom (AConstant 0) r)
| lm_loc : forall r, leaf_means KStar r (MLocation r).

Inductive sign_means : kind -> uop -> Prop :=
| sm_plus : sign_means KPlus UPlus
| sm_minus : sign_means KMinus UMinus.

Inductive infix_means : kind -> bop -> Prop :=
| im_plus : infix_means KPlus OAdd
| im_minus : infix_means KMinus OSub
| im_star : infix_means KStar OMul
| im_slash : infix_means KSlash ODiv.

Inductive means : tree -> mexpr -> Prop :=
| me_leaf : forall t m, leaf_means (tk t) (covers (Leaf t)) m -> means (Leaf t) m
| me_sign : forall t e o m, sign_means (tk t) o -> means e m ->
    means (Sign t e) (MUnary o m (covers (Sign t e)))
| me_paren : forall p e q m, means e m ->
    means (Paren p e q) (MUnary UPar m (covers (Paren p e q)))
| me_infix : forall l t r o ml mr, infix_means (tk t) o -> means l ml -> means r mr ->
    means (Infix l t r) (MBinary o ml mr (covers (Infix l t r))).

(** ** Machine operands *)
Inductive otree : Type :=
| OtExpr (e : tree)
| OtB (d : tree) (p : tok) (b : tree) (q : tok)                        (* D(B) *)
| OtXB (d : tree) (p : tok) (x : tree) (c : tok) (b : tree) (q : tok)  (* D(X,B) *)
| Ot_B (d : tree) (p : tok) (c : tok) (b : tree) (q : tok)             (* D(,B) *)
| OtX_ (d : tree) (p : tok) (x : tree) (c : tok) (q : tok).            (* D(X,) *)

Definition otext (o : otree) : list tok :=
  match o with
  | OtExpr e => text e
  | OtB d p b q => text d ++ p :: text b ++ [q]
  | OtXB d p x c b q => text d ++ p :: text x ++ c :: text b ++ [q]
  | Ot_B d p c b q => text d ++ p :: c :: text b ++ [q]
  | OtX_ d p x c q => text d ++ p :: text x ++ [c; q]
  end.

Definition oproper (o : otree) : Prop :=
  match o with
  | OtExpr e => proper e
  | OtB d p b q => proper d /\ tk p = KLpar /\ proper b /\ tk q = KRpar
  | OtXB d p x c b q =>
      proper d /\ tk p = KLpar /\ proper x /\ tk c = KComma /\ proper b /\ tk q = KRpar
  | Ot_B d p c b q => proper d /\ tk p = KLpar /\ tk c = KComma /\ proper b /\ tk q = KRpar
  | OtX_ d p x c q => proper d /\ tk p = KLpar /\ proper x /\ tk c = KComma /\ tk q = KRpar
  end.

Inductive omeans : otree -> mop -> Prop :=
| om_expr : forall e m, means e m -> omeans (OtExpr e) (OpExpr m (covers e))
| om_b : forall d p b q md mb, means d md -> means b mb ->
    omeans (OtB d p b q)
      (OpAddress md None (Some mb) ONE_OP (lo (first_tok d), hi q))
| om_xb : forall d p x c b q md mx mb, means d md -> means x mx -> means b mb ->
    omeans (OtXB d p x c b q)
      (OpAddress md (Some mx) (Some mb) PRESENT (lo (first_tok d), hi q))
| om__b : forall d p c b q md mb, means d md -> means b mb ->
    omeans (Ot_B d p c b q)
      (OpAddress md None (Some mb) FIRST_OMITTED (lo (first_tok d), hi q))
| om_x_ : forall d p x c q md mx, means d md -> means x mx ->
    omeans (OtX_ d p x c q)
      (OpAddress md (Some mx) None SECOND_OMITTED (lo (first_tok d), hi q)).

(** ** Lists of operands

    [Listed wf txt mean none eof ts l]: the tokens [ts] are operands separated by
    commas, followed by nothing or by a space and anything; an operand may be
    omitted, it then stands where the next token starts. *)
Section Lists.
  Variables (T A : Type).
  Variable txt : T -> list tok.
  Variable wf : T -> Prop.
  Variable mean : T -> A -> Prop.
  Variable none : pos -> A.

  Definition start (eof : pos) (ts : list tok) : pos :=
    match ts with [] => eof | t :: _ => lo t end.

  Definition field_end (ts : list tok) : Prop :=
    match ts with [] => True | t :: _ => tk t = KSpace end.

  Inductive Listed (eof : pos) : list tok -> list A -> Prop :=
  | ls_last : forall o a rest, wf o -> mean o a -> field_end rest ->
      Listed eof (txt o ++ rest) [a]
  | ls_omitted_last : forall rest, field_end rest ->
      Listed eof rest [none (start eof rest)]
  | ls_more : forall o a c ts l, wf o -> mean o a -> tk c = KComma ->
      Listed eof ts l -> Listed eof (txt o ++ c :: ts) (a :: l)
  | ls_omitted : forall c ts l, tk c = KComma ->
      Listed eof ts l -> Listed eof (c :: ts) (none (lo c) :: l).
End Lists.

(** ** Assembler operands *)
Inductive ctree : Type :=
| CtOne (t : tok)
| CtNone
| CtCall (t : tok) (p : tok) (l : clist) (q : tok)
with clist : Type :=
| ClOne (c : ctree)
| ClCons (c : ctree) (k : tok) (l : clist).

Fixpoint ctext (c : ctree) : list tok :=
  match c with
  | CtOne t => [t]
  | CtNone => []
  | CtCall t p l q => t :: p :: cltext l ++ [q]
  end
with cltext (l : clist) : list tok :=
  match l with
  | ClOne c => ctext c
  | ClCons c k l => ctext c ++ k :: cltext l
  end.

(** [cmeans next c m]: [next] is the position of the token behind the
    component. *)
Inductive cmeans : pos -> ctree -> comp -> Prop :=
| cm_str : forall nx t s, tk t = KStr s -> cmeans nx (CtOne t) (CStr s (lo t, hi t))
| cm_id : forall nx t s, tk t = KId s -> cmeans nx (CtOne t) (CStr s (lo t, hi t))
| cm_num : forall nx t s v, tk t = KNum s v -> cmeans nx (CtOne t) (CInt v (lo t, hi t))
| cm_none : forall nx, cmeans nx CtNone (CStr "" (nx, nx))
| cm_call : forall nx t s p l q ms, tk t = KId s -> tk p = KLpar -> tk q = KRpar ->
    clmeans (lo q) l ms ->
    cmeans nx (CtCall t p l q) (CComposite s ms (lo t, hi q))
with clmeans : pos -> clist -> list comp -> Prop :=
| clm_one : forall nx c m, cmeans nx c m -> clmeans nx (ClOne c) [m]
| clm_cons : forall nx c k l m ms, cmeans (lo k) c m -> tk k = KComma ->
    clmeans nx l ms -> clmeans nx (ClCons c k l) (m :: ms).

Inductive atree : Type :=
| AtCall (t p : tok) (l : clist) (q : tok)              (* name(...) *)
| AtTriple (p a c1 b c2 c q : tok)                      (* (word,word,word) *)
| AtUsing (p : tok) (b : tree) (c : tok) (e : tree) (q : tok)  (* (base,end) *)
| AtExpr (e : tree)
| AtStr (t : tok).

Definition atext (a : atree) : list tok :=
  match a with
  | AtCall t p l q => t :: p :: cltext l ++ [q]
  | AtTriple p a c1 b c2 c q => [p; a; c1; b; c2; c; q]
  | AtUsing p b c e q => p :: text b ++ c :: text e ++ [q]
  | AtExpr e => text e
  | AtStr t => [t]
  end.

Inductive word_text : kind -> string -> Prop :=
| wt_id : forall s, word_text (KId s) s
| wt_word : forall s, word_text (KWord s) s
| wt_num : forall s v, word_text (KNum s v) s.

Definition aproper (a : atree) : Prop :=
  match a with
  | AtUsing p b c e q =>
      tk p = KLpar /\ proper b /\ tk c = KComma /\ proper e /\ tk q = KRpar
  | AtExpr e => proper e
  | AtTriple p a c1 b c2 c q =>
      tk p = KLpar /\ tk c1 = KComma /\ tk c2 = KComma /\ tk q = KRpar
  | _ => True
  end.

Inductive ameans : atree -> aop -> Prop :=
| am_call : forall t s p l q ms, tk t = KId s -> tk p = KLpar -> tk q = KRpar ->
    clmeans (lo q) l ms -> ameans (AtCall t p l q) (AsComplex s ms (lo t, hi q))
| am_triple : forall p a c1 b c2 c q sa sb sc,
    word_text (tk a) sa -> word_text (tk b) sb -> word_text (tk c) sc ->
    ameans (AtTriple p a c1 b c2 c q)
      (AsComplex "" [CStr sa (lo a, hi a); CStr sb (lo b, hi b); CStr sc (lo c, hi c)]
         (lo p, hi q))
| am_using : forall p b c e q mb me, means b mb -> means e me ->
    ameans (AtUsing p b c e q) (AsUsing mb me (lo p, hi q))
| am_expr : forall e m, means e m -> ameans (AtExpr e) (AsExpr m (covers e))
| am_str : forall t s, tk t = KStr s -> ameans (AtStr t) (AsString s (lo t, hi t)).
