(** * Cag_Proof: what is read is written so, and what is written can be read *)
From Coq Require Import List NArith ZArith Bool Arith Lia.
From Verif Require Import Common Cag_Model Cag_Spec.
Import ListNotations.

Section Sound.
Variable R : Type.
Local Notation orelse := (orelse R).
Local Notation res := (option R).

Lemma orelse_some : forall a b x, orelse a b = Some x -> a = Some x \/ b = Some x.
Proof. intros [y|] b x H; [left|right]; exact H. Qed.

Definition Ok {A} (f : list tok -> (A -> list tok -> res) -> res) (W : A -> list tok -> Prop) : Prop :=
  forall ts k x, f ts k = Some x -> exists a p r, ts = p ++ r /\ W a p /\ k a r = Some x.

Lemma spaces_some : forall ts k x, spaces R ts k = Some x -> exists i r, ts = blanks i ++ r /\ k r = Some x.
Proof.
  induction ts as [|t ts IH]; intros k x H; [exists 0, []; auto|].
  destruct t; try (exists 0; eexists; split; [reflexivity|exact H]).
  cbn [spaces] in H. apply orelse_some in H as [H|H].
  - apply IH in H as (i & r & -> & H). exists (S i), r. auto.
  - exists 0. eexists. split; [reflexivity|exact H].
Qed.
Lemma opt_space_some : forall ts k x, opt_space R ts k = Some x ->
  exists i r, i <= 1 /\ ts = blanks i ++ r /\ k r = Some x.
Proof.
  intros ts k x H. destruct ts as [|[] ts]; try (exists 0; eexists; split; [lia|split; [reflexivity|exact H]]).
  cbn [opt_space] in H. apply orelse_some in H as [H|H].
  - exists 1, ts. auto.
  - exists 0. eexists. split; [lia|split; [reflexivity|exact H]].
Qed.
Lemma rpar_some : forall ts k x, rpar R ts k = Some x -> exists r, ts = TRpar :: r /\ k r = Some x.
Proof. intros [|[] ts] k x H; try discriminate. exists ts. auto. Qed.

Definition rest_items (l l' : list cexpr) (p : list tok) : Prop :=
  (l' = l /\ p = []) \/ exists i m q, l' = l ++ m /\ p = blanks i ++ q /\ items true m q.

Definition all_ok (n : nat) : Prop :=
  (forall d, Ok (expr R n) (sum true d)) /\
  (forall d e, Ok (sum_loop R n e) (sums true d e)) /\
  (forall d, Ok (Cag_Model.prod R n) (prod true d)) /\
  (forall d e, Ok (prod_loop R n e) (prods true d e)) /\
  (forall d, Ok (Cag_Model.unary R n) (unary true d)) /\
  (forall d, Ok (Cag_Model.term R n) (term true d)) /\
  (Ok (expr_list R n) (fun e p => exists l, e = XList l /\ plist true l p)) /\
  (forall l, Ok (items_loop R n l) (rest_items l)) /\
  (forall d, Ok (ca_string R n) (fun e p => exists x a b, p = a ++ b /\ str true d x a /\ strs true x e b)) /\
  (forall e, Ok (string_loop R n e) (strs true e)) /\
  (forall d, Ok (string_b R n) (str true d)) /\
  (forall d, Ok (dupl R n) (dup true d)) /\
  (Ok (substring R n) (substr true)) /\
  (forall d, Ok (function R n) (fun e p => exists f m l a b, e = XCall f m l /\ p = a ++ TId f :: b /\ dup true d m a /\ args true l b)) /\
  (Ok (subscript_ne R n) (args true)) /\
  (Ok (Cag_Model.subscript R n) (subscript true)) /\
  (forall l, Ok (comma_list R n l) (fun l' p => exists m, l' = l ++ m /\ commas true m p)).

Ltac give a p r := exists a, p, r; split; [now rewrite <- ?app_assoc|split; [|assumption]].

Lemma sound : forall n, all_ok n.
Proof.
  induction n as [|n IH].
  { unfold all_ok, Ok. repeat apply conj; intros; discriminate. }
  destruct IH as (Hexpr & Hsum & Hprod & Hprods & Hun & Hterm & Hlist & Hitems & Hstr & Hstrs & Hstrb & Hdup & Hsub & Hfun &
                  Hargs & Hsubs & Hcom).
  unfold all_ok. split; [|split; [|split; [|split; [|split; [|split; [|split; [|split; [|split; [|split; [|split;
    [|split; [|split; [|split; [|split; [|split]]]]]]]]]]]]]]].
  - intros d ts k x H. cbn [expr] in H. apply (Hprod d) in H as (e & p & r & -> & W & H).
    apply (Hsum d) in H as (e' & p' & r' & -> & W' & H). give e' (p ++ p') r'. econstructor; eauto.
  - intros d e ts k x H. cbn [sum_loop] in H.
    assert (Z : k e ts = Some x -> exists a p r, ts = p ++ r /\ sums true d e a p /\ k a r = Some x)
      by (intros Z; exists e, [], ts; split; [reflexivity|split; [constructor|exact Z]]).
    destruct ts as [|[] ts]; auto.
    + apply orelse_some in H as [H|H]; [|auto]. apply (Hprod d) in H as (e1 & p & r & -> & W & H).
      apply (Hsum d) in H as (e' & p' & r' & -> & W' & H). exists e', (TPlus :: p ++ p'), r'.
      split; [cbn; now rewrite <- app_assoc|split; [|assumption]]. eapply sums_add; eauto.
    + apply orelse_some in H as [H|H]; [|auto]. apply (Hprod d) in H as (e1 & p & r & -> & W & H).
      apply (Hsum d) in H as (e' & p' & r' & -> & W' & H). exists e', (TMinus :: p ++ p'), r'.
      split; [cbn; now rewrite <- app_assoc|split; [|assumption]]. eapply sums_sub; eauto.
  - intros d ts k x H. cbn [Cag_Model.prod] in H. apply (Hun d) in H as (e & p & r & -> & W & H).
    apply (Hprods d) in H as (e' & p' & r' & -> & W' & H). give e' (p ++ p') r'. econstructor; eauto.
  - intros d e ts k x H. cbn [prod_loop] in H.
    assert (Z : k e ts = Some x -> exists a p r, ts = p ++ r /\ prods true d e a p /\ k a r = Some x)
      by (intros Z; exists e, [], ts; split; [reflexivity|split; [constructor|exact Z]]).
    destruct ts as [|[] ts]; auto.
    + apply orelse_some in H as [H|H]; [|auto]. apply (Hun d) in H as (e1 & p & r & -> & W & H).
      apply (Hprods d) in H as (e' & p' & r' & -> & W' & H). exists e', (TStar :: p ++ p'), r'.
      split; [cbn; now rewrite <- app_assoc|split; [|assumption]]. eapply prods_mul; eauto.
    + apply orelse_some in H as [H|H]; [|auto]. apply (Hun d) in H as (e1 & p & r & -> & W & H).
      apply (Hprods d) in H as (e' & p' & r' & -> & W' & H). exists e', (TSlash :: p ++ p'), r'.
      split; [cbn; now rewrite <- app_assoc|split; [|assumption]]. eapply prods_div; eauto.
  - intros d ts k x H. cbn [Cag_Model.unary] in H.
    assert (Z : Cag_Model.term R n ts k = Some x -> exists a p r, ts = p ++ r /\ unary true d a p /\ k a r = Some x).
    { intros Z. apply (Hterm d) in Z as (e & p & r & -> & W & Z). give e p r. now apply unary_t. }
    destruct ts as [|[] ts]; auto.
    + apply (Hun d) in H as (e & p & r & -> & W & H). exists (XUn UPlus e), (TPlus :: p), r.
      split; [reflexivity|split; [|exact H]]. now apply unary_plus.
    + apply (Hun d) in H as (e & p & r & -> & W & H). exists (XUn UMinus e), (TMinus :: p), r.
      split; [reflexivity|split; [|exact H]]. now apply unary_minus.
  - intros d ts k x H. cbn [Cag_Model.term] in H.
    assert (Zs : ca_string R n ts k = Some x -> exists a p r, ts = p ++ r /\ term true d a p /\ k a r = Some x).
    { intros Z. apply (Hstr d) in Z as (e & p & r & -> & (y & a & b & -> & W1 & W2) & Z). give e (a ++ b) r.
      eapply term_string; eauto. }
    assert (Zf : function R n ts k = Some x -> exists a p r, ts = p ++ r /\ term true d a p /\ k a r = Some x).
    { intros Z. apply (Hfun d) in Z as (e & p & r & -> & (f & m & l & a & b & -> & -> & W1 & W2) & Z).
      exists (XCall f m l), (a ++ TId f :: b), r. split; [reflexivity|split; [|exact Z]]. now apply term_call. }
    destruct ts as [|[] ts]; try discriminate; auto.
    + apply orelse_some in H as [H|H].
      * apply Hlist in H as (e & p & r & E & (l & -> & W) & H). exists (XList l), p, r. split; [exact E|split; [|exact H]].
        now apply term_list.
      * apply orelse_some in H as [H|H]; auto.
    + apply Hsubs in H as (l & p & r & -> & W & H). exists (XVar v l), (TVar v :: p), r.
      split; [reflexivity|split; [now apply term_var|exact H]].
    + exists (XConst v), [TConst v], ts. split; [reflexivity|split; [apply term_const|exact H]].
    + destruct ts as [|[] ts]; try discriminate.
      * apply Hsubs in H as (l & p & r & -> & W & H). exists (XAttr a (XVar v l)), (TAttr a :: TVar v :: p), r.
        split; [reflexivity|split; [now apply term_attr_var|exact H]].
      * exists (XAttr a (XSym n0)), [TAttr a; TId n0], ts. split; [reflexivity|split; [apply term_attr|exact H]].
    + apply orelse_some in H as [H|H]; [auto|].
      exists (XSym n0), [TId n0], ts. split; [reflexivity|split; [apply term_sym|exact H]].
  - intros ts k x H. cbn [expr_list] in H. destruct ts as [|[] ts]; try discriminate.
    apply spaces_some in H as (i & r & -> & H). apply (Hexpr false) in H as (e & p & r1 & -> & W & H).
    apply Hitems in H as (l & q & r2 & -> & W2 & H). apply spaces_some in H as (j & r3 & -> & H).
    apply rpar_some in H as (r4 & -> & H).
    exists (XList l), (TLpar :: blanks i ++ (p ++ q) ++ blanks j ++ [TRpar]), r4.
    split; [cbn; rewrite <- !app_assoc; reflexivity|split; [|exact H]]. exists l. split; [reflexivity|]. apply plist_i.
    destruct W2 as [[-> ->]|(i2 & m & q2 & -> & -> & W2)].
    + rewrite app_nil_r. now apply items_one.
    + cbn [app]. apply items_more; auto.
  - intros l ts k x H. cbn [items_loop] in H. apply orelse_some in H as [H|H].
    + apply spaces_some in H as (i & r & -> & H). apply (Hexpr false) in H as (e & p & r1 & -> & W & H).
      apply Hitems in H as (l' & q & r2 & -> & W2 & H). exists l', (blanks i ++ p ++ q), r2.
      split; [now rewrite <- !app_assoc|split; [|exact H]]. right. destruct W2 as [[-> ->]|(j & m & q2 & -> & -> & W2)].
      * exists i, [e], p. rewrite app_nil_r. split; [reflexivity|split; [reflexivity|now apply items_one]].
      * exists i, (e :: m), (p ++ blanks j ++ q2). rewrite <- app_assoc. split; [reflexivity|split; [reflexivity|]].
        apply items_more; auto.
    + exists l, [], ts. split; [reflexivity|split; [now left|exact H]].
  - intros d ts k x H. cbn [ca_string] in H. apply (Hstrb d) in H as (e & p & r & -> & W & H).
    apply Hstrs in H as (e' & p' & r' & -> & W' & H). give e' (p ++ p') r'. exists e, p, p'. auto.
  - intros e ts k x H. cbn [string_loop] in H.
    assert (Z : k e ts = Some x -> exists a p r, ts = p ++ r /\ strs true e a p /\ k a r = Some x)
      by (intros Z; exists e, [], ts; split; [reflexivity|split; [constructor|exact Z]]).
    destruct ts as [|[] ts]; auto.
    apply orelse_some in H as [H|H]; [|auto]. apply (Hstrb true) in H as (e1 & p & r & -> & W & H).
    apply Hstrs in H as (e' & p' & r' & -> & W' & H). exists e', (TDot :: p ++ p'), r'.
    split; [cbn; now rewrite <- app_assoc|split; [|assumption]]. eapply strs_more; eauto.
  - intros d ts k x H. cbn [string_b] in H. apply (Hdup d) in H as (m & p & r & -> & W & H).
    destruct r as [|[] r]; try discriminate. apply Hsub in H as (u & q & r' & -> & W' & H).
    exists (XStr m s u), (p ++ TStr s :: q), r'. split; [now rewrite <- app_assoc|split; [|exact H]]. now apply str_i.
  - intros d ts k x H. cbn [dupl] in H.
    assert (Z : k None ts = Some x -> exists a p r, ts = p ++ r /\ dup true d a p /\ k a r = Some x)
      by (intros Z; exists None, [], ts; split; [reflexivity|split; [constructor|exact Z]]).
    destruct ts as [|[] ts]; auto. apply orelse_some in H as [H|H]; [|auto].
    apply (Hexpr true) in H as (e & p & r & -> & W & H). apply rpar_some in H as (r' & -> & H).
    exists (Some e), (TLpar :: p ++ [TRpar]), r'. split; [cbn; now rewrite <- app_assoc|split; [|exact H]]. apply dup_some; auto.
  - intros ts k x H. cbn [substring] in H.
    assert (Z : k None ts = Some x -> exists a p r, ts = p ++ r /\ substr true a p /\ k a r = Some x)
      by (intros Z; exists None, [], ts; split; [reflexivity|split; [constructor|exact Z]]).
    destruct ts as [|[] ts]; auto. apply orelse_some in H as [H|H]; [|apply orelse_some in H as [H|H]; [|auto]].
    + apply (Hexpr true) in H as (e1 & p & r & -> & W & H). destruct r as [|[] r]; try discriminate.
      apply (Hexpr true) in H as (e2 & p2 & r2 & -> & W2 & H). apply rpar_some in H as (r' & -> & H).
      exists (Some (e1, Some e2)), (TLpar :: p ++ TComma :: p2 ++ [TRpar]), r'.
      split; [cbn; rewrite <- app_assoc; cbn; now rewrite <- app_assoc|split; [|exact H]]. now apply substr_two.
    + apply (Hexpr true) in H as (e1 & p & r & -> & W & H). destruct r as [|[] r]; try discriminate.
      destruct r as [|[] r]; try discriminate. apply rpar_some in H as (r' & -> & H).
      exists (Some (e1, None)), (TLpar :: p ++ [TComma; TStar; TRpar]), r'.
      split; [cbn; now rewrite <- app_assoc|split; [|exact H]]. now apply substr_rest.
  - intros d ts k x H. cbn [function] in H. apply (Hdup d) in H as (m & p & r & -> & W & H).
    destruct r as [|[] r]; try discriminate. apply Hargs in H as (l & q & r' & -> & W' & H).
    exists (XCall n0 m l), (p ++ TId n0 :: q), r'. split; [now rewrite <- app_assoc|split; [|exact H]].
    exists n0, m, l, p, q. auto.
  - intros ts k x H. cbn [subscript_ne] in H. destruct ts as [|[] ts]; try discriminate.
    apply orelse_some in H as [H|H].
    + apply opt_space_some in H as (i & r & Hi & -> & H). apply (Hexpr true) in H as (e & p & r1 & -> & W & H).
      apply opt_space_some in H as (j & r2 & Hj & -> & H). apply rpar_some in H as (r' & -> & H).
      exists [e], (TLpar :: blanks i ++ p ++ blanks j ++ [TRpar]), r'.
      split; [cbn; now rewrite <- !app_assoc|split; [|exact H]]. now apply args_one.
    + apply (Hexpr true) in H as (e & p & r1 & -> & W & H). destruct r1 as [|[] r1]; try discriminate.
      apply Hcom in H as (l & q & r2 & -> & (m & -> & W2) & H). apply rpar_some in H as (r' & -> & H).
      exists (e :: m), (TLpar :: p ++ TComma :: q ++ [TRpar]), r'.
      split; [cbn; rewrite <- app_assoc; cbn; now rewrite <- app_assoc|split; [|exact H]]. now apply args_more.
  - intros ts k x H. cbn [Cag_Model.subscript] in H.
    assert (Z : k [] ts = Some x -> exists a p r, ts = p ++ r /\ subscript true a p /\ k a r = Some x)
      by (intros Z; exists [], [], ts; split; [reflexivity|split; [constructor|exact Z]]).
    destruct ts as [|[] ts]; auto. apply orelse_some in H as [H|H]; [|auto].
    apply Hcom in H as (l & q & r & -> & (m & -> & W2) & H). apply rpar_some in H as (r' & -> & H).
    exists m, (TLpar :: q ++ [TRpar]), r'. split; [cbn; now rewrite <- app_assoc|split; [|exact H]]. now apply sub_some.
  - intros l ts k x H. cbn [comma_list] in H. apply (Hexpr true) in H as (e & p & r & -> & W & H).
    assert (Z : k (l ++ [e]) r = Some x -> exists a p0 r0, p ++ r = p0 ++ r0 /\ (exists m, a = l ++ m /\ commas true m p0) /\ k a r0 = Some x).
    { intros Z. exists (l ++ [e]), p, r. split; [reflexivity|split; [|exact Z]]. exists [e]. split; [reflexivity|now apply commas_one]. }
    destruct r as [|[] r]; auto. apply orelse_some in H as [H|H]; [|auto].
    apply Hcom in H as (l' & q & r' & -> & (m & -> & W2) & H). exists ((l ++ [e]) ++ m), (p ++ TComma :: q), r'.
    split; [now rewrite <- app_assoc|split; [|exact H]]. exists (e :: m). split; [now rewrite <- app_assoc|]. now apply commas_more.
Qed.
End Sound.

(** ** Brackets *)

(** The text before the first comma or closing parenthesis that no opening parenthesis in it belongs to, and what
    begins there. *)
Fixpoint cut (D : nat) (ts : list tok) : option (list tok * list tok) :=
  match ts with
  | [] => None
  | t :: r =>
    let put D := match cut D r with Some (a, b) => Some (t :: a, b) | None => None end in
    match t with
    | TLpar => put (S D)
    | TRpar => match D with 0 => Some ([], ts) | S D' => put D' end
    | TComma => match D with 0 => Some ([], ts) | S _ => put D end
    | _ => put D
    end
  end.
Definition pre (p : list tok) (o : option (list tok * list tok)) : option (list tok * list tok) :=
  match o with Some (a, b) => Some (p ++ a, b) | None => None end.
Definition closed (p : list tok) : Prop := forall D r, cut D (p ++ r) = pre p (cut D r).
Definition inner (p : list tok) : Prop := forall D r, cut (S D) (p ++ r) = pre p (cut (S D) r).

Lemma pre_app : forall p q o, pre p (pre q o) = pre (p ++ q) o.
Proof. intros p q [[a b]|]; cbn; [now rewrite app_assoc|reflexivity]. Qed.
Lemma closed_nil : closed [].
Proof. intros D r. cbn. now destruct (cut D r) as [[a b]|]. Qed.
Lemma closed_app : forall p q, closed p -> closed q -> closed (p ++ q).
Proof. intros p q A B D r. rewrite <- app_assoc, A, B. apply pre_app. Qed.
Lemma inner_app : forall p q, inner p -> inner q -> inner (p ++ q).
Proof. intros p q A B D r. rewrite <- app_assoc, A, B. apply pre_app. Qed.
Lemma closed_inner : forall p, closed p -> inner p.
Proof. intros p A D r. apply A. Qed.
Lemma inner_comma : inner [TComma].
Proof. intros D r. reflexivity. Qed.
Lemma closed_par : forall p, inner p -> closed (TLpar :: p ++ [TRpar]).
Proof.
  intros p A D r. cbn. rewrite <- app_assoc, A. cbn. destruct (cut D r) as [[a b]|]; cbn; [|reflexivity].
  now rewrite <- app_assoc.
Qed.
Definition plain (t : tok) : bool := match t with TLpar | TRpar | TComma => false | _ => true end.
Lemma closed_tok : forall t, plain t = true -> closed [t].
Proof. intros t H D r. destruct t; try discriminate; reflexivity. Qed.
Lemma closed_cons : forall t p, plain t = true -> closed p -> closed (t :: p).
Proof. intros t p H C. apply (closed_app [t] p); [now apply closed_tok|exact C]. Qed.
Lemma closed_blanks : forall i, closed (blanks i).
Proof. induction i; [apply closed_nil|]. now apply closed_cons. Qed.

Definition halt (t : tok) : Prop := t = TComma \/ t = TRpar.
Lemma cut_closed : forall p t r, closed p -> halt t -> cut 0 (p ++ t :: r) = Some (p, t :: r).
Proof. intros p t r C [-> | ->]; rewrite C; cbn; now rewrite app_nil_r. Qed.
Lemma cut_same : forall p t r p' t' r', closed p -> closed p' -> halt t -> halt t' ->
  p ++ t :: r = p' ++ t' :: r' -> p = p' /\ t = t' /\ r = r'.
Proof.
  intros p t r p' t' r' C C' T T' E. pose proof (cut_closed p t r C T) as A. rewrite E, (cut_closed p' t' r' C' T') in A.
  injection A as -> -> ->. auto.
Qed.

(** What an expression may begin with. *)
Definition starter (t : tok) : bool :=
  match t with TPlus | TMinus | TLpar | TVar _ | TStr _ | TConst _ | TAttr _ | TId _ => true | _ => false end.
Definition starts (p : list tok) : Prop := match p with t :: _ => starter t = true | [] => False end.
Lemma starts_app : forall p q, starts p -> starts (p ++ q).
Proof. intros [|t p] q H; [destruct H|exact H]. Qed.

Section Shape.
Variable loose : bool.
Lemma shape :
  (forall d e p, sum loose d e p -> closed p /\ starts p) /\
  (forall d e x p, sums loose d e x p -> closed p) /\
  (forall d e p, prod loose d e p -> closed p /\ starts p) /\
  (forall d e x p, prods loose d e x p -> closed p) /\
  (forall d e p, unary loose d e p -> closed p /\ starts p) /\
  (forall d e p, term loose d e p -> closed p /\ starts p) /\
  (forall l p, plist loose l p -> closed p /\ starts p) /\
  (forall l p, items loose l p -> closed p /\ starts p) /\
  (forall d e p, str loose d e p -> closed p /\ starts p) /\
  (forall e x p, strs loose e x p -> closed p) /\
  (forall d m p, dup loose d m p -> closed p) /\
  (forall u p, substr loose u p -> closed p) /\
  (forall l p, args loose l p -> closed p) /\
  (forall l p, subscript loose l p -> closed p) /\
  (forall l p, commas loose l p -> inner p /\ starts p).
Proof.
  apply written_ind; intros;
    repeat match goal with H : closed _ /\ starts _ |- _ => destruct H | H : inner _ /\ starts _ |- _ => destruct H end.
  all: try (split; [|first [apply starts_app; assumption | reflexivity]]).
  all: try apply closed_nil.
  all: try (apply closed_app; assumption).
  all: try (apply closed_cons; [reflexivity|]; apply closed_app; assumption).
  all: try (apply closed_cons; [reflexivity|]; assumption).
  all: try assumption.
  all: try (apply closed_tok; reflexivity).
  all: try (split; assumption).
  - apply closed_cons; [reflexivity|now apply closed_tok].
  - apply closed_cons; [reflexivity|now apply closed_cons].
  - split; [apply closed_app; [assumption|now apply closed_cons]|].
    match goal with H : dup _ _ _ _ |- _ => inversion H; subst; reflexivity end.
  - rewrite !app_assoc. apply closed_par, closed_inner. repeat apply closed_app; auto using closed_blanks.
  - repeat apply closed_app; auto using closed_blanks.
  - split; [apply closed_app; [assumption|now apply closed_cons]|].
    match goal with H : dup _ _ _ _ |- _ => inversion H; subst; reflexivity end.
  - apply closed_par, closed_inner. assumption.
  - change (TLpar :: a ++ TComma :: b ++ [TRpar]) with (TLpar :: a ++ ([TComma] ++ b) ++ [TRpar]). rewrite app_assoc.
    apply closed_par. auto using inner_app, closed_inner, inner_comma.
  - change (TLpar :: a ++ [TComma; TStar; TRpar]) with (TLpar :: a ++ [TComma; TStar] ++ [TRpar]). rewrite app_assoc.
    apply closed_par. apply inner_app; [now apply closed_inner|]. intros D r. cbn. now destruct (cut (S D) r) as [[? ?]|].
  - rewrite !app_assoc. apply closed_par, closed_inner. repeat apply closed_app; auto using closed_blanks.
  - change (TLpar :: a ++ TComma :: b ++ [TRpar]) with (TLpar :: a ++ ([TComma] ++ b) ++ [TRpar]). rewrite app_assoc.
    apply closed_par. auto using inner_app, closed_inner, inner_comma.
  - now apply closed_par.
  - split; [now apply closed_inner|assumption].
  - change (a ++ TComma :: b) with (a ++ [TComma] ++ b). auto using inner_app, closed_inner, inner_comma.
Qed.
End Shape.

Lemma sum_closed : forall loose d e p, sum loose d e p -> closed p.
Proof. intros loose d e p H. now apply (shape loose) in H. Qed.
Lemma sum_starts : forall loose d e p, sum loose d e p -> starts p.
Proof. intros loose d e p H. now apply (shape loose) in H. Qed.
Lemma items_closed : forall loose l p, items loose l p -> closed p.
Proof. intros loose l p H. now apply (shape loose) in H. Qed.
Lemma items_starts : forall loose l p, items loose l p -> starts p.
Proof. intros loose l p H. now apply (shape loose) in H. Qed.

(** A list in parentheses, or a duplication factor, is cut off at its closing parenthesis. *)
Lemma plist_cut : forall loose l p, plist loose l p -> exists a, closed a /\ p = TLpar :: a ++ [TRpar].
Proof.
  intros loose l p H. inversion H; subst. exists (blanks i ++ a ++ blanks j).
  split; [repeat apply closed_app; auto using closed_blanks; eapply items_closed; eauto|now rewrite <- !app_assoc].
Qed.
Lemma dup_cut : forall loose d m p, dup loose d m p ->
  (m = None /\ p = []) \/ exists e a, m = Some e /\ closed a /\ p = TLpar :: a ++ [TRpar].
Proof.
  intros loose d m p H. inversion H; subst; [now left|]. right. exists e, a. split; [reflexivity|split; [|reflexivity]].
  eapply sum_closed; eauto.
Qed.
Lemma par_same : forall a r a' r', closed a -> closed a' ->
  (TLpar :: a ++ [TRpar]) ++ r = (TLpar :: a' ++ [TRpar]) ++ r' -> a = a' /\ r = r'.
Proof.
  intros a r a' r' C C' E. cbn in E. rewrite <- !app_assoc in E. cbn in E. injection E as E.
  apply cut_same in E; unfold halt; tauto.
Qed.
