(** * Cag_Strict: a text written strictly is read as it is written *)
From Coq Require Import List NArith ZArith Bool Arith Lia.
From Coq Require Import ZifyBool ZifyNat.
From Verif Require Import Common Cag_Model Cag_Spec Cag_Proof.
Import ListNotations.

Definition fol_t (r : list tok) : Prop := match r with (TDot | TLpar) :: _ => False | _ => True end.
Definition fol_p (r : list tok) : Prop := match r with (TDot | TLpar | TStar | TSlash) :: _ => False | _ => True end.
Definition fol_s (r : list tok) : Prop :=
  match r with (TDot | TLpar | TStar | TSlash | TPlus | TMinus) :: _ => False | _ => True end.
Definition wordy (r : list tok) : Prop := match r with (TStr _ | TId _) :: _ => True | _ => False end.
Lemma fol_s_p : forall r, fol_s r -> fol_p r.
Proof. intros [|[] r]; cbn; tauto. Qed.
Lemma fol_p_t : forall r, fol_p r -> fol_t r.
Proof. intros [|[] r]; cbn; tauto. Qed.

Section Strict.
Variable R : Type.
Local Notation orelse := (orelse R).
Definition kf {A} (k : A -> list tok -> option R) : Prop := forall e r, wordy r -> k e r = None.

Lemma orelse_left : forall a b x, a = Some x -> orelse a b = Some x.
Proof. intros a b x ->. reflexivity. Qed.
Lemma orelse_right : forall a b x, a = None -> b = Some x -> orelse a b = Some x.
Proof. intros a b x -> H. exact H. Qed.
Lemma none_intro : forall (a : option R), (forall x, a = Some x -> False) -> a = None.
Proof. intros [y|] H; [destruct (H y eq_refl)|reflexivity]. Qed.

Lemma spaces_all : forall i r k x, k r = Some x -> match r with TSpace :: _ => False | _ => True end ->
  spaces R (blanks i ++ r) k = Some x.
Proof.
  induction i as [|i IH]; intros r k x H T.
  - cbn [blanks repeat app]. destruct r as [|[] r]; try destruct T; exact H.
  - cbn. now apply orelse_left, IH.
Qed.
Lemma starts_no_space : forall p r, starts p -> match p ++ r with TSpace :: _ => False | _ => True end.
Proof. intros [|[] p] r H; cbn in *; try exact I; try discriminate. destruct H. Qed.

(** No expression begins here. *)
Lemma expr_none : forall n ts k, (match ts with t :: _ => starter t = false | [] => True end) -> expr R n ts k = None.
Proof.
  intros n ts k H. apply none_intro. intros x E. destruct (sound R n) as (A & _).
  apply (A true) in E as (e & p & r & -> & W & _). apply sum_starts in W. destruct p; [destruct W|].
  cbn in *. congruence.
Qed.
(** No list, for the text continues behind the parenthesis in a way the continuation refuses. *)
Lemma expr_list_none : forall n a r k, closed a -> (forall l, k (XList l) r = None) ->
  expr_list R n ((TLpar :: a ++ [TRpar]) ++ r) k = None.
Proof.
  intros n a r k C K. apply none_intro. intros x E. destruct (sound R n) as (_ & _ & _ & _ & _ & _ & A & _).
  apply A in E as (e & p & r' & Ep & (l & -> & W) & E). apply plist_cut in W as (a' & C' & ->).
  apply par_same in Ep as [_ ->]; auto. now rewrite K in E.
Qed.
Lemma expr_list_none' : forall n t ts k, t <> TLpar -> expr_list R n (t :: ts) k = None.
Proof. intros [|n] t ts k H; [reflexivity|]. destruct t; try reflexivity. now destruct H. Qed.
Lemma ca_string_none : forall n a f r k, closed a -> ca_string R n ((TLpar :: a ++ [TRpar]) ++ TId f :: r) k = None.
Proof.
  intros n a f r k C. apply none_intro. intros x E. destruct (sound R n) as (_ & _ & _ & _ & _ & _ & _ & _ & A & _).
  apply (A true) in E as (e & p & r' & Ep & (y & u & v & -> & W & _) & E). inversion W; subst.
  match goal with H : dup _ _ _ _ |- _ => apply dup_cut in H as [[-> ->]|(e1 & a' & -> & C' & ->)] end.
  - discriminate.
  - rewrite <- !app_assoc in Ep. apply par_same in Ep as [_ Ep]; auto. discriminate.
Qed.

Definition Psum (d : bool) (e : cexpr) (p : list tok) : Prop := forall n rest k x,
  10 * length p <= n -> fol_s rest -> (d = true -> kf k) -> k e rest = Some x -> expr R n (p ++ rest) k = Some x.
Definition Psums (d : bool) (acc e : cexpr) (p : list tok) : Prop := forall n rest k x,
  10 * length p + 1 <= n -> fol_s rest -> (d = true -> kf k) -> k e rest = Some x ->
  sum_loop R n acc (p ++ rest) k = Some x.
Definition Pprod (d : bool) (e : cexpr) (p : list tok) : Prop := forall n rest k x,
  10 * length p - 1 <= n -> fol_p rest -> (d = true -> kf k) -> k e rest = Some x -> Cag_Model.prod R n (p ++ rest) k = Some x.
Definition Pprods (d : bool) (acc e : cexpr) (p : list tok) : Prop := forall n rest k x,
  10 * length p + 1 <= n -> fol_p rest -> (d = true -> kf k) -> k e rest = Some x ->
  prod_loop R n acc (p ++ rest) k = Some x.
Definition Punary (d : bool) (e : cexpr) (p : list tok) : Prop := forall n rest k x,
  10 * length p - 2 <= n -> fol_t rest -> (d = true -> kf k) -> k e rest = Some x -> Cag_Model.unary R n (p ++ rest) k = Some x.
Definition Pterm (d : bool) (e : cexpr) (p : list tok) : Prop := forall n rest k x,
  10 * length p - 3 <= n -> fol_t rest -> (d = true -> kf k) -> k e rest = Some x -> Cag_Model.term R n (p ++ rest) k = Some x.
Definition Pplist (l : list cexpr) (p : list tok) : Prop := forall n rest k x,
  10 * length p - 4 <= n -> k (XList l) rest = Some x -> expr_list R n (p ++ rest) k = Some x.
Definition Pitems (l : list cexpr) (p : list tok) : Prop := forall n m j r k x,
  10 * length p <= n -> k (m ++ l) (blanks j ++ TRpar :: r) = Some x ->
  expr R n (p ++ blanks j ++ TRpar :: r) (fun e r => items_loop R n (m ++ [e]) r k) = Some x.
Definition Pstr (d : bool) (e : cexpr) (p : list tok) : Prop := forall n rest k x,
  10 * length p - 5 <= n -> match rest with TLpar :: _ => False | _ => True end -> k e rest = Some x ->
  string_b R n (p ++ rest) k = Some x.
Definition Pstrs (acc e : cexpr) (p : list tok) : Prop := forall n rest k x,
  10 * length p + 1 <= n -> fol_t rest -> k e rest = Some x -> string_loop R n acc (p ++ rest) k = Some x.
Definition Pdup (d : bool) (m : option cexpr) (p : list tok) : Prop := forall n rest k x,
  10 * length p + 1 <= n -> match rest with TLpar :: _ => False | _ => True end -> k m rest = Some x ->
  dupl R n (p ++ rest) k = Some x.
Definition Psubstr (u : option (cexpr * option cexpr)) (p : list tok) : Prop := forall n rest k x,
  10 * length p + 1 <= n -> match rest with TLpar :: _ => False | _ => True end -> k u rest = Some x ->
  substring R n (p ++ rest) k = Some x.
Definition Pargs (l : list cexpr) (p : list tok) : Prop := forall n rest k x,
  10 * length p <= n -> k l rest = Some x -> subscript_ne R n (p ++ rest) k = Some x.
Definition Psubscript (l : list cexpr) (p : list tok) : Prop := forall n rest k x,
  10 * length p + 1 <= n -> match rest with TLpar :: _ => False | _ => True end -> k l rest = Some x ->
  Cag_Model.subscript R n (p ++ rest) k = Some x.
Definition Pcommas (l : list cexpr) (p : list tok) : Prop := forall n m r k x,
  10 * length p + 1 <= n -> kf k -> k (m ++ l) (TRpar :: r) = Some x -> comma_list R n m (p ++ TRpar :: r) k = Some x.

Lemma kf_sum_loop : forall n (k : cexpr -> list tok -> option R), kf k -> kf (fun e r => sum_loop R n e r k).
Proof. intros [|n] k K e r H; [reflexivity|]. destruct r as [|[] r]; try destruct H; cbn [sum_loop]; now apply K. Qed.
Lemma kf_prod_loop : forall n (k : cexpr -> list tok -> option R), kf k -> kf (fun e r => prod_loop R n e r k).
Proof. intros [|n] k K e r H; [reflexivity|]. destruct r as [|[] r]; try destruct H; cbn [prod_loop]; now apply K. Qed.
Lemma kf_rpar : forall A (f : A -> list tok -> option R), kf (fun e r => rpar R r (fun r' => f e r')).
Proof. intros A f e r H. destruct r as [|[] r]; try destruct H; reflexivity. Qed.
Lemma sum_len : forall d e p, sum false d e p -> 1 <= length p.
Proof. intros d e p H. apply sum_starts in H. destruct p; [destruct H|cbn; lia]. Qed.

Ltac len := do 4 (rewrite ?app_length in *; cbn [length] in *); lia.

Lemma strict :
  (forall d e p, sum false d e p -> Psum d e p) /\
  (forall d e x p, sums false d e x p -> Psums d e x p) /\
  (forall d e p, prod false d e p -> Pprod d e p) /\
  (forall d e x p, prods false d e x p -> Pprods d e x p) /\
  (forall d e p, unary false d e p -> Punary d e p) /\
  (forall d e p, term false d e p -> Pterm d e p) /\
  (forall l p, plist false l p -> Pplist l p) /\
  (forall l p, items false l p -> Pitems l p) /\
  (forall d e p, str false d e p -> Pstr d e p) /\
  (forall e x p, strs false e x p -> Pstrs e x p) /\
  (forall d m p, dup false d m p -> Pdup d m p) /\
  (forall u p, substr false u p -> Psubstr u p) /\
  (forall l p, args false l p -> Pargs l p) /\
  (forall l p, subscript false l p -> Psubscript l p) /\
  (forall l p, commas false l p -> Pcommas l p).
Proof.
  destruct (shape false) as (_ & _ & Sprod & _ & Sun & _ & _ & _ & Sstr & _).
  assert (L : forall p, starts p -> 1 <= length p) by (intros [|t p] H; [destruct H|cbn; lia]).
  apply written_ind.
  - intros d y a e b Wa Ha Wb Hb n rest k x N F K E. apply Sprod in Wa as Sa. destruct Sa as [_ Sa]. apply L in Sa.
    destruct n as [|n]; [len|]. cbn [expr]. rewrite <- app_assoc. apply Ha; [len| | |].
    + inversion Wb; subst; try exact I. now apply fol_s_p.
    + intros D. apply kf_sum_loop. auto.
    + apply Hb; auto. len.
  - intros d e n rest k x N F K E. destruct n as [|n]; [len|]. cbn [app sum_loop].
    destruct rest as [|[] rest]; try destruct F; exact E.
  - intros d acc y a e b Wa Ha Wb Hb n rest k x N F K E. destruct n as [|n]; [len|]. cbn [app sum_loop].
    rewrite <- app_assoc. apply orelse_left. apply Ha; [len| | |].
    + inversion Wb; subst; try exact I. now apply fol_s_p.
    + intros D e' r' H. apply kf_sum_loop with (e := XBin OAdd acc e'); auto.
    + apply Hb; auto. len.
  - intros d acc y a e b Wa Ha Wb Hb n rest k x N F K E. destruct n as [|n]; [len|]. cbn [app sum_loop].
    rewrite <- app_assoc. apply orelse_left. apply Ha; [len| | |].
    + inversion Wb; subst; try exact I. now apply fol_s_p.
    + intros D e' r' H. apply kf_sum_loop with (e := XBin OSub acc e'); auto.
    + apply Hb; auto. len.
  - intros d y a e b Wa Ha Wb Hb n rest k x N F K E. apply Sun in Wa as Sa. destruct Sa as [_ Sa]. apply L in Sa.
    destruct n as [|n]; [len|]. cbn [Cag_Model.prod]. rewrite <- app_assoc. apply Ha; [len| | |].
    + inversion Wb; subst; try exact I. now apply fol_p_t.
    + intros D. apply kf_prod_loop. auto.
    + apply Hb; auto. len.
  - intros d e n rest k x N F K E. destruct n as [|n]; [len|]. cbn [app prod_loop].
    destruct rest as [|[] rest]; try destruct F; exact E.
  - intros d acc y a e b Wa Ha Wb Hb n rest k x N F K E. destruct n as [|n]; [len|]. cbn [app prod_loop].
    rewrite <- app_assoc. apply orelse_left. apply Ha; [len| | |].
    + inversion Wb; subst; try exact I. now apply fol_p_t.
    + intros D e' r' H. apply kf_prod_loop with (e := XBin OMul acc e'); auto.
    + apply Hb; auto. len.
  - intros d acc y a e b Wa Ha Wb Hb n rest k x N F K E. destruct n as [|n]; [len|]. cbn [app prod_loop].
    rewrite <- app_assoc. apply orelse_left. apply Ha; [len| | |].
    + inversion Wb; subst; try exact I. now apply fol_p_t.
    + intros D e' r' H. apply kf_prod_loop with (e := XBin ODiv acc e'); auto.
    + apply Hb; auto. len.
  - (* unary *)
    intros d e a Wa Ha n rest k x N F K E. assert (Sa : starts a) by (apply unary_t in Wa; apply Sun in Wa; apply Wa).
    assert (Sl := L _ Sa). destruct n as [|n]; [len|].
    assert (T : Cag_Model.term R n (a ++ rest) k = Some x) by (apply Ha; auto; len). cbn [Cag_Model.unary].
    inversion Wa; subst; try exact T;
      try match goal with H : plist _ _ _ |- _ => inversion H; subst; exact T end;
      try match goal with H : str _ _ _ _ |- _ => inversion H; subst end;
      match goal with H : dup _ _ _ _ |- _ => inversion H; subst; exact T end.
  - intros d e a Wa Ha n rest k x N F K E. destruct n as [|n]; [len|]. cbn [app Cag_Model.unary].
    apply Sun in Wa as [_ Sa]. apply L in Sa. apply Ha; auto; [len|]. intros D e' r' H. now apply K.
  - intros d e a Wa Ha n rest k x N F K E. destruct n as [|n]; [len|]. cbn [app Cag_Model.unary].
    apply Sun in Wa as [_ Sa]. apply L in Sa. apply Ha; auto; [len|]. intros D e' r' H. now apply K.
  - (* term: list *)
    intros d l a Wa Ha n rest k x N F K E. assert (Hl : expr_list R (n - 1) (a ++ rest) k = Some x) by (apply Ha; auto; len).
    inversion Wa; subst. destruct n as [|n]; [len|]. cbn [app Cag_Model.term]. apply orelse_left.
    replace (S n - 1) with n in Hl by lia. exact Hl.
  - intros d v l a Wa Ha n rest k x N F K E. destruct n as [|n]; [len|]. cbn [app Cag_Model.term].
    apply Ha; [len| |exact E]. destruct rest as [|[] rest]; auto.
  - (* term: string *)
    intros d y a e b Wa Ha Wb Hb n rest k x N F K E.
    assert (Hs : ca_string R (n - 1) (a ++ b ++ rest) k = Some x).
    { assert (Sa : starts a) by (apply Sstr in Wa; apply Wa). apply L in Sa.
      destruct n as [|[|n]]; [len|len|]. cbn [Nat.sub ca_string]. apply Ha; [len| |].
      - inversion Wb; subst; cbn; auto. destruct rest as [|[] rest]; auto.
      - apply Hb; auto. len. }
    rewrite <- app_assoc. inversion Wa; subst.
    match goal with H : dup _ _ _ _ |- _ => inversion H; subst end.
    + destruct n as [|n]; [len|]. replace (S n - 1) with n in Hs by lia. exact Hs.
    + match goal with H : false = true \/ d = true |- _ => destruct H as [H|Hd]; [discriminate|] end.
      match goal with H : sum false true e0 _ |- _ => apply sum_closed in H as C end.
      destruct n as [|n]; [len|]. replace (S n - 1) with n in Hs by lia. cbn [app Cag_Model.term]. apply orelse_right.
      * rewrite <- app_assoc. apply expr_list_none; [exact C|]. intros l. apply (K Hd). exact I.
      * now apply orelse_left.
  - intros d a s n rest k x N F K E. destruct n as [|n]; [len|]. exact E.
  - intros d a v l b Wb Hb n rest k x N F K E. destruct n as [|n]; [len|]. cbn [app Cag_Model.term].
    apply Hb; [len| |exact E]. destruct rest as [|[] rest]; auto.
  - intros d v n rest k x N F K E. destruct n as [|n]; [len|]. exact E.
  - (* term: function *)
    intros d f m l a b Wa Ha Wb Hb n rest k x N F K E.
    assert (Hs : function R (n - 1) (a ++ TId f :: b ++ rest) k = Some x).
    { destruct n as [|[|n]]; [len|len|]. cbn [Nat.sub function]. apply Ha; [len|exact I|]. apply Hb; [len|exact E]. }
    rewrite <- app_assoc. cbn [app]. inversion Wa; subst.
    + destruct n as [|n]; [len|]. replace (S n - 1) with n in Hs by lia. cbn [app Cag_Model.term]. now apply orelse_left.
    + match goal with H : false = true \/ d = true |- _ => destruct H as [H|Hd]; [discriminate|] end.
      match goal with H : sum false true e _ |- _ => apply sum_closed in H as C end.
      destruct n as [|n]; [len|]. replace (S n - 1) with n in Hs by lia. cbn [app Cag_Model.term]. apply orelse_right.
      * apply expr_list_none; [exact C|]. intros l0. apply (K Hd). exact I.
      * apply orelse_right; [now apply ca_string_none|exact Hs].
  - intros d s n rest k x N F K E. destruct n as [|n]; [len|]. cbn [app Cag_Model.term]. apply orelse_right; [|exact E].
    destruct n as [|[|n]]; try reflexivity. cbn [function dupl]. destruct rest as [|[] rest]; try destruct F; reflexivity.
  - (* list *)
    intros i l a j Wa Ha n rest k x N E. destruct n as [|n]; [len|]. cbn [app expr_list]. rewrite <- !app_assoc. cbn [app].
    apply spaces_all; [|apply starts_no_space; eapply items_starts; eauto].
    apply (Ha n []); [len|]. cbn [app]. now apply spaces_all.
  - intros e a Wa Ha n m j r k x N E. apply Ha; [len|now destruct j|discriminate|]. assert (Sl := sum_len _ _ _ Wa).
    destruct n as [|n]; [len|]. cbn [items_loop]. apply orelse_right; [|exact E].
    apply none_intro. intros y H. apply spaces_some in H as (i & r' & Er & H). rewrite expr_none in H; [discriminate|].
    clear -Er. revert i Er. induction j as [|j IH]; intros [|i] Er; cbn in Er; try (rewrite <- Er; reflexivity);
      try discriminate; injection Er as Er. now apply IH in Er.
  - intros e a i l b Wa Ha Hi Wb Hb n m j r k x N E. destruct Hi as [Hi|Hi]; [discriminate|]. destruct i as [|i]; [lia|].
    assert (Sl := sum_len _ _ _ Wa). rewrite <- !app_assoc. apply Ha; [len|exact I|discriminate|].
    destruct n as [|n]; [len|]. cbn [items_loop]. apply orelse_left.
    apply spaces_all; [|apply starts_no_space; eapply items_starts; eauto].
    apply Hb; [len|]. now rewrite <- app_assoc.
  - (* string *)
    intros d m s u a b Wa Ha Wb Hb n rest k x N F E. destruct n as [|n]; [len|]. cbn [string_b].
    rewrite <- app_assoc. apply Ha; [len|exact I|]. cbn [app]. apply Hb; [len|exact F|exact E].
  - intros e n rest k x N F E. destruct n as [|n]; [len|]. cbn [app string_loop].
    destruct rest as [|[] rest]; try destruct F; exact E.
  - intros acc y a e b Wa Ha Wb Hb n rest k x N F E. destruct n as [|n]; [len|]. cbn [app string_loop].
    rewrite <- app_assoc. apply orelse_left. apply Ha; [len| |].
    + inversion Wb; subst; cbn; auto. destruct rest as [|[] rest]; auto.
    + apply Hb; auto. len.
  - intros d n rest k x N F E. destruct n as [|n]; [len|]. cbn [app dupl].
    destruct rest as [|[] rest]; try destruct F; exact E.
  - intros d e a Hd Wa Ha n rest k x N F E. destruct n as [|n]; [len|]. cbn [app dupl]. apply orelse_left.
    rewrite <- app_assoc. apply Ha; [len|exact I|intros _; apply kf_rpar|]. exact E.
  - intros n rest k x N F E. destruct n as [|n]; [len|]. cbn [app substring].
    destruct rest as [|[] rest]; try destruct F; exact E.
  - intros e1 a e2 b Wa Ha Wb Hb n rest k x N F E. destruct n as [|n]; [len|]. cbn [app substring]. apply orelse_left.
    rewrite <- app_assoc. cbn [app]. apply Ha; [len|exact I| |].
    + intros _ e r H. destruct r as [|[] r]; try destruct H; reflexivity.
    + rewrite <- app_assoc. apply Hb; [len|exact I|intros _; apply kf_rpar|exact E].
  - intros e a Wa Ha n rest k x N F E. destruct n as [|n]; [len|]. cbn [app substring].
    rewrite <- app_assoc. cbn [app]. apply orelse_right; [|apply orelse_left].
    + apply none_intro. intros y H. destruct (sound R n) as (Sn & _). apply (Sn true) in H as (e1 & p & r & Ep & W1 & H).
      destruct r as [|[] r]; try discriminate. apply cut_same in Ep as (-> & _ & <-);
        try (unfold halt; tauto); try (eapply sum_closed; eassumption). rewrite expr_none in H; [discriminate|reflexivity].
    + apply Ha; [len|exact I| |exact E]. intros _ e' r H. destruct r as [|[] r]; try destruct H; reflexivity.
  - (* arguments *)
    intros i e a j Hi Hj Wa Ha n rest k x N E. destruct n as [|n]; [len|]. cbn [app subscript_ne]. apply orelse_left.
    rewrite <- !app_assoc. cbn [app].
    assert (Z : expr R n (a ++ blanks j ++ TRpar :: rest)
      (fun e r => opt_space R r (fun r => rpar R r (fun r => k [e] r))) = Some x).
    { apply Ha; [len|now destruct j as [|[|j]]| |].
      - intros _ e' r H. destruct r as [|[] r]; try destruct H; reflexivity.
      - destruct j as [|[|j]]; [exact E| |lia]. cbn. rewrite E. reflexivity. }
    destruct i as [|[|i]]; [| |lia].
    + cbn [blanks repeat app]. apply sum_starts in Wa. destruct a as [|[] a]; try discriminate; try destruct Wa; exact Z.
    + cbn [blanks repeat app opt_space]. now apply orelse_left.
  - intros e a l b Wa Ha Wb Hb n rest k x N E. destruct n as [|n]; [len|]. cbn [app subscript_ne].
    rewrite <- app_assoc. cbn [app]. apply orelse_right.
    + apply none_intro. intros y H. apply opt_space_some in H as (i & r & Hi & Er & H).
      destruct (sound R n) as (Sn & _). apply (Sn true) in H as (e1 & p & r1 & -> & W1 & H).
      apply opt_space_some in H as (j & r2 & Hj & -> & H). apply rpar_some in H as (r3 & -> & H).
      rewrite !app_assoc, <- (app_assoc (blanks i)) in Er. rewrite (app_assoc (blanks i)) in Er.
      apply cut_same in Er as (_ & X & _); try (unfold halt; tauto); try discriminate.
      * eapply sum_closed; eassumption.
      * repeat apply closed_app; auto using closed_blanks. eapply sum_closed; eassumption.
    + apply Ha; [len|exact I| |].
      * intros _ e' r H. destruct r as [|[] r]; try destruct H; reflexivity.
      * rewrite <- app_assoc. apply Hb; [len|apply kf_rpar|exact E].
  - intros n rest k x N F E. destruct n as [|n]; [len|]. cbn [app Cag_Model.subscript].
    destruct rest as [|[] rest]; try destruct F; exact E.
  - intros l b Wb Hb n rest k x N F E. destruct n as [|n]; [len|]. cbn [app Cag_Model.subscript]. apply orelse_left.
    rewrite <- app_assoc. apply Hb; [len|apply kf_rpar|exact E].
  - intros e a Wa Ha n m r k x N K E. destruct n as [|n]; [len|]. cbn [comma_list]. apply Ha; [len|exact I| |exact E].
    intros _ e' r' H. destruct r' as [|[] r']; try destruct H; now apply K.
  - intros e a l b Wa Ha Wb Hb n m r k x N K E. destruct n as [|n]; [len|]. cbn [comma_list]. rewrite <- app_assoc. cbn [app].
    apply Ha; [len|exact I| |].
    + intros _ e' r' H. destruct r' as [|[] r']; try destruct H; now apply K.
    + apply orelse_left. apply Hb; [len|exact K|]. now rewrite <- app_assoc.
Qed.
End Strict.
