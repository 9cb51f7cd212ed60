(** The terms of operand fields: tokens to lexemes. *)
From Coq Require Import String Ascii List NArith ZArith Bool Arith Lia ZifyBool ZifyNat ZifyN.
From Verif Require Import Common Lex_Model Fld_Model Fld_Spec Fld_Lex Fld_Proof.
From Verif Require Import Gram_Model Gram_Spec Gram_Proof.
From Verif Require Ca_Model Ca_Spec CaNum_Proof CaStr_Proof Ca_Props Ebc_Spec Ebc_Model Ard_Model.
Import ListNotations.
Open Scope list_scope.
Notation length := List.length.

(** ** Lexemes take tokens away *)
Lemma more_shrinks : forall p ts hi x h r, more p hi ts = (x, h, r) -> length r <= length ts.
Proof.
  intros p ts. induction ts as [|t ts IH]; intros hi x h r E; cbn in E; [now injection E as <- <- <-|].
  destruct (p (lt t)); [|now injection E as <- <- <-].
  destruct (more p (l_hi t) ts) as ((x1 & h1) & r1) eqn:M. injection E as <- <- <-. apply IH in M. cbn [length]. lia.
Qed.
Lemma id_no_dot_shrinks : forall ts n h r, id_no_dot ts = Some (n, h, r) -> length r < length ts.
Proof.
  intros [|t ts] n h r E; [discriminate|]. cbn in E. destruct (lt t); try discriminate.
  destruct (more is_word (l_hi t) ts) as ((x1 & h1) & r1) eqn:M. injection E as <- <- <-. apply more_shrinks in M. cbn [length]. lia.
Qed.
Lemma id_shrinks : forall ts n h r, id ts = Some (n, h, r) -> length r < length ts.
Proof.
  intros ts n h r E. unfold id in E. destruct (id_no_dot ts) as [((n1 & h1) & r1)|] eqn:M; [|discriminate].
  apply id_no_dot_shrinks in M. destruct r1 as [|d r1]; [injection E as <- <- <-; exact M|].
  destruct (lt d); try (injection E as <- <- <-; exact M). apply id_no_dot_shrinks in E. cbn [length] in M. lia.
Qed.
Lemma string_shrinks : forall n ts x h r, length ts <= n -> string_rest ts = Some (x, h, r) -> length r < length ts.
Proof.
  induction n as [|n IH]; intros ts x h r L E; (destruct ts as [|t ts]; [discriminate|]); cbn [length] in L; [lia|].
  assert (Go : forall y q, length q <= length ts -> (match string_rest q with Some (z, h, r) => Some (y ++ z, h, r) | None => None end) = Some (x, h, r) -> length r < length (t :: ts)).
  { intros y q Lq Eq. destruct (string_rest q) as [((z & h1) & r1)|] eqn:M; [|discriminate]. injection Eq as <- <- <-.
    apply IH in M; [|lia]. cbn [length]. lia. }
  cbn [string_rest] in E. destruct (lt t); try discriminate; try (eapply Go; [|exact E]; lia).
  all: destruct ts as [|q ts]; [first [discriminate | injection E as <- <- <-; cbn; lia]|].
  all: try (destruct (is_quote (lt q)); [eapply Go; [|exact E]; cbn [length]; lia|injection E as <- <- <-; cbn [length]; lia]).
  destruct (lt q); try discriminate. eapply Go; [|exact E]. cbn [length]. lia.
Qed.
Lemma lexeme_shrinks : forall ts k r, lexeme ts = Some (k, r) -> length r < length ts.
Proof.
  intros [|t ts] k r E; [discriminate|].
  assert (Sy : match id (t :: ts) with Some (n, h, r') => Some (Tok (KId n) (l_lo t) h, r') | None => None end = Some (k, r) -> length r < length (t :: ts)).
  { intros X. destruct (id (t :: ts)) as [((n & h) & r1)|] eqn:M; [|discriminate]. injection X as <- <-. eapply id_shrinks, M. }
  unfold lexeme in E. destruct (lt t); try discriminate; try (injection E as <- <-; cbn [length]; lia).
  all: match type of E with
  | context[is_data_attr] =>
    destruct ts as [|q ts]; [now apply Sy|];
    destruct (lt q); try (now apply Sy);
    try (destruct (is_data_attr (ltx t)); [|discriminate]; destruct (id ts) as [((n & h) & r1)|] eqn:M; [|discriminate];
      injection E as <- <-; apply id_shrinks in M; cbn [length]; lia);
    destruct (string_rest ts) as [((x & h) & r1)|] eqn:M; [|discriminate]; destruct (self_def _ _); [|discriminate];
      injection E as <- <-; eapply string_shrinks in M; [|apply le_n]; cbn [length]; lia
  | context[more] => destruct (more _ (l_hi t) ts) as ((x & h) & r1) eqn:M; destruct (self_def _ _); [|discriminate];
    injection E as <- <-; apply more_shrinks in M; cbn [length]; lia
  | _ => destruct (string_rest ts) as [((x & h) & r1)|] eqn:M; [|discriminate];
    injection E as <- <-; eapply string_shrinks in M; [|apply le_n]; cbn [length]; lia
  end.
Qed.

Notation lexs ts := (lexemes (S (length ts)) ts).
Lemma lexemes_fuel : forall n m ts, length ts < n -> length ts < m -> lexemes n ts = lexemes m ts.
Proof.
  induction n as [|n IH]; intros m ts A B; [lia|]. destruct m as [|m]; [lia|]. cbn [lexemes].
  destruct ts as [|t ts]; [reflexivity|].
  destruct (lexeme (t :: ts)) as [(k & r)|] eqn:E; [|reflexivity].
  apply lexeme_shrinks in E. destruct (is_space k); [reflexivity|]. rewrite (IH m r) by lia. reflexivity.
Qed.
Lemma lexs_cons : forall ts k r ks x, lexeme ts = Some (k, r) -> is_space k = false ->
  lexs r = Some (ks, x) -> lexs ts = Some (k :: ks, x).
Proof.
  intros [|t ts] k r ks x E Nk Lr; [discriminate|]. cbn [lexemes].
  assert (Ne : lt t <> EOLLN) by (intros E2; cbn in E; rewrite E2 in E; discriminate).
  rewrite E, Nk. pose proof (lexeme_shrinks _ _ _ E). rewrite (lexemes_fuel _ (S (length r)) r) by lia. rewrite Lr.
  destruct (lt t); try reflexivity. congruence.
Qed.

(** ** What may stand behind an expression *)
Definition follows (r : list char) : Prop :=
  match r with [] => True | x :: _ => In x [43; 45; 42; 47; 40; 41; 44; 32]%N end.
Definition stops (t : ttype) : bool :=
  match t with EOLLN | SPACE | PLUS | MINUS | ASTERISK | SLASH | LPAR | RPAR | COMMA => true | _ => false end.
Lemma follow_no : forall r, follows r -> no_word r /\ no_quote r.
Proof. intros [|x r] H; [split; exact Logic.I|]. cbn in H. repeat destruct H as [<-|H]; try (split; [reflexivity|discriminate]). destruct H. Qed.
Lemma T_follow : forall v p r ts, follows r -> Toks v p r ts -> exists t ts', ts = t :: ts' /\ stops (lt t) = true.
Proof.
  intros v p r ts F H. destruct r as [|x r]; [apply T_nil in H; subst; eexists; eexists; split; reflexivity|].
  cbn in F. repeat destruct F as [<-|F]; try (eapply T_mark in H as (ts1 & -> & _); [|reflexivity]; eexists; eexists; split; reflexivity).
  - destruct (T_blank _ _ _ _ H) as (y & h & ts' & ->). eexists; eexists; split; reflexivity.
  - destruct F.
Qed.
Lemma more_stops : forall p hi t ts, stops (lt t) = true -> (forall k, p k = true -> is_word k = true) -> more p hi (t :: ts) = ([], hi, t :: ts).
Proof. intros p hi t ts H Hp. cbn. destruct (p (lt t)) eqn:E; [|reflexivity]. apply Hp in E. destruct (lt t); discriminate. Qed.

(** ** Symbols *)
Lemma ord_spec : forall c, letter c \/ national c \/ Fld_Spec.digit c -> ord_char c = true /\ word_char c = true.
Proof.
  intros c H. unfold letter, national, Fld_Spec.digit in H.
  assert (X : (48 <= c <= 57 \/ 65 <= c <= 90 \/ 97 <= c <= 122 \/ c = 95 \/ c = 64 \/ c = 36 \/ c = 35)%N) by lia. clear H.
  split.
  - unfold ord_char, Lex_Model.is_digit, is_letter, existsb. lia.
  - assert (D : divider c = false).
    { unfold divider. destruct c as [|c]; [lia|]. repeat (destruct c; try reflexivity; try lia). }
    unfold word_char. rewrite D. lia.
Qed.
Lemma symbol_class : forall n, symbol n -> n <> [] /\ forallb word_char n = true /\ class n = ORDSYMBOL.
Proof.
  intros [|c r] (H & L); [destruct H|]. destruct H as (A & B).
  assert (F : Forall (fun c => ord_char c = true /\ word_char c = true) (c :: r)).
  { constructor; [apply ord_spec; tauto|]. eapply Forall_impl; [|exact B]. intros y Hy. apply ord_spec, Hy. }
  split; [discriminate|]. split.
  - apply forallb_forall. rewrite Forall_forall in F. intros y I. apply F, I.
  - unfold class. replace (forallb ord_char (c :: r)) with true.
    2: { symmetry. apply forallb_forall. rewrite Forall_forall in F. intros y I. apply F, I. }
    replace (Lex_Model.is_digit c) with false by (unfold Lex_Model.is_digit, letter, national in *; lia).
    apply Nat.leb_le in L. change (@length char) with (@length N). rewrite L. reflexivity.
Qed.
Lemma name_named : forall n, name_of (map upper n) = named n.
Proof. induction n as [|c n IH]; [reflexivity|]. unfold named in *. cbn [map string_of_list_ascii name_of fold_right]. rewrite <- IH. reflexivity. Qed.

Lemma id_symbol : forall p n r ts, symbol n -> follows r -> Toks false p (n ++ r) ts ->
  exists ts', id ts = Some (named n, p + length n, ts') /\ Toks false (p + length n) r ts' /\
    ts = Lx ORDSYMBOL n p (p + length n) :: ts' /\ id_no_dot ts = Some (named n, p + length n, ts').
Proof.
  intros p n r ts S F H. destruct (symbol_class n S) as (N & W & C). destruct (follow_no r F) as (R & Q).
  destruct (T_word p n r ts N W R (or_intror Q) H) as (ts' & -> & T). rewrite C. exists ts'.
  change (@length char n) with (@length BinNums.N n) in *.
  destruct (T_follow _ _ _ _ F T) as (t & t2 & -> & St).
  assert (E : id_no_dot (Lx ORDSYMBOL n p (p + length n) :: t :: t2) = Some (named n, p + length n, t :: t2)).
  { unfold id_no_dot. cbn [lt ltx l_hi]. rewrite (more_stops is_word) by auto. rewrite app_nil_r, name_named. reflexivity. }
  split; [|auto]. unfold id. rewrite E. destruct (lt t); try discriminate; reflexivity.
Qed.

(** ** Values of terms *)
Lemma utf8_ascii : forall l, Forall (fun c => c < 128)%N l -> utf8 l = l.
Proof. induction 1 as [|c l H F IH]; [reflexivity|]. unfold utf8 in *. cbn [flat_map]. rewrite IH. unfold Ard_Model.encode. replace (c <? 128)%N with true by lia. reflexivity. Qed.
Lemma encode_utf8 : forall c, Ard_Model.encode c = Ebc_Spec.utf8 c.
Proof. reflexivity. Qed.
Lemma digits_ascii : forall (P : N -> Z -> Prop) s ds, (forall c d, P c d -> (c < 128)%N) -> Forall2 P s ds -> Forall (fun c => c < 128)%N s.
Proof. intros P s ds H F. induction F; constructor; eauto. Qed.
Lemma big_upper : forall c, Ca_Model.upper c = big c.
Proof. intros c. unfold Ca_Model.upper, big. reflexivity. Qed.
Lemma valued_self : forall t s v, valued t s v -> self_def [t] s = Some v.
Proof.
  intros t s v H. unfold self_def. destruct H as [t s ds B N D L|t s ds B N D L|t bs B N R L].
  - rewrite utf8_ascii.
    2: { eapply digits_ascii; [|exact D]. unfold Ca_Spec.hex_digit, Ca_Spec.upper_hex_digit. intros; lia. }
    unfold Ca_Model.self_defining. rewrite big_upper, B. cbn [N.eqb Pos.eqb]. rewrite (CaNum_Proof.X2A_digits _ _ D L). destruct s; [congruence|reflexivity].
  - rewrite utf8_ascii.
    2: { eapply digits_ascii; [|exact D]. unfold Ca_Spec.bin_digit. intros; lia. }
    unfold Ca_Model.self_defining. rewrite big_upper, B. cbn [N.eqb Pos.eqb]. rewrite (CaNum_Proof.B2A_digits _ _ D L). destruct s; [congruence|reflexivity].
  - unfold utf8. unfold Ca_Model.self_defining. rewrite big_upper, B. cbn [N.eqb Pos.eqb].
    assert (E : flat_map Ard_Model.encode (map (fun b => Ebc_Model.e2a (Z.to_N b)) bs) = flat_map (fun b => Ebc_Spec.utf8 (Ebc_Model.e2a (Z.to_N b))) bs).
    { clear. induction bs as [|b bs IH]; [reflexivity|]. cbn [map flat_map]. rewrite IH. reflexivity. }
    assert (L2 : length (flat_map (fun b => Ebc_Spec.utf8 (Ebc_Model.e2a (Z.to_N b))) bs) <= 4) by (rewrite <- E; exact L).
    rewrite E, (Ca_Props.C26_C2A bs R L2).
    destruct bs as [|b bs]; [congruence|]. cbn [flat_map]. unfold Ebc_Spec.utf8 at 1. repeat destruct (_ <? _)%N; reflexivity.
Qed.
Lemma number_self : forall d ds, d <> [] -> Forall2 Ca_Spec.dec_digit d ds -> (Ca_Spec.numeral 10 ds < 2147483648)%Z -> length d <= 11 ->
  self_def [68%N] d = Some (Ca_Spec.numeral 10 ds).
Proof.
  intros d ds N D M L. unfold self_def. rewrite utf8_ascii.
  2: { eapply digits_ascii; [|exact D]. unfold Ca_Spec.dec_digit. intros; lia. }
  unfold Ca_Model.self_defining. change (Ca_Model.upper 68) with 68%N. cbn [N.eqb Pos.eqb].
  assert (P : (0 <= Ca_Spec.numeral 10 ds)%Z).
  { clear M L N. induction D as [|c x d ds H D IH]; [cbn; lia|]. cbn [Ca_Spec.numeral]. destruct H as (_ & H).
    assert (0 <= 10 ^ Z.of_nat (length ds))%Z by (apply Z.pow_nonneg; lia). nia. }
  rewrite (CaNum_Proof.D2A_digits d (Ca_Spec.numeral 10 ds)).
  - destruct d; [congruence|reflexivity].
  - now constructor.
  - unfold Ca_Spec.int32. lia.
  - exact L.
Qed.
