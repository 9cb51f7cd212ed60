(** * Mop_Proof: the reader of macro operands reads the trees of the specification *)
From Coq Require Import List NArith ZArith Bool Lia.
From Verif Require Import Common Sub_Model Mac_Model Mop_Model Mop_Spec.
Import ListNotations.

Scheme its_ind2 := Induction for its Sort Prop
  with parts_ind2 := Induction for parts Sort Prop.
Combined Scheme its_parts_ind from its_ind2, parts_ind2.

Definition stops (ts : list mtok) : Prop :=
  match ts with [] | TComma :: _ | TRpar :: _ | TSpace _ :: _ => True | _ => False end.

Lemma str_complete : forall b z rest, Forall in_string b -> (z = TApo \/ z = TAttr) ->
  str_body (b ++ z :: rest) = Some (map point_of b, rest).
Proof.
  induction b as [|t b IH]; intros z rest Hb Hz.
  - destruct Hz; subst; reflexivity.
  - inversion Hb as [|? ? Ht Hb']; subst.
    destruct t; cbn [app str_body]; try (now destruct Ht); rewrite (IH z rest Hb' Hz); reflexivity.
Qed.

Lemma str_sound : forall ts c rest, Forall word ts -> str_body ts = Some (c, rest) ->
  exists b z, Forall in_string b /\ (z = TApo \/ z = TAttr) /\ ts = b ++ z :: rest /\ c = map point_of b.
Proof.
  induction ts as [|t ts IH]; intros c rest Hw E; [discriminate|].
  inversion Hw as [|? ? Ht Hw']; subst.
  assert (C : (t = TApo \/ t = TAttr) \/ in_string t) by (destruct t; cbn in *; auto).
  destruct C as [C|C].
  - exists [], t. assert (E' : Some ([], ts) = Some (c, rest)) by (destruct C; subst; exact E).
    injection E' as <- <-. repeat split; auto.
  - assert (exists c', str_body ts = Some (c', rest) /\ c = point_of t :: c') as (c' & E1 & ->).
    { destruct t; cbn [str_body] in E; try (now destruct C);
        (destruct (str_body ts) as [[c' r']|]; [|discriminate]; injection E as <- <-; eexists; split; reflexivity). }
    destruct (IH c' rest Hw' E1) as (b & z & Hb & Hz & -> & ->).
    exists (t :: b), z. repeat split; auto.
Qed.

Lemma len_app : forall A (a b : list A), length (a ++ b) = (length a + length b)%nat.
Proof. intros. apply app_length. Qed.

Lemma complete :
  (forall i, proper i -> forall n rest, stops rest -> (2 * length (itext i ++ rest) + 1 <= n)%nat ->
     chars n (itext i ++ rest) = Some (chain_of i, rest)) /\
  (forall p, pproper p -> forall n rest, (2 * length (ptext p ++ TRpar :: rest) + 2 <= n)%nat ->
     items n (ptext p ++ TRpar :: rest) = Some (chains_of p, rest)).
Proof.
  apply its_parts_ind.
  - intros _ n rest Hs Hn. destruct n as [|n]; [lia|]. cbn [itext app chars].
    destruct rest as [|[] rest]; cbn in Hs; try contradiction; reflexivity.
  - intros t r IH [Ht Hr] n rest Hs Hn. destruct n as [|n]; [lia|].
    cbn [itext app length] in Hn |- *.
    assert (E : chars n (itext r ++ rest) = Some (chain_of r, rest)) by (apply IH; auto; lia).
    destruct t; cbn in Ht; try contradiction; cbn [chars]; rewrite E; reflexivity.
  - intros a b z r IH (Ha & Hb & Hz & Hr) n rest Hs Hn. destruct n as [|n]; [lia|]. subst a.
    cbn [itext app length] in Hn |- *. rewrite <- app_assoc in Hn |- *. cbn [app] in Hn |- *.
    rewrite len_app in Hn. cbn [length] in Hn.
    cbn [chars]. rewrite (str_complete b z (itext r ++ rest) Hb Hz).
    rewrite IH by (auto; lia). cbn [before chain_of]. destruct Hz; subst z;
    (f_equal; f_equal; cbn [point_of app]; rewrite <- app_assoc; reflexivity).
  - intros p IHp r IHr [Hp Hr] n rest Hs Hn. destruct n as [|n]; [lia|].
    cbn [itext app length] in Hn |- *. rewrite <- app_assoc in Hn |- *. cbn [app] in Hn |- *.
    cbn [chars]. rewrite IHp by (auto; lia).
    rewrite len_app in Hn. cbn [length] in Hn.
    rewrite IHr by (auto; lia). reflexivity.
  - intros i IH Hi n rest Hn. destruct n as [|n]; [lia|]. cbn [ptext items] in *.
    rewrite IH by (cbn; auto; lia). reflexivity.
  - intros i IHi p IHp [Hi Hp] n rest Hn. destruct n as [|n]; [lia|]. cbn [ptext items] in *.
    rewrite <- app_assoc in Hn |- *. cbn [app] in Hn |- *.
    rewrite IHi by (cbn; auto; lia). rewrite len_app in Hn. cbn [length] in Hn.
    rewrite IHp by (auto; lia). reflexivity.
Qed.

Lemma sound : forall n,
  (forall ts c rest, Forall word ts -> chars n ts = Some (c, rest) ->
     exists i, proper i /\ ts = itext i ++ rest /\ c = chain_of i /\ stops rest) /\
  (forall ts l rest, Forall word ts -> items n ts = Some (l, rest) ->
     exists p, pproper p /\ ts = ptext p ++ TRpar :: rest /\ l = chains_of p).
Proof.
  induction n as [|n [IHc IHi]]; [split; intros; discriminate|]. split.
  - intros ts c rest Hw E. cbn [chars] in E.
    destruct ts as [|t r]; [injection E as <- <-; exists INil; repeat split|].
    inversion Hw as [|? ? Ht Hw']; subst.
    assert (P : plain_tok t -> before [point_of t] (chars n r) = Some (c, rest) ->
      exists i, proper i /\ t :: r = itext i ++ rest /\ c = chain_of i /\ stops rest).
    { intros Pt E'. destruct (chars n r) as [[c' r']|] eqn:E1; [|discriminate].
      injection E' as <- <-. destruct (IHc _ _ _ Hw' E1) as (i & Hi & -> & -> & Hs).
      exists (ITok t i). repeat split; auto. }
    assert (Q : Some ([], t :: r) = Some (c, rest) -> stops (t :: r) ->
      exists i, proper i /\ t :: r = itext i ++ rest /\ c = chain_of i /\ stops rest).
    { intros E' Hs. injection E' as <- <-. exists INil. repeat split; auto. }
    destruct t; try (now apply P); try (apply Q; [exact E|exact I]).
    + destruct (items n r) as [[l r']|] eqn:E1; [|discriminate].
      destruct (IHi _ _ _ Hw' E1) as (p & Hp & -> & ->).
      destruct (chars n r') as [[c' r'']|] eqn:E2; [|discriminate]. injection E as <- <-.
      assert (Hw2 : Forall word r').
      { apply Forall_app in Hw'. destruct Hw' as [_ Hw']. now inversion Hw'. }
      destruct (IHc _ _ _ Hw2 E2) as (i & Hi & -> & -> & Hs).
      exists (ISub p i). repeat split; auto. cbn [itext app]. now rewrite <- app_assoc.
    + destruct (str_body r) as [[b r']|] eqn:E1; [|discriminate].
      destruct (str_sound _ _ _ Hw' E1) as (bt & z & Hb & Hz & -> & ->).
      destruct (chars n r') as [[c' r'']|] eqn:E2; [|discriminate]. injection E as <- <-.
      assert (Hw2 : Forall word r').
      { apply Forall_app in Hw'. destruct Hw' as [_ Hw']. now inversion Hw'. }
      destruct (IHc _ _ _ Hw2 E2) as (i & Hi & -> & -> & Hs).
      exists (IStr TApo bt z i). repeat split; auto.
      * cbn [itext app]. now rewrite <- app_assoc.
      * cbn [chain_of app]. rewrite <- app_assoc. destruct Hz; subst z; reflexivity.
  - intros ts l rest Hw E. cbn [items] in E.
    destruct (chars n ts) as [[c r]|] eqn:E1; [|discriminate].
    destruct (IHc _ _ _ Hw E1) as (i & Hi & -> & -> & Hs).
    destruct r as [|t r]; [discriminate|].
    assert (Hw2 : Forall word r).
    { apply Forall_app in Hw. destruct Hw as [_ Hw]. now inversion Hw. }
    destruct t; try discriminate.
    + injection E as <- <-. exists (POne i). repeat split; auto.
    + destruct (items n r) as [[l' r']|] eqn:E2; [|discriminate]. injection E as <- <-.
      destruct (IHi _ _ _ Hw2 E2) as (p & Hp & -> & ->).
      exists (PCons i p). repeat split; auto. cbn [ptext]. now rewrite <- app_assoc.
Qed.

(** ** One tree *)
Lemma str_unique : forall b z r b' z' r', Forall in_string b -> Forall in_string b' ->
  (z = TApo \/ z = TAttr) -> (z' = TApo \/ z' = TAttr) ->
  b ++ z :: r = b' ++ z' :: r' -> b = b' /\ z = z' /\ r = r'.
Proof.
  induction b as [|t b IH]; intros z r b' z' r' Hb Hb' Hz Hz' E.
  - destruct b' as [|t' b']; cbn in E.
    + injection E as -> ->. auto.
    + injection E as -> _. inversion Hb' as [|? ? Ht _]; subst.
      destruct Hz; subst; destruct Ht.
  - destruct b' as [|t' b']; cbn in E.
    + injection E as -> _. inversion Hb as [|? ? Ht _]; subst.
      destruct Hz'; subst; destruct Ht.
    + injection E as -> E. inversion Hb; inversion Hb'; subst.
      destruct (IH _ _ _ _ _ ltac:(eassumption) ltac:(eassumption) Hz Hz' E) as (-> & -> & ->). auto.
Qed.

Lemma unique :
  (forall i, proper i -> forall j rest rest', proper j -> stops rest -> stops rest' ->
     itext i ++ rest = itext j ++ rest' -> i = j /\ rest = rest') /\
  (forall p, pproper p -> forall q rest rest', pproper q ->
     ptext p ++ TRpar :: rest = ptext q ++ TRpar :: rest' -> p = q /\ rest = rest').
Proof.
  apply its_parts_ind.
  - intros _ j rest rest' Hj Hs Hs' E. destruct j; cbn [itext app] in E.
    + auto.
    + subst rest. destruct Hj as [Ht _]. destruct t; cbn in *; contradiction.
    + subst rest. destruct Hj as [-> _]. destruct Hs.
    + subst rest. destruct Hs.
  - intros t r IH [Ht Hr] j rest rest' Hj Hs Hs' E. destruct j; cbn [itext app] in E.
    + subst rest'. destruct t; cbn in *; contradiction.
    + injection E as -> E. destruct Hj as [_ Hj].
      destruct (IH Hr _ _ _ Hj Hs Hs' E) as [-> ->]. auto.
    + injection E as -> E. destruct Hj as [-> _]. destruct Ht.
    + injection E as -> E. destruct Ht.
  - intros a b z r IH (-> & Hb & Hz & Hr) j rest rest' Hj Hs Hs' E.
    destruct j; cbn [itext app] in E.
    + subst rest'. destruct Hs'.
    + injection E as <- _. destruct Hj as [[] _].
    + destruct Hj as (-> & Hb' & Hz' & Hj). rewrite <- !app_assoc in E. cbn [app] in E.
      injection E as E. destruct (str_unique _ _ _ _ _ _ Hb Hb' Hz Hz' E) as (-> & -> & E').
      destruct (IH Hr _ _ _ Hj Hs Hs' E') as [-> ->]. auto.
    + discriminate.
  - intros p IHp r IHr [Hp Hr] j rest rest' Hj Hs Hs' E. destruct j; cbn [itext app] in E.
    + subst rest'. destruct Hs'.
    + injection E as <- _. destruct Hj as [[] _].
    + destruct Hj as [-> _]. discriminate.
    + destruct Hj as [Hq Hj]. injection E as E. rewrite <- !app_assoc in E. cbn [app] in E.
      destruct (IHp Hp _ _ _ Hq E) as [-> E'].
      destruct (IHr Hr _ _ _ Hj Hs Hs' E') as [-> ->]. auto.
  - intros i IH Hi q rest rest' Hq E. destruct q; cbn [ptext] in E.
    + destruct (IH Hi _ (TRpar :: rest) (TRpar :: rest') Hq I I E) as [-> E']. injection E' as ->. auto.
    + destruct Hq as [Hi0 Hq]. rewrite <- app_assoc in E. cbn [app] in E.
      destruct (IH Hi _ (TRpar :: rest) (TComma :: ptext q ++ TRpar :: rest') Hi0 I I E) as [_ E']. discriminate.
  - intros i IHi p IHp [Hi Hp] q rest rest' Hq E. destruct q; cbn [ptext] in E.
    + rewrite <- app_assoc in E. cbn [app] in E.
      destruct (IHi Hi _ (TComma :: ptext p ++ TRpar :: rest) (TRpar :: rest') Hq I I E) as [_ E']. discriminate.
    + destruct Hq as [Hi0 Hq]. rewrite <- !app_assoc in E. cbn [app] in E.
      destruct (IHi Hi _ (TComma :: ptext p ++ TRpar :: rest) (TComma :: ptext q ++ TRpar :: rest') Hi0 I I E)
        as [-> E']. injection E' as E'.
      destruct (IHp Hp _ _ _ Hq E') as [-> ->]. auto.
Qed.

(** ** The list *)
Lemma point_kept : forall t, word t -> t <> TSpace [] -> match point_of t with Str [] => false | _ => true end = true.
Proof. intros [[|]| | | | | | | | |[|]] H H'; cbn in *; try reflexivity; contradiction. Qed.

Lemma clear_same : forall i, proper i -> clear_concat_chain (chain_of i) = chain_of i.
Proof.
  unfold clear_concat_chain.
  assert (B : forall b, Forall in_string b ->
    filter (fun p => match p with Str [] => false | _ => true end) (map point_of b) = map point_of b).
  { induction b as [|t b IH]; intros H; [reflexivity|]. inversion H as [|? ? Ht Hb]; subst.
    cbn [map filter].
    replace (match point_of t with Str [] => false | _ => true end) with true
      by (destruct t as [[|]| | | | | | | | |[|]]; cbn in *; try reflexivity; contradiction).
    now rewrite IH. }
  induction i as [|t r IH|a b z r IH|p r IH]; cbn [proper chain_of filter]; intros H.
  - reflexivity.
  - destruct H as [Ht Hr].
    replace (match point_of t with Str [] => false | _ => true end) with true
      by (destruct t as [[|]| | | | | | | | |[|]]; cbn in *; try reflexivity; contradiction).
    now rewrite IH.
  - destruct H as (-> & Hb & Hz & Hr). cbn [point_of shows]. rewrite filter_app, (B b Hb).
    cbn [filter]. rewrite (IH Hr). destruct Hz; subst z; reflexivity.
  - destruct H as [_ Hr]. now rewrite IH.
Qed.

Lemma chain_nil : forall i, chain_of i = [] -> i = INil.
Proof. destruct i; cbn; intros; try discriminate; reflexivity. Qed.

Lemma mac_op_of : forall i, proper i -> mac_op (chain_of i) = operand_of i.
Proof.
  intros i H. unfold mac_op. rewrite (clear_same i H). destruct i; reflexivity.
Qed.

Lemma call_text_cons : forall i l, l <> [] -> call_text (i :: l) = itext i ++ TComma :: call_text l.
Proof. intros i [|j l] H; [contradiction|reflexivity]. Qed.

Lemma ops_sound : forall n ts l, Forall word ts -> mac_ops n ts = Some l ->
  exists trees, trees <> [] /\ Forall proper trees /\ ts = call_text trees /\ l = map operand_of trees.
Proof.
  induction n as [|n IH]; intros ts l Hw E; [discriminate|]. cbn [mac_ops] in E.
  destruct (chars (S (2 * length ts)) ts) as [[c r]|] eqn:E1; [|discriminate].
  destruct (proj1 (sound _) _ _ _ Hw E1) as (i & Hi & -> & -> & Hs).
  destruct r as [|t r].
  - injection E as <-. exists [i]. rewrite app_nil_r, mac_op_of by exact Hi.
    repeat split; auto; discriminate.
  - destruct t; try discriminate.
    assert (Hw2 : Forall word r).
    { apply Forall_app in Hw. destruct Hw as [_ Hw]. now inversion Hw. }
    destruct (mac_ops n r) as [l'|] eqn:E2; [|discriminate]. injection E as <-.
    destruct (IH _ _ Hw2 E2) as (trees & Hn & Hp & -> & ->).
    exists (i :: trees). rewrite call_text_cons, mac_op_of by assumption.
    repeat split; auto; discriminate.
Qed.

Lemma ops_complete : forall trees, trees <> [] -> Forall proper trees ->
  forall n, (length (call_text trees) < n)%nat -> mac_ops n (call_text trees) = Some (map operand_of trees).
Proof.
  induction trees as [|i l IH]; intros Hn Hp n Hl; [contradiction|].
  inversion Hp as [|? ? Hi Hp']; subst. destruct n as [|n]; [lia|]. cbn [mac_ops].
  destruct l as [|j l].
  - cbn [call_text] in *. rewrite <- (app_nil_r (itext i)) at 2.
    rewrite (proj1 complete i Hi) by (cbn; auto; rewrite app_nil_r; lia).
    now rewrite mac_op_of.
  - rewrite call_text_cons in * by discriminate.
    rewrite (proj1 complete i Hi) by (cbn [stops]; auto; lia).
    rewrite len_app in Hl. cbn [length] in Hl.
    rewrite IH by (try discriminate; auto; lia). now rewrite mac_op_of.
Qed.

Lemma trees_unique : forall l m, l <> [] -> m <> [] -> Forall proper l -> Forall proper m ->
  call_text l = call_text m -> l = m.
Proof.
  induction l as [|i l IH]; intros m Hl Hm Pl Pm E; [contradiction|].
  destruct m as [|j m]; [contradiction|].
  inversion Pl as [|? ? Pi Pl']; subst. inversion Pm as [|? ? Pj Pm']; subst.
  destruct l as [|i' l]; destruct m as [|j' m].
  - cbn [call_text] in E. rewrite <- (app_nil_r (itext i)), <- (app_nil_r (itext j)) in E.
    destruct (proj1 unique i Pi j [] [] Pj I I E) as [-> _]. reflexivity.
  - rewrite (call_text_cons j) in E by discriminate. cbn [call_text] in E.
    rewrite <- (app_nil_r (itext i)) in E.
    destruct (proj1 unique i Pi j [] (TComma :: call_text (j' :: m)) Pj I I E) as [_ E']. discriminate.
  - rewrite (call_text_cons i) in E by discriminate. cbn [call_text] in E.
    rewrite <- (app_nil_r (itext j)) in E.
    destruct (proj1 unique i Pi j (TComma :: call_text (i' :: l)) [] Pj I I E) as [_ E']. discriminate.
  - rewrite !call_text_cons in E by discriminate.
    destruct (proj1 unique i Pi j (TComma :: call_text (i' :: l)) (TComma :: call_text (j' :: m)) Pj I I E) as [-> E'].
    injection E' as E'. f_equal. apply IH; auto; discriminate.
Qed.

(** ** The first reading *)
Lemma piece_spec : forall ts p r, piece ts = (p, r) ->
  ts = map FTok p ++ r /\ (forall t x, r <> FTok t :: x).
Proof.
  induction ts as [|t ts IH]; intros p r E; cbn [piece] in E.
  - injection E as <- <-. split; [reflexivity|discriminate].
  - destruct t; try (injection E as <- <-; split; [reflexivity|discriminate]).
    destruct (piece ts) as [p' r'] eqn:E1. injection E as <- <-.
    destruct (IH _ _ eq_refl) as [-> H]. split; [reflexivity|exact H].
Qed.

Lemma piece_app : forall p r, (forall t x, r <> FTok t :: x) -> piece (map FTok p ++ r) = (p, r).
Proof.
  induction p as [|t p IH]; intros r H; cbn [map app piece].
  - destruct r as [|[] r]; try reflexivity. now destruct (H t r).
  - now rewrite (IH r H).
Qed.

Lemma remark_split : forall ts, exists r, remark r /\ ts = r ++ remark_o ts.
Proof.
  intros [|[] ts]; cbn [remark_o]; try (exists []; split; [left|]; reflexivity).
  exists [FRemark]. split; [right|]; reflexivity.
Qed.

Lemma fields_sound : forall n ts l, fields n ts = Some l -> Layout ts l.
Proof.
  induction n as [|n IH]; intros ts l E; [discriminate|]. cbn [fields] in E.
  destruct (piece ts) as [p r] eqn:Ep. destruct (piece_spec _ _ _ Ep) as [-> Hr].
  assert (L : (forall x, r <> FComma :: x) ->
    match p with t :: p' => match remark_o r with [] => Some [t :: p'] | _ => None end | [] => None end = Some l ->
    Layout (map FTok p ++ r) l).
  { intros _ E'. destruct p as [|t p]; [discriminate|].
    destruct (remark_split r) as (m & Hm & Er). destruct (remark_o r); [|discriminate].
    injection E' as <-. rewrite app_nil_r in Er. subst m. constructor; [discriminate|exact Hm]. }
  assert (C : forall x, match x with [] | FRemark :: _ | FCont :: _ => True | _ => False end ->
    match remark_o x with
    | [] => Some [p; []]
    | FCont :: r' =>
      match remark_o r' with
      | [] => Some [p; []]
      | _ => match fields n r' with Some l => Some (p :: l) | None => None end
      end
    | _ => None
    end = Some l -> Layout (map FTok p ++ FComma :: x) l).
  { intros x _ E'. destruct (remark_split x) as (m & Hm & Ex).
    destruct (remark_o x) as [|t x'] eqn:Eo.
    - injection E' as <-. rewrite app_nil_r in Ex. subst m. now constructor.
    - destruct t; try discriminate. rewrite Ex.
      destruct (remark_split x') as (m2 & Hm2 & Ex').
      destruct (remark_o x') as [|t2 x2] eqn:Eo2.
      + injection E' as <-. rewrite app_nil_r in Ex'. subst m2. now apply la_comma_cont_end.
      + destruct (fields n x') as [l'|] eqn:Ef; [|discriminate]. injection E' as <-.
        pose proof (IH _ _ Ef) as Lx. apply la_comma_cont; auto.
        destruct x' as [|[] x']; cbn; try exact I.
        * discriminate.
        * exfalso. destruct n as [|n]; [discriminate|]. cbn [fields piece] in Ef. discriminate.
        * exfalso. destruct n as [|n]; [discriminate|]. cbn [fields piece] in Ef. discriminate. }
  destruct r as [|t r].
  - apply L; [discriminate|]. destruct p; exact E.
  - destruct t.
    + now destruct (Hr t r).
    + assert (E' := E). destruct p as [|tp p].
      * destruct r as [|t r]; [apply C; [exact I|exact E]|].
        destruct t; try (apply C; [exact I|exact E]).
        -- destruct (fields n (FTok t :: r)) as [l'|] eqn:Ef; [|discriminate]. injection E as <-.
           constructor; [exact I|now apply IH].
        -- destruct (fields n (FComma :: r)) as [l'|] eqn:Ef; [|discriminate]. injection E as <-.
           constructor; [exact I|now apply IH].
      * destruct r as [|t r]; [apply C; [exact I|exact E]|].
        destruct t; try (apply C; [exact I|exact E]).
        -- destruct (fields n (FTok t :: r)) as [l'|] eqn:Ef; [|discriminate]. injection E as <-.
           constructor; [exact I|now apply IH].
        -- destruct (fields n (FComma :: r)) as [l'|] eqn:Ef; [|discriminate]. injection E as <-.
           constructor; [exact I|now apply IH].
    + apply L; [discriminate|]. destruct p; exact E.
    + apply L; [discriminate|]. destruct p; exact E.
Qed.

Lemma no_tok_comma : forall x t y, FComma :: x <> FTok t :: y. Proof. discriminate. Qed.

Lemma fields_complete : forall ts l, Layout ts l -> forall n, (length ts < n)%nat -> fields n ts = Some l.
Proof.
  induction 1 as [p r Hp Hr|p r Hr|p r r2 Hr Hr2|p ts l Hg HL IH|p r ts l Hr Hg HL IH];
    intros n Hn; destruct n as [|n]; [lia| | lia | | lia | | lia | | lia | ]; cbn [fields].
  - rewrite piece_app by (destruct Hr; subst; discriminate).
    destruct p as [|t p]; [contradiction|]. destruct Hr; subst r; reflexivity.
  - rewrite piece_app by discriminate. destruct Hr; subst r; destruct p; reflexivity.
  - rewrite piece_app by discriminate.
    destruct Hr; subst r; destruct Hr2; subst r2; destruct p; reflexivity.
  - rewrite piece_app by discriminate. rewrite len_app in Hn. cbn [length] in Hn.
    assert (E : fields n ts = Some l) by (apply IH; lia).
    destruct ts as [|[] ts]; try (now destruct Hg); rewrite E; destruct p; reflexivity.
  - rewrite piece_app by discriminate. rewrite !len_app in Hn. cbn [length] in Hn. rewrite !len_app in Hn.
    cbn [length] in Hn. assert (E : fields n ts = Some l) by (apply IH; lia).
    destruct Hr; subst r; cbn [app remark_o];
      (destruct ts as [|[] ts]; try (now destruct Hg); cbn [remark_o]; rewrite E; destruct p; reflexivity).
Qed.

Lemma layout_nonempty : forall ts l, Layout ts l -> l <> [].
Proof. destruct 1; discriminate. Qed.

Lemma joined_one_line : forall l, l <> [] -> last l [] <> [] \/ (length l > 1)%nat -> Layout (one_line l) l.
Proof.
  induction l as [|p l IH]; intros Hn Hl; [contradiction|].
  destruct l as [|q l].
  - cbn [one_line last length] in *. destruct Hl as [Hl|Hl]; [|lia].
    rewrite <- (app_nil_r (map FTok p)). constructor; [exact Hl|now left].
  - change (one_line (p :: q :: l)) with (map FTok p ++ FComma :: one_line (q :: l)).
    destruct l as [|r l].
    + destruct q as [|t q].
      * cbn [one_line map]. apply la_comma_end. now left.
      * apply la_comma; [exact I|]. apply IH; [discriminate|left; discriminate].
    + apply la_comma.
      * cbn [one_line]. destruct q; exact I.
      * apply IH; [discriminate|right; cbn; lia].
Qed.

Lemma layout_shape : forall ts l, Layout ts l -> last l [] <> [] \/ (length l > 1)%nat.
Proof.
  induction 1 as [p r Hp Hr|p r Hr|p r r2 Hr Hr2|p ts l Hg HL IH|p r ts l Hr Hg HL IH]; cbn [length];
    try (left; exact Hp); right; try lia.
  - pose proof (layout_nonempty _ _ HL). destruct l; [contradiction|cbn; lia].
  - pose proof (layout_nonempty _ _ HL). destruct l; [contradiction|cbn; lia].
Qed.
