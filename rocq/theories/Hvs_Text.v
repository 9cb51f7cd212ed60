(** The texts of ordinary symbols have one reading, and it is the value and the attributes. *)
From Coq Require Import String.
From Coq Require Import List NArith ZArith Bool Lia.
From Coq Require Import ZifyBool ZifyNat ZifyN.
From Verif Require Import Common Attr_Model Addr_Model Addr_Spec Dvar_Model Hvs_Model Hvs_Spec.
Import ListNotations.
Open Scope Z_scope.

(** ** Numbers *)
Lemma digits_numeral : forall ds a, Forall (fun c => is_digit c = true) ds ->
  fold_left (fun a d => 10 * a + (Z.of_N d - 48)) ds (Z.of_N a) =
  Z.of_N (fold_left (fun a d => (a * 10 + (d - 48))%N) ds a).
Proof.
  induction ds as [|d ds IH]; intros a F; [reflexivity|]. inversion F as [|? ? D F']; subst. cbn [fold_left].
  rewrite <- IH by exact F'. f_equal. unfold is_digit in D. lia.
Qed.
Lemma dec_facts : forall n, dec n <> [] /\ Forall digit (dec n) /\ numeral (dec n) = Z.of_N n.
Proof.
  intros n. split; [apply dec_nonempty|]. split.
  - eapply Forall_impl; [|apply dec_digits]. unfold is_digit, digit. intros; lia.
  - unfold numeral. change 0 with (Z.of_N 0). rewrite digits_numeral by apply dec_digits. fold (dec_val (dec n)). now rewrite dec_value.
Qed.
Lemma to_string_number : forall z, number_text (to_string z) z.
Proof.
  intros z. unfold to_string. destruct (z <? 0) eqn:E.
  - destruct (dec_facts (Z.to_N (- z))) as (A & B & C). pose proof (minus _ A B) as M. rewrite C in M.
    replace (- Z.of_N (Z.to_N (- z))) with z in M by lia. exact M.
  - destruct (dec_facts (Z.to_N z)) as (A & B & C). pose proof (plain _ A B) as M. rewrite C in M.
    replace (Z.of_N (Z.to_N z)) with z in M by lia. exact M.
Qed.

Definition numeric (c : N) : Prop := digit c \/ c = 45%N.
Lemma number_chars : forall t z, number_text t z -> Forall numeric t.
Proof.
  intros t z [ds NE F|ds NE F]; [|constructor; [right; reflexivity|]]; (eapply Forall_impl; [|exact F]); intros c D; left; exact D.
Qed.
Lemma number_first : forall t z, number_text t z -> exists c r, t = c :: r /\ numeric c.
Proof.
  intros t z H. pose proof (number_chars t z H) as F. destruct H as [ds NE _|ds NE _].
  - destruct ds as [|c r]; [contradiction|]. inversion F; subst. eauto.
  - inversion F; subst. eauto.
Qed.
Lemma digit_not_minus : ~ digit 45.
Proof. unfold digit. lia. Qed.
Lemma number_unique : forall t z z', number_text t z -> number_text t z' -> z = z'.
Proof.
  intros t z z' H H'. destruct H as [ds NE F|ds NE F]; inversion H' as [ds' NE' F' E1 E2|ds' NE' F' E1 E2]; subst; try reflexivity.
  - exfalso. inversion F as [|? ? D]; subst. exact (digit_not_minus D).
  - exfalso. inversion F' as [|? ? D]; subst. exact (digit_not_minus D).
Qed.

(** Texts end at the first character that does not belong to them. *)
Lemma ends : forall (P : N -> Prop) a b c d r s, Forall P a -> Forall P b -> ~ P c -> ~ P d ->
  a ++ c :: r = b ++ d :: s -> a = b /\ c = d /\ r = s.
Proof.
  induction a as [|x a IH]; intros b c d r s Fa Fb Nc Nd E; destruct b as [|y b]; cbn in E.
  - assert (c = d) by congruence. assert (r = s) by congruence. auto.
  - exfalso. assert (c = y) by congruence. subst. inversion Fb; contradiction.
  - exfalso. assert (x = d) by congruence. subst. inversion Fa; contradiction.
  - assert (x = y) by congruence. assert (E' : a ++ c :: r = b ++ d :: s) by congruence. subst y.
    inversion Fa; inversion Fb; subst. destruct (IH b c d r s) as (-> & -> & ->); auto.
Qed.

Lemma name_first : forall n, section_name n -> exists c r, n = c :: r /\ ~ numeric c.
Proof.
  intros [|c r] H; [destruct H|]. destruct H as (D & M & _). exists c, r. split; [reflexivity|]. intros [X|X]; contradiction.
Qed.
Lemma name_chars : forall n, section_name n -> Forall name_char n.
Proof. intros [|c r] H; [destruct H|]. apply H. Qed.
Lemma numeric_other : forall c, numeric c -> c <> 32%N /\ c <> 42%N /\ c <> 10%N.
Proof. unfold numeric, digit. intros c H. repeat split; lia. Qed.

(** ** Sums *)
Lemma sum_chars : forall t l z, sum_text t l z -> Forall (fun c => c <> 10%N) t.
Proof.
  assert (N : forall t z, number_text t z -> Forall (fun c => c <> 10%N) t).
  { intros t z H. eapply Forall_impl; [|exact (number_chars t z H)]. intros c X. apply numeric_other in X. tauto. }
  assert (M : forall n, section_name n -> Forall (fun c => c <> 10%N) n).
  { intros n H. eapply Forall_impl; [|exact (name_chars n H)]. unfold name_char. tauto. }
  assert (B : Forall (fun c => c <> 10%N) [32; 43; 32]%N) by (repeat constructor; discriminate).
  induction 1 as [t z H|n t l z H S IH|k c n t l z H H' S IH]; [eauto| |]; repeat (apply Forall_app; split); eauto.
  repeat constructor; discriminate.
Qed.

Lemma sum_unique : forall t l z, sum_text t l z -> forall l' z', sum_text t l' z' -> l = l' /\ z = z'.
Proof.
  assert (NB : forall t z, number_text t z -> ~ In 32%N t /\ ~ In 42%N t).
  { intros t z H. pose proof (number_chars t z H) as F. rewrite Forall_forall in F.
    split; intros X; apply F in X; apply numeric_other in X; tauto. }
  assert (K1 : forall n, section_name n -> Forall (fun c => c <> 32%N) n).
  { intros n H. eapply Forall_impl; [|exact (name_chars n H)]. unfold name_char. tauto. }
  assert (K2 : forall k c, number_text k c -> Forall (fun x => x <> 42%N) k).
  { intros k c H. eapply Forall_impl; [|exact (number_chars k c H)]. intros x X. apply numeric_other in X. tauto. }
  intros t l z H. induction H as [t z H|n t l z H H0 IH|k c n t l z H H0 H1 IH]; intros l' z' G; inversion G; subst.
  - split; [reflexivity|]. eapply number_unique; eauto.
  - exfalso. apply (proj1 (NB _ _ H)). apply in_or_app. right. left. reflexivity.
  - exfalso. apply (proj2 (NB _ _ H)). apply in_or_app. right. left. reflexivity.
  - exfalso. match goal with X : number_text _ z' |- _ => apply (proj1 (NB _ _ X)) end. apply in_or_app. right. left. reflexivity.
  - match goal with X : n0 ++ _ = n ++ _ |- _ => cbn [app] in X; apply (ends (fun c => c <> 32%N)) in X; auto end.
    match goal with X : n0 = n /\ _ |- _ => destruct X as (E1 & _ & E2) end. subst n0.
    assert (t0 = t) by congruence. subst t0. match goal with X : sum_text t _ z' |- _ => destruct (IH _ _ X) as [-> ->] end. auto.
  - exfalso. destruct (name_first n H) as (x & r & -> & X). match goal with K : number_text k c |- _ => destruct (number_first k c K) as (y & q & -> & Y) end.
    match goal with E : _ = (x :: r) ++ _ |- _ => cbn [app] in E; assert (y = x) by congruence; subst end. contradiction.
  - exfalso. match goal with X : number_text _ z' |- _ => apply (proj2 (NB _ _ X)) end. apply in_or_app. right. left. reflexivity.
  - exfalso. match goal with X : section_name n0 |- _ => destruct (name_first n0 X) as (x & r & -> & X') end.
    destruct (number_first k c H) as (y & q & -> & Y).
    match goal with E : _ = (y :: q) ++ _ |- _ => cbn [app] in E; assert (x = y) by congruence; subst end. contradiction.
  - match goal with X : k0 ++ _ = k ++ _ |- _ => cbn [app] in X; apply (ends (fun c => c <> 42%N)) in X; eauto end.
    match goal with X : k0 = k /\ _ |- _ => destruct X as (E1 & _ & E2) end. subst k0.
    cbn [app] in E2. apply (ends (fun c => c <> 32%N)) in E2; auto. destruct E2 as (-> & _ & E3).
    assert (t0 = t) by congruence. subst t0. match goal with X : sum_text t _ z' |- _ => destruct (IH _ _ X) as [-> ->] end.
    split; [|reflexivity]. f_equal. f_equal. eapply number_unique; eauto.
Qed.

(** ** Whole texts *)
Lemma heading_first : forall a, exists r, heading a = 10%N :: r.
Proof. intros []; vm_compute; eauto. Qed.
Lemma heading_app : forall a b r s, heading a ++ r = heading b ++ s -> a = b /\ r = s.
Proof.
  intros [] [] r s E; vm_compute in E; try (repeat (injection E as E); subst; auto; fail); discriminate E.
Qed.

Lemma line_unique : forall c t o t' o' r r', line_text c t o -> line_text c t' o' ->
  t ++ r = t' ++ r' -> hd 0%N r <> c -> hd 0%N r' <> c -> o = o' /\ r = r'.
Proof.
  intros c t o t' o' r r' H H' E N N'. inversion H as [|n z X]; inversion H' as [|n' z' X']; subst; cbn [app] in E.
  - auto.
  - exfalso. subst r. apply N. reflexivity.
  - exfalso. subst r'. apply N'. reflexivity.
  - assert (E' : n ++ 32%N :: (32 :: 10 :: r)%N = n' ++ 32%N :: (32 :: 10 :: r')%N).
    { rewrite <- !app_assoc in E. cbn [app] in E. congruence. }
    assert (Q : forall m y, number_text m y -> Forall (fun x => x <> 32%N) m).
    { intros m y Hm. eapply Forall_impl; [|exact (number_chars m y Hm)]. intros x Hx. apply numeric_other in Hx. tauto. }
    apply (ends (fun x => x <> 32%N)) in E'; eauto. destruct E' as (-> & _ & E'). split; [|congruence].
    f_equal. eapply number_unique; eauto.
Qed.
Lemma line_hd : forall c t o r x, line_text c t o -> x <> c -> hd 0%N r <> x -> hd 0%N (t ++ r) <> x.
Proof. intros c t o r x H N1 N2. destruct H as [|n z X]; cbn; auto. Qed.

Theorem says_unique : forall t r r', says t r -> says t r' -> r = r'.
Proof.
  intros t r r' H H'. destruct H as [v l i s r V HL HI HS].
  inversion H' as [v' l' i' s' r0 V' HL' HI' HS' E ER]; subst r0.
  destruct (heading_first (r_absolute r)) as [h Hh]. destruct (heading_first (r_absolute r')) as [h' Hh'].
  assert (EV : v = v' /\ heading (r_absolute r) ++ l ++ i ++ s ++ [84; 58; 32]%N ++ [r_type r] ++ [32; 32; 10]%N
                       = heading (r_absolute r') ++ l' ++ i' ++ s' ++ [84; 58; 32]%N ++ [r_type r'] ++ [32; 32; 10]%N).
  { pose proof (sum_chars _ _ _ V) as F. pose proof (sum_chars _ _ _ V') as F'. rewrite Hh, Hh' in *. cbn [app] in E |- *.
    apply (ends (fun c => c <> 10%N)) in E; auto. destruct E as (-> & _ & E). split; [reflexivity|]. now rewrite E. }
  clear E. destruct EV as [-> E]. apply heading_app in E. destruct E as [EA E].
  destruct (sum_unique _ _ _ V _ _ V') as [ET EN].
  set (tl := [84; 58; 32]%N ++ [r_type r] ++ [32; 32; 10]%N) in *.
  set (tl' := [84; 58; 32]%N ++ [r_type r'] ++ [32; 32; 10]%N) in *.
  assert (T1 : forall x, x <> 84%N -> hd 0%N tl <> x) by (intros; cbn; congruence).
  assert (T2 : forall x, x <> 84%N -> hd 0%N tl' <> x) by (intros; cbn; congruence).
  apply (line_unique 76 l (r_length r) l' (r_length r')) in E; auto;
    try (eapply line_hd; [eassumption|discriminate|]; eapply line_hd; [eassumption|discriminate|]; auto; apply T1 || apply T2; discriminate).
  destruct E as [EL E].
  apply (line_unique 73 i (r_integer r) i' (r_integer r')) in E; auto;
    try (eapply line_hd; [eassumption|discriminate|]; apply T1 || apply T2; discriminate).
  destruct E as [EI E].
  apply (line_unique 83 s (r_scale r) s' (r_scale r')) in E; auto; try (apply T1 || apply T2; discriminate).
  destruct E as [ES E]. subst tl tl'. cbn [app] in E. assert (ETY : r_type r = r_type r') by congruence.
  destruct r, r'; cbn in *; subst; reflexivity.
Qed.

(** ** What the text of a symbol says *)
Lemma base_text_sum : forall nm bs t l z, sum_text t l z ->
  Forall (fun b => (nm (fst b) = [] \/ section_name (nm (fst b))) /\ 0 <= snd b) bs ->
  exists ts, sum_text (flat_map (base_text nm) bs ++ t) (ts ++ l) z /\
    forall at_, at_ [] = 0 -> sum_value at_ ts 0 = sum (map (fun b : bentry => snd b * at_ (nm (fst b))) bs).
Proof.
  intros nm bs t l z S. induction bs as [|b bs IH]; intros F.
  - exists []. split; [exact S|]. reflexivity.
  - inversion F as [|? ? [FN FC] F']; subst. destruct (IH F') as (ts & X & V). cbn [flat_map map sum].
    rewrite <- app_assoc. unfold base_text at 1. destruct (nm (fst b)) as [|c r] eqn:EN.
    + exists ts. split; [exact X|]. intros at_ A. rewrite V, A by exact A. lia.
    + destruct FN as [FN|FN]; [discriminate|]. destruct (snd b =? 0) eqn:E0.
      * exists ts. split; [exact X|]. intros at_ A. rewrite V by exact A. nia.
      * destruct (1 <? snd b) eqn:E1.
        -- exists ((snd b, c :: r) :: ts). split.
           ++ change (lit "*") with [42%N]. change (lit " + ") with [32; 43; 32]%N. rewrite <- !app_assoc.
              apply (times (to_string (snd b)) (snd b) (c :: r)); [apply to_string_number|exact FN|exact X].
           ++ intros at_ A. cbn [sum_value fold_right fst snd]. fold (sum_value at_ ts 0). rewrite V by exact A. reflexivity.
        -- exists ((1, c :: r) :: ts). split.
           ++ change (lit " + ") with [32; 43; 32]%N. cbn [app]. 
              change (sum_text ((c :: r) ++ [32; 43; 32]%N ++ flat_map (base_text nm) bs ++ t) ((1, c :: r) :: ts ++ l) z)
                || (rewrite <- !app_assoc; cbn [app]).
              apply (once (c :: r)); [exact FN|exact X].
           ++ intros at_ A. cbn [sum_value fold_right fst snd]. fold (sum_value at_ ts 0). rewrite V by exact A.
              replace (snd b) with 1 by lia. reflexivity.
Qed.

Fixpoint space_size (s : space) : nat :=
  match s with
  | Unres _ => 1
  | Res _ ptrs => S (fold_right (fun e n => space_size (fst e) + n)%nat 0%nat ptrs)
  end.
Lemma space_offset_value : forall p n s, (space_size s <= n)%nat -> placed s = true -> flat_space s = true ->
  space_offset s = space_value p s.
Proof.
  intros p. induction n as [|n IH]; intros s L P F; [destruct s; cbn in L; lia|].
  destruct s as [id|len ptrs]; [discriminate P|]. cbn [space_offset space_value placed flat_space space_size] in *.
  f_equal. induction ptrs as [|e ptrs IHp]; [reflexivity|]. cbn [map sum fold_right forallb] in *.
  apply andb_true_iff in P. destruct P as [P1 P2]. apply andb_true_iff in F. destruct F as [F1 F2].
  apply andb_true_iff in F1. destruct F1 as [F0 F1]. rewrite IHp; [|lia|exact P2|exact F2]. f_equal.
  rewrite (IH (fst e)); [|lia|exact P1|exact F1]. destruct (fst e); [discriminate P1|]. replace (snd e) with 1 by lia. lia.
Qed.
Lemma offset_value : forall p a, all_placed a -> flat a = true ->
  offset a = offset_ a + sum (map (fun e => snd e * space_value p (fst e)) (spaces a)).
Proof.
  intros p a P F. unfold offset. f_equal. unfold all_placed, flat in *. induction (spaces a) as [|e l IH]; [reflexivity|].
  cbn [map sum fold_right forallb] in *. apply andb_true_iff in P. destruct P as [P1 P2]. apply andb_true_iff in F. destruct F as [F1 F2].
  apply andb_true_iff in F1. destruct F1 as [F0 F1]. rewrite IH by assumption. f_equal.
  rewrite (space_offset_value p (space_size (fst e))); auto. destruct (fst e); [discriminate P1|]. replace (snd e) with 1 by lia. lia.
Qed.

Lemma sum_value_shift : forall at_ l z, sum_value at_ l z = sum_value at_ l 0 + z.
Proof. intros at_ l z. unfold sum_value. induction l as [|e l IH]; cbn [fold_right]; [lia|]. rewrite IH. lia. Qed.

Lemma address_says : forall nm a, sections_added nm a ->
  exists ts, sum_text (address_text nm a) ts (offset a) /\
    forall p at_, by_name nm p at_ -> all_placed a -> flat a = true -> sum_value at_ ts (offset a) = denotes p a.
Proof.
  intros nm a F. destruct (base_text_sum nm (bases a) (to_string (offset a)) [] (offset a)) as (ts & X & V).
  - constructor. apply to_string_number.
  - exact F.
  - rewrite app_nil_r in X. exists ts. split; [exact X|]. intros p at_ [A B] P FL.
    rewrite sum_value_shift, (V at_ A), (offset_value p a P FL). unfold denotes.
    replace (map (fun e => snd e * base_at p (fst e)) (bases a)) with (map (fun b : bentry => snd b * at_ (nm (fst b))) (bases a)).
    + lia.
    + apply map_ext. intros b. now rewrite B.
Qed.

(** The attributes that a symbol has. *)
Definition attrs_of (y : osym) (r : reading) : Prop :=
  r_length r = o_length y /\
  r_scale r = o_scale y /\
  r_integer r = match o_length y, o_scale y with Some _, Some _ => Some (o_integer y) | _, _ => None end /\
  r_type r = o_type y.
Lemma lines_say : forall y v ts z ab, sum_text v ts z -> exists r,
  says (v ++ heading ab ++ attribute_lines y) r /\ r_absolute r = ab /\ r_terms r = ts /\ r_number r = z /\ attrs_of y r.
Proof.
  intros y v ts z ab S.
  exists {| r_absolute := ab; r_terms := ts; r_number := z; r_length := o_length y;
            r_integer := match o_length y, o_scale y with Some _, Some _ => Some (o_integer y) | _, _ => None end;
            r_scale := o_scale y; r_type := o_type y |}.
  split; [|cbn; split; [reflexivity|]; split; [reflexivity|]; split; [reflexivity|]; unfold attrs_of; cbn; auto].
  unfold attribute_lines.
  replace (attribute_line T "T" y) with ([84; 58; 32]%N ++ [o_type y] ++ [32; 32; 10]%N) by reflexivity.
  apply (reads v _ _ _ {| r_absolute := ab; r_terms := ts; r_number := z; r_length := o_length y;
            r_integer := match o_length y, o_scale y with Some _, Some _ => Some (o_integer y) | _, _ => None end;
            r_scale := o_scale y; r_type := o_type y |}); cbn [r_terms r_number r_length r_integer r_scale]; [exact S| | |].
  - unfold attribute_line, is_defined, attribute_value. destruct (o_length y) as [n|]; [|constructor].
    change (line_text 76 ([76; 58; 32]%N ++ to_string n ++ [32; 32; 10]%N) (Some n)). constructor. apply to_string_number.
  - unfold attribute_line, is_defined, attribute_value. destruct (o_length y) as [n|], (o_scale y) as [m|]; try constructor.
    apply to_string_number.
  - unfold attribute_line, is_defined, attribute_value. destruct (o_scale y) as [n|]; [|constructor].
    change (line_text 83 ([83; 58; 32]%N ++ to_string n ++ [32; 32; 10]%N) (Some n)). constructor. apply to_string_number.
Qed.
