(** The instruction items. *)
From Coq Require Import String.
From Coq Require Import List NArith ZArith Bool Arith Lia Sorting.Sorted.
From Coq Require Import ZifyBool ZifyNat ZifyN.
From Verif Require Import Common Text_Model Mach_Model Mach_Table Hov_Model Hov_Spec.
Import ListNotations.

Definition tail (xs : list bytes) : bytes := flat_map (fun x => 44%N :: x) xs.
Lemma listed_cons x xs : listed (x :: xs) = x ++ tail xs.
Proof.
  revert x. induction xs as [|y xs IH]; intros x; [cbn; now rewrite app_nil_r|].
  change (listed (x :: y :: xs)) with (x ++ s2b "," ++ listed (y :: xs)). now rewrite IH.
Qed.
Definition joined_from (i : nat) (xs : list bytes) : bytes := match i with O => listed xs | S _ => tail xs end.
Lemma joined_cons i x xs : joined_from i (x :: xs) = (if (i =? 0)%nat then [] else [44%N]) ++ x ++ joined_from (S i) xs.
Proof. destruct i; [apply listed_cons|reflexivity]. Qed.

Lemma list_0 ops : forall i, operand_list 0 i ops = (joined_from i (map operand_text ops), joined_from i (map operand_text ops)).
Proof.
  induction ops as [|op ops IH]; intros i; [now destruct i|]. cbn [operand_list map]. rewrite IH. cbn [Nat.eqb andb].
  now rewrite joined_cons.
Qed.
Lemma list_1 req o : forall i, operand_list 1 i (req ++ [o]) =
  (joined_from i (map operand_text req) ++ s2b "[" ++ (if (length req + i =? 0)%nat then [] else s2b ",") ++ operand_text o ++ s2b "]",
   joined_from i (map operand_text req) ++ s2b " [" ++ (if (length req + i =? 0)%nat then [] else s2b ",") ++ operand_text o ++ s2b "]").
Proof.
  induction req as [|r req IH]; intros i.
  - cbn [app operand_list map length Nat.eqb andb Nat.add].
    replace (joined_from i []) with (@nil N) by now destruct i. cbn [app]. destruct i; reflexivity.
  - cbn [app operand_list map]. rewrite IH. cbn [Nat.eqb andb].
    replace (length (r :: req ++ [o]) =? 1)%nat with false by (cbn [length]; rewrite app_length; cbn [length]; lia).
    rewrite joined_cons. replace (length req + S i =? 0)%nat with false by lia.
    replace (length (r :: req) + i =? 0)%nat with false by (cbn [length]; lia).
    now rewrite <- !app_assoc.
Qed.
Lemma list_2 req a b : forall i, operand_list 2 i (req ++ [a; b]) =
  (joined_from i (map operand_text req) ++ s2b "[" ++ (if (length req + i =? 0)%nat then [] else s2b ",") ++ operand_text a ++ s2b "]" ++
     operand_text b ++ s2b "]]",
   joined_from i (map operand_text req) ++ s2b " [" ++ (if (length req + i =? 0)%nat then [] else s2b ",") ++ operand_text a ++ s2b "[," ++
     operand_text b ++ s2b "]]").
Proof.
  induction req as [|r req IH]; intros i.
  - cbn [app operand_list map length Nat.eqb andb Nat.add].
    replace (joined_from i []) with (@nil N) by now destruct i. cbn [app]. destruct i; reflexivity.
  - cbn [app operand_list map]. rewrite IH. cbn [Nat.eqb andb].
    replace (length (r :: req ++ [a; b]) =? 2)%nat with false by (cbn [length]; rewrite app_length; cbn [length]; lia).
    replace (length (r :: req ++ [a; b]) =? 1)%nat with false by (cbn [length]; rewrite app_length; cbn [length]; lia).
    rewrite joined_cons. replace (length req + S i =? 0)%nat with false by lia.
    replace (length (r :: req) + i =? 0)%nat with false by (cbn [length]; lia).
    now rewrite <- !app_assoc.
Qed.

Lemma listed_map_0 ops : joined_from 0 (map operand_text ops) = listed (map operand_text ops).
Proof. reflexivity. Qed.
Lemma shown_0 sep xs : shown sep 0 xs = listed xs.
Proof. unfold shown. rewrite Nat.sub_0_r, firstn_all, skipn_all. reflexivity. Qed.
Lemma comma_of {A} (req : list A) (f : A -> bytes) :
  match map f req with [] => [] | _ => s2b "," end = (if (length req + 0 =? 0)%nat then [] else s2b ",").
Proof. destruct req; reflexivity. Qed.
Lemma shown_1 sep req o : shown sep 1 (map operand_text (req ++ [o])) =
  listed (map operand_text req) ++ sep ++ s2b "[" ++ (if (length req + 0 =? 0)%nat then [] else s2b ",") ++ operand_text o ++ s2b "]".
Proof.
  unfold shown. rewrite map_app. rewrite app_length. cbn [map length].
  replace (length (map operand_text req) + 1 - 1) with (length (map operand_text req)) by lia.
  rewrite firstn_app, firstn_all, Nat.sub_diag, skipn_app, skipn_all, Nat.sub_diag. cbn [firstn skipn app]. rewrite app_nil_r.
  unfold with_optional. rewrite comma_of. reflexivity.
Qed.
Lemma shown_2 sep req a b : shown sep 2 (map operand_text (req ++ [a; b])) =
  listed (map operand_text req) ++ sep ++ s2b "[" ++ (if (length req + 0 =? 0)%nat then [] else s2b ",") ++ operand_text a ++ s2b "[," ++
  operand_text b ++ s2b "]]".
Proof.
  unfold shown. rewrite map_app. rewrite app_length. cbn [map length].
  replace (length (map operand_text req) + 2 - 2) with (length (map operand_text req)) by lia.
  rewrite firstn_app, firstn_all, Nat.sub_diag, skipn_app, skipn_all, Nat.sub_diag. cbn [firstn skipn app]. rewrite app_nil_r.
  unfold with_optional. rewrite comma_of. reflexivity.
Qed.

Theorem detail_exact m : i_optional m <= 1 -> i_optional m <= length (i_ops m) ->
  detail (machine_item m) = s2b "Operands: " ++ shown [] (i_optional m) (map operand_text (i_ops m)).
Proof.
  intros H1 H2. unfold machine_item. destruct m as [n f ops k]; cbn [i_optional i_ops i_name i_format] in *.
  destruct k as [|[|k]]; [| |lia].
  - rewrite list_0. cbn [detail]. now rewrite shown_0.
  - destruct (exists_last (l := ops)) as (req & o & ->); [destruct ops; [cbn in H2; lia|easy]|].
    rewrite list_1. cbn [detail]. now rewrite shown_1.
Qed.
Theorem inserted_exact m : i_optional m <= 2 -> i_optional m <= length (i_ops m) ->
  insert_text (machine_item m) = s2b (i_name m) ++ s2b "   " ++ shown (s2b " ") (i_optional m) (map operand_text (i_ops m)).
Proof.
  intros H1 H2. unfold machine_item. destruct m as [n f ops k]; cbn [i_optional i_ops i_name i_format] in *.
  destruct k as [|[|[|k]]]; [| | |lia].
  - rewrite list_0. cbn [insert_text]. now rewrite shown_0.
  - destruct (exists_last (l := ops)) as (req & o & ->); [destruct ops; [cbn in H2; lia|easy]|].
    rewrite list_1. cbn [insert_text]. now rewrite shown_1.
  - destruct (exists_last (l := ops)) as (req' & b & ->); [destruct ops; [cbn in H2; lia|easy]|].
    destruct (exists_last (l := req')) as (req & a & ->).
    { destruct req'; [cbn in H2; lia|easy]. }
    rewrite <- app_assoc in *. cbn [app]. rewrite list_2. cbn [insert_text]. now rewrite shown_2.
Qed.

(** ** Mnemonics *)
Definition increasing (from : nat) (rs : list (nat * Z)) : Prop :=
  StronglySorted lt (map fst rs) /\ Forall (fun p => from <= fst p) rs.
Lemma not_filled i rs : increasing (S i) rs -> existsb (Nat.eqb i) (map fst rs) = false.
Proof.
  intros (_ & H). induction rs as [|(p, v) rs IH]; [easy|]. inversion H; subst. cbn [map fst existsb] in *.
  rewrite IH by assumption. destruct (Nat.eqb_spec i p); [lia|easy].
Qed.
Lemma not_found i rs : increasing (S i) rs -> find (fun p : nat * Z => fst p =? i) rs = None.
Proof.
  intros (_ & H). induction rs as [|(p, v) rs IH]; [easy|]. inversion H; subst. cbn [fst find] in *.
  rewrite IH by assumption. destruct (Nat.eqb_spec p i); [lia|easy].
Qed.
Lemma unfilled_skip p filled : forall ops i, p < i -> unfilled i (p :: filled) ops = unfilled i filled ops.
Proof.
  induction ops as [|x ops IH]; intros i H; [easy|]. cbn [unfilled existsb].
  destruct (Nat.eqb_spec i p); [lia|]. cbn [orb]. rewrite IH by lia. reflexivity.
Qed.
Lemma substituted_skip p v filled : forall ops i, p < i -> substituted i ((p, v) :: filled) ops = substituted i filled ops.
Proof.
  induction ops as [|x ops IH]; intros i H; [easy|]. cbn [substituted find fst].
  destruct (Nat.eqb_spec p i); [lia|]. rewrite IH by lia. reflexivity.
Qed.
Lemma mnemonic_0 name ops : forall i prev first rs, increasing i rs -> Forall (fun p => (0 <= snd p)%Z) rs -> omitted name = false ->
  mnemonic_list name 0 i prev first rs ops =
  (joined_from i (substituted i rs (map operand_text ops)),
   joined_from (if first then 0 else 1) (unfilled i (map fst rs) (map operand_text ops))).
Proof.
  induction ops as [|op ops IH]; intros i prev first rs Hi Hv Ho.
  - cbn. destruct i, first; reflexivity.
  - cbn [mnemonic_list map]. cbn [Nat.eqb andb].
    assert (Keep : increasing (S i) rs ->
      (let (w, wo) := mnemonic_list name 0 (S i) (operand_text op) false rs ops in
        ((if (i =? 0)%nat then [] else [44%N]) ++ operand_text op ++ w, (if first then [] else [44%N]) ++ operand_text op ++ wo)) =
      (joined_from i (substituted i rs (operand_text op :: map operand_text ops)),
       joined_from (if first then 0 else 1) (unfilled i (map fst rs) (operand_text op :: map operand_text ops)))).
    { intros H. rewrite IH by assumption. cbn [substituted unfilled]. rewrite (not_found _ _ H), (not_filled _ _ H).
      rewrite !joined_cons. f_equal. destruct first; reflexivity. }
    destruct rs as [|(p, v) rs]; [apply Keep; split; constructor|].
    destruct (Nat.eqb_spec p i) as [->|Np].
    + destruct Hi as (S1 & F1). cbn [map fst] in S1. inversion S1 as [|? ? S2 S3]; inversion F1; inversion Hv; subst.
      assert (I2 : increasing (S i) rs).
      { split; [exact S2|]. rewrite Forall_forall in *. intros x Hx. assert (i < fst x) by (apply S3; now apply in_map). lia. }
      rewrite IH by assumption. rewrite Ho. cbn [substituted find fst unfilled existsb map]. rewrite !Nat.eqb_refl. cbn [orb].
      rewrite joined_cons. rewrite substituted_skip by lia. rewrite unfilled_skip by lia. f_equal. f_equal. f_equal.
      cbn [snd] in *. unfold z_text. destruct (Z.ltb_spec v 0); [lia|reflexivity].
    + apply Keep. destruct Hi as (S1 & F1). split; [exact S1|].
      inversion F1; subst. cbn [fst] in *. cbn [map fst] in S1. inversion S1 as [|? ? S2 S3]; subst.
      constructor; [cbn [fst]; lia|]. rewrite Forall_forall in *. intros x Hx. assert (p < fst x) by (apply S3; now apply in_map). lia.
Qed.

(** ** Labels *)
Fixpoint nodupb (l : list string) : bool :=
  match l with [] => true | x :: r => negb (existsb (String.eqb x) r) && nodupb r end.
Lemma nodupb_ok l : nodupb l = true -> NoDup l.
Proof.
  induction l as [|x l IH]; [constructor|]. cbn [nodupb]. rewrite andb_true_iff, negb_true_iff. intros (A & B).
  constructor; [|now apply IH]. intros H. assert (existsb (String.eqb x) l = true); [|congruence].
  apply existsb_exists. exists x. split; [exact H|apply String.eqb_refl].
Qed.
Lemma hover_found l it : NoDup (map label l) -> In it l -> hover_instruction l (label it) = detail it ++ [32; 32; 10]%N ++ doc it.
Proof.
  intros N H. unfold hover_instruction. induction l as [|x l IH]; [easy|]. cbn [map] in N. inversion N as [|? ? N1 N2]; subst.
  cbn [find]. destruct (String.eqb_spec (label x) (label it)) as [E|E].
  - destruct H as [->|H]; [reflexivity|]. exfalso. apply N1. rewrite E. now apply in_map.
  - destruct H as [->|H]; [easy|]. now apply IH.
Qed.
Lemma hover_missing l name : ~ In name (map label l) -> hover_instruction l name = [].
Proof.
  intros N. unfold hover_instruction. destruct (find _ l) as [x|] eqn:E; [|easy]. apply find_some in E.
  destruct E as (A & B). apply String.eqb_eq in B. exfalso. apply N. rewrite <- B. now apply in_map.
Qed.
Lemma firsts_in {A} (name : A -> string) l : forall seen x, In x (firsts name seen l) -> In x l.
Proof.
  induction l as [|y l IH]; intros seen x H; [easy|]. cbn [firsts] in H. destruct (existsb _ seen).
  - right. eapply IH; eauto.
  - destruct H as [->|H]; [now left|right; eapply IH; eauto].
Qed.
Lemma firsts_names {A} (name : A -> string) l : forall seen x, In x l ->
  In (name x) seen \/ exists y, In y (firsts name seen l) /\ name y = name x.
Proof.
  induction l as [|y l IH]; intros seen x H; [easy|]. cbn [firsts].
  destruct (existsb (String.eqb (name y)) seen) eqn:E.
  - destruct H as [->|H]; [left; apply existsb_exists in E; destruct E as (z & A1 & A2); apply String.eqb_eq in A2; congruence|].
    now apply IH.
  - destruct H as [->|H]; [right; exists x; split; [now left|easy]|].
    destruct (IH (name y :: seen) x H) as [[B|B]|(z & B & C)]; [right; exists y; split; [now left|easy]|now left|].
    right. exists z. split; [now right|easy].
Qed.
Lemma find_firsts ms : forall seen n i, find_instr ms n = Some i -> ~ In n seen -> In i (firsts i_name seen ms).
Proof.
  induction ms as [|m ms IH]; intros seen n i H N; [easy|]. cbn [find_instr firsts] in *.
  destruct (String.eqb_spec (i_name m) n) as [E|E].
  - injection H as <-. destruct (existsb _ seen) eqn:X; [|now left]. exfalso. apply N.
    apply existsb_exists in X. destruct X as (z & A1 & A2). apply String.eqb_eq in A2. congruence.
  - destruct (existsb _ seen); [eapply IH; eauto|]. right. eapply IH; [exact H|]. intros [X|X]; [congruence|easy].
Qed.
Lemma find_mnem_firsts ms : forall seen n i, find_mnem ms n = Some i -> ~ In n seen -> In i (firsts m_name seen ms).
Proof.
  induction ms as [|m ms IH]; intros seen n i H N; [easy|]. cbn [find_mnem firsts] in *.
  destruct (String.eqb_spec (m_name m) n) as [E|E].
  - injection H as <-. destruct (existsb _ seen) eqn:X; [|now left]. exfalso. apply N.
    apply existsb_exists in X. destruct X as (z & A1 & A2). apply String.eqb_eq in A2. congruence.
  - destruct (existsb _ seen); [eapply IH; eauto|]. right. eapply IH; [exact H|]. intros [X|X]; [congruence|easy].
Qed.

Definition all_items : list item := items instrs mnems.
Lemma labels_distinct : NoDup (map label all_items).
Proof. apply nodupb_ok. vm_compute. reflexivity. Qed.
Lemma mnemonics_known : forallb (fun m => match find_instr instrs (m_instr m) with Some _ => true | None => false end) mnems = true.
Proof. vm_compute. reflexivity. Qed.
