(** * Which operands the instructions with values and texts accept *)
From Coq Require Import String Ascii.
From Coq Require Import List ZArith Bool Lia Arith ZifyBool ZifyNat.
From Verif Require Import Asm_Model Asm_Spec Asm_Base.
Import ListNotations.
Open Scope string_scope.
Open Scope list_scope.

Ltac yes := repeat first
  [ rewrite then_yes | rewrite need_yes | rewrite fail_yes | rewrite ok_yes | rewrite each_yes | rewrite sizes_yes
  | rewrite keyword_word ].

(** take the hypothesis apart *)
Ltac crush := repeat match goal with
  | H : exists _, _ |- _ => destruct H
  | H : _ /\ _ |- _ => destruct H
  | H : False |- _ => destruct H
  | H : ?x = ?y |- _ => is_var x; subst x
  | H : ?x = ?y |- _ => is_var y; subst y
  | H : _ :: _ = _ :: _ |- _ => injection H; clear H; intros
  | H : [] = _ :: _ |- _ => discriminate H
  | H : _ :: _ = [] |- _ => discriminate H
  | H : Some _ = Some _ |- _ => injection H; clear H; intros
  | H : Simple _ _ _ _ = Simple _ _ _ _ |- _ => injection H; clear H; intros
  | H : Complex _ _ _ = Complex _ _ _ |- _ => injection H; clear H; intros
  | H : Empty _ = Empty _ |- _ => injection H; clear H; intros
  | H : Simple _ _ _ _ = Complex _ _ _ |- _ => discriminate H
  | H : Complex _ _ _ = Simple _ _ _ _ |- _ => discriminate H
  | H : Simple _ _ _ _ = Empty _ |- _ => discriminate H
  | H : Empty _ = Simple _ _ _ _ |- _ => discriminate H
  | H : Complex _ _ _ = Empty _ |- _ => discriminate H
  | H : Empty _ = Complex _ _ _ |- _ => discriminate H
  | H : true = false |- _ => discriminate H
  | H : false = true |- _ => discriminate H
  | H : text _ _ |- _ => unfold text in H
  | H : valued _ _ |- _ => unfold valued in H
  | H : nameless _ _ |- _ => unfold nameless in H
  | H : empty _ |- _ => unfold empty in H
  | H : simple _ |- _ => unfold simple in H
  | H : literal _ _ |- _ => unfold literal in H
  | H : complex _ _ _ |- _ => unfold complex in H
  end.

Ltac len := cbn [List.length] in *; try lia.

Lemma one_op (ops : list op) : (1 <= List.length ops /\ List.length ops <= 1)%nat <-> exists o, ops = [o].
Proof.
  destruct ops as [|a [|b t]]; cbn [List.length]; split; intros H; try lia; crush; try (cbn; lia); eauto.
Qed.

Lemma text_simple id d v r s : text (Simple id d v r) s <-> id = s.
Proof. split; [intros H; crush; reflexivity|intros ->; unfold text; eauto]. Qed.
Lemma text_complex id ps r s : text (Complex id ps r) s <-> False.
Proof. split; [intros H; crush|tauto]. Qed.
Lemma text_empty r s : text (Empty r) s <-> False.
Proof. split; [intros H; crush|tauto]. Qed.

Lemma title_yes ops stmt : fst (check_title ops stmt) = Yes <-> Title ops.
Proof.
  unfold check_title, Title. yes. rewrite one_op. split.
  - intros [[o ->] H]. destruct o as [id d v r| |]; cbn [head_range] in H; yes; try (cbn in H; discriminate).
    revert H. yes. intros [L Q].
    assert (2 <= String.length id)%nat as L2 by lia.
    destruct (proj1 (quoted_spec id) (conj L2 Q)) as [body ->].
    exists (Simple (apostrophes body) d v r), body. rewrite length_apostrophes in L.
    split; [reflexivity|]. split; [apply text_simple; reflexivity|lia].
  - intros (o & body & -> & T & L). split; [eauto|]. crush. yes.
    split; [rewrite length_apostrophes; lia|]. apply quoted_spec. eauto.
Qed.

Lemma rmode_yes ops stmt : fst (check_rmode ops stmt) = Yes <-> Rmode ops.
Proof.
  unfold check_rmode, Rmode. yes. rewrite one_op. split.
  - intros [[o ->] H]. revert H. yes. intros H. exists o. split; [reflexivity|exact H].
  - intros (o & -> & W). split; [eauto|]. yes. exact W.
Qed.

Lemma amode_yes ops stmt : fst (check_amode ops stmt) = Yes <-> Amode ops.
Proof.
  unfold check_amode, Amode. yes. rewrite one_op. split.
  - intros [[o ->] H]. revert H. yes. intros H. exists o. split; [reflexivity|exact H].
  - intros (o & -> & W). split; [eauto|]. yes. exact W.
Qed.

(** ** PUNCH *)

Lemma columns_punch l n : columns l n <-> punch_size l = n.
Proof.
  split.
  - intros C. induction C as [|c|c t n D0 C IH|a b t n ND C IH]; try reflexivity.
    + cbn [punch_size]. rewrite IH.
      destruct D0 as [-> | ->]; reflexivity.
    + cbn [punch_size] in *.
      destruct ((Ascii.eqb a amp && Ascii.eqb b amp) || (Ascii.eqb a quote && Ascii.eqb b quote)) eqn:E.
      * exfalso. apply ND. rewrite orb_true_iff, !andb_true_iff, !Ascii.eqb_eq in E.
        destruct E as [[-> ->]|[-> ->]]; (split; [reflexivity|]); [left|right]; reflexivity.
      * f_equal. exact IH.
  - revert n. remember (List.length l) as k eqn:K. assert (List.length l <= k)%nat as L by lia. clear K.
    revert l L. induction k as [|k IH]; intros l L n.
    + destruct l; [|cbn in L; lia]. cbn. intros <-. constructor.
    + destruct l as [|a [|b t]]; [cbn; intros <-; constructor|cbn; intros <-; constructor|].
      cbn [punch_size]. cbn [List.length] in L.
      destruct ((Ascii.eqb a amp && Ascii.eqb b amp) || (Ascii.eqb a quote && Ascii.eqb b quote)) eqn:E.
      * intros <-.
        rewrite orb_true_iff, !andb_true_iff, !Ascii.eqb_eq in E.
        assert (columns t (punch_size t)) as C by (apply IH; [lia|reflexivity]).
        destruct E as [[-> ->]|[-> ->]]; (apply col_two; [|exact C]); [left|right]; reflexivity.
      * intros <-. apply col_one; [|apply IH; [cbn; lia|reflexivity]].
        intros [-> D0]. rewrite orb_false_iff in E. destruct E as [E1 E2].
        destruct D0 as [-> | ->]; [cbn in E1|cbn in E2]; discriminate.
Qed.

Lemma punch_yes ops stmt : fst (check_punch ops stmt) = Yes <-> Punch ops.
Proof.
  unfold check_punch, Punch. yes. rewrite one_op. split.
  - intros [[o ->] H]. destruct o as [id d v r| |]; cbn [head_range] in H; try (cbn in H; discriminate).
    revert H. yes. intros [Q L]. apply andb_true_iff in Q. destruct Q as [L2 Q].
    assert (2 <= String.length id)%nat as L2' by lia.
    destruct (proj1 (quoted_spec id) (conj L2' Q)) as [body ->].
    exists (Simple (apostrophes body) d v r), body, (punch_size (chars (apostrophes body))).
    split; [reflexivity|]. split; [apply text_simple; reflexivity|]. split; [apply columns_punch; reflexivity|lia].
  - intros (o & body & n & -> & T & C & L). split; [eauto|]. crush. yes.
    destruct (proj2 (quoted_spec (apostrophes body)) ltac:(eauto)) as [L2 Q]. rewrite Q.
    apply columns_punch in C. unfold chars. lia.
Qed.

Lemma in_forallb (l l' : list string) : forallb (fun w => mem w l') l = true -> forall w, In w l -> In w l'.
Proof. intros H w I0. rewrite forallb_forall in H. apply mem_in, H, I0. Qed.

Ltac same_words := intros w; split; apply in_forallb; vm_compute; reflexivity.

Lemma nonempty (ops : list op) : (1 <= List.length ops /\ True)%nat <-> ops <> [].
Proof. destruct ops; cbn [List.length]; split; intros H;
  [lia|congruence|discriminate|]. split; [lia|exact Logic.I]. Qed.

Lemma print_yes ops stmt : fst (check_print ops stmt) = Yes <-> Print ops.
Proof.
  unfold check_print, Print. yes. rewrite nonempty.
  apply and_iff_compat_l. apply Forall_iff. intros o. yes. apply word_same. same_words.
Qed.

(** ** PUSH, POP *)

Definition stack_words := ["PRINT"; "USING"; "ACONTROL"].

Lemma Forall2_nil_r A B (P : A -> B -> Prop) l : Forall2 P l [] -> l = [].
Proof. intros H. inversion H. reflexivity. Qed.

(** with the words already met *)
Lemma stack_ops_yes stmt n ops : forall i ac pr us,
  n = (i + List.length ops)%nat ->
  fst (stack_ops stmt n i ac pr us ops) = Yes <->
  exists ws tl, Forall2 text ops (ws ++ tl) /\ NoDup ws /\ incl ws stack_words
    /\ (tl = [] \/ (tl = ["NOPRINT"] /\ n <> 1%nat))
    /\ (ac = true -> ~ In "ACONTROL" ws) /\ (pr = true -> ~ In "PRINT" ws) /\ (us = true -> ~ In "USING" ws).
Proof.
  induction ops as [|o t IH]; intros i ac pr us N.
  - cbn [stack_ops]. rewrite ok_yes. split; [intros _|auto].
    exists [], []. cbn [app]. split; [constructor|]. split; [constructor|]. split; [intros ? []|].
    split; [auto|]. split; [intros _ []|]. split; intros _ [].
  - cbn [List.length] in N.
    assert (n = (S i + List.length t)%nat) as N' by lia.
    assert (forall x, word stack_words o -> text o x ->
            forall ws tl, Forall2 text (o :: t) (ws ++ tl) ->
              (tl = [] \/ (tl = ["NOPRINT"] /\ n <> 1%nat)) -> exists ws', ws = x :: ws' /\ Forall2 text t (ws' ++ tl)) as Cons.
    { intros x W T ws tl F TL. destruct ws as [|w ws'].
      - exfalso. cbn [app] in F. destruct TL as [->|[-> _]]; [inversion F|].
        inversion F; subst. destruct W as (w & TW & IW).
        pose proof (text_same o w "NOPRINT" TW ltac:(assumption)) as ->. cbn in IW.
        destruct IW as [E|[E|[E|[]]]]; discriminate E.
      - cbn [app] in F. inversion F as [|? ? ? ? T1 F1]; subst.
        exists ws'. split; [|exact F1]. f_equal. eapply text_same; eauto. }
    destruct o as [id d v r|id ps r|r]; cbn [stack_ops].
    2:{ destruct (S i =? n)%nat; rewrite fail_yes; (split; [tauto|]); intros (ws & tl & F & _);
        inversion F; crush. }
    2:{ destruct (S i =? n)%nat; rewrite fail_yes; (split; [tauto|]); intros (ws & tl & F & _);
        inversion F; crush. }
    assert (text (Simple id d v r) id) as TI by (apply text_simple; reflexivity).
    destruct (String.eqb id "ACONTROL") eqn:E1; [apply String.eqb_eq in E1; subst id|].
    { assert (word stack_words (Simple "ACONTROL" d v r)) as W by (exists "ACONTROL"; cbn; auto).
      destruct ac.
      - rewrite fail_yes. split; [tauto|]. intros (ws & tl & F & ND & IC & TL & A & _).
        destruct (Cons "ACONTROL" W TI ws tl F TL) as (ws' & -> & _). apply A; cbn; auto.
      - rewrite IH by exact N'. split.
        + intros (ws & tl & F & ND & IC & TL & A & P & U). exists ("ACONTROL" :: ws), tl.
          split; [constructor; assumption|]. split; [constructor; auto|].
          split; [intros x [<-|I0]; [cbn; auto|auto]|]. split; [exact TL|].
          split; [discriminate|]. split; [intros E [X|X]; [discriminate X|apply P; assumption]|].
          intros E [X|X]; [discriminate X|apply U; assumption].
        + intros (ws & tl & F & ND & IC & TL & A & P & U).
          destruct (Cons "ACONTROL" W TI ws tl F TL) as (ws' & -> & F').
          inversion ND; subst. exists ws', tl. split; [exact F'|]. split; [assumption|].
          split; [intros x I0; apply IC; right; exact I0|]. split; [exact TL|].
          split; [intros _; assumption|]. split; [intros E X; apply (P E); right; exact X|].
          intros E X; apply (U E); right; exact X. }
    destruct (String.eqb id "PRINT") eqn:E2; [apply String.eqb_eq in E2; subst id|].
    { assert (word stack_words (Simple "PRINT" d v r)) as W by (exists "PRINT"; cbn; auto).
      destruct pr.
      - rewrite fail_yes. split; [tauto|]. intros (ws & tl & F & ND & IC & TL & A & P & _).
        destruct (Cons "PRINT" W TI ws tl F TL) as (ws' & -> & _). apply P; cbn; auto.
      - rewrite IH by exact N'. split.
        + intros (ws & tl & F & ND & IC & TL & A & P & U). exists ("PRINT" :: ws), tl.
          split; [constructor; assumption|]. split; [constructor; auto|].
          split; [intros x [<-|I0]; [cbn; auto|auto]|]. split; [exact TL|].
          split; [intros E [X|X]; [discriminate X|apply A; assumption]|]. split; [discriminate|].
          intros E [X|X]; [discriminate X|apply U; assumption].
        + intros (ws & tl & F & ND & IC & TL & A & P & U).
          destruct (Cons "PRINT" W TI ws tl F TL) as (ws' & -> & F').
          inversion ND; subst. exists ws', tl. split; [exact F'|]. split; [assumption|].
          split; [intros x I0; apply IC; right; exact I0|]. split; [exact TL|].
          split; [intros E X; apply (A E); right; exact X|]. split; [intros _; assumption|].
          intros E X; apply (U E); right; exact X. }
    destruct (String.eqb id "USING") eqn:E3; [apply String.eqb_eq in E3; subst id|].
    { assert (word stack_words (Simple "USING" d v r)) as W by (exists "USING"; cbn; auto).
      destruct us.
      - rewrite fail_yes. split; [tauto|]. intros (ws & tl & F & ND & IC & TL & A & P & U).
        destruct (Cons "USING" W TI ws tl F TL) as (ws' & -> & _). apply U; cbn; auto.
      - rewrite IH by exact N'. split.
        + intros (ws & tl & F & ND & IC & TL & A & P & U). exists ("USING" :: ws), tl.
          split; [constructor; assumption|]. split; [constructor; auto|].
          split; [intros x [<-|I0]; [cbn; auto|auto]|]. split; [exact TL|].
          split; [intros E [X|X]; [discriminate X|apply A; assumption]|].
          split; [intros E [X|X]; [discriminate X|apply P; assumption]|discriminate].
        + intros (ws & tl & F & ND & IC & TL & A & P & U).
          destruct (Cons "USING" W TI ws tl F TL) as (ws' & -> & F').
          inversion ND; subst. exists ws', tl. split; [exact F'|]. split; [assumption|].
          split; [intros x I0; apply IC; right; exact I0|]. split; [exact TL|].
          split; [intros E X; apply (A E); right; exact X|]. split; [intros E X; apply (P E); right; exact X|].
          intros _; assumption. }
    destruct (String.eqb id "NOPRINT") eqn:E4; [apply String.eqb_eq in E4; subst id|].
    { assert (forall ws tl, Forall2 text (Simple "NOPRINT" d v r :: t) (ws ++ tl) -> incl ws stack_words -> 
                (tl = [] \/ (tl = ["NOPRINT"] /\ n <> 1%nat)) -> ws = [] /\ tl = ["NOPRINT"] /\ t = [] /\ n <> 1%nat) as Last.
      { intros ws tl F IC TL. destruct ws as [|w ws'].
        - cbn [app] in F. destruct TL as [->|[-> NE]]; [inversion F|].
          inversion F as [|? ? ? ? T1 F1]; subst. apply Forall2_nil_r in F1. auto.
        - exfalso. cbn [app] in F. inversion F as [|? ? ? ? T1 F1]; subst.
          pose proof (text_same _ _ _ T1 TI) as ->. specialize (IC "NOPRINT" (or_introl eq_refl)). cbn in IC.
          destruct IC as [E|[E|[E|[]]]]; discriminate E. }
      destruct (S i =? n)%nat eqn:E5; cbn [negb].
      - apply Nat.eqb_eq in E5. assert (t = []) as -> by (destruct t; [reflexivity|cbn in N'; lia]).
        destruct (n =? 1)%nat eqn:E6.
        + rewrite fail_yes. split; [tauto|]. intros (ws & tl & F & ND & IC & TL & _).
          destruct (Last ws tl F IC TL) as (_ & _ & _ & X). lia.
        + rewrite IH by exact N'. split.
          * intros _. exists [], ["NOPRINT"]. cbn [app].
            split; [constructor; [exact TI|constructor]|]. split; [constructor|]. split; [intros ? []|].
            split; [right; split; [reflexivity|lia]|]. repeat split; intros _ [].
          * intros _. exists [], []. cbn [app]. split; [constructor|]. split; [constructor|]. split; [intros ? []|].
            split; [left; reflexivity|]. repeat split; intros _ [].
      - rewrite fail_yes. split; [tauto|]. intros (ws & tl & F & ND & IC & TL & _).
        destruct (Last ws tl F IC TL) as (_ & _ & -> & _). cbn in N'. lia. }
    destruct (S i =? n)%nat; rewrite fail_yes; (split; [tauto|]); intros (ws & tl & F & ND & IC & TL & _).
    all: destruct ws as [|w ws'];
      [ cbn [app] in F; destruct TL as [->|[-> _]]; [inversion F|];
        inversion F as [|? ? ? ? T1 F1]; subst; pose proof (text_same _ _ _ T1 TI) as <-; discriminate
      | cbn [app] in F; inversion F as [|? ? ? ? T1 F1]; subst;
        pose proof (text_same _ _ _ T1 TI) as ->; specialize (IC id (or_introl eq_refl)); cbn in IC;
        destruct IC as [E|[E|[E|[]]]]; subst id; discriminate ].
Qed.

Lemma Forall2_len A B (P : A -> B -> Prop) l m : Forall2 P l m -> List.length l = List.length m.
Proof. intros F. induction F; cbn [List.length]; congruence. Qed.

Lemma stack_yes ops stmt : fst (check_stack ops stmt) = Yes <-> Stack ops.
Proof.
  unfold check_stack, Stack. yes. rewrite stack_ops_yes by reflexivity. split.
  - intros [[L1 L2] (ws & tl & F & ND & IC & TL & _)]. exists ws, tl. split; [exact F|].
    pose proof (Forall2_len _ _ _ _ _ F) as FL.
    split.
    { intros ->. cbn [app] in FL. destruct TL as [->|[-> X]]; [cbn in FL; lia|]. cbn in FL. lia. }
    split; [exact ND|]. split; [exact IC|]. destruct TL as [->|[-> _]]; auto.
  - intros (ws & tl & F & NE & ND & IC & TL).
    pose proof (Forall2_len _ _ _ _ _ F) as FL. rewrite app_length in FL.
    pose proof (NoDup_incl_length ND IC) as LW. cbn in LW.
    assert (1 <= List.length ws)%nat by (destruct ws; [congruence|cbn; lia]).
    assert (List.length tl <= 1)%nat by (destruct TL as [->| ->]; cbn; lia).
    split; [lia|]. exists ws, tl. split; [exact F|]. split; [exact ND|]. split; [exact IC|].
    split; [destruct TL as [->| ->]; [auto|right; split; [reflexivity|cbn in FL; lia]]|].
    repeat split; discriminate.
Qed.

(** ** ORG *)

Lemma empty_is r : empty (Empty r).
Proof. unfold empty. eauto. Qed.
Lemma valued_is t z r : valued (Simple t false z r) z.
Proof. unfold valued. eauto. Qed.

Lemma org_operand_yes i o :
  fst (org_operand i o) = Yes <-> (exists z, valued o z) \/ (i = 1%nat /\ empty o).
Proof.
  destruct o as [id d v r|id ps r|r]; cbn [org_operand].
  - yes. destruct d; cbn [negb]; split; intros H.
    + discriminate.
    + destruct H as [H|H]; crush.
    + left. exists v. apply valued_is.
    + reflexivity.
  - destruct (i =? 0)%nat; yes; (split; [tauto|]); intros [H|H]; crush.
  - destruct (i =? 1)%nat eqn:E; [|destruct (i =? 0)%nat]; yes; split; intros H; try tauto.
    + right. split; [lia|apply empty_is].
    + destruct H as [H|[H _]]; [crush|lia].
    + destruct H as [H|[H _]]; [crush|lia].
Qed.

Lemma org_yes ops stmt : fst (check_org ops stmt) = Yes <-> Org ops.
Proof.
  unfold check_org, Org. yes. split.
  - intros [[_ L] H]. destruct (one_comma ops) eqn:OC.
    { right. left. destruct ops as [|[| |ra] [|[| |rb] [|]]]; try discriminate OC.
      exists (Empty ra), (Empty rb). split; [reflexivity|]. split; apply empty_is. }
    destruct ops as [|a [|b [|c [|d t]]]]; [left; reflexivity| | | |cbn in L; lia]; right;
      cbn [each_i] in H; revert H; yes; rewrite ?org_operand_yes; intros H.
    + right. exists a, []. split; [reflexivity|]. split; [destruct H as [[[H|[H _]] _] _]; [exact H|lia]|]. auto.
    + destruct H as [[[A|[X _]] [[B|[_ B]] _]] K]; try lia.
      * right. exists a, [b]. split; [reflexivity|]. split; [exact A|]. right. exists b, []. split; [reflexivity|].
        split; [|auto]. right. crush. revert K. yes. intros K. apply power_range in K; [|lia..].
        exists x. split; [apply valued_is|exact K].
      * right. exists a, [b]. split; [reflexivity|]. split; [exact A|]. right. exists b, []. split; [reflexivity|].
        split; auto.
    + destruct H as [[[A|[X _]] [[B|[_ B]] [[C|[Y _]] _]]] K]; try lia.
      * right. exists a, [b; c]. split; [reflexivity|]. split; [exact A|]. right. exists b, [c]. split; [reflexivity|].
        split; [right; crush; revert K; yes; intros K; apply power_range in K; [|lia..];
                match goal with K : power_of_two _ _ ?z |- _ => exists z end; split; [apply valued_is|exact K]|].
        right. destruct C as [z C]. exists c, z. auto.
      * right. exists a, [b; c]. split; [reflexivity|]. split; [exact A|]. right. exists b, [c]. split; [reflexivity|].
        split; [left; exact B|]. right. destruct C as [z C]. exists c, z. auto.
  - intros [->|[(a & b & -> & A & B)|(a & t & -> & A & H)]].
    + split; [cbn; lia|]. cbn [one_comma each_i]. yes. tauto.
    + crush. split; [cbn; lia|]. cbn [one_comma]. yes. tauto.
    + assert (forall l, one_comma (a :: l) = false) as OC.
      { intros l. destruct A as [z A]. crush. reflexivity. }
      rewrite OC. destruct H as [->|(b & u & -> & B & [->|(c & z & -> & C)])]; cbn [each_i];
        yes; rewrite ?org_operand_yes.
      * split; [cbn; lia|]. tauto.
      * split; [cbn; lia|]. destruct B as [B|(z & B & P)].
        -- split; [auto 8|]. crush. yes. tauto.
        -- split; [split; [auto|split; [left; eauto|tauto]]|]. crush. yes. apply power_range; [lia..|exact P].
      * split; [cbn; lia|]. destruct B as [B|(z' & B & P)].
        -- split; [split; [auto|split; [auto|split; [left; eauto|tauto]]]|]. crush. yes. tauto.
        -- split; [split; [auto|split; [left; eauto|split; [left; eauto|tauto]]]|].
           crush. yes. apply power_range; [lia..|exact P].
Qed.

Lemma opsyn_yes ops stmt : fst (check_opsyn ops stmt) = Yes <-> Opsyn ops.
Proof.
  unfold check_opsyn, Opsyn. yes. split.
  - intros [[_ L] H]. destruct ops as [|a [|b t]]; [left; reflexivity| |cbn in L; lia]. right. exists a.
    split; [reflexivity|]. destruct a as [id d v r|id ps r|r].
    + left. exists id. apply text_simple. reflexivity.
    + cbn in H. discriminate.
    + right. apply empty_is.
  - intros [->|(o & -> & [S0|E0])]; (split; [cbn; lia|]); crush; yes; tauto.
Qed.

(** ** MNOTE *)

Lemma mnote_first_yes stmt m o :
  fst (mnote_first stmt m o) = Yes <->
  forall t, text o t -> (String.length t + String.length m <= 1024)%nat
                        /\ (t = "*" \/ exists z, literal o z /\ (0 <= z <= 255)%Z).
Proof.
  destruct o as [id d v r|id ps r|r]; cbn [mnote_first].
  - yes. split.
    + intros [L H] t T. apply text_simple in T. subst t. split; [lia|].
      destruct (String.eqb id "*") eqn:E; [left; apply String.eqb_eq; exact E|right].
      revert H. yes. intros [D0 H]. destruct d; [discriminate|]. cbn [negb andb] in H.
      exists v. split; [exists id, r; split; [reflexivity|apply digits_spec; exact D0]|]. unfold is_byte in H. lia.
    + intros H. destruct (H id ltac:(apply text_simple; reflexivity)) as [L K]. split; [lia|].
      destruct (String.eqb id "*") eqn:E; yes; [tauto|].
      destruct K as [->|(z & Lz & B)]; [discriminate E|]. crush. split; [apply digits_spec; assumption|].
      unfold is_byte. cbn. lia.
  - yes. split; [intros _ t T; crush|tauto].
  - yes. split; [intros _ t T; crush|tauto].
Qed.

Lemma mnote_yes ops stmt : fst (check_mnote ops stmt) = Yes <-> Mnote ops.
Proof.
  unfold check_mnote, Mnote. yes. split.
  - intros [[L1 L2] H].
    assert (exists m, back ops = m /\ (ops = [m] \/ exists s, ops = [s; m])) as (m & B & O).
    { destruct ops as [|a [|b [|c t]]]; cbn [List.length] in *; try lia.
      - exists a. split; [reflexivity|]. auto.
      - exists b. split; [reflexivity|]. right. eauto. }
    rewrite B in H. destruct m as [id d v r|id ps r|r]; try (cbn in H; discriminate).
    revert H. yes. intros [H1 [H2 [H3 H4]]]. apply andb_true_iff in H2. destruct H2 as [H2 Q].
    assert (2 <= String.length id)%nat as L by lia.
    destruct (proj1 (quoted_spec id) (conj L Q)) as [body E]. subst id. rewrite length_apostrophes in *.
    exists (Simple (apostrophes body) d v r), body. split; [apply text_simple; reflexivity|]. split; [lia|].
    destruct O as [->|[s ->]]; [left; reflexivity|]. right. exists s. split; [reflexivity|].
    apply mnote_first_yes in H4 || idtac.
    destruct s as [i d' v' r'|i ps r'|r'].
    + right. exists i. split; [apply text_simple; reflexivity|].
      destruct (proj1 (mnote_first_yes _ _ _) H4 i ltac:(apply text_simple; reflexivity)) as [A K].
      rewrite length_apostrophes in A. split; [lia|exact K].
    + cbn in H1. discriminate.
    + left. apply empty_is.
  - intros (m & body & T & L & O). 
    assert (exists d v r, m = Simple (apostrophes body) d v r) as (d & v & r & ->) by (crush; eauto).
    assert (back ops = Simple (apostrophes body) d v r) as B by (destruct O as [->|(s & -> & _)]; reflexivity).
    destruct (proj2 (quoted_spec (apostrophes body)) ltac:(eauto)) as [L2 Q].
    split; [destruct O as [->|(s & -> & _)]; cbn; lia|].
    rewrite B. yes. rewrite Q. rewrite length_apostrophes in *.
    destruct O as [->|(s & -> & S0)].
    + yes. repeat split; try lia.
    + split; [|split; [lia|split; [lia|]]].
      * destruct S0 as [S0|(t & S0 & _)]; crush; yes; tauto.
      * apply mnote_first_yes. intros t Tt. destruct S0 as [S0|(t' & Tt' & L' & K)]; [crush|].
        pose proof (text_same _ _ _ Tt Tt') as ->. rewrite length_apostrophes. split; [lia|exact K].
Qed.

Lemma iseq_yes ops stmt : fst (check_iseq ops stmt) = Yes <-> Iseq ops.
Proof.
  unfold check_iseq, Iseq. split.
  - destruct ops as [|a [|b [|c t]]]; try (cbn; discriminate); [left; reflexivity|]. intros H. right.
    destruct a as [ia da l ra| |]; [destruct da|..]; try (cbn in H; discriminate H).
    destruct b as [ib db r rb| |]; [destruct db|..]; try (cbn in H; discriminate H).
    exists (Simple ia false l ra), (Simple ib false r rb), l, r. split; [reflexivity|].
    split; [apply valued_is|]. split; [apply valued_is|].
    destruct ((1 <=? l) && (l <=? 80) && (1 <=? r) && (r <=? 80) && (l <=? r))%Z eqn:E; [lia|].
    destruct (r <? l)%Z; cbn in H; discriminate H.
  - intros [->|(a & b & l & r & -> & A & B & R)]; [reflexivity|]. crush.
    assert ((1 <=? l) && (l <=? 80) && (1 <=? r) && (r <=? 80) && (l <=? r) = true)%Z as -> by lia. reflexivity.
Qed.

(** ** ICTL *)

Lemma each_i_yes A (f : nat -> A -> res) l : forall i,
  fst (each_i f i l) = Yes <-> (forall j x, nth_error l j = Some x -> fst (f (i + j)%nat x) = Yes).
Proof.
  induction l as [|x t IH]; intros i; cbn [each_i].
  - rewrite ok_yes. split; [intros _ j y H; destruct j; discriminate|tauto].
  - rewrite then_yes, IH. split.
    + intros [H1 H2] j y H. destruct j; cbn in H.
      * injection H as <-. rewrite Nat.add_0_r. exact H1.
      * replace (i + S j)%nat with (S i + j)%nat by lia. apply H2, H.
    + intros H. split; [specialize (H 0%nat x eq_refl); rewrite Nat.add_0_r in H; exact H|].
      intros j y E. replace (S i + j)%nat with (i + S j)%nat by lia. apply H, E.
Qed.

Lemma ictl_number_spec o : ictl_number o = true <-> literal o (value_of o).
Proof.
  unfold literal. destruct o as [id d v r| |]; cbn [ictl_number value_of].
  - rewrite andb_true_iff, digits_spec. destruct d; cbn [negb]; split; intros H.
    + destruct H. discriminate.
    + crush.
    + exists id, r. split; [reflexivity|tauto].
    + crush. auto.
  - split; [discriminate|intros H; crush].
  - split; [discriminate|intros H; crush].
Qed.

Lemma literal_value o z : literal o z -> value_of o = z.
Proof. intros H. crush. reflexivity. Qed.

Lemma not_empty a z t : literal a z -> fst (match a :: t with Empty r :: _ => fail "A021" r | _ => ok end) = Yes.
Proof. intros H. crush. reflexivity. Qed.

(** each condition in turn, the inner ones first *)
Ltac split_ifs := repeat match goal with
  | |- context [if ?b then _ else _] =>
    lazymatch b with context [if _ then _ else _] => fail | _ => let E := fresh "E" in destruct b eqn:E end
  end.

Lemma ictl_yes ops stmt : fst (check_ictl ops stmt) = Yes <-> Ictl ops.
Proof.
  unfold check_ictl, Ictl. yes. rewrite each_i_yes.
  assert (forall l : list op,
    (forall j x, nth_error l j = Some x ->
       fst (if ictl_number x then ok else if (0 + j =? 0)%nat then fail "A122" (op_range x) else fail "A242" (op_range x)) = Yes)
    <-> Forall (fun o => literal o (value_of o)) l) as EQ.
  { intros l. rewrite Forall_forall. split.
    - intros H x I0. apply In_nth_error in I0. destruct I0 as [j J]. specialize (H j x J).
      apply ictl_number_spec. destruct (ictl_number x); [reflexivity|]. destruct (0 + j =? 0)%nat; discriminate H.
    - intros H j x J. apply nth_error_In in J. apply H, ictl_number_spec in J. rewrite J. reflexivity. }
  rewrite EQ. clear EQ. split.
  - intros [[L1 L2] [_ [F H]]].
    destruct ops as [|a [|x [|y [|z t]]]]; cbn [List.length] in *; try lia.
    + left. inversion F as [|? ? F1 F']; subst. exists a, (value_of a). split; [reflexivity|]. split; [exact F1|].
      cbn [Nat.eqb orb nth_error fail_at] in H.
      revert H. split_ifs; cbn; try discriminate; lia.
    + right. left. inversion F as [|? ? F1 F']; subst. inversion F' as [|? ? F2 F'']; subst.
      exists a, x, (value_of a), (value_of x). split; [reflexivity|]. split; [exact F1|]. split; [exact F2|].
      cbn [Nat.eqb orb nth_error fail_at] in H.
      revert H. split_ifs; cbn; try discriminate; lia.
    + right. right. inversion F as [|? ? F1 F']; subst. inversion F' as [|? ? F2 F'']; subst.
      inversion F'' as [|? ? F3 F''']; subst.
      exists a, x, y, (value_of a), (value_of x), (value_of y). split; [reflexivity|].
      split; [exact F1|]. split; [exact F2|]. split; [exact F3|].
      cbn [Nat.eqb orb nth_error fail_at] in H.
      revert H. split_ifs; cbn; try discriminate; lia.
  - intros [(a & b & -> & A & R)|[(a & x & b & e & -> & A & X & R)|(a & x & y & b & e & c & -> & A & X & Y & R & C)]].
    + pose proof (literal_value _ _ A) as E. rewrite <- E in A.
      split; [cbn; lia|]. split; [exact (not_empty _ _ [] A)|]. split; [constructor; auto|].
      cbn [List.length Nat.eqb orb nth_error fail_at]. rewrite E.
      split_ifs; try reflexivity; lia.
    + pose proof (literal_value _ _ A) as E. pose proof (literal_value _ _ X) as E'. rewrite <- E in A. rewrite <- E' in X.
      split; [cbn; lia|]. split; [exact (not_empty _ _ [] A)|]. split; [constructor; auto|].
      cbn [List.length Nat.eqb orb nth_error fail_at]. rewrite E, E'.
      split_ifs; try reflexivity; lia.
    + pose proof (literal_value _ _ A) as E. pose proof (literal_value _ _ X) as E'.
      pose proof (literal_value _ _ Y) as E''. rewrite <- E in A. rewrite <- E' in X. rewrite <- E'' in Y.
      split; [cbn; lia|]. split; [exact (not_empty _ _ [] A)|]. split; [constructor; auto|].
      cbn [List.length Nat.eqb orb nth_error fail_at]. rewrite E, E', E''.
      split_ifs; try reflexivity; lia.
Qed.

(** ** EXTRN, WXTRN *)

Lemma not_blank s : negb (String.eqb s "") = true <-> s <> "".
Proof. rewrite negb_true_iff, String.eqb_neq. reflexivity. Qed.

Lemma external_operand_yes o :
  fst (external_operand o) = Yes <->
  (exists s, text o s /\ s <> "") \/ exists ps, complex o "PART" ps /\ Forall (fun p => exists s, text p s /\ s <> "") ps.
Proof.
  assert (forall p r, fst (match p with Simple i _ _ _ => need (negb (String.eqb i "")) "A129" r | _ => fail "A129" r end) = Yes
                      <-> exists s, text p s /\ s <> "") as P.
  { intros p r. destruct p as [id d v r'| |]; yes; rewrite ?not_blank; split; intros H; crush; auto.
    exists id. split; [apply text_simple; reflexivity|assumption]. }
  destruct o as [id d v r|id ps r|r]; cbn [external_operand]; yes; rewrite ?not_blank.
  - split; intros H.
    + left. exists id. split; [apply text_simple; reflexivity|assumption].
    + destruct H; crush; auto.
  - rewrite eqb_eq. rewrite (Forall_iff _ _ _ ps (fun p => P p r)). split; intros H.
    + right. exists ps. destruct H as [-> H]. split; [exists r; reflexivity|exact H].
    + destruct H; crush. auto.
  - split; [tauto|]. intros [H|H]; crush.
Qed.

Lemma external_yes ops stmt : fst (check_external ops stmt) = Yes <-> External ops.
Proof.
  unfold check_external, External. yes. rewrite nonempty. apply and_iff_compat_l, Forall_iff, external_operand_yes.
Qed.

Lemma value_or_empty c c' o :
  fst (match o with Empty _ => ok | Simple _ d _ r => need (negb d) c r | Complex _ _ r => fail c' r end) = Yes
  <-> empty o \/ exists z, valued o z.
Proof.
  destruct o as [id d v r|id ps r|r]; yes.
  - destruct d; cbn [negb]; split; intros H; try discriminate; try reflexivity.
    + destruct H; crush.
    + right. exists v. apply valued_is.
  - split; [tauto|]. intros [H|H]; crush.
  - split; [intros _; left; apply empty_is|tauto].
Qed.

Lemma exitctl_yes ops stmt : fst (check_exitctl ops stmt) = Yes <-> Exitctl ops.
Proof.
  unfold check_exitctl, Exitctl. yes. split.
  - intros [[L1 L2] H]. destruct ops as [|a t]; [cbn in L1; lia|]. revert H. yes. intros [W F].
    exists a, t. split; [reflexivity|]. split; [cbn in *; lia|]. split; [exact W|].
    eapply Forall_iff; [|exact F]. intros o. symmetry. apply value_or_empty.
  - intros (a & t & -> & L & W & F). split; [cbn; lia|]. yes. split; [exact W|].
    eapply Forall_iff; [|exact F]. intros o. apply value_or_empty.
Qed.

Lemma entry_yes ops stmt : fst (check_entry ops stmt) = Yes <-> Entry ops.
Proof.
  unfold check_entry, Entry. yes.
  assert (forall o, fst (match o with Simple id _ _ r => need (negb (String.eqb id "")) "A136" r | _ => fail "A136" (op_range o) end) = Yes
                    <-> exists s, text o s /\ s <> "") as P.
  { intros p. destruct p as [id d v r'| |]; yes; rewrite ?not_blank; split; intros H; crush; auto.
    exists id. split; [apply text_simple; reflexivity|assumption]. }
  rewrite (Forall_iff _ _ _ ops P). split.
  - intros ([L _] & L2 & F). split; [lia|exact F].
  - intros (L & F). split; [split; [lia|exact Logic.I]|]. split; [lia|exact F].
Qed.

(** ** END *)

Lemma end_language_yes stmt o : fst (end_language stmt o) = Yes <-> empty o \/ Language o.
Proof.
  unfold Language. destruct o as [id d v r|id ps r|r]; cbn [end_language].
  - yes. split; [tauto|]. intros [H|H]; crush.
  - yes. rewrite Nat.eqb_eq, eqb_eq. split.
    + intros (L & -> & F & H). right.
      destruct ps as [|a [|b [|c [|e t]]]]; cbn in L; try lia.
      inversion F as [|? ? Fa F']; subst. inversion F' as [|? ? Fb F'']; subst. inversion F'' as [|? ? Fc _]; subst.
      destruct a as [x dx vx rx| |]; try (cbn in Fa; discriminate Fa).
      destruct b as [y dy vy ry| |]; try (cbn in Fb; discriminate Fb).
      destruct c as [z dz vz rz| |]; try (cbn in Fc; discriminate Fc).
      revert H. yes. rewrite Nat.eqb_eq, andb_true_iff, Nat.eqb_eq, digits_spec. intros (A & B & C & D0).
      eexists _, _, _, x, y, z. split; [exists r; reflexivity|].
      split; [apply text_simple; reflexivity|]. split; [apply text_simple; reflexivity|].
      split; [apply text_simple; reflexivity|]. repeat split; try lia; assumption.
    + intros [H|H]; [crush|]. destruct H as (a & b & c & x & y & z & C & A & B & Z0 & L1 & L2 & L3 & D0).
      crush. split; [reflexivity|]. split; [reflexivity|]. split; [repeat constructor|].
      yes. rewrite Nat.eqb_eq, andb_true_iff, Nat.eqb_eq, digits_spec. repeat split; auto. lia.
  - yes. split; [intros _; left; apply empty_is|tauto].
Qed.

Lemma end_yes ops stmt : fst (check_end ops stmt) = Yes <-> End_ ops.
Proof.
  unfold check_end, End_. yes. split.
  - intros [[_ L] [H1 H2]]. destruct ops as [|a t]; [left; reflexivity|right]. exists a, t. split; [reflexivity|].
    split.
    + destruct a as [id d v r|id ps r|r]; [left; exists id; apply text_simple; reflexivity|cbn in H1; discriminate|].
      right. apply empty_is.
    + destruct t as [|l [|? ?]]; [left; reflexivity| |cbn in L; lia]. right. exists l. split; [reflexivity|].
      apply end_language_yes in H2. exact H2.
  - intros [->|(a & t & -> & A & T)].
    + split; [cbn; lia|]. yes. tauto.
    + destruct T as [->|(l & -> & Lg)]; (split; [cbn; lia|]); (split; [destruct A; crush; reflexivity|]).
      * reflexivity.
      * apply end_language_yes. exact Lg.
Qed.

(** ** DROP *)

Lemma ord_symbol_yes s : is_ord_symbol s = Some true <-> plain_name s.
Proof.
  unfold is_ord_symbol, plain_name. destruct s as [|c t]; cbn [chars list_ascii_of_string].
  - split; [discriminate|]. intros (c & t & E & _). discriminate.
  - fold (chars t). split.
    + intros H.
      assert ((String.length (String c t) <=? 63)%nat && is_alpha c && forallb is_alnum (c :: chars t) = true) as H0 by congruence.
      clear H. rewrite !andb_true_iff in H0. destruct H0 as [[L A] B].
      cbn [forallb] in B. apply andb_true_iff in B. destruct B as [_ B].
      exists c, t. split; [reflexivity|]. split; [apply alpha_spec; exact A|]. cbn in L. split; [lia|].
      intros x I0. apply alnum_spec. rewrite forallb_forall in B. apply B, I0.
    + intros (c' & t' & E & LC & L & H). injection E as <- <-. f_equal.
      rewrite !andb_true_iff. split; [split; [cbn; lia|apply alpha_spec; exact LC]|].
      cbn [forallb]. apply andb_true_iff. split; [apply alnum_spec; auto|].
      apply forallb_forall. intros x I0. apply alnum_spec, H, I0.
Qed.

Lemma var_symbol_yes s : is_var_symbol s = Some true <-> exists t, s = String "&" t /\ plain_name t.
Proof.
  unfold is_var_symbol. destruct s as [|c t].
  - split; [discriminate|]. intros (t & E & _). discriminate.
  - destruct (Ascii.eqb c amp) eqn:E.
    + apply Ascii.eqb_eq in E. subst c. rewrite ord_symbol_yes. split.
      * intros H. exists t. auto.
      * intros (t' & E & H). injection E as <-. exact H.
    + split; [discriminate|]. intros (t' & E' & H). injection E' as -> <-. discriminate E.
Qed.

Lemma drop_operand_yes o :
  fst (drop_operand o) = Yes <->
  (exists z, valued o z /\ (0 <= z <= 255)%Z)
  \/ exists s, nameless o s /\ (plain_name s \/ exists t, s = String "&" t /\ plain_name t).
Proof.
  destruct o as [id d v r|id ps r|r]; cbn [drop_operand].
  - destruct d; cbn [negb].
    + split.
      * intros H. right. exists id. split; [exists v, r; reflexivity|].
        destruct (is_ord_symbol id) as [[]|] eqn:E1; try (cbn in H; discriminate H).
        -- left. apply ord_symbol_yes. exact E1.
        -- destruct (is_var_symbol id) as [b|] eqn:E2; try (cbn in H; discriminate H).
           revert H. yes. intros ->. right. apply var_symbol_yes. exact E2.
      * intros [H|(s & N & H)]; crush.
        destruct H as [H|H].
        -- apply ord_symbol_yes in H. rewrite H. reflexivity.
        -- assert (is_ord_symbol s = Some false) as ->.
           { destruct H as (t & -> & _). unfold is_ord_symbol. cbn [chars list_ascii_of_string].
             replace (is_alpha "&") with false by reflexivity. rewrite andb_false_r. reflexivity. }
           apply var_symbol_yes in H. rewrite H. reflexivity.
    + yes. unfold is_byte. split.
      * intros H. left. exists v. split; [apply valued_is|lia].
      * intros [H|H]; crush. lia.
  - yes. split; [tauto|]. intros [H|H]; crush.
  - yes. split; [tauto|]. intros [H|H]; crush.
Qed.

Lemma one_comma_spec ops : one_comma ops = true <-> exists a b, ops = [a; b] /\ empty a /\ empty b.
Proof.
  split.
  - destruct ops as [|[| |ra] [|[| |rb] [|]]]; try discriminate. intros _.
    exists (Empty ra), (Empty rb). split; [reflexivity|]. split; apply empty_is.
  - intros H. crush. reflexivity.
Qed.

Lemma drop_yes ops stmt : fst (check_drop ops stmt) = Yes <-> Drop ops.
Proof.
  unfold check_drop, Drop. destruct (one_comma ops) eqn:E.
  - split; [intros _|reflexivity]. left. apply one_comma_spec. exact E.
  - yes. rewrite (Forall_iff _ _ _ ops drop_operand_yes). split; [auto|].
    intros [H|H]; [|exact H]. apply one_comma_spec in H. congruence.
Qed.

Lemma copy_yes ops stmt : fst (check_copy ops stmt) = Yes <-> Copy ops.
Proof.
  unfold check_copy, Copy. yes. rewrite one_op. split.
  - intros [[o ->] H]. destruct o as [id d v r| |]; try (cbn in H; discriminate H).
    revert H. yes. rewrite andb_true_iff, negb_true_iff. intros [-> H].
    exists (Simple id true v r), id. split; [reflexivity|]. split; [exists v, r; reflexivity|].
    intros B. apply quoted_spec in B. destruct B as [L Q]. rewrite Q in H. lia.
  - intros (o & s & -> & N & B). split; [eauto|]. crush. yes. rewrite andb_true_iff, negb_true_iff.
    split; [reflexivity|]. destruct (quoted s) eqn:Q; [|apply andb_false_r].
    destruct (1 <? String.length s)%nat eqn:L; [|reflexivity]. destruct B. apply quoted_spec. split; [lia|exact Q].
Qed.

Lemma cnop_yes ops stmt : fst (check_cnop ops stmt) = Yes <-> Cnop ops.
Proof.
  unfold check_cnop, Cnop. yes. split.
  - intros [[L1 L2] H]. destruct ops as [|a [|b [|c t]]]; cbn [List.length] in *; try lia.
    destruct a as [ia da byte ra| |]; [destruct da|..]; try (cbn in H; discriminate H).
    destruct b as [ib db bound rb| |]; [destruct db|..]; try (cbn in H; discriminate H).
    exists (Simple ia false byte ra), (Simple ib false bound rb), byte, bound.
    split; [reflexivity|]. split; [apply valued_is|]. split; [apply valued_is|].
    destruct ((byte <? 0) || (Z.rem byte 2 =? 1))%Z eqn:E1; [discriminate H|].
    destruct (((bound <? 0) || (4096 <? bound))%Z || negb (is_power_of_two bound)) eqn:E2; [discriminate H|].
    destruct (bound - 2 <? byte)%Z eqn:E3; [discriminate H|].
    split; [lia|]. split.
    { exists (byte / 2)%Z. rewrite Z.rem_mod_nonneg in E1 by lia.
      pose proof (Z.mod_pos_bound byte 2). pose proof (Z.div_mod byte 2). lia. }
    split; [|lia]. apply power_range; [lia..|].
    destruct (is_power_of_two bound); cbn in *; lia.
  - intros (a & b & byte & bound & -> & A & B & P0 & Ev & P & Le). split; [cbn; lia|]. crush.
    assert (((byte <? 0) || (Z.rem byte 2 =? 1))%Z = false) as ->.
    { rewrite Z.rem_mod_nonneg by lia. destruct Ev as [k ->]. rewrite Z.mul_comm, Z.mod_mul by lia. lia. }
    apply power_range in P; [|lia..].
    assert (((bound <? 0) || (4096 <? bound))%Z || negb (is_power_of_two bound) = false) as ->
      by (destruct (is_power_of_two bound); cbn in *; lia).
    assert ((bound - 2 <? byte)%Z = false) as -> by lia. reflexivity.
Qed.

Lemma ccw_yes ops stmt : fst (check_ccw ops stmt) = Yes <-> Ccw ops.
Proof.
  unfold check_ccw, Ccw. yes. rewrite each_i_yes.
  assert (forall l : list op,
    (forall j x, nth_error l j = Some x ->
       fst match x with
           | Empty r => fail "A147" r
           | Complex _ _ r => if (0 + j =? 1)%nat then fail "A247" r else fail "A143" r
           | Simple _ _ _ _ => ok
           end = Yes) <-> Forall simple l) as EQ.
  { intros l. rewrite Forall_forall. split.
    - intros H x I0. apply In_nth_error in I0. destruct I0 as [j J]. specialize (H j x J).
      destruct x as [id d v r|id ps r|r].
      + exists id. apply text_simple. reflexivity.
      + destruct (0 + j =? 1)%nat; discriminate H.
      + discriminate H.
    - intros H j x J. apply nth_error_In in J. apply H in J. crush. reflexivity. }
  rewrite EQ. split; intros [L F]; (split; [lia|exact F]).
Qed.

Lemma expr_yes ops stmt : fst (check_expr ops stmt) = Yes <-> Expression ops.
Proof.
  unfold check_expr, Expression. destruct ops as [|a t]; [split; [auto|reflexivity]|].
  destruct (one_comma (a :: t)) eqn:E.
  { split; [intros _; right; left; apply one_comma_spec; exact E|reflexivity]. }
  yes. split.
  - intros [[_ L] H]. right. right. destruct t; [|cbn in L; lia].
    destruct a as [id d v r| |]; try (cbn in H; discriminate H). revert H. yes.
    destruct d; cbn [orb negb]; [discriminate|]. unfold is_positive. intros H.
    exists (Simple id false v r), v. split; [reflexivity|]. split; [apply valued_is|lia].
  - intros [H|[H|H]]; [discriminate| |].
    + apply one_comma_spec in H. congruence.
    + destruct H as (o & z & E' & V & P). injection E' as <- ->. split; [cbn; lia|]. crush. yes.
      unfold is_positive. cbn. lia.
Qed.

Lemma ainsert_yes ops stmt : fst (check_ainsert ops stmt) = Yes <-> Ainsert ops.
Proof.
  unfold check_ainsert, Ainsert. yes. split.
  - intros [[L1 L2] H]. destruct ops as [|a [|b [|c t]]]; cbn [List.length] in *; try lia.
    destruct a as [id d v r| |]; try (cbn in H; discriminate H). revert H. yes.
    intros (H1 & Q & H3 & W).
    assert (2 <= String.length id)%nat as L by lia.
    destruct (proj1 (quoted_spec id) (conj L Q)) as [body E]. subst id. rewrite length_apostrophes in *.
    exists (Simple (apostrophes body) d v r), b, body. split; [reflexivity|]. split; [apply text_simple; reflexivity|].
    split; [lia|]. eapply word_same; [|exact W]. same_words.
  - intros (a & b & body & -> & T & L & W). split; [cbn; lia|]. crush. yes.
    rewrite length_apostrophes.
    destruct (proj2 (quoted_spec (apostrophes body)) ltac:(eauto)) as [L2 Q].
    split; [lia|]. split; [exact Q|]. split; [lia|]. eapply word_same; [|exact W]. same_words.
Qed.

Lemma adata_yes ops stmt : fst (check_adata ops stmt) = Yes <-> Adata ops.
Proof.
  unfold check_adata, Adata. yes. split.
  - intros [[L1 L2] [F H]].
    assert (ops = removelast ops ++ [back ops]) as E.
    { apply app_removelast_last. intros ->. cbn in L1. lia. }
    exists (removelast ops), (back ops). split; [exact E|].
    split; [rewrite E, app_length in L1, L2; cbn in L1, L2; lia|].
    split; [eapply Forall_iff; [|exact F]; intros o; symmetry; apply value_or_empty|].
    destruct (back ops) as [id d v r|id ps r|r].
    + right. exists id. split; [apply text_simple; reflexivity|]. revert H. yes. intros [_ H].
      unfold is_character_string in H. lia.
    + cbn in H. discriminate.
    + left. apply empty_is.
  - intros (vs & l & -> & L & F & H). unfold back. rewrite removelast_last, last_last.
    split; [rewrite app_length; cbn; lia|].
    split; [eapply Forall_iff; [|exact F]; intros o; apply value_or_empty|].
    destruct H as [H|(s & T & H)]; crush; [reflexivity|]. yes.
    split; [reflexivity|]. unfold is_character_string. lia.
Qed.

Lemma none_yes ops stmt : fst (check_none ops stmt) = Yes <-> No_operands ops.
Proof.
  unfold check_none, No_operands. yes. destruct ops; cbn [List.length]; split; intros H; try reflexivity; try lia; discriminate.
Qed.

Lemma using_instr_yes ops stmt : fst (check_using_instr ops stmt) = Yes <-> Using ops.
Proof. unfold check_using_instr, Using. yes. tauto. Qed.

Lemma equ_yes ops stmt : fst (check_equ ops stmt) = Yes <-> Equ ops.
Proof. unfold check_equ, Equ. yes. tauto. Qed.

Lemma dxd_no ops stmt : fst (check_dxd ops stmt) = Yes <-> False.
Proof.
  unfold check_dxd. yes. destruct ops as [|a t]; cbn.
  - split; [|tauto]. intros [[H _] _]. lia.
  - split; [|tauto]. intros [_ H]. discriminate.
Qed.
