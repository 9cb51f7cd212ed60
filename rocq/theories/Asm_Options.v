(** * Which operands the instructions with options accept *)
From Coq Require Import String Ascii.
From Coq Require Import List ZArith Bool Lia Arith ZifyBool ZifyNat.
From Verif Require Import Asm_Model Asm_Spec Asm_Base Asm_Values.
Import ListNotations.
Open Scope string_scope.
Open Scope list_scope.

(** decide the comparisons of words that are given *)
Ltac decide_words := repeat match goal with
  | |- context [String.eqb ?a ?b] =>
    let v := eval vm_compute in (String.eqb a b) in
    match v with true => change (String.eqb a b) with true | false => change (String.eqb a b) with false end
  | |- context [mem ?a ?l] =>
    let v := eval vm_compute in (mem a l) in
    match v with true => change (mem a l) with true | false => change (mem a l) with false end
  end; cbn [orb andb negb].

(** one goal for each word of the list *)
Ltac each_word H := cbn [In] in H; repeat (destruct H as [<-|H]); [.. | destruct H].

Lemma simple_is id d v r : text (Simple id d v r) id.
Proof. apply text_simple. reflexivity. Qed.

Lemma complex_is id ps r id' ps' : complex (Complex id ps r) id' ps' <-> id = id' /\ ps = ps'.
Proof. unfold complex. split; [intros [r' E]; injection E; auto|intros [-> ->]; eauto]. Qed.
Lemma word_complex ws id ps r : word ws (Complex id ps r) <-> False.
Proof. unfold word, text. split; [|tauto]. intros H. crush. Qed.
Lemma word_simple ws id d v r : word ws (Simple id d v r) <-> In id ws.
Proof. rewrite <- keyword_word. cbn. apply mem_in. Qed.
Lemma word_empty ws r : word ws (Empty r) <-> False.
Proof. unfold word, text. split; [|tauto]. intros H. crush. Qed.

Lemma literal_simple id d v r z : literal (Simple id d v r) z <-> has_all_digits id && negb d = true /\ v = z.
Proof.
  unfold literal. rewrite andb_true_iff, digits_spec. split.
  - intros H. crush. auto.
  - intros [[H N] <-]. destruct d; [discriminate N|]. eauto.
Qed.

Lemma length_zero (ps : list op) : negb (List.length ps =? 0)%nat = true <-> ps <> [].
Proof. destruct ps; cbn; split; intros; congruence. Qed.

(** ** ACONTROL and the parts *PROCESS shares with it *)

Lemma compat_yes ps : fst (check_compat ps) = Yes <-> Forall Compat ps.
Proof. unfold check_compat, Compat. yes. apply Forall_iff. intros o. yes. apply word_same. same_words. Qed.

Lemma typecheck_yes ps : fst (check_typecheck ps) = Yes <-> Forall Typecheck ps.
Proof. unfold check_typecheck, Typecheck. yes. apply Forall_iff. intros o. yes. apply word_same. same_words. Qed.

Lemma flag_operand_yes id d v r : fst (check_flag_operand id d v r) = Yes <-> Flag (Simple id d v r).
Proof.
  unfold check_flag_operand, Flag. rewrite word_simple.
  assert (mem id flag_words = true
          <-> In id (with_no ["ALIGN"; "AL"; "CONT"; "EXLITW"; "IMPLEN"; "PAGE0"; "SUBSTR"; "SUB"; "USING0"; "US0"])) as M.
  { rewrite mem_in. revert id. same_words. }
  rewrite <- M. destruct (mem id flag_words); [yes; tauto|].
  destruct (has_all_digits id && negb d) eqn:E; yes.
  - split.
    + intros H. right. exists v. split; [apply literal_simple; auto|lia].
    + intros [H|(z & L & B)]; [discriminate|]. apply literal_simple in L. destruct L as [_ <-]. lia.
  - split; [tauto|]. intros [H|(z & L & B)]; [discriminate|]. apply literal_simple in L. destruct L. congruence.
Qed.

Lemma Flag_simple p : Flag p -> exists id d v r, p = Simple id d v r.
Proof. intros [(w & T & _)|(z & L & _)]; [unfold text in T|unfold literal in L]; crush; eauto. Qed.

Lemma optable_yes ps : ps <> [] -> negb (2 <? List.length ps)%nat = true -> fst (check_optable ps) = Yes <-> Optable ps.
Proof.
  intros N L. unfold check_optable, Optable. destruct ps as [|a [|b [|c t]]]; [congruence| | |cbn in L; discriminate].
  - yes. split.
    + intros W. exists a, []. auto.
    + intros (a' & t & E & W & _). injection E as <- <-. exact W.
  - cbn [List.length Nat.eqb]. yes. split.
    + intros [W W']. exists a, [b]. split; [reflexivity|]. split; [exact W|]. right. exists b. auto.
    + intros (a' & t & E & W & [->|(b' & -> & W')]); [discriminate|]. injection E as <- <-. auto.
Qed.

Lemma Optable_size ps : Optable ps -> ps <> [] /\ negb (2 <? List.length ps)%nat = true.
Proof.
  intros (a & t & -> & _ & [->|(b & -> & _)]); (split; [discriminate|reflexivity]).
Qed.

Ltac pick_complex := rewrite ?complex_is; repeat split; try reflexivity; try (cbn; tauto).

Lemma acontrol_operand_yes stmt o :
  fst (acontrol_operand stmt o) = Yes <->
    word (["NOCOMPAT"; "NOCPAT"; "NOTYPECHECK"; "NOTC"] ++ with_no ["AFPR"; "LIBMAC"; "LMAC"; "RA2"]) o
    \/ (exists id ps, complex o id ps /\ In id ["COMPAT"; "CPAT"] /\ ps <> [] /\ Forall Compat ps)
    \/ (exists ps, complex o "FLAG" ps /\ ps <> [] /\ Forall Flag ps)
    \/ (exists id ps, complex o id ps /\ In id ["TYPECHECK"; "TC"] /\ ps <> [] /\ Forall Typecheck ps)
    \/ (exists ps, complex o "OPTABLE" ps /\ Optable ps).
Proof.
  destruct o as [id d v r|id ps r|r]; cbn [acontrol_operand].
  - yes. rewrite word_simple, mem_in. split.
    + intros H. left. revert id H. intros id. apply in_forallb. vm_compute. reflexivity.
    + intros [H|H]; [|exfalso; decompose [or] H; crush].
      revert id H. intros id. apply in_forallb. vm_compute. reflexivity.
  - rewrite word_complex. yes. rewrite mem_in, length_zero.
    assert (forall ps, fst (each (fun p => match p with
                     | Simple i d v r' => check_flag_operand i d v r'
                     | _ => fail "A211" (op_range p)
                     end) ps) = Yes <-> Forall Flag ps) as FL.
    { intros qs. yes. apply Forall_iff. intros p. destruct p as [i d v r'| |].
      - apply flag_operand_yes.
      - yes. split; [tauto|]. intros H. apply Flag_simple in H. crush.
      - yes. split; [tauto|]. intros H. apply Flag_simple in H. crush. }
    split.
    + intros (M & N & H). right. revert H. each_word M; decide_words; rewrite ?compat_yes, ?typecheck_yes, ?FL; intros H.
      * left. exists "CPAT", ps. pick_complex; assumption.
      * left. exists "COMPAT", ps. pick_complex; assumption.
      * right. left. exists ps. pick_complex; assumption.
      * right. right. left. exists "TC", ps. pick_complex; assumption.
      * right. right. left. exists "TYPECHECK", ps. pick_complex; assumption.
      * right. right. right. revert H. yes. intros [L H]. exists ps. rewrite optable_yes in H by assumption.
        pick_complex; assumption.
    + intros [H|[(i & qs & C & M & N & F)|[(qs & C & N & F)|[(i & qs & C & M & N & F)|(qs & C & F)]]]]; [tauto|..];
        apply complex_is in C; destruct C as [-> ->].
      * split; [each_word M; cbn; tauto|]. split; [exact N|]. each_word M; decide_words; apply compat_yes; exact F.
      * split; [cbn; tauto|]. split; [exact N|]. decide_words. apply FL. exact F.
      * split; [each_word M; cbn; tauto|]. split; [exact N|]. each_word M; decide_words; apply typecheck_yes; exact F.
      * destruct (Optable_size _ F) as [N L]. split; [cbn; tauto|]. split; [exact N|]. decide_words. yes.
        rewrite optable_yes by assumption. auto.
  - yes. rewrite word_empty. split; [tauto|]. intros H. decompose [or] H; crush.
Qed.

Lemma acontrol_yes ops stmt : fst (check_acontrol ops stmt) = Yes <-> Acontrol ops.
Proof.
  unfold check_acontrol, Acontrol. yes. rewrite nonempty. apply and_iff_compat_l, Forall_iff. intros o.
  apply acontrol_operand_yes.
Qed.

(** ** CATTR *)

Lemma cattr_operand_yes stmt o :
  fst (cattr_operand stmt o) = Yes <->
    word ["RENT"; "REUS"; "NOTREUS"; "REFR"; "READONLY"; "MOVABLE"; "REMOVABLE"; "EXECUTABLE"; "NOTEXECUTABLE";
          "DEFLOAD"; "NOLOAD"] o
    \/ (exists p, complex o "RMODE" [p] /\ word ["24"; "31"; "64"; "ANY"] p)
    \/ (exists p, complex o "ALIGN" [p] /\ word ["0"; "1"; "2"; "3"; "4"; "12"] p)
    \/ (exists p z, complex o "FILL" [p] /\ literal p z /\ (0 <= z <= 255)%Z)
    \/ (exists p s, complex o "PART" [p] /\ text p s /\ (1 <= String.length s <= 63)%nat)
    \/ (exists p z, complex o "PRIORITY" [p] /\ literal p z /\ (0 < z)%Z).
Proof.
  destruct o as [id d v r|id ps r|r]; cbn [cattr_operand].
  - yes. rewrite word_simple, mem_in. split.
    + intros H. left. revert id H. intros id. apply in_forallb. vm_compute. reflexivity.
    + intros [H|H]; [|exfalso; decompose [or] H; crush].
      revert id H. intros id. apply in_forallb. vm_compute. reflexivity.
  - rewrite word_complex. yes. rewrite mem_in. split.
    + intros (M & H). right. destruct ps as [|p [|q t]]; try (cbn in H; discriminate H).
      revert H. each_word M; decide_words; yes; intros H.
      * left. exists p. pick_complex; exact H.
      * right. left. exists p. pick_complex; exact H.
      * right. right. left. destruct p as [i d v r'| |]; try discriminate H. apply andb_true_iff in H. destruct H as [H B].
        exists (Simple i d v r'), v. rewrite literal_simple. pick_complex; unfold is_byte in B; try assumption; lia.
      * right. right. right. left. destruct p as [i d v r'| |]; try discriminate H.
        exists (Simple i d v r'), i. rewrite text_simple. pick_complex; lia.
      * right. right. right. right. destruct p as [i d v r'| |]; try discriminate H. apply andb_true_iff in H. destruct H as [H B].
        exists (Simple i d v r'), v. rewrite literal_simple. pick_complex; unfold is_positive in B; try assumption; lia.
    + intros [H|[(p & C & W)|[(p & C & W)|[(p & z & C & L & B)|[(p & s & C & T & B)|(p & z & C & L & B)]]]]]; [tauto|..];
        apply complex_is in C; destruct C as [-> ->]; (split; [cbn; tauto|]); decide_words; yes.
      * exact W.
      * exact W.
      * destruct p as [i d v r'| |]; [|exfalso; unfold literal in L; crush..]. apply literal_simple in L. destruct L as [-> <-].
        unfold is_byte. lia.
      * crush. lia.
      * destruct p as [i d v r'| |]; [|exfalso; unfold literal in L; crush..]. apply literal_simple in L. destruct L as [-> <-].
        unfold is_positive. lia.
  - yes. rewrite word_empty. split; [tauto|]. intros H. decompose [or] H; crush.
Qed.

Lemma cattr_yes ops stmt : fst (check_cattr ops stmt) = Yes <-> Cattr ops.
Proof.
  unfold check_cattr, Cattr. yes. rewrite nonempty. apply and_iff_compat_l, Forall_iff. intros o.
  apply cattr_operand_yes.
Qed.

(** ** XATTR *)

Definition ref_lists : list (list string) :=
  [["DIRECT"]; ["INDIRECT"]; ["DATA"]; ["CODE"];
   ["DIRECT"; "DATA"]; ["DIRECT"; "CODE"]; ["INDIRECT"; "DATA"]; ["INDIRECT"; "CODE"];
   ["DATA"; "DIRECT"]; ["CODE"; "DIRECT"]; ["DATA"; "INDIRECT"]; ["CODE"; "INDIRECT"]].

Lemma ref_params_yes ps :
  negb ((List.length ps =? 0) || (2 <? List.length ps))%nat = true /\ fst (ref_params false false ps) = Yes
  <-> exists ws, Forall2 text ps ws /\ In ws ref_lists.
Proof.
  split.
  - intros [L H]. destruct ps as [|a [|b [|c t]]]; try (cbn in L; discriminate L).
    + destruct a as [i d v r| |]; try (cbn in H; discriminate H). exists [i].
      split; [constructor; [apply simple_is|constructor]|]. revert H. cbn [ref_params].
      destruct (String.eqb i "DIRECT") eqn:E1; [apply String.eqb_eq in E1; subst; cbn; tauto|].
      destruct (String.eqb i "INDIRECT") eqn:E2; [apply String.eqb_eq in E2; subst; cbn; tauto|].
      destruct (String.eqb i "DATA") eqn:E3; [apply String.eqb_eq in E3; subst; cbn; tauto|].
      destruct (String.eqb i "CODE") eqn:E4; [apply String.eqb_eq in E4; subst; cbn; tauto|].
      cbn. discriminate.
    + destruct a as [i d v r| |]; try (cbn in H; discriminate H).
      destruct b as [j d' v' r'| |].
      2,3: revert H; cbn [ref_params]; split_ifs; cbn; discriminate.
      exists [i; j]. split; [repeat constructor; apply simple_is|]. revert H. cbn [ref_params].
      destruct (String.eqb i "DIRECT") eqn:E1; [apply String.eqb_eq in E1; subst i|];
      [|destruct (String.eqb i "INDIRECT") eqn:E2; [apply String.eqb_eq in E2; subst i|]];
      [| |destruct (String.eqb i "DATA") eqn:E3; [apply String.eqb_eq in E3; subst i|]];
      [| | |destruct (String.eqb i "CODE") eqn:E4; [apply String.eqb_eq in E4; subst i|cbn; discriminate]].
      all: destruct (String.eqb j "DIRECT") eqn:F1; [apply String.eqb_eq in F1; subst j; cbn; first [discriminate|tauto]|].
      all: destruct (String.eqb j "INDIRECT") eqn:F2; [apply String.eqb_eq in F2; subst j; cbn; first [discriminate|tauto]|].
      all: destruct (String.eqb j "DATA") eqn:F3; [apply String.eqb_eq in F3; subst j; cbn; first [discriminate|tauto]|].
      all: destruct (String.eqb j "CODE") eqn:F4; [apply String.eqb_eq in F4; subst j; cbn; first [discriminate|tauto]|].
      all: cbn; discriminate.
  - intros (ws & F & I0). unfold ref_lists in I0. each_word I0.
    all: repeat match goal with F : Forall2 _ _ _ |- _ => inversion F; clear F; subst end.
    all: crush; split; vm_compute; reflexivity.
Qed.

Lemma xattr_operand_yes stmt o :
  fst (xattr_operand stmt o) = Yes <->
    (exists id p, complex o id [p] /\ In id ["ATTRIBUTES"; "ATTR"; "PSECT"])
    \/ (exists p, complex o "SCOPE" [p]
                  /\ word ["SECTION"; "MODULE"; "LIBRARY"; "IMPORT"; "EXPORT"; "S"; "M"; "L"; "X"] p)
    \/ (exists id p, complex o id [p] /\ In id ["LINKAGE"; "LINK"] /\ word ["OS"; "XPLINK"] p)
    \/ (exists id ps ws, complex o id ps /\ In id ["REFERENCE"; "REF"] /\ Forall2 text ps ws /\ In ws ref_lists).
Proof.
  destruct o as [id d v r|id ps r|r]; cbn [xattr_operand].
  - yes. split; [tauto|]. intros H. decompose [or] H; crush.
  - yes. rewrite mem_in. split.
    + intros [M H]. revert H. each_word M; decide_words; intros H.
      7,8: right; right; right; revert H; yes; rewrite ref_params_yes; intros (ws & F & I0).
      7: exists "REFERENCE", ps, ws; pick_complex; assumption.
      7: exists "REF", ps, ws; pick_complex; assumption.
      all: destruct ps as [|p [|q t]]; try (cbn in H; discriminate H); revert H; yes; intros H.
      * left. exists "ATTRIBUTES", p. pick_complex.
      * left. exists "ATTR", p. pick_complex.
      * right. right. left. exists "LINK", p. pick_complex; exact H.
      * right. right. left. exists "LINKAGE", p. pick_complex; exact H.
      * right. left. exists p. pick_complex; exact H.
      * left. exists "PSECT", p. pick_complex.
    + intros [(i & p & C & M)|[(p & C & W)|[(i & p & C & M & W)|(i & qs & ws & C & M & F & I0)]]];
        apply complex_is in C; destruct C as [-> ->].
      * split; [each_word M; cbn; tauto|]. each_word M; decide_words; yes; exact Logic.I.
      * split; [cbn; tauto|]. decide_words; yes; exact W.
      * split; [each_word M; cbn; tauto|]. each_word M; decide_words; yes; exact W.
      * split; [each_word M; cbn; tauto|]. each_word M; decide_words; yes; rewrite ref_params_yes; eauto.
  - yes. split; [tauto|]. intros H. decompose [or] H; crush.
Qed.

Lemma xattr_yes ops stmt : fst (check_xattr ops stmt) = Yes <-> Xattr ops.
Proof.
  unfold check_xattr, Xattr. yes. rewrite nonempty. apply and_iff_compat_l, Forall_iff. intros o.
  apply xattr_operand_yes.
Qed.

(** ** ALIAS *)

Lemma alias_char_spec c : alias_char c = true <-> alias_character c.
Proof.
  unfold alias_character, alias_char. rewrite orb_true_iff, alnum_spec.
  set (rest := list_ascii_of_string "0123456789.<(+|&!$*);-/,%_>?`:#@=~[]{}^\").
  assert (forall c, existsb (Nat.eqb (code c)) alias_class || inb c (list_ascii_of_string "0123456789")
                    = inb c rest || existsb (Nat.eqb (nat_of_ascii c)) [34; 162; 166; 172; 177; 194]%nat) as A.
  { apply all_ascii_b. vm_compute. reflexivity. }
  specialize (A c).
  assert (existsb (Nat.eqb (nat_of_ascii c)) [34; 162; 166; 172; 177; 194]%nat = true
          <-> In (nat_of_ascii c) [34; 162; 166; 172; 177; 194]%nat) as B.
  { rewrite existsb_exists. split; [intros (x & I0 & E); apply Nat.eqb_eq in E; rewrite E; exact I0|].
    intros I0. eexists. split; [exact I0|apply Nat.eqb_refl]. }
  rewrite <- B, <- !inb_in.
  destruct (existsb (Nat.eqb (code c)) alias_class), (inb c (list_ascii_of_string "0123456789")),
    (inb c rest), (existsb (Nat.eqb (nat_of_ascii c)) [34; 162; 166; 172; 177; 194]%nat); cbn in A;
    try discriminate A; intuition congruence.
Qed.

Lemma digit_and_quote r d : fst (alias_pairs r [d; quote]) = Yes -> False.
Proof.
  assert (forallb (fun n => match alias_pairs (0, 0)%Z [ascii_of_nat n; quote] with (Yes, _) => false | _ => true end)
                  (seq 0 256) = true) as A by (vm_compute; reflexivity).
  rewrite forallb_forall in A. specialize (A (nat_of_ascii d)).
  rewrite ascii_nat_embedding in A. pose proof (nat_ascii_bounded d) as B.
  specialize (A ltac:(apply in_seq; lia)).
  cbn [alias_pairs] in *.
  destruct ((code d =? 48)%nat && ((code quote =? 120)%nat || (code quote =? 88)%nat)); [cbn; discriminate|].
  destruct (stoul16 [d; quote]); [|cbn; discriminate].
  destruct ((to_int z <? 66) || (254 <? to_int z))%Z; [cbn; discriminate|discriminate A].
Qed.

Lemma alias_pairs_no r : forall n l, List.length l = (2 * n + 1)%nat -> fst (alias_pairs r (l ++ [quote])) = Yes -> False.
Proof.
  induction n as [|n IH]; intros l L.
  - destruct l as [|d [|? ?]]; cbn in L; try lia. apply digit_and_quote.
  - destruct l as [|a [|b t]]; cbn [List.length] in L; try lia. cbn [app alias_pairs].
    split_ifs; try (cbn; discriminate).
    destruct (stoul16 [a; b]); [|cbn; discriminate]. split_ifs; [cbn; discriminate|]. apply IH. lia.
Qed.

Lemma alias_yes ops stmt : fst (check_alias ops stmt) = Yes <-> Alias ops.
Proof.
  unfold check_alias, Alias. yes. rewrite one_op. split.
  - intros [[o ->] H]. destruct o as [id d v r| |]; try (cbn in H; discriminate H).
    revert H. yes. intros [L H].
    destruct (enclosed (chars id)) as [body|] eqn:E.
    2:{ destruct (chars id) as [|? [|? ?]]; cbn in H; discriminate H. }
    apply enclosed_spec in E. destruct E as (c & b & -> & <-).
    change (chars (String c (apostrophes b))) with (c :: chars (apostrophes b)) in H.
    rewrite chars_apostrophes in H. cbn [app] in H.
    destruct (Ascii.eqb c "C") eqn:C.
    { apply Ascii.eqb_eq in C. subst c. revert H. yes. intros H. rewrite forallb_forall in H.
      eexists _, b. split; [reflexivity|]. split; [apply simple_is|]. intros x I0. apply alias_char_spec, H, I0. }
    destruct (Ascii.eqb c "X") eqn:X; [|cbn in H; discriminate H]. exfalso. revert H. yes. intros [P H].
    cbn [String.length] in P. rewrite length_apostrophes in P.
    assert (exists n, List.length (chars b) = (2 * n + 1)%nat) as [n N].
    { rewrite length_chars. exists (String.length b / 2)%nat.
      pose proof (Nat.div_mod (String.length b) 2).
      pose proof (Nat.mod_upper_bound (String.length b) 2).
      replace (S (S (S (String.length b)))) with (String.length b + 1 + 1 * 2)%nat in P by lia.
      rewrite Nat.mod_add in P by lia. rewrite Nat.add_mod in P by lia.
      destruct (String.length b mod 2)%nat as [|[|?]] eqn:M; [cbn in P; discriminate|lia|lia]. }
    eapply alias_pairs_no; [exact N|exact H].
  - intros (o & body & -> & T & A). split; [eauto|]. crush. yes. cbn [String.length]. rewrite length_apostrophes.
    split; [reflexivity|].
    assert (enclosed (chars (String "C" (apostrophes body))) = Some (chars body)) as -> by (apply enclosed_spec; eauto).
    change (chars (String "C" (apostrophes body))) with ("C"%char :: chars (apostrophes body)).
    rewrite chars_apostrophes. cbn [app]. rewrite Ascii.eqb_refl. yes. rewrite forallb_forall.
    intros y I0. apply alias_char_spec, A, I0.
Qed.

(** ** *PROCESS *)

Lemma to_int_range u lo hi : (0 <= lo)%Z -> (hi < 2147483648)%Z ->
  (lo <= to_int u <= hi)%Z <-> (lo <= u mod 2 ^ 32 <= hi)%Z.
Proof.
  intros L H. unfold to_int. change (2 ^ 32)%Z with 4294967296%Z.
  pose proof (Z.mod_pos_bound u 4294967296 ltac:(lia)).
  pose proof (Z.mod_pos_bound (u + 2147483648) 4294967296 ltac:(lia)).
  pose proof (Z.div_mod u 4294967296 ltac:(lia)).
  pose proof (Z.div_mod (u + 2147483648) 4294967296 ltac:(lia)).
  lia.
Qed.

Lemma hex_literal_spec s h : enclosed (chars s) = Some h -> first_char s = "X"%char ->
  forallb is_xdigit h = true -> h <> [] -> hex_literal s (hexadecimal 0 h).
Proof.
  intros E F H N. apply enclosed_spec in E. destruct E as (c & body & -> & <-). cbn in F. subst c.
  exists body. split; [reflexivity|]. split; [intros ->; apply N; reflexivity|].
  split; [|reflexivity]. intros c I0. rewrite forallb_forall in H. apply xdigit_spec, H, I0.
Qed.

Lemma hex_literal_inv s z : hex_literal s z ->
  exists h, chars s = "X"%char :: tl (chars s) /\ enclosed (chars s) = Some h /\ forallb is_xdigit h = true /\ h <> []
            /\ z = hexadecimal 0 h.
Proof.
  intros (body & -> & N & H & ->). exists (chars body). split; [reflexivity|].
  split; [apply enclosed_spec; eauto|].
  split; [apply forallb_forall; intros c I0; apply xdigit_spec, H, I0|].
  split; [|reflexivity]. intros E. apply N. apply chars_inj. exact E.
Qed.

Lemma codepage_yes s : fst (check_codepage s) = Yes <-> Codepage s.
Proof.
  unfold check_codepage, Codepage. destruct (chars s) as [|c t] eqn:E.
  { split; [cbn; discriminate|]. intros [(z & H & _)|(N & _)].
    - apply hex_literal_inv in H. destruct H as (h & H & _). rewrite E in H. discriminate.
    - destruct N. apply chars_inj. exact E. }
  assert (s <> "") as NS by (intros ->; discriminate E).
  destruct (Ascii.eqb c "X") eqn:X.
  - apply Ascii.eqb_eq in X. subst c. rewrite <- E.
    assert (~ digits s) as ND.
    { intros D0. apply digits_spec in D0. unfold has_all_digits in D0. rewrite E in D0. cbn in D0. discriminate. }
    split.
    + intros H. left. destruct (enclosed (chars s)) as [h|] eqn:EN; [|cbn in H; discriminate H].
      revert H. yes. intros [H1 H2]. destruct h as [|x h'].
      { cbn in H2. discriminate. }
      assert (x :: h' <> []) as N by discriminate. set (h := x :: h') in *.
      rewrite (stoul_digits h H1 N) in H2.
      exists (hexadecimal 0 h). split; [apply hex_literal_spec; auto; unfold first_char; rewrite E; reflexivity|].
      destruct (hexadecimal 0 h <? 2 ^ 64)%Z eqn:B; [|cbn in H2; discriminate H2].
      revert H2. yes. intros H2. split; [lia|]. apply to_int_range; lia.
    + intros [(z & H & B & R)|(_ & D0 & _)]; [|tauto].
      apply hex_literal_inv in H. destruct H as (h & _ & EN & H1 & N & ->). rewrite EN. yes. split; [exact H1|].
      rewrite (stoul_digits h H1 N). assert ((hexadecimal 0 h <? 2 ^ 64)%Z = true) as -> by lia. yes.
      apply to_int_range in R; lia.
  - yes. rewrite digits_spec. split.
    + intros [D0 H]. right. split; [exact NS|]. split; [exact D0|].
      rewrite (stoi_digits s D0 NS) in H. cbv zeta in H.
      destruct (decimal 0 (list_ascii_of_string s) <=? 2147483647)%Z; [|cbn in H; discriminate H].
      revert H. yes. lia.
    + intros [(z & H & _)|(_ & D0 & R)].
      * exfalso. apply hex_literal_inv in H. destruct H as (h & H & _). rewrite E in H. cbn in H. injection H as ->.
        discriminate X.
      * split; [exact D0|]. rewrite (stoi_digits s D0 NS). cbv zeta.
        assert ((decimal 0 (list_ascii_of_string s) <=? 2147483647)%Z = true) as -> by lia. yes. lia.
Qed.

Lemma leap_spec y : ((y mod 4 =? 0) && (negb (y mod 100 =? 0) || (y mod 400 =? 0)))%Z = true <-> leap_year y.
Proof.
  unfold leap_year. rewrite andb_true_iff, orb_true_iff, negb_true_iff, !Z.eqb_eq, Z.eqb_neq.
  rewrite !Z.mod_divide by lia. reflexivity.
Qed.

Lemma date_yes s : is_date s = true <-> Date s.
Proof.
  unfold is_date, Date.
  destruct ((String.length s =? 8)%nat && has_all_digits s) eqn:E; cbn [negb].
  2:{ split; [discriminate|]. intros (a & b & c & d & e & f & g & h & L & D0 & _).
      apply digits_spec in D0. rewrite D0, andb_true_r in E.
      apply (f_equal (@List.length ascii)) in L. fold (chars s) in L. rewrite length_chars in L. cbn in L. lia. }
  apply andb_true_iff in E. destruct E as [L D0].
  assert (exists a b c d e f g h, s = String a (String b (String c (String d (String e (String f (String g (String h ""))))))))
    as (a & b & c & d & e & f & g & h & ->).
  { apply Nat.eqb_eq in L. do 8 (destruct s as [|? s]; [cbn in L; discriminate L|]). destruct s; [|cbn in L; discriminate L].
    repeat eexists. }
  cbn [substring chars list_ascii_of_string]. rewrite !number_decimal.
  set (y := decimal 0 [a; b; c; d]). set (m := decimal 0 [e; f]). set (dd := decimal 0 [g; h]).
  assert (forall n, month_length y m n -> (1 <= m <= 12 /\ n <= 31)%Z) as ML.
  { intros n [[I0 ->]|[[I0 ->]|[(-> & _ & ->)|(-> & _ & ->)]]]; try lia;
      cbn [In] in I0; decompose [or] I0; try tauto; lia. }
  destruct ((m <? 1) || (12 <? m) || (31 <? dd) || (dd <? 1))%Z eqn:E1.
  { split; [discriminate|]. intros (a' & b' & c' & d' & e' & f' & g' & h' & EL & _ & n & M & B).
    injection EL as <- <- <- <- <- <- <- <-. fold y m in M. fold dd in B. apply ML in M. lia. }
  assert ((dd <=? nth (Z.to_nat (m - 1)) days_in_month 0)%Z
          || ((m =? 2)%Z && ((y mod 4 =? 0) && (negb (y mod 100 =? 0) || (y mod 400 =? 0)))%Z && (dd =? 29)%Z) = true
          <-> exists n, month_length y m n /\ (1 <= dd <= n)%Z) as K.
  { rewrite orb_true_iff, !andb_true_iff. pose proof (leap_spec y) as LS. rewrite andb_true_iff in LS.
    assert (1 <= dd)%Z as D1 by lia.
    assert (m = 1 \/ m = 2 \/ m = 3 \/ m = 4 \/ m = 5 \/ m = 6 \/ m = 7 \/ m = 8 \/ m = 9 \/ m = 10 \/ m = 11 \/ m = 12)%Z as CM
      by lia.
    clearbody m y dd. clear - LS D1 CM.
    set (leap := ((y mod 4 =? 0) = true /\ (negb (y mod 100 =? 0) || (y mod 400 =? 0)) = true)%Z) in *. clearbody leap.
    unfold month_length.
    assert (forall N, (forall n, (In m [1; 3; 5; 7; 8; 10; 12] /\ n = 31 \/ In m [4; 6; 9; 11] /\ n = 30
               \/ m = 2 /\ leap_year y /\ n = 29 \/ m = 2 /\ ~ leap_year y /\ n = 28) <-> n = N)%Z ->
              (exists n, (In m [1; 3; 5; 7; 8; 10; 12] /\ n = 31 \/ In m [4; 6; 9; 11] /\ n = 30
               \/ m = 2 /\ leap_year y /\ n = 29 \/ m = 2 /\ ~ leap_year y /\ n = 28)%Z /\ (1 <= dd <= n)%Z) <-> (dd <= N)%Z) as G.
    { intros N H. split; [intros (n & A & B); apply H in A; lia|intros B; exists N; split; [apply H; reflexivity|lia]]. }
    decompose [or] CM; subst m.
    2:{ change (nth (Z.to_nat (2 - 1)) days_in_month 0%Z) with 28%Z.
        assert (leap_year y \/ ~ leap_year y) as [LP|LP]
          by (rewrite <- (leap_spec y); destruct (_ && _)%Z; [left; reflexivity|right; discriminate]).
        all: (rewrite (G 29%Z) by (cbn; intros; intuition lia)) || (rewrite (G 28%Z) by (cbn; intros; intuition lia)).
        - apply LS in LP. split; [intros [H|H]; lia|]. intros H.
          destruct (dd <=? 28)%Z eqn:E; [left; reflexivity|right]. split; [split; [reflexivity|exact LP]|lia].
        - split; [intros [H|[[_ H] _]]; [lia|apply LS in H; tauto]|]. intros H. left. lia. }
    all: first [rewrite (G 31%Z) by (cbn; intros; intuition lia) | rewrite (G 30%Z) by (cbn; intros; intuition lia)].
    all: match goal with |- context [nth ?k days_in_month 0%Z] =>
           let v := eval vm_compute in (nth k days_in_month 0%Z) in change (nth k days_in_month 0%Z) with v end.
    all: split; [intros [H|[[H _] _]]; lia|intros H; left; lia]. }
  rewrite K. split.
  - intros (n & M & B). exists a, b, c, d, e, f, g, h. split; [reflexivity|]. split; [apply digits_spec; exact D0|].
    exists n. auto.
  - intros (a' & b' & c' & d' & e' & f' & g' & h' & EL & _ & n & M & B).
    injection EL as <- <- <- <- <- <- <- <-. exists n. auto.
Qed.
