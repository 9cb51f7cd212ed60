(** * Properties of the operands of DC and DS: C98, C99 *)
From Coq Require Import String List ZArith Bool Ascii Lia.
From Verif Require Import DD_Model DD_Spec DDP_Model DDP_Spec DDP_Proof.
From Verif Require Import Gram_Model Gram_Spec Gram_Proof Gram_Ops Ddg_Model Ddg_Spec Ddg_Proof Ddg_Read.
Import ListNotations.
Open Scope nat_scope.
Open Scope list_scope.

(** ** C98: which fields there are, and what is handed over for them *)

(** Exactly the fields whose operands have one of the forms are read, and exactly
    what the forms say is handed over. *)
Theorem C98_operands : forall eof ts l, dat_ops eof ts = Some l <->
  Listed form dop ftext fproper dmeans DEmpty eof ts l.
Proof. exact dat_ops_iff. Qed.
Print Assumptions C98_operands.

(** One field, one list of operands. *)
Theorem C98_one_list : forall eof ts l1 l2,
  Listed form dop ftext fproper dmeans DEmpty eof ts l1 ->
  Listed form dop ftext fproper dmeans DEmpty eof ts l2 -> l1 = l2.
Proof.
  intros eof ts l1 l2 H1 H2. apply dat_ops_iff in H1, H2. rewrite H1 in H2. injection H2. auto.
Qed.
Print Assumptions C98_one_list.

(** One operand, one reading: whatever the choices between the forms. *)
Theorem C98_one_operand : forall o1 o2 h1 h2, fproper o1 -> fmeans o1 h1 -> fproper o2 -> fmeans o2 h2 ->
  ftext o1 = ftext o2 -> h1 = h2.
Proof.
  intros o1 o2 h1 h2 P1 M1 P2 M2 E.
  pose proof (data_def_complete o1 h1 [] P1 M1 Logic.I) as X1. pose proof (data_def_complete o2 h2 [] P2 M2 Logic.I) as X2.
  rewrite E, X2 in X1. injection X1. auto.
Qed.
Print Assumptions C98_one_operand.

(** A string stands for the text with its apostrophes and ampersands halved, and for no other. *)
Theorem C98_strings : forall v s t w rest, quoted v (list_ascii_of_string s) -> tk t = KStr s -> spells_word (tk w) "C" ->
  (rest = [] \/ exists c r, rest = c :: r /\ (tk c = KComma \/ tk c = KSpace)) ->
  data_def (w :: t :: rest) = Some (("C"%char :: [" "%char], [], Some (PStr v)), rest).
Proof.
  intros v s t w rest Hq Ht Hw Hr.
  pose proof (data_def_complete (Form None [w] [] None [t]) (["C"; " "]%char, [], Some (PStr v)) rest) as X.
  apply X.
  - unfold fproper. cbn. split; [exact Logic.I|]. split; [discriminate|]. split; [lia|]. split; [constructor|].
    split; [exact Logic.I|]. congruence.
  - exists [], [], ["C"%char], [], [], [], [], [" "%char], (Some (PStr v)). cbn [factor first_word pairs last_ nominal_tokens].
    split; [constructor|]. split; [apply (wt_more w [] "C" []); [exact Hw|constructor]|]. split; [constructor|].
    split; [constructor|]. split; [|reflexivity]. constructor. apply nt_string with (s := s); auto.
  - destruct Hr as [->|[c [r [-> Hr]]]]; [exact Logic.I|exact Hr].
Qed.
Print Assumptions C98_strings.

Definition at_ (k : kind) (p : pos) : tok := Tok k p (S p).

(** The field [3FL4'1''',(N)AL2(X,D(B)),,XP(1)L(3)  remark]. *)
Definition sample_field : list tok :=
  [at_ (KWord "3FL4") 0; at_ (KStr "1''") 1; at_ KComma 2;
   at_ KLpar 3; at_ (KId "N") 4; at_ KRpar 5; at_ (KId "AL2") 6; at_ KLpar 7; at_ (KId "X") 8; at_ KComma 9;
   at_ (KId "D") 10; at_ KLpar 11; at_ (KId "B") 12; at_ KRpar 13; at_ KRpar 14; at_ KComma 15; at_ KComma 16;
   at_ (KId "XP") 17; at_ KLpar 18; at_ (KNum "1" 1) 19; at_ KRpar 20; at_ (KId "L") 21; at_ KLpar 22; at_ (KNum "3" 3) 23;
   at_ KRpar 24; at_ KSpace 25; at_ KStar 26].

Definition sym (n : string) (p : pos) : mexpr := MAtom (ASymbol n) (p, S p).
Definition num (v : Z) (p : pos) : mexpr := MAtom (AConstant v) (p, S p).

Example C98_field : dat_ops 27 sample_field = Some
  [DDef (list_ascii_of_string "3FL4 ", [], Some (PStr ["1"; "'"]%char));
   DDef (list_ascii_of_string "&AL2 ", [sym "N" 4], Some (PExprs [PExpr (sym "X" 8); PAddress (sym "B" 12) (sym "D" 10)]));
   DEmpty 16;
   DDef (list_ascii_of_string "XP&L ", [num 1 19], Some (PExprs [PExpr (num 3 23)]))].
Proof. vm_compute. reflexivity. Qed.

(** The hypotheses of [C98_one_operand] and [C98_strings] are met. *)
Example C98_meets : exists o h, fproper o /\ fmeans o h /\
  ftext o = [at_ (KId "C") 0; at_ (KStr "A&&B''") 1] /\ h = (["C"; " "]%char, [], Some (PStr ["A"; "&"; "B"; "'"]%char)).
Proof.
  destruct (data_def_sound [at_ (KId "C") 0; at_ (KStr "A&&B''") 1] (["C"; " "]%char, [], Some (PStr ["A"; "&"; "B"; "'"]%char)) [])
    as [o [E [P M]]]; [vm_compute; reflexivity|].
  exists o. eexists. split; [exact P|]. split; [exact M|]. split; [|reflexivity]. rewrite E, app_nil_r. reflexivity.
Qed.

(** Behind =, a definition may be followed by an index in parentheses: the tokens
    of [A(X)(2)] are an operand as a whole, and so are those of [A(X)] alone. *)
Theorem C98_literal_refuted : exists a b ha hb, b <> [] /\ data_def (a ++ b) = Some (ha, []) /\ data_def a = Some (hb, []) /\ ha <> hb.
Proof.
  exists [at_ (KId "A") 0; at_ KLpar 1; at_ (KId "X") 2; at_ KRpar 3], [at_ KLpar 4; at_ (KNum "2" 2) 5; at_ KRpar 6].
  eexists _, _. split; [discriminate|]. split; [vm_compute; reflexivity|]. split; [vm_compute; reflexivity|]. discriminate.
Qed.
Print Assumptions C98_literal_refuted.

(** ** C99: the definition that was written is the one that is read *)

(** The tokens of a definition, followed by a comma, a space or nothing, are read back as that definition without diagnostics. *)
Theorem C99_read : forall d ts rest, spells d ts -> readable d -> lexed ts -> ends rest ->
  exists h, data_def (ts ++ rest) = Some (h, rest) /\ create h = Val (as_read d, []).
Proof. exact read_spelled. Qed.
Print Assumptions C99_read.

(** A whole field. *)
Theorem C99_field : forall eof ts l,
  Listed (list tok) _ (fun ts => ts) lexed
    (fun ts a => exists d, spells d ts /\ readable d /\ a = Some (Val (as_read d, []))) (fun _ => None) eof ts l ->
  exists l', dat_ops eof ts = Some l' /\ map read l' = l.
Proof. exact field_spelled. Qed.
Print Assumptions C99_field.

(** What is read without diagnostics was spelled so, but for modifiers without a value. *)
Theorem C99_only : forall ts rest h d, data_def (ts ++ rest) = Some (h, rest) -> lexed ts -> create h = Val (d, []) ->
  In (d_type d) upper_letters ->
  (exists d', spells_loosely d' ts /\ as_read d' = d) /\ (forall x, d_ext d = Some x -> In x extensions).
Proof. exact read_only. Qed.
Print Assumptions C99_only.

(** Two definitions that are spelled by the same tokens are the same. *)
Theorem C99_one_definition : forall d1 d2 ts, spells d1 ts -> spells d2 ts -> readable d1 -> readable d2 -> lexed ts ->
  as_read d1 = as_read d2.
Proof.
  intros d1 d2 ts H1 H2 R1 R2 Hx.
  destruct (read_spelled d1 ts [] H1 R1 Hx Logic.I) as [h1 [E1 C1]]. destruct (read_spelled d2 ts [] H2 R2 Hx Logic.I) as [h2 [E2 C2]].
  rewrite E2 in E1. injection E1 as ->. rewrite C1 in C2.
  pose proof (f_equal (fun r => match r with Val x => fst x | _ => as_read d1 end) C2) as X. exact X.
Qed.
Print Assumptions C99_one_definition.

(** Whatever the tokens: no expression and no nominal value is used that is not there. *)
Theorem C99_safe : forall ts h rest, data_def ts = Some (h, rest) -> lexed ts -> exists r, create h = Val r.
Proof. exact read_safe. Qed.
Print Assumptions C99_safe.

(** [(N)XL(K+1)'0A'] *)
Definition sample_tokens : list tok :=
  [at_ KLpar 0; at_ (KId "N") 1; at_ KRpar 2; at_ (KId "xl") 3; at_ KLpar 4; at_ (KId "K") 5; at_ KPlus 6; at_ (KNum "1" 1) 7;
   at_ KRpar 8; at_ (KStr "0A") 9].
Definition sample_definition : definition mexpr :=
  Definition_ (Some (Exp (sym "N" 1))) "X" None None (Some (Exp (MBinary OAdd (sym "K" 5) (num 1 7) (5, 8)))) false None None
    (Some (PStr ["0"; "A"]%char)).

Example C99_meets : spells sample_definition sample_tokens /\ readable sample_definition /\ lexed sample_tokens /\
  exists h, data_def sample_tokens = Some (h, []) /\ create h = Val (sample_definition, []).
Proof.
  split; [|split; [|split]].
  - exists (firstn 9 sample_tokens), [at_ (KStr "0A") 9], (list_ascii_of_string "&XL&"), (list_ascii_of_string "&xl&"),
      [sym "N" 1; MBinary OAdd (sym "K" 5) (num 1 7) (5, 8)].
    split; [reflexivity|]. split; [|split; [|split]].
    + apply (la_expr (Bracket (at_ KLpar 0) (Leaf (at_ (KId "N") 1)) (at_ KRpar 2)) (sym "N" 1)
        [at_ (KId "xl") 3; at_ KLpar 4; at_ (KId "K") 5; at_ KPlus 6; at_ (KNum "1" 1) 7; at_ KRpar 8]).
      * split; [reflexivity|]. split; [constructor|reflexivity].
      * constructor. constructor.
      * apply (la_word (at_ (KId "xl") 3) "xl"); [left; reflexivity|].
        apply (la_expr (Bracket (at_ KLpar 4) (Infix (Leaf (at_ (KId "K") 5)) (at_ KPlus 6) (Leaf (at_ (KNum "1" 1) 7))) (at_ KRpar 8))
          (MBinary OAdd (sym "K" 5) (num 1 7) (5, 8)) []).
        -- split; [reflexivity|]. split; [|reflexivity]. cbn. split; [lia|]. split; [lia|]. split; [lia|]. split; constructor.
        -- apply (me_infix (Leaf (at_ (KId "K") 5)) (at_ KPlus 6) (Leaf (at_ (KNum "1" 1) 7))); repeat constructor.
        -- apply la_end.
    + exists ["&"%char], [sym "N" 1], [], [], ["L"; "&"]%char, [MBinary OAdd (sym "K" 5) (num 1 7) (5, 8)], [], [], [], [].
      cbn [d_dup d_prog d_len d_bit d_scale d_exp d_type d_ext sample_definition dup_text amount_text modifier_text].
      split; [split; reflexivity|]. split; [split; [reflexivity|split; reflexivity]|].
      split; [exists ["&"%char]; split; [reflexivity|split; reflexivity]|]. split; [split; [reflexivity|split; reflexivity]|].
      split; [split; [reflexivity|split; reflexivity]|]. split; reflexivity.
    + apply spelled_upper. reflexivity.
    + cbn. apply nt_string with (s := "0A"%string); [reflexivity|]. cbn. apply q_plain; [discriminate|discriminate|].
      apply q_plain; [discriminate|discriminate|]. constructor.
  - split; [cbn; repeat ((left; reflexivity) || right)|]. split; [discriminate|]. cbn. discriminate.
  - intros t w Ht Hw. cbn in Ht.
    repeat destruct Ht as [<-|Ht]; try contradiction;
      (destruct Hw as [E|[E|[[v E]|[E _]]]]; cbn in E; try discriminate E; injection E as <-; cbn;
       (split; [discriminate|]); split; intuition discriminate).
  - eexists. split; [vm_compute; reflexivity|]. vm_compute. reflexivity.
Qed.
