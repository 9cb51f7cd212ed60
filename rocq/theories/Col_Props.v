(** From lines to statements: C104. *)

From Coq Require Import List Arith Bool Lia.
Import ListNotations.
From Verif Require Import Col_Model Col_Spec.
Open Scope nat_scope.

(** A parser between two statements. *)
Definition between (p : parser) : Prop := col p = fresh /\ finished p = false.

Lemma operands_set : forall o, map (fun x => match x with Some x => x | None => EmptyOp end)
    (if single_empty o then [] else o) = operands_of o.
Proof.
  intros o. unfold operands_of.
  destruct o as [|[[|n]|] [|y o]]; cbn; auto.
Qed.

(** Statements of open code: for every line, every way of reading operand
    fields, every status of instructions and every answer about attributes, the
    next statement is that of the line; nothing is left over from statements
    before.  There is none when attributes are to be looked for first (the line
    is read again after that), or when the line holds none. *)
Theorem C104_statement : forall w field x p, between p ->
  (forall f n t, fits n f (field f n t) = true) ->
  exists s p', get_next_ordinary w field x p = Ok (s, p')
  /\ col p' = fresh
  /\ finished p' = match x with AtEnd => true | _ => false end
  /\ match line_statement (status_of w) field x with
     | Some (i, e, h) =>
         if instr_looks w i || stmt_looks w e then s = None /\ shown p' = shown p
         else s = Some e /\ shown p' = shown p ++ h
     | None => s = None /\ shown p' = shown p
     end.
Proof.
  intros w field x p [Hc Hf] FT. destruct p as [c rc sh fi]. cbn in Hc, Hf. subst c fi.
  unfold get_next_ordinary, process_ordinary.
  assert (GEN : forall l i t h, exists s p',
    (do y <- (do y <- Ok (add_hl h (Collector (Some l) (Some i) None None None [] false), Some t, false);
              let '(c, text, e) := y in
              let p := Parser c rc sh (false || e) in
              if negb (finished p) && match ins c with Some _ => true | None => false end then
                do st <- process_instruction w true c;
                match st with
                | None => Ok (None, p)
                | Some st => match text with
                             | None => process_statement w true st p
                             | Some t => parse_operands w field st t p
                             end
                end
              else Ok (None, p));
     let (s, p) := y in Ok (s, Parser fresh (rest_col p) (shown p) (finished p))) = Ok (s, p')
    /\ col p' = fresh /\ finished p' = false
    /\ match (let st := status_of w i in
              let noop := absent st || match s_form st with UNKNOWN => true | _ => false end in
              let y := field (s_form st) noop t in
              match s_form st with
              | IGNORED => None
              | _ => Some (i, as_statement st l i y, h ++ field_shown y)
              end) with
       | Some (i, e, h) =>
           if instr_looks w i || stmt_looks w e then s = None /\ shown p' = sh
           else s = Some e /\ shown p' = sh ++ h
       | None => s = None /\ shown p' = sh
       end).
  { intros l i t h. cbn [bind add_hl lbl ins ops rem def hl hl_extracted app finished orb negb andb].
    unfold process_instruction, add_hl, current_instruction. cbn [ins hl lbl ops rem def hl_extracted bind andb app].
    destruct (instr_looks w i) eqn:IL.
    - cbn [bind]. do 2 eexists. split; [reflexivity|]. split; [reflexivity|]. split; [reflexivity|].
      destruct (status_of w i) as [f a oc]. cbn zeta. cbn [s_form]. cbn [shown].
      destruct f; rewrite ?IL; cbn [orb]; auto.
    - cbn [bind]. unfold parse_operands. destruct (status_of w i) as [f a oc] eqn:ST. cbn [s_form absent].
      set (noop := a || match f with UNKNOWN => true | _ => false end).
      pose proof (FT f noop t) as FT1. destruct (field f noop t) as [o r hh| |d r hh|hh] eqn:FE;
        cbn [fits] in FT1.
      + cbn [op_rem_body set_operands fresh assigned ops rem def bind add_hl lbl ins hl hl_extracted app].
        assert (CASE : f = IGNORED \/ (f = DEFERRED /\ o = []) \/ (f <> IGNORED /\ f <> DEFERRED)).
        { destruct f; auto; try (right; right; split; discriminate).
          destruct noop; [|discriminate]. destruct o; [|discriminate]. auto. }
        destruct CASE as [->|[[-> ->]|[N1 N2]]].
        * do 2 eexists. split; [reflexivity|]. cbn. auto.
        * unfold process_statement, extract_statement. cbn.
          destruct (stmt_looks w (Deferred l i (Deferred_ no_text []))) eqn:SL; cbn;
            do 2 eexists; (split; [reflexivity|]); cbn; rewrite ?IL, ?SL; cbn; rewrite ?app_assoc; auto.
        * assert (EF : forall A (a b : A), (match f with IGNORED => a | _ => b end) = b) by (destruct f; auto; contradiction).
          assert (EH : (match f with DEFERRED => true | _ => false end) = false) by (destruct f; auto; contradiction).
          assert (ED : forall A (a b : A), (match f with DEFERRED => a | _ => b end) = b) by (destruct f; auto; contradiction).
          rewrite !EF. unfold process_statement, extract_statement.
          cbn [col append_operand_field ops rem def lbl ins s_form andb bind].
          rewrite EH. unfold append_operand_field, add_hl.
          cbn [col rest_col shown finished append_operand_field ops rem def lbl ins hl hl_extracted s_form andb bind app].
          rewrite operands_set.
          unfold as_statement. cbn [s_form]. rewrite ED. cbn [field_operands field_remarks field_shown].
          rewrite IL. cbn [orb].
          destruct (stmt_looks w (Resolved l i (operands_of o) r (Status f a oc))) eqn:SL.
          -- do 2 eexists. split; [reflexivity|]. cbn. auto.
          -- unfold extract_hl. cbn [hl hl_extracted bind].
             do 2 eexists. split; [reflexivity|]. cbn. rewrite ?app_assoc. auto.
      + apply andb_true_iff in FT1 as [FT1 FT2]. apply negb_true_iff in FT1. rewrite FT1.
        destruct f; try discriminate; cbn; unfold process_statement, extract_statement; cbn;
          match goal with |- context [stmt_looks w ?e] => destruct (stmt_looks w e) eqn:SL end; cbn;
          do 2 eexists; (split; [reflexivity|]); cbn; rewrite ?IL, ?SL; cbn; rewrite ?app_nil_r; auto.
      + apply andb_true_iff in FT1 as [FT1 FT2]. apply negb_true_iff in FT1. rewrite FT1.
        destruct f; try discriminate; cbn; unfold process_statement, extract_statement; cbn.
        destruct (stmt_looks w (Deferred l i d)) eqn:SL; cbn;
          do 2 eexists; (split; [reflexivity|]); cbn; rewrite ?IL, ?SL; cbn; rewrite ?app_assoc; auto.
      + destruct f, noop; cbn; unfold process_statement, extract_statement; cbn;
          try match goal with |- context [stmt_looks w ?e] => destruct (stmt_looks w e) eqn:SL end; cbn;
          do 2 eexists; (split; [reflexivity|]); cbn; rewrite ?IL, ?SL; cbn; rewrite ?app_assoc; auto. }
  destruct x as [l i t h|i t h|l h| | | |].
  - exact (GEN l i t h).
  - exact (GEN NoLabel i t h).
  - do 2 eexists. split; [reflexivity|]. cbn. auto.
  - do 2 eexists. split; [reflexivity|]. cbn. auto.
  - cbn. unfold process_instruction. cbn. unfold as_statement.
    destruct (instr_looks w NoInstr) eqn:IL; cbn.
    + do 2 eexists. split; [reflexivity|]. cbn. auto.
    + unfold process_statement, extract_statement. cbn. destruct (status_of w NoInstr) as [f a oc].
      destruct f; cbn;
        match goal with |- context [stmt_looks w ?e] => destruct (stmt_looks w e) eqn:SL end; cbn;
        do 2 eexists; (split; [reflexivity|]); cbn; rewrite ?IL, ?SL; cbn; rewrite ?app_nil_r; auto.
  - do 2 eexists. split; [reflexivity|]. cbn. auto.
  - do 2 eexists. split; [reflexivity|]. cbn. auto.
Qed.
Print Assumptions C104_statement.

(** Looking ahead: for every line whose operation can be read.  Attributes are
    not looked for then. *)
Definition operation_read (x : look_line) : bool :=
  match x with Operation _ None _ _ | NoneAhead => false | _ => true end.

Theorem C104_ahead : forall w copy field x p, between p ->
  operation_read x = true ->
  (forall i, s_form (status_of w i) <> DEFERRED) ->
  exists p', get_next_lookahead w copy field x p = Ok (ahead_statement (status_of w) copy field x, p')
  /\ col p' = fresh
  /\ finished p' = match x with EndAhead => true | _ => false end
  /\ shown p' = shown p ++ ahead_shown x.
Proof.
  intros w copy field x p [Hc Hf] OR ND. destruct p as [c rc sh fi]. cbn in Hc, Hf. subst c fi.
  unfold get_next_lookahead, process_lookahead.
  destruct x as [l|l [i|] t h| | |]; try discriminate.
  - cbn. unfold process_instruction. cbn. unfold process_statement, extract_statement. cbn.
    specialize (ND NoInstr). destruct (status_of w NoInstr) as [f a oc]. cbn in ND |- *.
    destruct f; try contradiction; cbn; eexists; (split; [reflexivity|]); cbn; auto.
  - assert (EM : forall rc' c, lbl c = l -> ins c = Some i -> hl c = h -> hl_extracted c = false -> def c = None ->
      exists p', (do y <- process_statement w false (status_of w i) (Parser c rc' sh false);
                  let (s, p) := y in Ok (s, Parser fresh (rest_col p) (shown p) (finished p)))
        = Ok (Some (Resolved (match l with Some l => l | None => NoLabel end) i
                (map (fun x => match x with Some x => x | None => EmptyOp end)
                     (match ops c with Some o => o | None => [] end))
                (match rem c with Some r => r | None => [] end) (status_of w i)), p')
        /\ col p' = fresh /\ finished p' = false /\ shown p' = sh ++ h).
    { intros rc' c E1 E2 E3 E4 E5. unfold process_statement, extract_statement. cbn [col].
      rewrite E1, E2, E5. specialize (ND i). destruct (status_of w i) as [f a oc]. cbn in ND.
      destruct f; try contradiction; cbn; unfold extract_hl; rewrite E4; cbn; eexists;
        (split; [reflexivity|]); cbn; rewrite E3; auto. }
    assert (LI : look_lab_instr (Operation l (Some i) t h) fresh
                 = Ok (Collector l (Some i) None None None h false, Some t, false)).
    { destruct l; reflexivity. }
    cbn [col]. rewrite LI. cbn [bind rest_col shown finished orb negb].
    unfold process_instruction, current_instruction. cbn [ins bind andb].
    unfold parse_lookahead_operands. cbn [col lbl ins].
    unfold ahead_statement. cbn zeta.
    assert (PLAIN : exists p', (do y <- process_statement w false (status_of w i) (Parser (Collector l (Some i) None None None h false) rc sh false);
                  let (s, p) := y in Ok (s, Parser fresh (rest_col p) (shown p) (finished p)))
        = Ok (Some (Resolved (match l with Some l => l | None => NoLabel end) i [] [] (status_of w i)), p')
        /\ col p' = fresh /\ finished p' = false /\ shown p' = sh ++ h).
    { destruct (EM rc (Collector l (Some i) None None None h false)) as (p' & E & R); auto.
      exists p'. split; [rewrite E; reflexivity|exact R]. }
    assert (READ : exists p',
       (do y <- (do rc <- match field t with Some o => set_operands o [] fresh | None => Ok fresh end;
                 process_statement w false (status_of w i)
                   (Parser (append_operand_field (clear_hl rc) (Collector l (Some i) None None None h false)) (clear_hl rc) sh false));
                  let (s, p) := y in Ok (s, Parser fresh (rest_col p) (shown p) (finished p)))
        = Ok (Some (Resolved (match l with Some l => l | None => NoLabel end) i
                   (match field t with Some o => operands_of o | None => [] end) [] (status_of w i)), p')
        /\ col p' = fresh /\ finished p' = false /\ shown p' = sh ++ h).
    { destruct (field t) as [o|].
      - cbn [set_operands assigned fresh ops rem def bind]. unfold add_hl. cbn [lbl ins ops rem def hl hl_extracted app].
        match goal with |- context [process_statement w false _ (Parser ?c ?r _ _)] =>
          destruct (EM r c) as (p' & E & R); auto; [cbn; apply app_nil_r|] end.
        exists p'. split; [rewrite E; cbn [append_operand_field clear_hl ops rem lbl ins def hl hl_extracted]; rewrite operands_set; reflexivity|exact R].
      - cbn [bind].
        match goal with |- context [process_statement w false _ (Parser ?c ?r _ _)] =>
          destruct (EM r c) as (p' & E & R); auto; [cbn; apply app_nil_r|] end.
        exists p'. split; [rewrite E; reflexivity|exact R]. }
    cbn [ahead_shown]. revert PLAIN READ. clear EM LI. specialize (ND i).
    destruct (status_of w i) as [f a oc]. cbn [s_form].
    intros PLAIN READ. destruct f; cbn [andb]; try exact PLAIN;
      (destruct l as [l|]; [exact READ|]; destruct i as [|n|n]; try exact READ;
       destruct (n =? copy); cbn [negb]; [exact READ|exact PLAIN]).
  - cbn. unfold process_instruction. cbn. unfold process_statement, extract_statement. cbn.
    specialize (ND NoInstr). destruct (status_of w NoInstr) as [f a oc]. cbn in ND |- *.
    destruct f; try contradiction; cbn; eexists; (split; [reflexivity|]); cbn; auto.
  - cbn. eexists. split; [reflexivity|]. cbn. rewrite app_nil_r. auto.
Qed.
Print Assumptions C104_ahead.

(** Looking ahead over a line whose operation cannot be read: the value of an
    empty optional is used. *)
Theorem C104_ahead_refuted : forall w copy field l t h p, between p ->
  get_next_lookahead w copy field (Operation l None t h) p = Undefined
  /\ get_next_lookahead w copy field NoneAhead p = Undefined.
Proof.
  intros w copy field l t h p [Hc Hf]. destruct p as [c rc sh fi]. cbn in Hc, Hf. subst c fi.
  split; [destruct l|]; reflexivity.
Qed.
Print Assumptions C104_ahead_refuted.

(** Lines that are looked over are highlighted, and again when they are read:
    the variable symbol in the operation field of " &OP A" is shown twice. *)
Theorem C104_shown_refuted : exists w copy look field p1 p2 s1 s2,
  get_next_lookahead w copy look (Operation None (Some (ConcInstr 1)) 7 [5]) (Parser fresh fresh [] false) = Ok (s1, p1)
  /\ get_next_ordinary w field (Fields NoLabel (ConcInstr 1) 7 [5]) p1 = Ok (s2, p2)
  /\ shown p2 = [5; 5].
Proof.
  exists (World (fun _ => Status MAC false 1) (fun _ => false) (fun _ => false)), 0, (fun _ => None),
    (fun _ _ _ => Failed []).
  do 4 eexists. split; [vm_compute; reflexivity|]. split; [vm_compute; reflexivity|]. vm_compute. reflexivity.
Qed.
Print Assumptions C104_shown_refuted.

(** What a line is does not depend on the lines before it. *)
Theorem C104_history : forall w field x p q, between p -> between q ->
  (forall f n t, fits n f (field f n t) = true) ->
  exists s p' q', get_next_ordinary w field x p = Ok (s, p') /\ get_next_ordinary w field x q = Ok (s, q')
  /\ col p' = col q' /\ finished p' = finished q'.
Proof.
  intros w field x p q Hp Hq FT.
  destruct (C104_statement w field x p Hp FT) as (s & p' & E1 & F1 & G1 & S1).
  destruct (C104_statement w field x q Hq FT) as (s2 & q' & E2 & F2 & G2 & S2).
  assert (s = s2).
  { destruct (line_statement (status_of w) field x) as [[[i e] h]|];
      [destruct (instr_looks w i || stmt_looks w e)|]; destruct S1 as [-> _], S2 as [-> _]; reflexivity. }
  subst s2. exists s, p', q'. rewrite F1, F2, G1, G2. auto.
Qed.
Print Assumptions C104_history.

(** A line "L  LR 1,2  remark" and one with an empty operand field. *)
Example a_line :
  let w := World (fun _ => Status MACH false 4) (fun _ => false) (fun _ => false) in
  let field := fun (f : form) (n : bool) (_ : nat) =>
    match f, n with
    | MACH, false => Operands [Some (Op 1); None] [30] [11; 12]
    | _, _ => Failed []
    end in
  get_next_ordinary w field (Fields (Label 9) (OrdInstr 4) 7 [1; 2]) (Parser fresh fresh [] false)
  = Ok (Some (Resolved (Label 9) (OrdInstr 4) [Op 1; EmptyOp] [30] (Status MACH false 4)),
        Parser fresh (Collector None None (Some [Some (Op 1); None]) (Some [30]) None [30; 11; 12] false)
               [1; 2; 30; 11; 12] false)
  /\ (forall f n t, fits n f (field f n t) = true)
  /\ operands_of [Some EmptyOp] = [] /\ operands_of [None] = [] /\ operands_of [None; None] = [EmptyOp; EmptyOp].
Proof. split; [vm_compute; reflexivity|]. split; [intros [] [] ?; reflexivity|]. repeat split. Qed.
