(** C78-C80: completion and hovering. *)
From Coq Require Import String.
From Coq Require Import List NArith ZArith Bool Arith Lia Sorting.Sorted.
From Coq Require Import ZifyBool ZifyNat ZifyN.
From Verif Require Import Common Text_Model Text_Spec Text_Proof Lines_Proof Text_Props Mach_Model Mach_Table.
From Verif Require Import Hov_Model Hov_Spec Hov_Regex Hov_Doc Hov_Items.
Import ListNotations.

(** * C78: which completion is made *)

(** The text in front of the cursor decides exactly like this, whatever it is. *)
Theorem C78_exact : forall s, regex_match instruction_regex s = true <->
  (exists b n, s = b ++ n /\ blanks b /\ word n) \/
  (exists x y w b n, s = x :: y :: w ++ b ++ n /\ x <> 42%N /\ y <> 42%N /\ word w /\ blanks b /\ word n /\ n <> []).
Proof. exact instruction_iff. Qed.
Print Assumptions C78_exact.

(** The matching is that of regular expressions. *)
Theorem C78_regex : forall r s, regex_match r s = true <-> lang r s.
Proof. exact regex_match_iff. Qed.
Print Assumptions C78_regex.

(** Instructions are offered in the operation field: without a label always, behind a label of two or more
    characters once a character of the name is typed. *)
Theorem C78_offered : forall lab b name, blanks b -> word name -> word lab ->
  lab = [] \/ (2 <= length lab /\ nth_error lab 0 <> Some 42%N /\ nth_error lab 1 <> Some 42%N /\ name <> []) ->
  regex_match instruction_regex (lab ++ b ++ name) = true.
Proof.
  intros lab b name B N L [->|(Len & A0 & A1 & Nn)]; apply instruction_iff.
  - left. exists b, name. split; [reflexivity|]. split; assumption.
  - right. destruct lab as [|x [|y w]]; [cbn in Len; lia|cbn in Len; lia|]. cbn in A0, A1.
    exists x, y, w, b, name. split; [reflexivity|]. split; [congruence|]. split; [congruence|].
    inversion L as [|? ? ? L1]; inversion L1; subst. auto.
Qed.
Print Assumptions C78_offered.

(** They are offered nowhere else if the line starts with a label of two or more characters, or if its
    second and third characters are blank; and never in a comment. *)
Theorem C78_only : forall x y z s,
  regex_match instruction_regex (x :: y :: z :: s) = true ->
  (~ blank x /\ ~ blank y) \/ (blank y /\ blank z) ->
  operation_field (x :: y :: z :: s).
Proof.
  intros x y z s H G. apply instruction_iff in H.
  destruct H as [(b & n & E & B & N)|(x' & y' & w & b & n & E & X & Y & W & B & N & Nn)].
  - exists [], b, n. rewrite E. split; [reflexivity|]. split; [constructor|]. split; [exact B|]. split; [exact N|easy].
  - injection E as -> -> E. destruct G as [(Gx & Gy)|(Gy & Gz)].
    + exists (x' :: y' :: w), b, n. rewrite E. split; [reflexivity|]. split; [constructor; [easy|constructor; easy]|].
      split; [exact B|]. split; [exact N|]. cbn. congruence.
    + destruct w as [|w0 w]; [|exfalso; cbn in E; injection E as -> E; inversion W; contradiction].
      cbn [app] in E. destruct (isspace x') eqn:Bx.
      * exists [], (x' :: y' :: b), n. rewrite E. apply isspace_iff in Bx. split; [reflexivity|]. split; [constructor|].
        split; [split; [easy|]; destruct B as (_ & B); constructor; [exact Bx|constructor; [exact Gy|exact B]]|].
        split; [exact N|easy].
      * exists [x'], (y' :: b), n. rewrite E. split; [reflexivity|].
        split; [constructor; [|constructor]; intros K; apply isspace_iff in K; congruence|].
        split; [split; [easy|]; destruct B as (_ & B); now constructor|]. split; [exact N|]. cbn. congruence.
Qed.
Print Assumptions C78_only.
Theorem C78_comment : forall s, regex_match instruction_regex (42%N :: s) = false.
Proof.
  intros s. destruct (regex_match _ _) eqn:E; [|easy]. apply instruction_iff in E.
  destruct E as [(b & n & E & (B1 & B2) & N)|(x & y & w & b & n & E & X & _)].
  - destruct b as [|c b]; [easy|]. injection E as <- _. inversion B2 as [|? ? B3]; subst. unfold blank in B3. lia.
  - injection E as <- _. easy.
Qed.
Print Assumptions C78_comment.
Example C78_offered_case :
  regex_match instruction_regex (s2b "LABEL   L") = true /\ operation_field (s2b "LABEL   L") /\
  regex_match instruction_regex (s2b "LABEL   LR 1") = false.
Proof.
  split; [reflexivity|]. split; [|reflexivity]. exists (s2b "LABEL"), (s2b "   "), (s2b "L").
  assert (F : forall l, forallb (fun c => negb (isspace c)) l = true -> word l).
  { intros l Hl. apply nonspaces. now apply Forall_forall, forallb_forall. }
  split; [reflexivity|]. split; [now apply F|]. split; [split; [easy|]; apply spaces; now apply Forall_forall, forallb_forall|].
  split; [now apply F|easy].
Qed.

(** In the operand field of a line with one or two leading blanks instructions are offered. *)
Theorem C78_operand_refuted : exists s, regex_match instruction_regex s = true /\ ~ operation_field s.
Proof.
  exists (s2b " LR 1"). split; [reflexivity|]. intros (lab & b & name & E & L & (B1 & B2) & N & _).
  change (s2b " LR 1") with [32; 76; 82; 32; 49]%N in E.
  assert (Bl : blank 32) by (left; reflexivity).
  destruct lab as [|c lab]; [|injection E as <- E; inversion L; contradiction].
  cbn [app] in E. destruct b as [|b0 b]; [easy|]. injection E as <- E.
  destruct b as [|b1 b].
  - cbn [app] in E. subst name. inversion N as [|? ? _ N1]; inversion N1 as [|? ? _ N2]; inversion N2; contradiction.
  - injection E as <- E. inversion B2 as [|? ? _ B3]; inversion B3 as [|? ? B4]; subst. unfold blank in B4. lia.
Qed.
Print Assumptions C78_operand_refuted.
(** Behind a label of one character and one blank, and behind a label without a character of the name, none
    are offered. *)
Theorem C78_missing_refuted : exists s s', operation_field s /\ operation_field s' /\
  regex_match instruction_regex s = false /\ regex_match instruction_regex s' = false.
Proof.
  exists (s2b "A LR"), (s2b "LABEL ").
  assert (F : forall l, forallb (fun c => negb (isspace c)) l = true -> word l).
  { intros l Hl. apply nonspaces. now apply Forall_forall, forallb_forall. }
  assert (Bl : blanks (s2b " ")) by (split; [easy|]; apply spaces; now apply Forall_forall, forallb_forall).
  split; [exists (s2b "A"), (s2b " "), (s2b "LR"); split; [reflexivity|]; split; [now apply F|]; split; [exact Bl|]; split; [now apply F|easy]|].
  split; [exists (s2b "LABEL"), (s2b " "), []; split; [reflexivity|]; split; [now apply F|]; split; [exact Bl|]; split; [now apply F|easy]|]. split; reflexivity.
Qed.
Print Assumptions C78_missing_refuted.

(** The whole request.  The character typed or in front of the cursor comes first; instructions are offered
    only if the line above is not continued. *)
Theorem C78_request : forall t ls line col trigger last o pre_line before rest,
  lined t ls -> ls = pre_line ++ (before ++ rest) :: skipn (S line) ls -> length pre_line = line -> before ++ rest <> [] ->
  position_at t line col o -> o = length (concat pre_line) + length before ->
  (trigger = Some last \/ (trigger = None /\ get_character_before t line col = Some last)) ->
  (last = 38%N -> completion t line col trigger = Variables) /\
  (last = 46%N -> completion t line col trigger = Sequence_symbols) /\
  (last <> 38%N -> last <> 46%N ->
     (completion t line col trigger = Instructions <->
        (match rev pre_line with [] => True | l :: _ => ~ continued l end) /\ regex_match instruction_regex before = true) /\
     (completion t line col trigger = Instructions \/ completion t line col trigger = Nothing)).
Proof.
  intros t ls line col trigger last o pre_line before rest L E Hl Ne HP Ho HT.
  assert (Last : match trigger with Some c => Some c | None => get_character_before t line col end = Some last)
    by (destruct HT as [->|(-> & H)]; auto).
  unfold completion. rewrite Last.
  split; [intros ->; reflexivity|]. split; [intros ->; reflexivity|]. intros N1 N2.
  replace (last =? 38)%N with false by lia. replace (last =? 46)%N with false by lia.
  assert (Nth : nth_error ls line = Some (before ++ rest)) by (rewrite E, <- Hl; apply nth_mid).
  assert (Start : nth_error (create_line_indices t) line = Some (length (concat pre_line))).
  { rewrite (lined_indices _ _ L), (starts_nth _ _ _ _ Nth). rewrite E, <- Hl.
    rewrite firstn_app, firstn_all, Nat.sub_diag. cbn [firstn]. now rewrite app_nil_r. }
  assert (Ct : t = concat pre_line ++ before ++ rest ++ concat (skipn (S line) ls)).
  { destruct L as (<- & _). rewrite E at 1. rewrite concat_app. cbn [concat]. now rewrite <- app_assoc. }
  assert (Lt : length (concat pre_line) < length t).
  { rewrite Ct, !app_length. destruct (before ++ rest) as [|c x] eqn:X; [easy|].
    apply (f_equal (@length N)) in X. rewrite app_length in X. cbn in X. lia. }
  assert (So : get_line_beginning t line col = Some before).
  { rewrite (C43_line_up_to_cursor t line col o HP _ Start Lt). f_equal. subst o.
    replace (length (concat pre_line) + length before - length (concat pre_line)) with (length before) by lia.
    rewrite Ct. rewrite skipn_app, skipn_all, Nat.sub_diag. rewrite app_nil_l, skipn_O.
    rewrite firstn_app, firstn_all, Nat.sub_diag. now rewrite firstn_O, app_nil_r. }
  unfold should_complete_instr. rewrite So.
  assert (Prev : exists c, (match line with O => Some false | S l => option_map is_continued_line (get_line t l) end) = Some c /\
     (c = false <-> match rev pre_line with [] => True | l :: _ => ~ continued l end)).
  { destruct (rev pre_line) as [|y q] eqn:R.
    - apply (f_equal (@rev _)) in R. rewrite rev_involutive in R. subst pre_line. cbn in Hl. subst line.
      exists false. split; [easy|tauto].
    - apply (f_equal (@rev _)) in R. rewrite rev_involutive in R. cbn [rev] in R. subst pre_line.
      rewrite app_length in Hl. cbn [length] in Hl. rewrite Nat.add_1_r in Hl. subst line.
      assert (Ny : nth_error ls (length (rev q)) = Some y).
      { rewrite E, <- app_assoc. apply nth_mid. }
      assert (Yn : y <> []).
      { eapply nonempty_before; [exact L|exact Ny|]. apply nth_error_Some. rewrite Nth. easy. }
      rewrite (get_line_at _ _ _ _ L Ny Yn). cbn [option_map]. exists (is_continued_line y). split; [easy|].
      destruct (is_continued_line y) eqn:C.
      + apply is_continued_iff in C. split; [easy|]. intros X. contradiction.
      + split; [|easy]. intros _ X. apply is_continued_iff in X. congruence. }
  destruct Prev as (c & -> & Hc). destruct c; cbn [negb andb].
  - split; [|now right]. split; [easy|]. intros (A & _). apply Hc in A. discriminate.
  - destruct (regex_match instruction_regex before); [|split; [split; [easy|intros (_ & A); discriminate]|now right]].
    split; [|now left]. split; [|easy]. intros _. split; [now apply Hc|easy].
Qed.
Print Assumptions C78_request.
Example C78_request_case :
  let t := s2b " LR 1,2" ++ [10%N] ++ s2b "LABEL L" in
  completion t 1 7 None = Instructions /\ completion (t ++ s2b "&") 1 8 None = Variables /\
  completion t 0 7 (Some 46%N) = Sequence_symbols /\ completion t 1 5 None = Nothing.
Proof. vm_compute. repeat split; reflexivity. Qed.

(** On a new line at the end of the document the request ends with an exception. *)
Theorem C78_new_line_refuted : forall t,
  completion (t ++ [10%N]) (length (find_newlines (t ++ [10%N]))) 0 None = Throws.
Proof.
  intros t. unfold completion. cbn [get_character_before]. cbv iota.
  change (0 =? 38)%N with false. change (0 =? 46)%N with false. unfold should_complete_instr.
  rewrite C43_empty_last_line_refuted. now destruct (match length (find_newlines (t ++ [10%N])) with O => _ | S _ => _ end).
Qed.
Print Assumptions C78_new_line_refuted.

(** * C79: the documentation of a macro *)

(** Its prototype with all continued lines, the comments directly above the MACRO statement, and the
    comments directly below the prototype. *)
Theorem C79_documentation : forall t pre before m proto p after post,
  lined t (pre ++ before ++ [m] ++ proto ++ [p] ++ after ++ post) ->
  Forall comment before -> (match rev pre with [] => True | x :: _ => ~ comment x end) ->
  Forall continued proto -> ~ continued p -> p <> [] ->
  Forall comment after -> (match post with [] => True | l :: _ => ~ comment l /\ l <> [] end) ->
  documentation t (S (length (pre ++ before))) =
  Some (s2b "```" ++ [10%N] ++ concat (proto ++ [p]) ++ concat before ++ concat after ++ [10%N] ++ s2b "```" ++ [10%N]).
Proof.
  intros t pre before m proto p after post L C T K Np Ne A P.
  rewrite (documentation_at t pre before m proto p after post L C T K Np Ne A P). unfold fence. now rewrite <- !app_assoc.
Qed.
Print Assumptions C79_documentation.
(** Every text has lines as supposed here, and there is no exception if the last one is not empty. *)
Theorem C79_no_exception : forall t, exists ls, lined t ls /\
  (last ls [0%N] <> [] -> forall d, documentation t d <> None).
Proof.
  intros t. destruct (lines_exist t) as (ls & L). exists ls. split; [exact L|]. intros N d. now apply (documentation_total t ls).
Qed.
Print Assumptions C79_no_exception.
Example C79_case :
  documentation (s2b "* DOES IT" ++ [10%N] ++ s2b " MACRO" ++ [10%N] ++ s2b " M &A" ++ [10%N] ++ s2b ".* A: what" ++ [10%N] ++
                 s2b " MEND" ++ [10%N]) 2 =
  Some (s2b "```" ++ [10%N] ++ s2b " M &A" ++ [10%N] ++ s2b "* DOES IT" ++ [10%N] ++ s2b ".* A: what" ++ [10; 10]%N ++ s2b "```" ++ [10%N]).
Proof. vm_compute. reflexivity. Qed.
(** A definition whose body is not yet written, at the end of a document that ends with a new line: every
    completion of instructions ends with an exception. *)
Theorem C79_unfinished_refuted : documentation (s2b " MACRO" ++ [10%N] ++ s2b " M &A" ++ [10%N]) 1 = None.
Proof. vm_compute. reflexivity. Qed.
Print Assumptions C79_unfinished_refuted.

(** The signature: the label, the name, the positional parameters that have a name, the keyword parameters with
    their defaults. *)
Lemma commas_listed l : commas true l = listed l.
Proof.
  destruct l as [|x l]; [reflexivity|]. rewrite listed_cons. cbn [commas app]. f_equal.
  induction l as [|y l IH]; [reflexivity|]. cbn [commas tail flat_map app]. unfold tail in IH. rewrite IH. reflexivity.
Qed.
Theorem C79_signature : forall m named,
  filter (fun o => match o with Some _ => true | None => false end) (m_positional m) = map Some named ->
  signature m = (match m_label m with [] => [] | l => s2b "&" ++ l ++ s2b " " end) ++ m_id m ++ s2b " " ++
    listed (map (fun x => s2b "&" ++ x) named ++ map (fun p => s2b "&" ++ fst p ++ s2b "=" ++ snd p) (m_keyword m)).
Proof.
  intros m named E. unfold signature. rewrite commas_listed.
  assert (P : present (m_positional m) = named).
  { revert named E. induction (m_positional m) as [|[x|] r IH]; intros named E; cbn [filter present] in *.
    - destruct named; [easy|discriminate].
    - destruct named as [|y named]; [discriminate|]. cbn [map] in E. injection E as -> E. f_equal. now apply IH.
    - now apply IH. }
  rewrite P. reflexivity.
Qed.
Print Assumptions C79_signature.
Example C79_signature_case :
  signature {| m_id := s2b "MAC"; m_label := s2b "LBL"; m_positional := [Some (s2b "A"); None; Some (s2b "B")];
               m_keyword := [(s2b "K", s2b "5")] |} = s2b "&LBL MAC &A,&B,&K=5".
Proof. reflexivity. Qed.

(** * C80: descriptions of instructions *)

(** Hovering over an operation shows the item of that very operation, and nothing for what is not one. *)
Theorem C80_hover : forall it, In it all_items ->
  hover_instruction all_items (label it) = detail it ++ [32; 32; 10]%N ++ doc it.
Proof. intros it H. apply hover_found; [exact labels_distinct|exact H]. Qed.
Print Assumptions C80_hover.
Theorem C80_unknown : forall name, ~ In name (map label all_items) -> hover_instruction all_items name = [].
Proof. intros name. apply hover_missing. Qed.
Print Assumptions C80_unknown.
Theorem C80_labels_distinct : NoDup (map label all_items).
Proof. exact labels_distinct. Qed.
Print Assumptions C80_labels_distinct.
(** The operations offered are exactly those of the tables. *)
Theorem C80_offered : forall name, In name (map label all_items) <->
  (exists i, In i instrs /\ i_name i = name) \/ (exists m, In m mnems /\ m_name m = name) \/
  In name (map fst asm_names) \/ In name ca_names.
Proof.
  intros name. unfold all_items, items. rewrite !map_app, !in_app_iff, !map_map. split.
  - intros [H|[H|[H|H]]].
    + apply in_map_iff in H. destruct H as (i & E & H). apply firsts_in in H. left. exists i. split; [exact H|].
      unfold machine_item in E. destruct (operand_list _ _ _). exact E.
    + right; right; left. exact H.
    + apply in_map_iff in H. destruct H as (it & E & H). apply in_flat_map in H. destruct H as (m & H1 & H2).
      apply firsts_in in H1. right; left. exists m. split; [exact H1|].
      destruct (find_instr instrs (m_instr m)); [|easy]. destruct H2 as [<-|[]]. unfold mnemonic_item in E.
      destruct (mnemonic_list _ _ _ _ _ _ _). exact E.
    + right; right; right. rewrite map_id in H. exact H.
  - intros [(i & H & <-)|[(m & H & <-)|[H|H]]].
    + left. destruct (firsts_names i_name instrs [] i H) as [[]|(y & A & B)]. apply in_map_iff. exists y.
      split; [|exact A]. unfold machine_item. destruct (operand_list _ _ _). exact B.
    + right; right; left. destruct (firsts_names m_name mnems [] m H) as [[]|(y & A & B)]. apply in_map_iff.
      assert (Y : In y mnems) by (eapply firsts_in; eauto).
      pose proof mnemonics_known as K. rewrite forallb_forall in K. specialize (K y Y).
      destruct (find_instr instrs (m_instr y)) as [i|] eqn:E; [|discriminate]. exists (mnemonic_item y i).
      split; [unfold mnemonic_item; destruct (mnemonic_list _ _ _ _ _ _ _); exact B|].
      apply in_flat_map. exists y. split; [exact A|]. rewrite E. now left.
    + right; left. exact H.
    + right; right; right. now rewrite map_id.
Qed.
Print Assumptions C80_offered.

(** The text of an operand says what the operand is, and how many bits a number in it has. *)
Lemma parameter_described p t : parameter_text p = t <-> described p t.
Proof.
  destruct p as [sg n ty]. split.
  - intros <-. destruct ty, sg; cbn [parameter_text p_type p_size p_signed]; constructor; constructor.
  - intros D. inversion D as [| | | | | |? ? ? N|? ? ? N]; subst; try reflexivity; inversion N; reflexivity.
Qed.
Lemma is_empty_iff p : is_empty p = true <-> p = no_parameter.
Proof.
  destruct p as [sg n ty]. unfold is_empty, no_parameter. cbn [p_signed p_type p_size]. split.
  - intros H. destruct sg; [easy|]. destruct ty; try easy. cbn in H. apply Z.eqb_eq in H. now subst.
  - intros H. injection H as -> -> ->. reflexivity.
Qed.
Theorem C80_operand_text : forall f t, operand_text f = t <-> operand_described f t.
Proof.
  intros [p x b] t. unfold operand_text. cbn [f_id f_first f_second].
  assert (R : forall q, described q (parameter_text q)) by (intros q; now apply parameter_described).
  pose proof (is_empty_iff x) as Ex. pose proof (is_empty_iff b) as Eb. split.
  - intros <-. destruct (is_empty x) eqn:X; cbn [andb].
    + apply proj1 in Ex. rewrite (Ex eq_refl). destruct (is_empty b) eqn:B.
      * rewrite (proj1 Eb eq_refl). constructor. apply R.
      * constructor; [apply R|apply R|]. intros E. exact (Bool.diff_false_true (proj2 Eb E)).
    + constructor; [apply R|apply R|apply R|]. intros E. exact (Bool.diff_false_true (proj2 Ex E)).
  - intros D. inversion D as [? ? D1|? ? ? ? D1 D2 N|? ? ? ? ? ? D1 D2 D3 N]; subst.
    + cbn. now apply parameter_described.
    + replace (is_empty no_parameter) with true by reflexivity. destruct (is_empty b); [exfalso; apply N, Eb; reflexivity|].
      cbn [andb]. apply parameter_described in D1, D2. now rewrite D1, D2.
    + destruct (is_empty x); [exfalso; apply N, Ex; reflexivity|]. cbn [andb].
      apply parameter_described in D1, D2, D3. now rewrite D1, D2, D3.
Qed.
Print Assumptions C80_operand_text.
Example C80_operand_text_case : operand_described (mkF (mkP false 12 DISPLC) (mkP false 4 DIS_REG) (mkP false 4 BASE)) (s2b "D12U(X,B)").
Proof.
  apply (o_both _ _ _ (s2b "D12U") (s2b "X") (s2b "B")); [exact (d_unsigned 12 DISPLC (s2b "D") n_displacement)|constructor|constructor|discriminate].
Qed.

(** A machine instruction with at most one operand that may be left out: hovering shows all operands in order, that
    operand in brackets; completion inserts them. *)
Theorem C80_operands : forall n i, find_instr instrs n = Some i -> i_optional i <= 1 -> i_optional i <= length (i_ops i) ->
  hover_instruction all_items n =
    s2b "Operands: " ++ shown [] (i_optional i) (map operand_text (i_ops i)) ++ [32; 32; 10]%N ++
    s2b "Machine instruction " ++ [10%N] ++ s2b "Instruction format: " ++ s2b (format_name (i_format i)).
Proof.
  intros n i F H1 H2.
  assert (En : i_name i = n).
  { clear -F. induction instrs as [|x l IH]; [easy|]. cbn [find_instr] in F.
    destruct (String.eqb_spec (i_name x) n); [congruence|now apply IH]. }
  assert (I1 : In (machine_item i) all_items).
  { unfold all_items, items. apply in_or_app. left. apply in_map. eapply find_firsts; [exact F|easy]. }
  assert (Lb : label (machine_item i) = n) by (unfold machine_item; destruct (operand_list _ _ _); exact En).
  rewrite <- Lb, (C80_hover _ I1). rewrite (detail_exact i H1 H2), <- app_assoc.
  assert (D : doc (machine_item i) = s2b "Machine instruction " ++ nl ++ s2b "Instruction format: " ++ s2b (format_name (i_format i)))
    by (unfold machine_item; destruct (operand_list _ _ _); reflexivity).
  rewrite D. reflexivity.
Qed.
Print Assumptions C80_operands.
Theorem C80_inserted : forall i, i_optional i <= 2 -> i_optional i <= length (i_ops i) ->
  insert_text (machine_item i) = s2b (i_name i) ++ s2b "   " ++ shown (s2b " ") (i_optional i) (map operand_text (i_ops i)).
Proof. exact inserted_exact. Qed.
Print Assumptions C80_inserted.
(** All instructions of the table are covered by these conditions. *)
Theorem C80_all_covered : forall i, In i instrs -> i_optional i <= 2 /\ i_optional i <= length (i_ops i).
Proof.
  assert (K : forallb (fun i => (i_optional i <=? 2) && (i_optional i <=? length (i_ops i))) instrs = true) by (vm_compute; reflexivity).
  rewrite forallb_forall in K. intros i H. specialize (K i H). lia.
Qed.
Print Assumptions C80_all_covered.
Example C80_operands_case :
  hover_instruction all_items "VFAE"%string =
  s2b "Operands: V,V,V,M[,M]  " ++ [10%N] ++ s2b "Machine instruction " ++ [10%N] ++ s2b "Instruction format: VRR-b".
Proof. vm_compute. reflexivity. Qed.
(** With two operands that may be left out the brackets do not match. *)
Theorem C80_two_optional_refuted : exists i, find_instr instrs "IPTE"%string = Some i /\ i_optional i = 2 /\
  detail (machine_item i) = s2b "Operands: R,R[,R]M]]" /\
  detail (machine_item i) <> s2b "Operands: " ++ shown [] 2 (map operand_text (i_ops i)).
Proof. eexists. split; [vm_compute; reflexivity|]. split; [reflexivity|]. split; [reflexivity|]. vm_compute. discriminate. Qed.
Print Assumptions C80_two_optional_refuted.

(** A mnemonic of an instruction whose operands are all needed: the operands to be written, and the
    operands of the instruction with the values the mnemonic stands for. *)
Theorem C80_mnemonic : forall m i, i_optional i = 0 -> StronglySorted lt (map fst (m_replaced m)) ->
  Forall (fun p => (0 <= snd p)%Z) (m_replaced m) -> ~ In (m_name m) ["VNOT"; "NOTR"; "NOTGR"]%string ->
  let texts := map operand_text (i_ops i) in
  let blank_if_none x := match x with [] => s2b " " | _ => x end in
  detail (mnemonic_item m i) = s2b "Operands: " ++ blank_if_none (listed (unfilled 0 (map fst (m_replaced m)) texts)) /\
  insert_text (mnemonic_item m i) = s2b (m_name m) ++ s2b "   " ++ blank_if_none (listed (unfilled 0 (map fst (m_replaced m)) texts)) /\
  doc (mnemonic_item m i) = s2b "Mnemonic code for " ++ s2b (i_name i) ++ s2b " instruction" ++ [10%N] ++
    s2b "Substituted operands: " ++ blank_if_none (listed (substituted 0 (m_replaced m) texts)) ++ [10%N] ++
    s2b "Instruction format: " ++ s2b (format_name (i_format i)).
Proof.
  intros m i O S1 V N. cbv zeta. unfold mnemonic_item. rewrite O.
  rewrite mnemonic_0; [cbn [joined_from detail insert_text doc]; repeat split; reflexivity|split; [exact S1|]|exact V|].
  - rewrite Forall_forall. intros; lia.
  - unfold omitted. cbn [existsb].
    destruct (String.eqb_spec (m_name m) "VNOT") as [E|_]; [exfalso; apply N; rewrite E; cbn; auto|].
    destruct (String.eqb_spec (m_name m) "NOTR") as [E|_]; [exfalso; apply N; rewrite E; cbn; auto|].
    destruct (String.eqb_spec (m_name m) "NOTGR") as [E|_]; [exfalso; apply N; rewrite E; cbn; auto|]. reflexivity.
Qed.
Print Assumptions C80_mnemonic.
(** Every mnemonic of the table fills its operands in order. *)
Fixpoint increasingb (l : list nat) : bool :=
  match l with x :: (y :: _) as r => (x <? y) && increasingb r | _ => true end.
Lemma increasingb_ok l : increasingb l = true -> StronglySorted lt l.
Proof.
  intros H. apply Sorted_StronglySorted; [intros a b c; lia|]. induction l as [|x [|y l] IH]; [constructor|repeat constructor|].
  cbn [increasingb] in H. apply andb_true_iff in H. destruct H as (A & B). constructor; [now apply IH|constructor; lia].
Qed.
Theorem C80_mnemonics_covered : forall m, In m mnems ->
  StronglySorted lt (map fst (m_replaced m)) /\ Forall (fun p => (0 <= snd p)%Z) (m_replaced m).
Proof.
  assert (K : forallb (fun m => increasingb (map fst (m_replaced m)) && forallb (fun p => (0 <=? snd p)%Z) (m_replaced m)) mnems = true)
    by (vm_compute; reflexivity).
  rewrite forallb_forall in K. intros m H. specialize (K m H). apply andb_true_iff in K. destruct K as (A & B).
  split; [now apply increasingb_ok|]. rewrite Forall_forall. rewrite forallb_forall in B. intros p Hp. specialize (B p Hp). lia.
Qed.
Print Assumptions C80_mnemonics_covered.
Example C80_mnemonic_case :
  hover_instruction all_items "BNE"%string =
  s2b "Operands: D12U(X,B)  " ++ [10%N] ++ s2b "Mnemonic code for BC instruction" ++ [10%N] ++
  s2b "Substituted operands: 7,D12U(X,B)" ++ [10%N] ++ s2b "Instruction format: RX-b".
Proof. vm_compute. reflexivity. Qed.
(** If the mnemonic fills the one operand that may be left out, its value is shown in brackets, and there is nothing
    left to be written (nor are the needed operands shown, see below). *)
Lemma mnemonic_skip name x : forall pre i prev first v,
  mnemonic_list name 1 i prev first [(i + length pre, v)] (pre ++ [x]) =
  (91%N :: (if i + length pre =? 0 then [] else [44%N]) ++ z_text v ++ [93%N], []).
Proof.
  induction pre as [|y pre IH]; intros i prev first v.
  - cbn [app length]. rewrite Nat.add_0_r. cbn [mnemonic_list]. rewrite Nat.eqb_refl. cbn [length Nat.eqb andb].
    now rewrite app_nil_r.
  - cbn [app mnemonic_list]. replace (i + length (y :: pre) =? i) with false by (cbn [length]; lia).
    replace (length (y :: pre ++ [x]) =? 1) with false by (cbn [length]; rewrite app_length; cbn [length]; lia).
    cbn [Nat.eqb andb]. replace (i + length (y :: pre)) with (S i + length pre) by (cbn [length]; lia).
    rewrite IH. reflexivity.
Qed.
Theorem C80_filled : forall m i pre x v, i_optional i = 1 -> i_ops i = pre ++ [x] ->
  m_replaced m = [(length pre, v)] -> (0 <= v)%Z ->
  detail (mnemonic_item m i) = s2b "Operands:  " /\
  doc (mnemonic_item m i) = s2b "Mnemonic code for " ++ s2b (i_name i) ++ s2b " instruction" ++ [10%N] ++
    s2b "Substituted operands: [" ++ (match pre with [] => [] | _ => s2b "," end) ++ dec (Z.to_N v) ++ s2b "]" ++ [10%N] ++
    s2b "Instruction format: " ++ s2b (format_name (i_format i)).
Proof.
  intros m i pre x v O E R V. unfold mnemonic_item. rewrite O, E, R, (mnemonic_skip (m_name m) x pre 0).
  cbn [detail doc]. split; [reflexivity|]. cbn [blank_stream]. unfold z_text.
  replace (v <? 0)%Z with false by lia. f_equal. f_equal. f_equal. unfold nl.
  destruct pre; cbn [length Nat.add Nat.eqb]; cbn [app s2b]; rewrite <- ?app_assoc; reflexivity.
Qed.
Print Assumptions C80_filled.
(** The needed operands of a mnemonic are not shown if the instruction has an operand that may be left out. *)
Theorem C80_needed_refuted : exists m i,
  find_mnem mnems "VFAEB"%string = Some m /\ find_instr instrs (m_instr m) = Some i /\
  detail (mnemonic_item m i) = s2b "Operands: [,M]" /\
  unfilled 0 (map fst (m_replaced m)) (map operand_text (i_ops i)) = [s2b "V"; s2b "V"; s2b "V"; s2b "M"].
Proof. do 2 eexists. split; [vm_compute; reflexivity|]. split; [vm_compute; reflexivity|]. split; reflexivity. Qed.
Print Assumptions C80_needed_refuted.
