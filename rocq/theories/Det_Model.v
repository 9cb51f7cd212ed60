(** * Det_Model: which documents the editor extension treats as HLASM

      clients/vscode-hlasmplugin/src/configurationsHandler.ts
      clients/vscode-hlasmplugin/src/hlasmLanguageDetection.ts
      clients/vscode-hlasmplugin/src/eventsHandler.ts:53-62, 100-129

    Simplifications.
    - Strings are lists of UTF-16 code units.  [String.toUpperCase] ([upper]) and [path.join]
      of the folder of the workspace with a configured text ([join], [join_all] with an asterisk
      behind it) are parameters.
    - A configuration file is missing, broken ([JSON.parse] or the conversion of one of its
      members throws) or good; a good one is the list of its patterns.  A program or library
      path that is no text is a broken file.
    - score / lines > 0.4 in doubles is 5 * score > 2 * lines; the two agree for less than 2^50
      lines.
    - The editor does what it is asked: a document whose language is set has that language. *)
From Coq Require Import String List NArith Arith Bool.
From Verif Require Import Common Wild_Model.
Import ListNotations.
Open Scope list_scope.

Definition units := list N.

(** ** Patterns: configurationsHandler.ts:165-171 *)
Definition js_escaped (c : N) : bool :=
  existsb (N.eqb c) [40; 91; 123; 92; 94; 45; 61; 36; 33; 124; 93; 125; 41; 46]%N.
Definition convert (w : units) : units :=
  let s := flat_map (fun c => if js_escaped c then [92; c]%N else [c]) w in
  let s := flat_map (fun c => if N.eqb c 63 then [46%N] else [c]) s in
  let s := flat_map (fun c => if N.eqb c 42 || N.eqb c 43 then [46; c; 63]%N else [c]) s in
  94%N :: s ++ [36%N].
(** [new RegExp]: the anchors and, between them, what [re_parse] reads; None: an exception *)
Definition compile (s : units) : option (list retok) :=
  match s with
  | 94%N :: s => match rev s with 36%N :: r => re_parse (rev r) | _ => None end
  | _ => None
  end.
(** [.] in JavaScript *)
Definition js_any (c : N) : bool := negb (existsb (N.eqb c) [10; 13; 8232; 8233]%N).
(** [RegExp.test] with both anchors *)
Fixpoint js_match (ts : list retok) : units -> bool :=
  match ts with
  | [] => fun s => match s with [] => true | _ => false end
  | RLit c :: ts' => fun s => match s with x :: s' => N.eqb x c && js_match ts' s' | [] => false end
  | RAny :: ts' => fun s => match s with x :: s' => js_any x && js_match ts' s' | [] => false end
  | RStar :: ts' =>
      fix star (s : units) : bool :=
        js_match ts' s || match s with x :: s' => js_any x && star s' | [] => false end
  | RPlus :: ts' =>
      fix plus (s : units) : bool :=
        match s with x :: s' => js_any x && (js_match ts' s' || plus s') | [] => false end
  end.

(** ** The configuration: configurationsHandler.ts *)
Inductive file (A : Type) := Missing | Broken | Good (a : A).
Arguments Missing {A}. Arguments Broken {A}. Arguments Good {A}.
(** programs and alwaysRecognize; library paths *)
Definition pgm_conf := (list units * list units)%type.
Definition proc_grps := list units.
Record disk := Disk { pgm : file pgm_conf; grps : file proc_grps }.
Definition present {A} (f : file A) : bool := match f with Missing => false | _ => true end.

(** [known]: pgmConfPath and procGrpsPath are set; [exprs]: definedExpressions *)
Record handler := Handler { exprs : list (list retok); known : bool; should_check : bool }.
(** 33-39 *)
Definition fresh : handler := Handler [] false true.

Section Client.
Variable folder : option units.
Variable join join_all : units -> units -> units.
Variable upper : units -> units.

(** 45-47 *)
Definition matches (h : handler) (name : units) : bool := existsb (fun e => js_match e name) (exprs h).

(** 177-203 *)
Definition update_paths (d : disk) (h : handler) : bool * handler :=
  if known h && present (grps d) && present (pgm d) then (true, h)
  else match folder with
       | None => (false, h)
       | Some _ =>
         let h := Handler (exprs h) true (should_check h) in
         if negb (present (grps d)) then (false, h)
         else if negb (present (pgm d)) then (false, Handler [] true (should_check h))
         else (true, h)
       end.

Fixpoint compile_all (l : list units) : list (list retok) :=
  match l with
  | [] => []
  | w :: r => match compile (convert w) with Some e => e :: compile_all r | None => compile_all r end
  end.
(** 92-138; [reloaded]: Some true: one of the two configuration files, Some false: another *)
Definition update (d : disk) (reloaded : option bool) (h : handler) : handler :=
  let other := match reloaded with
               | Some config => negb (config && known h)
               | None => false
               end in
  if other then h
  else
    let '(ok, h) := update_paths d h in
    if negb ok then h
    else match folder with
         | None => h
         | Some f =>
           match pgm d with
           | Good (ps, always) =>
             let e := compile_all (map (join f) ps ++ map (join f) always) in
             match grps d with
             | Good libs => Handler (e ++ compile_all (map (join_all f) libs)) true (should_check h)
             | _ => Handler e true (should_check h)
             end
           | _ => Handler [] true (should_check h)
           end
         end.

(** ** The text: hlasmLanguageDetection.ts *)
Definition blank (c : N) : bool := N.eqb c 32 || N.eqb c 9.
(** [\s] *)
Definition js_space (c : N) : bool :=
  ((9 <=? c) && (c <=? 13) || (8192 <=? c) && (c <=? 8202))%N
  || existsb (N.eqb c) [32; 160; 5760; 8232; 8233; 8239; 8287; 12288; 65279]%N.
Fixpoint span (p : N -> bool) (s : units) : units * units :=
  match s with
  | c :: r => if p c then let '(a, b) := span p r in (c :: a, b) else ([], s)
  | [] => ([], [])
  end.
(** 34 *)
Definition instructions : list bytes := map s2b [
  "ICTL"; "*PROCESS"; "END"; "COND"; "IC"; "ICM"; "L"; "LA"; "LCR"; "LH"; "LHI"; "LM"; "LNR"; "LPR"; "LR"; "LTR"; "MVC";
  "MVCL"; "MVI"; "ST"; "STC"; "STCM"; "STH"; "STM"; "A"; "AH"; "AHI"; "AL"; "ALR"; "AR"; "C"; "CH"; "CR"; "D"; "DR"; "M";
  "MH"; "MHI"; "MR"; "S"; "SH"; "SL"; "SLR"; "SR"; "CL"; "CLC"; "CLCL"; "CLI"; "CLM"; "CLR"; "N"; "NC"; "NI"; "NR"; "O";
  "OC"; "OI"; "OR"; "SLA"; "SLDA"; "SLDL"; "SLDA"; "SLL"; "SRA"; "SRDA"; "SRDL"; "SRL"; "TM"; "X"; "XC"; "XI"; "XR"; "BAL";
  "BALR"; "BAS"; "BASR"; "BC"; "BCR"; "BCT"; "BCTR"; "BXH"; "BXLE"; "AP"; "CP"; "CVB"; "CVD"; "DP"; "ED"; "EDMK"; "MP";
  "MVN"; "MVO"; "MVZ"; "PACK"; "SP"; "SRP"; "UNPK"; "ZAP"; "CDS"; "CS"; "EX"; "STCK"; "SVC"; "TR"; "TRT"; "TS"; "B"; "J";
  "NOP"; "BE"; "BNE"; "BL"; "BNL"; "BH"; "BHL"; "BZ"; "BNZ"; "BM"; "BNM"; "AMODE"; "CSECT"; "DC"; "DS"; "DSECT"; "DROP";
  "EJECT"; "END"; "EQU"; "LTORG"; "ORG"; "POP"; "PRINT"; "PUSH"; "RMODE"; "SPACE"; "USING"; "TITLE"; "BP"; "BNP"; "BO";
  "BNO"; "ABEND"; "CALL"; "CLOSE"; "DCB"; "GET"; "OPEN"; "PUT"; "RETURN"; "SAVE"; "STORAGE"; "COPY"; "GBLC"; "GBLB";
  "SETA"; "SETB"; "SETC"]%string.
(** 34: referenceInstructions.  Neither a word nor an instruction contains a blank, so that the
    expression matches in one way at most. *)
Definition reference (s : units) : bool :=
  let '(_, r) := span (fun c => negb (js_space c)) s in
  let '(b, r) := span blank r in
  let '(i, r) := span (fun c => negb (blank c)) r in
  match b, r with
  | _ :: _, _ :: _ => existsb (bytes_eqb i) instructions
  | _, _ => false
  end.
(** 35 *)
Definition macro (s : units) : bool :=
  match span blank s with (_ :: _, r) => starts_with (s2b "MACRO") r | _ => false end.

(** [text.split('\n')] *)
Fixpoint split_lines (s : units) : list units :=
  match s with
  | [] => [[]]
  | c :: r =>
    match split_lines r with
    | l :: ls => if N.eqb c 10 then [] :: l :: ls else (c :: l) :: ls
    | [] => [[c]]
    end
  end.
(** 67 *)
Definition relevant (l : units) : bool :=
  match l with
  | [] => false
  | c :: r => negb (N.eqb c 42) && negb (N.eqb c 46 && match r with x :: _ => N.eqb x 42 | [] => false end)
  end.
(** 73 *)
Definition continued (l : units) : bool := match nth_error l 71 with Some c => negb (N.eqb c 32) | None => false end.
(** 66-81 *)
Fixpoint tally (ls : list units) (last_continued : bool) (score lines : nat) : nat * nat :=
  match ls with
  | [] => (score, lines)
  | l :: r =>
    if relevant l then
      if (reference (upper l) || last_continued) && (List.length l <=? 80)
      then tally r (continued l) (S score) (S lines)
      else tally r last_continued score (S lines)
    else tally r last_continued score lines
  end.
Record doc := Doc { name : units; language : bytes; text : units }.
(** 49-84 *)
Definition check_language (autodetection : bool) (h : handler) (d : doc) : bool :=
  if matches h (name d) then true
  else match text d with
       | [] => false
       | t =>
         if negb autodetection then false
         else if macro (upper (hd [] (split_lines t))) then true
         else let '(score, lines) := tally (split_lines t) false 0 0 in 2 * lines <? 5 * score
       end.
(** 38-47: the language afterwards *)
Definition set_language (autodetection : bool) (h : handler) (d : doc) : bytes :=
  if bytes_eqb (language d) (s2b "plaintext") && check_language autodetection h d then s2b "hlasm" else language d.

(** ** Events: eventsHandler.ts *)
Inductive ev :=
| Start
| Save (config : bool)
| Show (autodetection : bool) (d : doc)
| Untrack                        (* 'Do not track' is chosen *)
| Written (d : disk).            (* the configuration files are replaced *)
Record cst := Cst { on_disk : disk; hand : handler; languages : list (doc * bytes) }.
Definition cinit (d : disk) : cst := Cst d fresh [].
Definition cstep (s : cst) (e : ev) : option cst :=
  match e with
  | Start => Some (Cst (on_disk s) (update (on_disk s) None (hand s)) (languages s))
  | Save config => Some (Cst (on_disk s) (update (on_disk s) (Some config) (hand s)) (languages s))
  | Show auto d =>
    (* 126-129, with checkConfigs *)
    if should_check (hand s) then
      let l := set_language auto (hand s) d in
      let h := if bytes_eqb l (s2b "hlasm") then snd (update_paths (on_disk s) (hand s)) else hand s in
      Some (Cst (on_disk s) h (languages s ++ [(d, l)]))
    else Some (Cst (on_disk s) (hand s) (languages s ++ [(d, language d)]))
  | Untrack => Some (Cst (on_disk s) (Handler (exprs (hand s)) (known (hand s)) false) (languages s))
  | Written d => Some (Cst d (hand s) (languages s))
  end.
End Client.
