(** * Det_Props: C117, which documents the editor treats as HLASM *)
From Coq Require Import String List NArith Arith Bool Lia.
From Verif Require Import Common Lts Wild_Model Wild_Spec Wild_Proof Det_Model Det_Spec Det_Proof.
Import ListNotations.
Open Scope list_scope.

Section Client.
Variable folder : option units.
Variable join join_all : units -> units -> units.
Variable upper : units -> units.
Notation cstep := (cstep folder join join_all upper).
Notation update := (update folder join join_all).

(** The patterns of the two files. *)
Inductive configured (f : units) : disk -> units -> Prop :=
| cf_program : forall ps al libs p, In p ps -> configured f (Disk (Good (ps, al)) (Good libs)) (join f p)
| cf_always : forall ps al libs a, In a al -> configured f (Disk (Good (ps, al)) (Good libs)) (join f a)
| cf_library : forall ps al libs l, In l libs -> configured f (Disk (Good (ps, al)) (Good libs)) (join_all f l).
Definition selected (f : units) (d : disk) (n : units) : Prop := exists w, configured f d w /\ denotes_plus w n.

Lemma configured_in : forall f ps al libs w, configured f (Disk (Good (ps, al)) (Good libs)) w <->
  In w ((map (join f) ps ++ map (join f) al) ++ map (join_all f) libs).
Proof.
  intros f ps al libs w. rewrite !in_app_iff, !in_map_iff. split.
  - intros H. remember (Disk (Good (ps, al)) (Good libs)) as d eqn:E. destruct H as [p1 a1 l1 p H|p1 a1 l1 p H|p1 a1 l1 p H]; injection E as -> -> ->.
    + left. left. now exists p.
    + left. right. now exists p.
    + right. now exists p.
  - intros [[(p & <- & H)|(p & <- & H)]|(p & <- & H)]; now constructor.
Qed.

Lemma paths_known : forall d h, folder <> None -> known (snd (update_paths folder d h)) = true.
Proof.
  intros d h F. unfold update_paths. destruct (known h) eqn:K; cbn [andb].
  - destruct (present (grps d) && present (pgm d)) eqn:P.
    + exact K.
    + destruct folder; [|easy]. destruct (present (grps d)), (present (pgm d)); try discriminate; reflexivity.
  - destruct folder; [|easy]. destruct (present (grps d)), (present (pgm d)); reflexivity.
Qed.
Lemma paths_good : forall d h, folder <> None -> present (grps d) = true -> present (pgm d) = true ->
  exists k, update_paths folder d h = (true, Handler (exprs h) k (should_check h)).
Proof.
  intros d h F G P. unfold update_paths. rewrite G, P. destruct (known h) eqn:K; cbn [andb negb].
  - exists true. rewrite <- K. now destruct h.
  - destruct folder; [|easy]. now exists true.
Qed.
Lemma update_known : forall d r h, folder <> None -> (r = None \/ known h = true) -> known (update d r h) = true.
Proof.
  intros d r h F K. unfold Det_Model.update.
  destruct (match r with Some config => negb (config && known h) | None => false end) eqn:O.
  - destruct K as [->|K]; [discriminate|exact K].
  - pose proof (paths_known d h F) as X. destruct (update_paths folder d h) as [ok h']. cbn [snd] in X.
    destruct ok; cbn [negb]; [|exact X]. destruct folder; [|easy].
    destruct (pgm d) as [| |[ps al]]; try reflexivity. now destruct (grps d).
Qed.
Lemma step_known : folder <> None -> forall s e s', known (hand s) = true -> cstep s e = Some s' -> known (hand s') = true.
Proof.
  intros F s e s' K H. destruct e as [|c|auto d| |d]; cbn [Det_Model.cstep] in H.
  - injection H as <-. apply update_known; auto.
  - injection H as <-. apply update_known; auto.
  - destruct (should_check (hand s)); injection H as <-; [|exact K]. cbn [hand].
    destruct (bytes_eqb _ _); [now apply paths_known|exact K].
  - now injection H as <-.
  - now injection H as <-.
Qed.

(** Once the extension runs in a folder, saving one of the configuration files puts in force
    exactly the patterns of the two, if both can be read. *)
Theorem C117_patterns : forall f es s1 s s' ps al libs n, folder = Some f ->
  cstep (cinit (on_disk s1)) Start = Some s1 -> run cstep s1 es = Some s -> cstep s (Save true) = Some s' ->
  on_disk s = Disk (Good (ps, al)) (Good libs) -> plain_name n ->
  (matches (hand s') n = true <-> selected f (on_disk s) n).
Proof.
  intros f es s1 s s' ps al libs n F H1 R H D P.
  assert (Fn : folder <> None) by congruence.
  assert (K : known (hand s) = true).
  { eapply run_inv with (P := fun s => known (hand s) = true); [|apply (eq_trans (y := known (hand s1)));[reflexivity|]|exact R].
    - intros; eapply step_known; eauto.
    - cbn [Det_Model.cstep] in H1. injection H1 as <-. cbn [hand]. apply update_known; auto. }
  cbn [Det_Model.cstep] in H. injection H as <-. cbn [hand]. unfold Det_Model.update. rewrite K. cbn [andb negb].
  destruct (paths_good (on_disk s) (hand s) Fn) as (k & ->); [now rewrite D|now rewrite D|].
  cbn [negb]. rewrite F, D. cbn [pgm grps]. unfold matches. cbn [exprs].
  rewrite <- compile_all_app, (compile_all_ok _ n P). unfold selected. split.
  - intros (w & I & M). exists w. split; [now apply configured_in|assumption].
  - intros (w & I & M). exists w. split; [now apply configured_in|assumption].
Qed.
(** At the start too. *)
Theorem C117_patterns_start : forall f d s' ps al libs n, folder = Some f -> d = Disk (Good (ps, al)) (Good libs) ->
  cstep (cinit d) Start = Some s' -> plain_name n ->
  (matches (hand s') n = true <-> selected f d n).
Proof.
  intros f d s' ps al libs n F D H P. assert (Fn : folder <> None) by congruence.
  cbn [Det_Model.cstep] in H. injection H as <-. cbn [hand cinit on_disk]. unfold Det_Model.update.
  destruct (paths_good d fresh Fn) as (k & ->); [now rewrite D|now rewrite D|].
  cbn [negb]. rewrite F, D. cbn [pgm grps]. unfold matches. cbn [exprs].
  rewrite <- compile_all_app, (compile_all_ok _ n P). unfold selected. split.
  - intros (w & I & M). exists w. split; [now apply configured_in|assumption].
  - intros (w & I & M). exists w. split; [now apply configured_in|assumption].
Qed.

(** Nothing else changes the patterns while both files are there. *)
Theorem C117_in_force : forall s e s' n, cstep s e = Some s' ->
  match e with
  | Start | Save true => False
  | Show _ _ => present (pgm (on_disk s)) = true /\ present (grps (on_disk s)) = true
  | _ => True
  end -> matches (hand s') n = matches (hand s) n.
Proof.
  intros s e s' n H Q. destruct e as [|[|]|auto d| |d]; try easy; cbn [Det_Model.cstep] in H.
  - injection H as <-. reflexivity.
  - destruct (should_check (hand s)); injection H as <-; [|reflexivity]. cbn [hand].
    destruct (bytes_eqb _ _); [|reflexivity]. destruct Q as [P G].
    unfold update_paths. rewrite P, G. destruct (known (hand s)); cbn [andb negb snd]; [reflexivity|].
    destruct folder; reflexivity.
  - injection H as <-. reflexivity.
  - injection H as <-. reflexivity.
Qed.

(** ** The language of a document *)
Definition recognised (auto : bool) (h : handler) (d : doc) : Prop :=
  matches h (name d) = true \/
  auto = true /\ text d <> [] /\ exists l ls, lines_of (text d) (l :: ls) /\
    (macro_line (upper l) \/ looks_hlasm (fun x => has_operation instructions (upper x)) (l :: ls)).
Lemma check_ok : forall auto h d, check_language upper auto h d = true <-> recognised auto h d.
Proof.
  intros auto h d. unfold check_language, recognised. destruct (matches h (name d)); [split; [now left|reflexivity]|].
  destruct (text d) as [|c t] eqn:T.
  { split; [discriminate|]. intros [X|(_ & X & _)]; [discriminate|now elim X]. }
  destruct auto; cbn [negb]; [|split; [discriminate|]; intros [X|(X & _)]; discriminate].
  rewrite <- T. destruct (split_lines (text d)) as [|l ls] eqn:E; [now elim (split_nonempty (text d))|]. cbn [hd].
  split.
  - intros H. right. split; [reflexivity|]. split; [now rewrite T|]. exists l, ls. pose proof (split_lines_of (text d)) as S0. rewrite E in S0. split; [exact S0|].
    destruct (macro (upper l)) eqn:M; [left; now apply macro_ok|right]. now apply score_ok.
  - intros [X|(_ & _ & l' & ls' & L & H)]; [discriminate|]. apply lines_fun in L. rewrite E in L. injection L as -> ->.
    destruct (macro (upper l)) eqn:M; [reflexivity|]. destruct H as [H|H]; [apply macro_ok in H; congruence|]. now apply score_ok in H.
Qed.
Theorem C117_language : forall s auto d s', should_check (hand s) = true -> cstep s (Show auto d) = Some s' ->
  exists l, languages s' = languages s ++ [(d, l)] /\
    (language d = s2b "plaintext" /\ recognised auto (hand s) d -> l = s2b "hlasm") /\
    (~ (language d = s2b "plaintext" /\ recognised auto (hand s) d) -> l = language d).
Proof.
  intros s auto d s' C H. cbn [Det_Model.cstep] in H. rewrite C in H. injection H as <-. cbn [languages].
  exists (set_language upper auto (hand s) d). split; [reflexivity|]. unfold set_language. split.
  - intros [L R]. rewrite (proj2 (bytes_eqb_eq _ _) L), (proj2 (check_ok auto (hand s) d) R). reflexivity.
  - intros N. destruct (bytes_eqb (language d) (s2b "plaintext")) eqn:L; [|reflexivity].
    destruct (check_language upper auto (hand s) d) eqn:R; [|reflexivity]. exfalso. apply N.
    split; [now apply bytes_eqb_eq|now apply check_ok].
Qed.

(** After 'Do not track', an answer about missing configuration files, no document is recognised
    any more, whatever it matches. *)
Theorem C117_untracked_refuted : forall s s1 es s2 auto d s', cstep s Untrack = Some s1 -> run cstep s1 es = Some s2 ->
  cstep s2 (Show auto d) = Some s' -> languages s' = languages s2 ++ [(d, language d)].
Proof.
  intros s s1 es s2 auto d s' H R K.
  assert (U : should_check (hand s2) = false).
  { eapply run_inv with (P := fun s => should_check (hand s) = false); [|apply (eq_trans (y := should_check (hand s1)));[reflexivity|]|exact R].
    - clear. intros s e s' U H. destruct e as [|c|auto d| |d]; cbn [Det_Model.cstep] in H.
      + injection H as <-. cbn [hand]. unfold Det_Model.update, update_paths.
        destruct (known (hand s) && present (grps (on_disk s)) && present (pgm (on_disk s))); cbn [negb];
          destruct folder; try exact U; destruct (pgm (on_disk s)) as [| |[ps al]], (grps (on_disk s)); exact U.
      + injection H as <-. cbn [hand]. unfold Det_Model.update, update_paths. destruct (negb (c && known (hand s))); [exact U|].
        destruct (known (hand s) && present (grps (on_disk s)) && present (pgm (on_disk s))); cbn [negb];
          destruct folder; try exact U; destruct (pgm (on_disk s)) as [| |[ps al]], (grps (on_disk s)); exact U.
      + rewrite U in H. injection H as <-. exact U.
      + now injection H as <-.
      + now injection H as <-.
    - cbn [Det_Model.cstep] in H. now injection H as <-. }
  cbn [Det_Model.cstep] in K. rewrite U in K. now injection K as <-.
Qed.

(** Without the file of processor groups the patterns in force are those of an older state. *)
Theorem C117_stale_refuted : forall s s1 s2 d n, grps d = Missing ->
  cstep s (Written d) = Some s1 -> cstep s1 (Save true) = Some s2 -> matches (hand s2) n = matches (hand s) n.
Proof.
  intros s s1 s2 d n G H1 H2. cbn [Det_Model.cstep] in H1. injection H1 as <-. cbn [Det_Model.cstep] in H2. injection H2 as <-.
  cbn [hand on_disk]. unfold Det_Model.update, update_paths. rewrite G. cbn [present andb negb]. rewrite andb_false_r. cbn [andb].
  destruct (negb (known (hand s))); [reflexivity|]. now destruct folder.
Qed.

(** Without a file of programs nothing is selected, from the moment it is looked for. *)
Theorem C117_missing : forall s e s' n, known (hand s) = true -> folder <> None -> cstep s e = Some s' ->
  pgm (on_disk s) = Missing -> present (grps (on_disk s)) = true ->
  match e with
  | Save true => True
  | Show auto d => should_check (hand s) = true /\ (language d = s2b "hlasm" \/ language d = s2b "plaintext" /\ recognised auto (hand s) d)
  | _ => False
  end -> matches (hand s') n = false.
Proof.
  intros s e s' n K Fn H M G Q.
  assert (U : update_paths folder (on_disk s) (hand s) = (false, Handler [] true (should_check (hand s)))).
  { unfold update_paths. rewrite M, G, K. destruct folder; [reflexivity|congruence]. }
  destruct e as [|[|]|auto d| |d]; try easy; cbn [Det_Model.cstep] in H.
  - injection H as <-. cbn [hand]. unfold Det_Model.update. rewrite K, U. reflexivity.
  - destruct Q as (C & Q). rewrite C in H. injection H as <-. cbn [hand].
    assert (L : bytes_eqb (set_language upper auto (hand s) d) (s2b "hlasm") = true).
    { apply bytes_eqb_eq. unfold set_language. destruct Q as [Q|(Q & R)].
      - rewrite Q. reflexivity.
      - rewrite (proj2 (bytes_eqb_eq _ _) Q), (proj2 (check_ok auto (hand s) d) R). reflexivity. }
    change [104%N; 108%N; 97%N; 115%N; 109%N] with (s2b "hlasm"). rewrite L, U. reflexivity.
Qed.
(** With a broken one the libraries have no part; with a broken file of programs nothing has. *)
Theorem C117_broken : forall s s' n, known (hand s) = true -> folder <> None -> cstep s (Save true) = Some s' ->
  plain_name n -> present (grps (on_disk s)) = true ->
  (pgm (on_disk s) = Broken -> matches (hand s') n = false) /\
  (forall f ps al, folder = Some f -> pgm (on_disk s) = Good (ps, al) -> grps (on_disk s) = Broken ->
    (matches (hand s') n = true <-> exists w, In w (ps ++ al) /\ denotes_plus (join f w) n)).
Proof.
  intros s s' n K Fn H P G. cbn [Det_Model.cstep] in H. injection H as <-. cbn [hand]. unfold Det_Model.update. rewrite K. cbn [andb negb].
  split.
  - intros B. destruct (paths_good (on_disk s) (hand s) Fn G) as (k & ->); [now rewrite B|]. cbn [negb].
    destruct folder; [|easy]. now rewrite B.
  - intros f ps al F Gp B. destruct (paths_good (on_disk s) (hand s) Fn G) as (k & ->); [now rewrite Gp|]. cbn [negb].
    rewrite F, Gp, B. unfold matches. cbn [exprs]. rewrite (compile_all_ok _ n P), <- map_app. split.
    + intros (w & I & M). apply in_map_iff in I as (v & <- & I). exists v. now split.
    + intros (v & I & M). exists (join f v). split; [now apply in_map|assumption].
Qed.
End Client.
Print Assumptions C117_patterns.
Print Assumptions C117_patterns_start.
Print Assumptions C117_in_force.
Print Assumptions C117_language.
Print Assumptions C117_untracked_refuted.
Print Assumptions C117_stale_refuted.
Print Assumptions C117_missing.
Print Assumptions C117_broken.

(** The editor and the server agree on what a pattern selects. *)
Theorem C117_server_agrees : forall w n, plain_name n ->
  exists e, compile (convert w) = Some e /\ pattern_match false w n = Some (js_match e n).
Proof.
  intros w n P. destruct (convert_ok w) as (e & E & M). exists e. split; [assumption|].
  destruct (pattern_match_plus w n (proj1 (plain_one n P))) as (b & -> & B). f_equal.
  destruct (js_match e n) eqn:J.
  - now apply B, M.
  - destruct b; [|reflexivity]. rewrite <- J. symmetry. now apply M, B.
Qed.
Print Assumptions C117_server_agrees.
(** Not where a character has more than one byte: the editor takes ? for one unit of the name, the
    server for one byte.  233 is e acute. *)
Theorem C117_server_unit_refuted : exists e, compile (convert (s2b "?")) = Some e /\
  js_match e [233%N] = true /\ pattern_match false (s2b "?") [195; 169]%N = Some false.
Proof. eexists. split; [vm_compute; reflexivity|]. split; vm_compute; reflexivity. Qed.
Print Assumptions C117_server_unit_refuted.

(** With the line ends of Windows an empty line is taken for a statement: a text that is recognised
    is not recognised with them. *)
Fixpoint with_returns (s : units) : units :=
  match s with [] => [] | c :: r => if N.eqb c 10 then 13%N :: 10%N :: with_returns r else c :: with_returns r end.
Theorem C117_returns_refuted : exists t,
  let d x := Doc [] (s2b "plaintext") x in
  recognised (fun s => s) true fresh (d t) /\ ~ recognised (fun s => s) true fresh (d (with_returns t)).
Proof.
  exists (s2b " L 1,2" ++ [10; 10; 10; 10]%N ++ s2b "A"). cbn zeta. split.
  - apply check_ok. vm_compute. reflexivity.
  - rewrite <- check_ok. vm_compute. discriminate.
Qed.
Print Assumptions C117_returns_refuted.

Example ex_detect :
  let join a b := a ++ s2b "/" ++ b in
  let join_all a b := a ++ s2b "/" ++ b ++ s2b "/*" in
  let d := Disk (Good ([s2b "p.*"], [s2b "x?"])) (Good [s2b "lib"]) in
  match run (Det_Model.cstep (Some (s2b "/w")) join join_all (fun s => s)) (cinit d)
    [Start; Show true (Doc (s2b "/w/p.asm") (s2b "plaintext") []); Show true (Doc (s2b "/w/q") (s2b "plaintext") (s2b " L  1,2"));
     Show true (Doc (s2b "/w/lib/M") (s2b "plaintext") []); Show true (Doc (s2b "/w/q") (s2b "plaintext") (s2b "some text"));
     Show true (Doc (s2b "/w/x1") (s2b "c") [])]
  with
  | Some s => map snd (languages s) = [s2b "hlasm"; s2b "hlasm"; s2b "hlasm"; s2b "plaintext"; s2b "c"]
  | None => False
  end.
Proof. vm_compute. reflexivity. Qed.
(** A program file that is removed: the next document shown finds nothing selected. *)
Example ex_missing :
  let join a b := a ++ s2b "/" ++ b in
  let d := Disk (Good ([s2b "p.*"], [])) (Good []) in
  match run (Det_Model.cstep (Some (s2b "/w")) join join (fun s => s)) (cinit d) [Start; Written (Disk Missing (Good []))] with
  | Some s => known (hand s) = true /\ matches (hand s) (s2b "/w/p.a") = true /\
    match Det_Model.cstep (Some (s2b "/w")) join join (fun s => s) s (Show true (Doc (s2b "q") (s2b "hlasm") [])) with
    | Some s' => matches (hand s') (s2b "/w/p.a") = false
    | None => False
    end
  | None => False
  end.
Proof. vm_compute. split; [|split]; reflexivity. Qed.
