(** C109: what the two configuration files mean. *)
From Coq Require Import String List NArith ZArith Bool Lia.
From Verif Require Import Common Cfg_Model Cfg_Spec Cfg_Proof.
Import ListNotations.
Open Scope list_scope.
Open Scope Z_scope.

(** proc_grps.json is read if and only if it has the shape of one, as what its members say; anything else
    is reported (an exception that load_config turns into a diagnostic). *)
Theorem C109_groups_accepted : forall j,
  (forall c, proc_from_json j = Ok c <-> proc_shape j c) /\
  ((forall c, ~ proc_shape j c) -> proc_from_json j = Throw).
Proof.
  intro j. split; [apply reads_proc|]. intro N. destruct (proc_from_json j) eqn:E; [|reflexivity|].
  - apply reads_proc in E. elim (N _ E).
  - elim (ub_proc _ E).
Qed.
Print Assumptions C109_groups_accepted.

(** What its limit must not be: a number that is no unsigned int, or a truth value *)
Definition proper_limit (j : json) : Prop :=
  forall o x, j = JObj o -> member o "diagnosticsSuppressLimit" x ->
    match x with
    | JUInt z => 0 <= z < 2 ^ 32
    | JInt _ | JFloat _ | JBool _ => False
    | _ => True
    end.

Lemma limit_read : forall x, match x with JUInt z => 0 <= z < 2 ^ 32 | JInt _ | JFloat _ | JBool _ => False | _ => True end ->
  forall d, (exists n, get_unsigned x = Ok n /\ d = Some n) <-> limit x d.
Proof.
  intros x P d. unfold limit. destruct x; cbn [get_unsigned]; try contradiction;
    try (split; intros (? & E & _); discriminate).
  split.
  - intros (m & E & ->). injection E as <-. exists n. rewrite Z.mod_small by exact P. split; [reflexivity|split; [exact P|reflexivity]].
  - intros (z & E & B & ->). injection E as <-. exists n. rewrite Z.mod_small by exact B. split; reflexivity.
Qed.

Lemma pgm_limits : forall j c, proper_limit j ->
  (pgm_shape (fun j d => exists n, get_unsigned j = Ok n /\ d = Some n) j c <-> pgm_shape limit j c).
Proof.
  intros j c P. split; intro SH; inversion SH as [o l a d H1 H2 H3 E1 E2]; subst; constructor; try assumption;
    (destruct H3 as [(x & M & G)|H3]; [left; exists x; split; [exact M|]|right; exact H3]);
    apply (limit_read x (P o x eq_refl M) d); exact G.
Qed.

(** pgm_conf.json is read if and only if it has the shape of one, as long as the limit in it, if it is a
    number, is one that an unsigned int holds. *)
Theorem C109_programs_accepted : forall j, proper_limit j ->
  (forall c, pgm_from_json j = Ok c <-> pgm_shape limit j c) /\
  ((forall c, ~ pgm_shape limit j c) -> pgm_from_json j = Throw).
Proof.
  intros j P. split.
  - intro c. rewrite <- (pgm_limits j c P). apply reads_pgm.
  - intro N. destruct (pgm_from_json j) eqn:E; [|reflexivity|].
    + apply reads_pgm in E. apply (pgm_limits j _ P) in E. elim (N _ E).
    + exfalso. revert E. unfold pgm_from_json.
      destruct (at_ "pgms" j) eqn:A; cbn [bind]; [|discriminate|intro E; elim (ub_at _ _ A)].
      destruct (at_obj _ _ _ A) as (o & ->).
      apply bind_ub; [apply ub_vector; exact ub_mapping|]. intros l _.
      apply bind_ub; [apply ub_optional; apply ub_vector; exact ub_string|]. intros a0 _.
      apply bind_ub; [|intros; discriminate].
      unfold optional_member, find_. destruct (find (s2b "diagnosticsSuppressLimit") o) as [x|] eqn:F; [|discriminate].
      apply find_some in F. specialize (P o x eq_refl F). destruct x; cbn; try discriminate; contradiction.
Qed.
Print Assumptions C109_programs_accepted.

(** A file says only one thing. *)
Theorem C109_one_meaning : forall j,
  (forall c d, proc_shape j c -> proc_shape j d -> c = d) /\
  (forall c d, proper_limit j -> pgm_shape limit j c -> pgm_shape limit j d -> c = d).
Proof.
  intro j. split.
  - intros c d H1 H2. apply reads_proc in H1. apply reads_proc in H2. rewrite H1 in H2. injection H2 as ->. reflexivity.
  - intros c d P H1 H2. apply (pgm_limits j _ P) in H1. apply (pgm_limits j _ P) in H2.
    apply reads_pgm in H1. apply reads_pgm in H2. rewrite H1 in H2. injection H2 as ->. reflexivity.
Qed.
Print Assumptions C109_one_meaning.

(** What is written is read back as it was. *)
Theorem C109_round_trip :
  (forall c, proc_from_json (proc_to_json c) = Ok c) /\
  (forall c, (forall n, diagnostics_suppress_limit c = Some n -> 0 <= n < 2 ^ 32) -> pgm_from_json (pgm_to_json c) = Ok c).
Proof.
  split.
  - intro c. apply reads_proc. apply proc_written.
  - intros c B. apply reads_pgm. apply pgm_written. intros n E. exists n. cbn [get_unsigned].
    rewrite Z.mod_small by (apply B; exact E). split; reflexivity.
Qed.
Print Assumptions C109_round_trip.

(** Members of names that mean nothing are ignored, wherever they are. *)
Definition none_of (k : bytes) (names : list string) : Prop := Forall (fun n => s2b n <> k) names.
Theorem C109_others_ignored : forall a k x b,
  (none_of k ["pgroups"; "macro_extensions"]%string -> proc_from_json (JObj (a ++ (k, x) :: b)) = proc_from_json (JObj (a ++ b))) /\
  (none_of k ["name"; "libs"; "asm_options"]%string -> group_from_json (JObj (a ++ (k, x) :: b)) = group_from_json (JObj (a ++ b))) /\
  (none_of k ["path"; "optional"; "macro_extensions"]%string -> library_from_json (JObj (a ++ (k, x) :: b)) = library_from_json (JObj (a ++ b))) /\
  (none_of k ["PROFILE"; "SYSPARM"]%string -> options_from_json (JObj (a ++ (k, x) :: b)) = options_from_json (JObj (a ++ b))) /\
  (none_of k ["pgms"; "alwaysRecognize"; "diagnosticsSuppressLimit"]%string ->
     pgm_from_json (JObj (a ++ (k, x) :: b)) = pgm_from_json (JObj (a ++ b))) /\
  (none_of k ["program"; "pgroup"]%string -> mapping_from_json (JObj (a ++ (k, x) :: b)) = mapping_from_json (JObj (a ++ b))).
Proof.
  intros a k x b. unfold none_of.
  split; [|split; [|split; [|split; [|split]]]]; intro N;
    repeat match goal with H : Forall _ (_ :: _) |- _ => inversion H; clear H; subst end;
    unfold proc_from_json, group_from_json, library_from_json, options_from_json, pgm_from_json, mapping_from_json;
    rewrite ?at_other by assumption; rewrite ?optional_other by assumption; reflexivity.
Qed.
Print Assumptions C109_others_ignored.

(** The limit is not checked: a negative number is taken as a number near 2^32, a larger one is taken
    modulo 2^32, and a truth value is taken too. *)
Definition with_limit (x : json) : json := JObj [(s2b "pgms", JArr []); (s2b "diagnosticsSuppressLimit", x)].
Theorem C109_limit_refuted :
  pgm_from_json (with_limit (JInt (-1))) = Ok (mkPgm [] [] (Some 4294967295)) /\
  pgm_from_json (with_limit (JUInt 4294967296)) = Ok (mkPgm [] [] (Some 0)) /\
  pgm_from_json (with_limit (JBool true)) = Ok (mkPgm [] [] (Some 1)) /\
  (forall x c, In x [JInt (-1); JUInt 4294967296; JBool true] -> ~ pgm_shape limit (with_limit x) c).
Proof.
  split; [vm_compute; reflexivity|]. split; [vm_compute; reflexivity|]. split; [vm_compute; reflexivity|].
  intros x c I0 SH. inversion SH as [o l a d H1 H2 H3 E1 E2]; subst.
  destruct H3 as [(y & M & z & -> & B & _)|[A _]].
  - apply find_some in M. vm_compute in M. injection M as ->. cbn [In] in I0.
    destruct I0 as [E|[E|[E|[]]]]; try discriminate. injection E as <-. lia.
  - apply A. right. left. reflexivity.
Qed.
Print Assumptions C109_limit_refuted.

Example two_groups :
  let c := mkProc [mkGroup (s2b "P1") [mkLib (s2b "lib") [] false; mkLib (s2b "opt") [s2b ".mac"] true] (mkOpts (s2b "X") [])] [s2b ".asm"] in
  proc_shape (JObj [(s2b "pgroups",
     JArr [JObj [(s2b "name", JStr (s2b "P1")); (s2b "unknown", JNull);
                 (s2b "libs", JArr [JStr (s2b "lib");
                                    JObj [(s2b "path", JStr (s2b "opt")); (s2b "optional", JBool true);
                                          (s2b "macro_extensions", JArr [JStr (s2b ".mac")])]]);
                 (s2b "asm_options", JObj [(s2b "SYSPARM", JStr (s2b "X"))])]]);
     (s2b "macro_extensions", JArr [JStr (s2b ".asm")])]) c.
Proof. apply reads_proc. vm_compute. reflexivity. Qed.
Example a_limit : pgm_shape limit (with_limit (JUInt 25)) (mkPgm [] [] (Some 25)) /\ proper_limit (with_limit (JUInt 25)).
Proof.
  assert (P : proper_limit (with_limit (JUInt 25))).
  { intros o x E M. injection E as <-. apply find_some in M. vm_compute in M. injection M as <-. lia. }
  split; [|exact P]. apply (C109_programs_accepted _ P). vm_compute. reflexivity.
Qed.
Example libs_missing : forall c, ~ proc_shape (JObj [(s2b "pgroups", JArr [JObj [(s2b "name", JStr (s2b "P1"))]])]) c.
Proof. intros c H. apply reads_proc in H. vm_compute in H. discriminate. Qed.
