(** C110: the limit on the diagnostics of programs without configuration. *)
From Coq Require Import String List NArith ZArith Bool Lia.
From Verif Require Import Common Cfg_Model Sup_Model Sup_Spec Sup_Proof.
Import ListNotations.
Open Scope list_scope.
Open Scope Z_scope.

(** Nothing that happens is undefined, and the limit is the one that was set last in the workspace, or else
    in the editor, or else ten. *)
Theorem C110_limit : forall h, Forall proper h ->
  exists s, run h initial = Some s /\ get_config s = Some (limit_after h).
Proof. intros h P. destruct (run_agrees h P) as (s & E & A). exists s. split; [exact E|apply agrees_limit; exact A]. Qed.
Print Assumptions C110_limit.

(** An analysis shows what it found, unless the program has no configuration and it found more than the limit;
    then nothing is shown for the program nor for the files it depends on, and other files are not affected. *)
Theorem C110_shown : forall h s f deps after c i, Forall proper h -> run h initial = Some s ->
  exists s', step (Analysed f deps after c i) s = Some s' /\
    (c = false /\ i = true /\ limit_after h < Z.of_nat (length (after f)) ->
       forall g, (g = f \/ In g deps -> diags s' g = []) /\ (g <> f /\ ~ In g deps -> diags s' g = after g)) /\
    (~ (c = false /\ i = true /\ limit_after h < Z.of_nat (length (after f))) -> diags s' = after).
Proof.
  intros h s f deps after c i P R. destruct (run_agrees h P) as (s0 & E & A). rewrite R in E. injection E as <-.
  destruct (step_analysed h s f deps after c i A) as (s' & E' & _ & _ & T & F). rewrite too_many_iff in T, F.
  exists s'. split; [exact E'|]. split.
  - intros D g. destruct (T D) as (-> & _). destruct (cleared deps (set f [] after) g) as [C1 C2]. split.
    + intros [->|I0]; [|apply C1; exact I0]. destruct (in_dec (list_eq_dec N.eq_dec) f deps) as [Y|Y]; [apply C1; exact Y|].
      rewrite C2 by exact Y. apply set_same.
    + intros [N1 N2]. rewrite C2 by exact N2. apply set_other. exact N1.
  - intro D. apply F. exact D.
Qed.
Print Assumptions C110_shown.

(** The user is told when diagnostics of a file are not shown, unless they know already; and never otherwise. *)
Theorem C110_told : forall h s e s', Forall proper h -> run h initial = Some s -> step e s = Some s' ->
  (forall f, too_many h f e -> ~ knows h f -> messages s' = messages s ++ [f]) /\
  ((forall f, too_many h f e -> knows h f) -> messages s' = messages s).
Proof.
  intros h s e s' P R E. destruct (run_agrees h P) as (s0 & E0 & A). rewrite R in E0. injection E0 as <-.
  pose proof A as (_ & _ & N).
  destruct e as [params|c after|f deps after c i|f after].
  - split; [intros f (d & a & X & _); discriminate|]. intros _. destruct params as [|j r]; cbn [step] in E.
    + injection E as <-. reflexivity.
    + destruct (load_settings j); try discriminate; injection E as <-; reflexivity.
  - split; [intros f (d & a & X & _); discriminate|]. intros _. injection E as <-. reflexivity.
  - destruct (step_analysed h s f deps after c i A) as (s1 & E1 & _ & _ & T & F). rewrite E in E1. injection E1 as <-.
    split.
    + intros g D K. pose proof D as (d & a & X & _). injection X as -> -> -> -> ->. destruct (T D) as (_ & _ & ->).
      destruct (notified s g) eqn:Ng; [|reflexivity]. apply N in Ng. elim (K Ng).
    + intro D. destruct (too_many_dec h f (Analysed f deps after c i)) as [Y|Y].
      * destruct (T Y) as (_ & _ & ->). rewrite (proj2 (N f) (D f Y)). reflexivity.
      * apply F. exact Y.
  - split; [intros g (d & a & X & _); discriminate|]. intros _. injection E as <-. reflexivity.
Qed.
Print Assumptions C110_told.

(** Loading a configuration analyses programs again without regard to the limit. *)
Definition three : table := fun _ => [1; 2; 3]%N.
Theorem C110_reload_refuted :
  let h := [Loaded (mkPgm [] [] (Some 0)) three] in
  exists s, run h initial = Some s /\ limit_after h = 0 /\ forall f, length (diags s f) = 3%nat.
Proof. eexists. split; [reflexivity|]. split; [reflexivity|]. intro f. reflexivity. Qed.
Print Assumptions C110_reload_refuted.

(** A very large limit in the settings of the editor is no limit but zero. *)
Theorem C110_huge_refuted :
  load_settings (JObj [(s2b "diagnosticsSuppressLimit", JUInt 18446744073709551615)]) = Ok (Some 0).
Proof. vm_compute. reflexivity. Qed.
Print Assumptions C110_huge_refuted.

Definition found (n : nat) : table := fun _ => repeat 7%N n.
Definition A : file := s2b "a".
Example told_once :
  let h := [Settings [JObj [(s2b "diagnosticsSuppressLimit", JUInt 2)]]; Analysed A [] (found 3) false true;
            Analysed A [] (found 4) false true; Analysed A [] (found 2) false true; Analysed A [] (found 3) false true] in
  option_map messages (run h initial) = Some [A; A] /\ Forall proper h /\ limit_after h = 2.
Proof.
  split; [vm_compute; reflexivity|]. split; [|vm_compute; reflexivity].
  repeat apply Forall_cons; try apply Forall_nil; intros j r o x E1 E2 I0 n E3; try discriminate.
  injection E1 as <- <-. injection E2 as <-. destruct I0 as [I0|[]]. injection I0 as <-. injection E3 as <-. lia.
Qed.
Example default_ten : too_many [] A (Analysed A [] (found 11) false true) /\ ~ too_many [] A (Analysed A [] (found 10) false true).
Proof. rewrite !too_many_iff. split; [repeat split; vm_compute; reflexivity|]. intros (_ & _ & L). vm_compute in L. discriminate. Qed.
