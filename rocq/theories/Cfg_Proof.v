(** Proofs about the configuration files. *)
From Coq Require Import String List NArith ZArith Bool Lia.
From Verif Require Import Common Cfg_Model Cfg_Spec.
Import ListNotations.
Open Scope list_scope.
Open Scope Z_scope.

Lemma find_some : forall k o j, find (s2b k) o = Some j <-> member o k j.
Proof.
  intros k o j. induction o as [|[k' x] r IH]; cbn [find].
  - split; [discriminate|]. intros (a & b & E & _). destruct a; discriminate.
  - destruct (bytes_eqb (s2b k) k') eqn:B.
    + apply bytes_eqb_eq in B. subst k'. split.
      * intro E. injection E as ->. exists [], r. split; [reflexivity|]. intros [].
      * intros (a & b & E & N). destruct a as [|[k1 x1] a]; cbn in E.
        -- injection E as -> ->. reflexivity.
        -- injection E as E1 _ _. elim N. left. cbn. symmetry. exact E1.
    + split.
      * intro E. apply IH in E. destruct E as (a & b & E & N). exists ((k', x) :: a), b. subst r.
        split; [reflexivity|]. cbn. intros [E|E]; [|exact (N E)]. subst k'.
        rewrite (proj2 (bytes_eqb_eq _ _) eq_refl) in B. discriminate.
      * intros (a & b & E & N). apply IH. destruct a as [|[k1 x1] a]; cbn in E.
        -- injection E as E1 _ _. subst k'. rewrite (proj2 (bytes_eqb_eq _ _) eq_refl) in B. discriminate.
        -- injection E as -> -> ->. exists a, b. split; [reflexivity|]. intro H. apply N. right. exact H.
Qed.

Lemma find_none : forall k o, find (s2b k) o = None <-> absent o k.
Proof.
  intros k o. unfold absent. induction o as [|[k' x] r IH]; cbn [find map fst In].
  - split; [intros _ []|reflexivity].
  - destruct (bytes_eqb (s2b k) k') eqn:B.
    + apply bytes_eqb_eq in B. subst k'. split; [discriminate|]. intro N. elim N. left. reflexivity.
    + rewrite IH. split.
      * intros N [E|E]; [|exact (N E)]. subst k'. rewrite (proj2 (bytes_eqb_eq _ _) eq_refl) in B. discriminate.
      * intros N E. apply N. right. exact E.
Qed.

(** A reader that accepts just what is of a shape. *)
Definition reads {A} (get : json -> res A) (shape : json -> A -> Prop) : Prop :=
  forall j x, get j = Ok x <-> shape j x.

Lemma bind_ok : forall A B (r : res A) (f : A -> res B) y, bind r f = Ok y <-> exists x, r = Ok x /\ f x = Ok y.
Proof.
  intros A B [a| |] f y; cbn [bind]; split; try discriminate; try (intros (x & E & _); discriminate).
  - intro E. exists a. split; [reflexivity|exact E].
  - intros (x & E & F). injection E as <-. exact F.
Qed.

Lemma at_ok : forall k j x, at_ k j = Ok x <-> exists o, j = JObj o /\ member o k x.
Proof.
  intros k j x. unfold at_. destruct j; try (split; [discriminate|]; intros (? & E & _); discriminate).
  destruct (find (s2b k) o) eqn:F.
  - apply find_some in F. split.
    + intro E. injection E as <-. exists o. split; [reflexivity|exact F].
    + intros (o' & E & M). injection E as <-. apply find_some in F. apply find_some in M. rewrite F in M.
      injection M as ->. reflexivity.
  - split; [discriminate|]. intros (o' & E & M). injection E as <-. apply find_some in M. rewrite F in M. discriminate.
Qed.

Lemma required_ok : forall A (get : json -> res A) shape k o x, reads get shape ->
  ((exists j, at_ k (JObj o) = Ok j /\ get j = Ok x) <-> has o k shape x).
Proof.
  intros A get shape k o x R. unfold has. split; intros (j & H & G); exists j.
  - apply at_ok in H. destruct H as (o' & E & M). injection E as <-. split; [exact M|apply R; exact G].
  - split; [apply at_ok; exists o; split; [reflexivity|exact H]|apply R; exact G].
Qed.

Lemma optional_ok : forall A (get : json -> res A) shape k o d x, reads get shape ->
  (optional_member k (JObj o) get d = Ok x <-> may_have o k shape d x).
Proof.
  intros A get shape k o d x R. unfold optional_member, may_have, find_, has. destruct (find (s2b k) o) eqn:F.
  - split.
    + intro E. left. exists j. split; [apply find_some; exact F|apply R; exact E].
    + intros [(j' & M & G)|[N _]].
      * apply find_some in M. rewrite F in M. injection M as <-. apply R. exact G.
      * apply find_none in N. rewrite F in N. discriminate.
  - split.
    + intro E. injection E as <-. right. split; [apply find_none; exact F|reflexivity].
    + intros [(j' & M & G)|[_ ->]]; [|reflexivity]. apply find_some in M. rewrite F in M. discriminate.
Qed.

Lemma reads_text : reads get_string text.
Proof.
  intros j x. unfold text. destruct j; cbn; split; intro E; try discriminate; injection E as ->; reflexivity.
Qed.
Lemma reads_truth : reads get_bool truth.
Proof.
  intros j x. unfold truth. destruct j; cbn; split; intro E; try discriminate; injection E as ->; reflexivity.
Qed.
Lemma reads_array : forall A (get : json -> res A) shape, reads get shape -> reads (get_vector get) (array shape).
Proof.
  intros A get shape R j xs. unfold array.
  assert (L : forall l ys, get_all get l = Ok ys <-> Forall2 shape l ys).
  { induction l as [|a l IH]; intros ys; cbn [get_all].
    - split; intro E; [injection E as <-; constructor|]. inversion E. reflexivity.
    - rewrite bind_ok. split.
      + intros (x & G & E). apply bind_ok in E. destruct E as (zs & E & F). injection F as <-.
        constructor; [apply R; exact G|apply IH; exact E].
      + intro F. inversion F as [|? y ? zs S T]; subst. exists y. split; [apply R; exact S|].
        apply bind_ok. exists zs. split; [apply IH; exact T|reflexivity]. }
  destruct j; cbn [get_vector]; try (split; [discriminate|]; intros (? & E & _); discriminate).
  rewrite L. split.
  - intro F. exists l. split; [reflexivity|exact F].
  - intros (l' & E & F). injection E as <-. exact F.
Qed.

Ltac obj j := destruct j; try (split; [discriminate|]; intro SH; inversion SH).

Lemma reads_library : reads library_from_json library_shape.
Proof.
  intros j x. unfold library_from_json. obj j.
  - split; intro E; [injection E as <-; constructor|inversion E; reflexivity].
  - split.
    + intro E. apply bind_ok in E. destruct E as (j1 & E1 & E). apply bind_ok in E. destruct E as (p & E2 & E).
      apply bind_ok in E. destruct E as (b & E3 & E). apply bind_ok in E. destruct E as (e & E4 & E).
      injection E as <-. constructor.
      * apply (required_ok _ _ _ _ _ _ reads_text). exists j1. split; assumption.
      * apply (optional_ok _ _ _ _ _ _ _ reads_truth). exact E3.
      * apply (optional_ok _ _ _ _ _ _ _ (reads_array _ _ _ reads_text)). exact E4.
    + intro SH. inversion SH as [|o' p e b H1 H2 H3 E1 E2]; subst.
      apply (required_ok _ _ _ _ _ _ reads_text) in H1. destruct H1 as (j1 & A1 & A2).
      apply (optional_ok _ _ _ _ _ _ _ reads_truth) in H2.
      apply (optional_ok _ _ _ _ _ _ _ (reads_array _ _ _ reads_text)) in H3.
      rewrite A1. cbn [bind]. rewrite A2. cbn [bind]. rewrite H2. cbn [bind]. rewrite H3. reflexivity.
Qed.

Lemma reads_options : reads options_from_json options_shape.
Proof.
  intros j x. unfold options_from_json. obj j.
  split.
  - intro E. apply bind_ok in E. destruct E as (p & E1 & E). apply bind_ok in E. destruct E as (s & E2 & E).
    injection E as <-. constructor; apply (optional_ok _ _ _ _ _ _ _ reads_text); assumption.
  - intro SH. inversion SH as [o' s p H1 H2 E1 E2]; subst.
    apply (optional_ok _ _ _ _ _ _ _ reads_text) in H1. apply (optional_ok _ _ _ _ _ _ _ reads_text) in H2.
    rewrite H1. cbn [bind]. rewrite H2. reflexivity.
Qed.

Lemma at_obj : forall k j x, at_ k j = Ok x -> exists o, j = JObj o.
Proof. intros k j x E. apply at_ok in E. destruct E as (o & E & _). exists o. exact E. Qed.

Lemma reads_group : reads group_from_json group_shape.
Proof.
  intros j x. unfold group_from_json. split.
  - intro E. apply bind_ok in E. destruct E as (j1 & E1 & E). apply bind_ok in E. destruct E as (n & E2 & E).
    apply bind_ok in E. destruct E as (j2 & E3 & E). apply bind_ok in E. destruct E as (l & E4 & E).
    apply bind_ok in E. destruct E as (a & E5 & E). injection E as <-.
    destruct (at_obj _ _ _ E1) as (o & ->). constructor.
    + apply (required_ok _ _ _ _ _ _ reads_text). exists j1. split; assumption.
    + apply (required_ok _ _ _ _ _ _ (reads_array _ _ _ reads_library)). exists j2. split; assumption.
    + apply (optional_ok _ _ _ _ _ _ _ reads_options). exact E5.
  - intro SH. inversion SH as [o n l a H1 H2 H3 E1 E2]; subst.
    apply (required_ok _ _ _ _ _ _ reads_text) in H1. destruct H1 as (j1 & A1 & A2).
    apply (required_ok _ _ _ _ _ _ (reads_array _ _ _ reads_library)) in H2. destruct H2 as (j2 & B1 & B2).
    apply (optional_ok _ _ _ _ _ _ _ reads_options) in H3.
    rewrite A1. cbn [bind]. rewrite A2. cbn [bind]. rewrite B1. cbn [bind]. rewrite B2. cbn [bind]. rewrite H3. reflexivity.
Qed.

Lemma reads_proc : reads proc_from_json proc_shape.
Proof.
  intros j x. unfold proc_from_json. split.
  - intro E. apply bind_ok in E. destruct E as (j1 & E1 & E). apply bind_ok in E. destruct E as (g & E2 & E).
    apply bind_ok in E. destruct E as (e & E3 & E). injection E as <-.
    destruct (at_obj _ _ _ E1) as (o & ->). constructor.
    + apply (required_ok _ _ _ _ _ _ (reads_array _ _ _ reads_group)). exists j1. split; assumption.
    + apply (optional_ok _ _ _ _ _ _ _ (reads_array _ _ _ reads_text)). exact E3.
  - intro SH. inversion SH as [o g e H1 H2 E1 E2]; subst.
    apply (required_ok _ _ _ _ _ _ (reads_array _ _ _ reads_group)) in H1. destruct H1 as (j1 & A1 & A2).
    apply (optional_ok _ _ _ _ _ _ _ (reads_array _ _ _ reads_text)) in H2.
    rewrite A1. cbn [bind]. rewrite A2. cbn [bind]. rewrite H2. reflexivity.
Qed.

Lemma reads_mapping : reads mapping_from_json mapping_shape.
Proof.
  intros j x. unfold mapping_from_json. split.
  - intro E. apply bind_ok in E. destruct E as (j1 & E1 & E). apply bind_ok in E. destruct E as (p & E2 & E).
    apply bind_ok in E. destruct E as (j2 & E3 & E). apply bind_ok in E. destruct E as (g & E4 & E). injection E as <-.
    destruct (at_obj _ _ _ E1) as (o & ->). constructor; apply (required_ok _ _ _ _ _ _ reads_text).
    + exists j1. split; assumption.
    + exists j2. split; assumption.
  - intro SH. inversion SH as [o p g H1 H2 E1 E2]; subst.
    apply (required_ok _ _ _ _ _ _ reads_text) in H1. destruct H1 as (j1 & A1 & A2).
    apply (required_ok _ _ _ _ _ _ reads_text) in H2. destruct H2 as (j2 & B1 & B2).
    rewrite A1. cbn [bind]. rewrite A2. cbn [bind]. rewrite B1. cbn [bind]. rewrite B2. reflexivity.
Qed.

Lemma reads_pgm : reads pgm_from_json (pgm_shape (fun j d => exists n, get_unsigned j = Ok n /\ d = Some n)).
Proof.
  assert (RL : reads (fun x => do n <- get_unsigned x; Ok (Some n)) (fun j d => exists n, get_unsigned j = Ok n /\ d = Some n)).
  { intros j d. rewrite bind_ok. split; intros (n & E & F); exists n; (split; [exact E|]).
    - injection F as <-. reflexivity.
    - rewrite F. reflexivity. }
  intros j x. unfold pgm_from_json. split.
  - intro E. apply bind_ok in E. destruct E as (j1 & E1 & E). apply bind_ok in E. destruct E as (l & E2 & E).
    apply bind_ok in E. destruct E as (a & E3 & E). apply bind_ok in E. destruct E as (d & E4 & E). injection E as <-.
    destruct (at_obj _ _ _ E1) as (o & ->). constructor.
    + apply (required_ok _ _ _ _ _ _ (reads_array _ _ _ reads_mapping)). exists j1. split; assumption.
    + apply (optional_ok _ _ _ _ _ _ _ (reads_array _ _ _ reads_text)). exact E3.
    + apply (optional_ok _ _ _ _ _ _ _ RL). exact E4.
  - intro SH. inversion SH as [o l a d H1 H2 H3 E1 E2]; subst.
    apply (required_ok _ _ _ _ _ _ (reads_array _ _ _ reads_mapping)) in H1. destruct H1 as (j1 & A1 & A2).
    apply (optional_ok _ _ _ _ _ _ _ (reads_array _ _ _ reads_text)) in H2.
    apply (optional_ok _ _ _ _ _ _ _ RL) in H3.
    rewrite A1. cbn [bind]. rewrite A2. cbn [bind]. rewrite H2. cbn [bind].
    change (fun x : json => bind (get_unsigned x) (fun n => Ok (Some n))) with (fun x : json => do n <- get_unsigned x; Ok (Some n)).
    rewrite H3. reflexivity.
Qed.

(** Nothing but [pgm_conf]'s limit can be undefined. *)
Definition never_ub {A} (get : json -> res A) : Prop := forall j, get j <> UB.
Lemma bind_ub : forall A B (r : res A) (f : A -> res B), r <> UB -> (forall x, r = Ok x -> f x <> UB) -> bind r f <> UB.
Proof. intros A B [a| |] f N F; cbn [bind]; [apply F; reflexivity|discriminate|elim N; reflexivity]. Qed.
Lemma ub_at : forall k, never_ub (at_ k).
Proof. intros k j. unfold at_. destruct j; try discriminate. destruct (find _ o); discriminate. Qed.
Lemma ub_string : never_ub get_string. Proof. intros []; discriminate. Qed.
Lemma ub_bool : never_ub get_bool. Proof. intros []; discriminate. Qed.
Lemma ub_vector : forall A (get : json -> res A), never_ub get -> never_ub (get_vector get).
Proof.
  intros A get N j. destruct j; try discriminate. cbn [get_vector].
  induction l as [|a l IH]; cbn [get_all]; [discriminate|].
  apply bind_ub; [apply N|]. intros x _. apply bind_ub; [exact IH|]. intros; discriminate.
Qed.
Lemma ub_optional : forall A k j (get : json -> res A) d, never_ub get -> optional_member k j get d <> UB.
Proof. intros A k j get d N. unfold optional_member. destruct (find_ k j); [apply N|discriminate]. Qed.
Lemma ub_library : never_ub library_from_json.
Proof.
  intro j. unfold library_from_json. destruct j; try discriminate.
  repeat (apply bind_ub; [first [apply ub_at|apply ub_string|apply ub_optional; first [exact ub_bool|apply ub_vector; exact ub_string]]|]; intros ? _).
  discriminate.
Qed.
Lemma ub_options : never_ub options_from_json.
Proof.
  intro j. unfold options_from_json. destruct j; try discriminate.
  repeat (apply bind_ub; [apply ub_optional; exact ub_string|]; intros ? _). discriminate.
Qed.
Lemma ub_group : never_ub group_from_json.
Proof.
  intro j. unfold group_from_json.
  repeat (apply bind_ub; [first [apply ub_at|apply ub_string|apply ub_vector; exact ub_library|apply ub_optional; exact ub_options]|]; intros ? _).
  discriminate.
Qed.
Lemma ub_proc : never_ub proc_from_json.
Proof.
  intro j. unfold proc_from_json.
  repeat (apply bind_ub; [first [apply ub_at|apply ub_vector; exact ub_group|apply ub_optional; apply ub_vector; exact ub_string]|]; intros ? _).
  discriminate.
Qed.
Lemma ub_mapping : never_ub mapping_from_json.
Proof.
  intro j. unfold mapping_from_json.
  repeat (apply bind_ub; [first [apply ub_at|apply ub_string]|]; intros ? _). discriminate.
Qed.

(** ** What was written is of its shape *)
Lemma texts_array : forall l, array text (strings l) l.
Proof. intro l. exists (map JStr l). split; [reflexivity|]. induction l; constructor; [reflexivity|assumption]. Qed.
Lemma array_map : forall A (to : A -> json) (shape : json -> A -> Prop), (forall x, shape (to x) x) -> forall l, array shape (JArr (map to l)) l.
Proof. intros A to shape H l. exists (map to l). split; [reflexivity|]. induction l; constructor; [apply H|assumption]. Qed.

Lemma has_find : forall A o k (shape : json -> A -> Prop) j x, find (s2b k) o = Some j -> shape j x -> has o k shape x.
Proof. intros A o k shape j x F H. exists j. split; [apply find_some; exact F|exact H]. Qed.
Lemma may_find : forall A o k (shape : json -> A -> Prop) d j x, find (s2b k) o = Some j -> shape j x -> may_have o k shape d x.
Proof. intros A o k shape d j x F H. left. eapply has_find; eassumption. Qed.
Lemma may_none : forall A o k (shape : json -> A -> Prop) d, find (s2b k) o = None -> may_have o k shape d d.
Proof. intros A o k shape d F. right. split; [apply find_none; exact F|reflexivity]. Qed.

Lemma library_written : forall p, library_shape (library_to_json p) p.
Proof.
  intros [p e b]. unfold library_to_json. cbn [path optional lib_extensions]. constructor.
  - eapply has_find; [reflexivity|reflexivity].
  - eapply may_find; [reflexivity|reflexivity].
  - destruct e as [|x e]; [apply may_none; reflexivity|]. eapply may_find; [reflexivity|apply texts_array].
Qed.
Lemma options_written : forall p, options_shape (JObj (options_members p)) p.
Proof.
  intros [s p]. unfold options_members. cbn [profile sysparm]. constructor.
  - destruct p, s; first [apply may_none; reflexivity|eapply may_find; reflexivity].
  - destruct p, s; first [apply may_none; reflexivity|eapply may_find; reflexivity].
Qed.
Lemma options_nil : forall p, is_nil (options_members p) = true -> p = mkOpts [] [].
Proof. intros [[|] [|]]; cbn; congruence. Qed.
Lemma group_written : forall p, group_shape (group_to_json p) p.
Proof.
  intros [n l a]. unfold group_to_json. cbn [name libs asm_options]. constructor.
  - eapply has_find; reflexivity.
  - eapply has_find; [reflexivity|apply array_map; exact library_written].
  - destruct (is_nil (options_members a)) eqn:E.
    + rewrite (options_nil a E). apply may_none. reflexivity.
    + eapply may_find; [reflexivity|apply options_written].
Qed.
Lemma proc_written : forall p, proc_shape (proc_to_json p) p.
Proof.
  intros [g e]. unfold proc_to_json. cbn [pgroups macro_extensions]. constructor.
  - eapply has_find; [reflexivity|apply array_map; exact group_written].
  - destruct e as [|x e]; [apply may_none; reflexivity|]. eapply may_find; [reflexivity|apply texts_array].
Qed.
Lemma mapping_written : forall p, mapping_shape (mapping_to_json p) p.
Proof. intros [p g]. constructor; eapply has_find; reflexivity. Qed.
Lemma pgm_written : forall (lim : json -> option Z -> Prop) p,
  (forall n, diagnostics_suppress_limit p = Some n -> lim (JUInt n) (Some n)) -> pgm_shape lim (pgm_to_json p) p.
Proof.
  intros lim [l a d] L. unfold pgm_to_json. cbn [pgms always_recognize diagnostics_suppress_limit] in *. constructor.
  - eapply has_find; [reflexivity|apply array_map; exact mapping_written].
  - destruct a as [|x a]; [apply may_none; destruct d; reflexivity|]. eapply may_find; [reflexivity|apply texts_array].
  - destruct a as [|x a], d as [n|]; first [apply may_none; reflexivity|eapply may_find; [reflexivity|apply L; reflexivity]].
Qed.

(** ** Members of other names *)
Lemma find_other : forall k a k' x b, s2b k <> k' -> find (s2b k) (a ++ (k', x) :: b) = find (s2b k) (a ++ b).
Proof.
  intros k a k' x b N. induction a as [|[k1 x1] a IH]; cbn [app find].
  - destruct (bytes_eqb (s2b k) k') eqn:E; [|reflexivity]. apply bytes_eqb_eq in E. elim N. exact E.
  - rewrite IH. reflexivity.
Qed.
Lemma at_other : forall k a k' x b, s2b k <> k' -> at_ k (JObj (a ++ (k', x) :: b)) = at_ k (JObj (a ++ b)).
Proof. intros. unfold at_. rewrite find_other by assumption. reflexivity. Qed.
Lemma optional_other : forall A (get : json -> res A) d k a k' x b, s2b k <> k' ->
  optional_member k (JObj (a ++ (k', x) :: b)) get d = optional_member k (JObj (a ++ b)) get d.
Proof. intros. unfold optional_member, find_. rewrite find_other by assumption. reflexivity. Qed.
