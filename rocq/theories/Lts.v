(** State machines driven by a list of events, and induction over executions. *)
From Coq Require Import List.
Import ListNotations.

Section Lts.
  Variables (S E : Type).
  (** [None]: the event is not possible in that state. *)
  Variable step : S -> E -> option S.

  Fixpoint run (s : S) (es : list E) : option S :=
    match es with
    | [] => Some s
    | e :: es' => match step s e with Some s' => run s' es' | None => None end
    end.

  Lemma run_inv (P : S -> Prop) :
    (forall s e s', P s -> step s e = Some s' -> P s') ->
    forall es s s', P s -> run s es = Some s' -> P s'.
  Proof.
    intros Hs. induction es as [|e es IH]; simpl; intros s s' H R.
    - injection R as <-. exact H.
    - destruct (step s e) as [s1|] eqn:E1; [|discriminate]. eapply IH; [|exact R]. eauto.
  Qed.

  Lemma run_inv_ev (Q : E -> Prop) (P : S -> Prop) :
    (forall s e s', Q e -> P s -> step s e = Some s' -> P s') ->
    forall es s s', Forall Q es -> P s -> run s es = Some s' -> P s'.
  Proof.
    intros Hs. induction es as [|e es IH]; simpl; intros s s' HQ H R.
    - injection R as <-. exact H.
    - inversion HQ; subst.
      destruct (step s e) as [s1|] eqn:E1; [|discriminate]. eapply IH; [assumption| |exact R]. eauto.
  Qed.

  Lemma run_app : forall es1 es2 s,
    run s (es1 ++ es2) = match run s es1 with Some s' => run s' es2 | None => None end.
  Proof.
    induction es1 as [|e es1 IH]; simpl; intros; [reflexivity|].
    destruct (step s e); [apply IH|reflexivity].
  Qed.
End Lts.
Arguments run {S E}.
