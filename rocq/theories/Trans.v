(** Transition systems: a step leads to a state or to a panic ([None]). *)
From Coq Require Import List Arith Lia.

Section Trans.
  Context {S : Type} (step : S -> option S -> Prop).

  (** Every maximal execution from the state is finite, never panics, and stops (no step
      possible) only in a state satisfying [P]. *)
  Inductive must (P : S -> Prop) : S -> Prop :=
  | must_intro s :
      ~ step s None ->
      (forall s', step s (Some s') -> must P s') ->
      ((forall o, ~ step s o) -> P s) ->
      must P s.

  Inductive reach : S -> S -> Prop :=
  | reach_refl s : reach s s
  | reach_step s s' s'' : reach s s' -> step s' (Some s'') -> reach s s''.

  Lemma must_by_measure (I P : S -> Prop) (m : S -> nat) :
    (forall s o, I s -> step s o -> exists s', o = Some s' /\ I s' /\ m s' < m s) ->
    (forall s, I s -> (forall o, ~ step s o) -> P s) ->
    forall s, I s -> must P s.
  Proof.
    intros H1 H2 s. remember (m s) as n eqn:E. revert s E.
    induction n as [n IH] using lt_wf_ind. intros s E Hs. constructor.
    - intros Ho. destruct (H1 s None Hs Ho) as (s' & E' & _). discriminate.
    - intros s' Ho. destruct (H1 s (Some s') Hs Ho) as (s'' & E' & Hs' & Hm). injection E' as <-.
      apply (IH (m s')); [lia|reflexivity|exact Hs'].
    - apply H2. exact Hs.
  Qed.

  Lemma must_mono (P Q : S -> Prop) s : (forall s, P s -> Q s) -> must P s -> must Q s.
  Proof. intros HPQ. induction 1 as [s H0 H IH HP]. constructor; auto. Qed.

  Lemma reach_inv (I : S -> Prop) :
    (forall s s', I s -> step s (Some s') -> I s') -> forall s s', reach s s' -> I s -> I s'.
  Proof. intros H s s'. induction 1; eauto. Qed.

  Lemma must_reach P s s' : must P s -> reach s s' -> must P s'.
  Proof.
    intros Hm Hr. revert Hm. induction Hr as [s|s s' s'' _ IH Hst]; intros Hm; [exact Hm|].
    apply IH in Hm. destruct Hm as [t H0 H _]. auto.
  Qed.

  (** What [must] says about a given run. *)
  Lemma must_reach_final P s s' : must P s -> reach s s' -> (forall o, ~ step s' o) -> P s'.
  Proof. intros Hm Hr Hf. apply (must_reach P s s' Hm) in Hr. destruct Hr as [t _ _ H]. auto. Qed.

  Lemma must_reach_safe P s s' : must P s -> reach s s' -> ~ step s' None.
  Proof. intros Hm Hr. apply (must_reach P s s' Hm) in Hr. destruct Hr as [t H _]. exact H. Qed.
End Trans.
