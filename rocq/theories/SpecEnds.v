(** Executions that may panic but do not hang. *)
From Coq Require Import List Arith Lia.
From Verif Require Import Field Trans MCommon MSumPar SpecSumcheck.

Section Ends.
  Context {S : Type} (step : S -> option S -> Prop).

  (** Every maximal execution from the state is finite; it ends with a panic, or in a state satisfying [P].  ([must] of
      Trans.v excludes the panic.) *)
  Inductive ends (P : S -> Prop) : S -> Prop :=
  | ends_intro s :
      (forall s', step s (Some s') -> ends P s') ->
      ((forall o, ~ step s o) -> P s) ->
      ends P s.

  (** Every maximal execution from the state is finite and ends with a panic. *)
  Definition fails (s : S) : Prop := ends (fun _ => False) s.
End Ends.

(** [r] is the number of rounds that the sub-prover of chunk [x] runs: its three tables exist, the third one is not empty. *)
Definition rounds_of {F : Field} (p : MTProver F) (x r : nat) : Prop := exists vL vR eq,
  nth_error (tVL p) x = Some vL /\ nth_error (tVR p) x = Some vR /\ nth_error (tEq p) x = Some eq /\
  0 < length eq /\ r = 2 * log2ceil (length vR / length eq) + log2ceil (length eq).

(** A number of chunks and degrees that the provers can deal with: no polynomial that is interpolated has degree over 11. *)
Definition mt_fine {F : Field} (p : MTProver F) (n k bG : nat) : Prop :=
  (exists c, n = 2 ^ c) /\ (bG = 0 \/ maxHL (tGates p) <= 10 /\ maxHR (tGates p) <= 10) /\
  ((k = 0 /\ n = 1) \/ maxHP (tGates p) <= 10).
