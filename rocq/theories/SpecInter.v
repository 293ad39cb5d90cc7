(** Provers that answer challenges one after the other: what they send may depend on the challenges received so far. *)
From Coq Require Import List Arith Lia Bool.
From Verif Require Import Field Spec MCircuit SpecCircuit MSumcheck SpecSumcheck MSumPar SpecSumPar MGkr SpecGkr.
Import ListNotations.

Section S.
  Context {F : Field}.
  Open Scope F_scope.

  (** The polynomials sent by the strategy [sigma] when the challenges are [rs]. *)
  Definition transcript (sigma : list F -> list F) (rs : list F) : list (list F) :=
    map (fun i => sigma (firstn i rs)) (seq 0 (length rs)).

  (** The degree of round [i] of the sum-check of a layer, and the sum over its rounds. *)
  Definition layer_round_degree (l : Layer F) (i : nat) : nat :=
    phase_deg (lBGInputs l) (lBGInputs l) (maxHL (lGates l) + 1) (maxHR (lGates l) + 1) (maxHP (lGates l) + 1) i.
  Definition layer_degree (bN : nat) (l : Layer F) : nat :=
    list_sum (map (layer_round_degree l) (seq 0 (2 * lBGInputs l + bN))).

  (** The sum of the degrees of all rounds, and one for each pair of claims that is combined. *)
  Definition total_degree (bN : nat) (c : list (Layer F)) : nat :=
    (list_sum (map (layer_degree bN) c) + (length c - 1))%nat.

  (** Everything the GKR verifier derives a challenge from, in the order in which it does: from the last layer to the
      first, the round polynomials of the layer and then the two claims about the layer below. *)
  Definition layer_messages (pf : Proof F) (j : nat) : list (list F) :=
    nth j (SumcheckProofs pf) [] ++ (if (0 <? j)%nat then [[nth j (ClaimsLeft pf) 0; nth j (ClaimsRight pf) 0]] else []).
  Definition messages (n : nat) (pf : Proof F) : list (list F) := flat_map (layer_messages pf) (rev (seq 0 n)).

  (** The number of challenges. *)
  Definition challenge_count (bN : nat) (c : list (Layer F)) : nat :=
    (list_sum (map (fun l => 2 * lBGInputs l + bN) c) + (length c - 1))%nat.

  (** The right number of rounds and the right degrees. *)
  Definition degrees_ok (bN : nat) (c : list (Layer F)) (pf : Proof F) : Prop :=
    forall j l, nth_error c j = Some l ->
      length (nth j (SumcheckProofs pf) []) = (2 * lBGInputs l + bN)%nat /\
      forall i p, nth_error (nth j (SumcheckProofs pf) []) i = Some p -> (length p <= S (layer_round_degree l i))%nat.

  (** The message that precedes a challenge is chosen without knowing it. *)
  Definition causal (n N : nat) (pf : list F -> Proof F) : Prop :=
    forall i rs rs', (i < N)%nat -> length rs = N -> length rs' = N -> firstn i rs = firstn i rs' ->
      nth_error (messages n (pf rs)) i = nth_error (messages n (pf rs')) i.
End S.
