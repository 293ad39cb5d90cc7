(** When the part of a proof about a layer is right. *)
From Coq Require Import List Arith.
From Verif Require Import Field Go MCommon Spec MCircuit SpecCircuit MSumcheck SpecSumcheck MGkr SpecGkr.
Import ListNotations.

Section S.
  Context {F : Field}.
  Open Scope F_scope.

  (** The polynomials of a sum-check over [n] variables are the sums of [f] over the boolean values of the later variables,
      the challenges standing for the earlier ones. *)
  Definition right_rounds (ch : list F -> F) (f : list F -> F) (n : nat) (sp : list (list F)) : Prop :=
    forall i p t, nth_error sp i = Some p -> peval p t = cube_sum f (n - S i) (map ch (firstn i sp) ++ [t]).

  (** The part of the proof [pf] about layer [j] of the circuit [c] is right: [a] is the true assignment, in chunks of
      [2^m] of the [2^(m+k)] instances, and the claim about the outputs is at the point [(q, qP)]. *)
  Definition right_layer (ch : list F -> F) (pf : Proof F) (c : list (Layer F)) (m k : nat) (a : list (list (list F)))
      (q qP : list F) (j : nat) : Prop :=
    exists l, nth_error c j = Some l /\
      let b := lBGInputs l in
      let V := glued b m (nth j a []) in
      exists sp, nth_error (SumcheckProofs pf) j = Some sp /\ length sp = (2 * b + (m + k))%nat /\
        right_rounds ch (run_poly_from ch pf (length c) q qP j l V) (2 * b + (m + k)) sp /\
        nth_error (ClaimsLeft pf) j = Some (mle V (ptL ch pf b j ++ ptP ch pf b j)) /\
        nth_error (ClaimsRight pf) j = Some (mle V (ptR ch pf b j ++ ptP ch pf b j)).
End S.
