(** The tables that a run of package gkr goes through, and what its verifier compares. *)
From Coq Require Import List Arith.
From Verif Require Import Field Spec MCircuit SpecCircuit MGkr SpecGkr SpecHonest.
Import ListNotations.

Section S.
  Context {F : Field}.
  Open Scope F_scope.

  (** A layer whose right rows are multiplied by [s]; [layer_value] is the case [s = 1]. *)
  Definition shifted_value (ws : list (Wire F)) (s N : nat) (inp : list F) (o h : nat) : F :=
    suml (filter (fun w => (wO w =? o)%nat) ws)
      (fun w => geval (wGate w) (nth (wL w * N + h) inp 0) (nth (wR w * s * N + h) inp 0)).
  Definition shifted_table (ws : list (Wire F)) (s N : nat) (inp : list F) : list F :=
    map (fun i => shifted_value ws s N inp (i / N) (i mod N)) (seq 0 (2 ^ BGOutputs ws * N)).

  (** A layer in which every wire counts as many times as there are wires with its gate. *)
  Definition counted_table (ws : list (Wire F)) (N : nat) (inp : list F) : list F :=
    map (fun i => counted_value ws N inp (i / N) (i mod N)) (seq 0 (2 ^ BGOutputs ws * N)).

  (** The table below layer [j], from the table [T] of the inputs. *)
  Fixpoint level (s N : nat) (wiring : list (list (Wire F))) (T : list F) (j : nat) : list F :=
    match j, wiring with
    | S j, ws :: wiring => level s N wiring (shifted_table ws s N T) j
    | _, _ => T
    end.

  (** The claims about each layer, with [2 ^ k] chunks of [2 ^ m] instances, are the same for the shifted table, which the
      code computed, and for the counted one, which its sum-check is about. *)
  Definition agrees (ch : list F -> F) (wiring : list (list (Wire F))) (m k : nat) (pf : Proof F) (T : list F) : Prop :=
    forall j ws, nth_error wiring j = Some ws ->
      let V := level (2 ^ m) (2 ^ (m + k)) wiring T j in
      let W := shifted_table ws (2 ^ m) (2 ^ (m + k)) V in
      let b := BGOutputs ws in
      let lam := ch [mle W (ptL ch pf b (S j) ++ ptP ch pf b (S j)); mle W (ptR ch pf b (S j) ++ ptP ch pf b (S j))] in
      claim_about ch (NewCircuit wiring) (m + k) pf j (NewLayer ws) lam W =
      claim_about ch (NewCircuit wiring) (m + k) pf j (NewLayer ws) lam (counted_table ws (2 ^ (m + k)) V).

  (** Right operands are read at the right place. *)
  Definition unshifted (m : nat) (ws : list (Wire F)) : Prop :=
    m = 0%nat \/ forall w, In w ws -> wR w = 0%nat \/ wGate w = CopyGate.
End S.
