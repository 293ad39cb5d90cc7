(** Specification of what the table functions compute on tables of arbitrary sizes.
    Nothing here mentions the model of the code. *)
From Coq Require Import List Arith Lia Bool.
From Verif Require Import Field Spec.
Import ListNotations.

(** Halving (rounded down) a table of [L] entries once per bit: a set bit enters the upper half.
    [slot L b] is the position reached; when [L] is odd, the last entry is never reached. *)
Fixpoint slot (L : nat) (b : list bool) : nat :=
  match b with
  | [] => 0
  | c :: b' => (if c then L / 2 else 0) + slot (L / 2) b'
  end.

Section SpecDomain.
  Context {F : Field}.
  Open Scope F_scope.

  (** The multilinear interpolation, at [x], of the [2 ^ length x] entries of [t] found in the
      slots of the bit strings. *)
  Definition folded (t x : list F) : F :=
    suml (cube (length x)) (fun b => nth (slot (length t) b) t 0 * chi b x).

  (** Entry [u] of every chunk. *)
  Definition column (u : nat) (chunks : list (list F)) : list F := map (fun c => nth u c 0) chunks.

  (** Entry by entry interpolation of [2 ^ length y] chunks of [L] entries. *)
  Definition blend (L : nat) (chunks : list (list F)) (y : list F) : list F :=
    map (fun u => mle (column u chunks) y) (seq 0 L).

  (** All the chunks have [L] entries. *)
  Definition even_chunks (L : nat) (chunks : list (list F)) : Prop :=
    forall c, In c chunks -> length c = L.

End SpecDomain.
