(** Property theorems for the printing functions of package common (C56). *)
From Coq Require Import List ZArith Lia Ascii String.
From Verif Require Import Field FrPrime Fr MString SpecString LString.
Import ListNotations.
Local Open Scope Z_scope.

(* ---------------------------------------------------------------- C56 *)
(** What is printed is the decimal notation of an integer congruent to x: its representative in [0, q), or minus that of -x. *)
Theorem C56_pretty : forall x : Fr, exists n, signed_decimal (PrettyStringFr x) n /\ mkfr n = x /\
  (0 <= n -> n = frval x) /\ (n < 0 -> - n = frval (fr_opp x)).
Proof. exact pretty_ok. Qed.
Print Assumptions C56_pretty.

(** Of the two the one with fewer digits, x itself when they have equally many. *)
Theorem C56_shorter : forall (x : Fr) s s', decimal s (frval x) -> decimal s' (frval (fr_opp x)) ->
  PrettyStringFr x = if (List.length s <=? List.length s')%nat then s else ("-"%char :: s')%list.
Proof. exact pretty_short. Qed.
Print Assumptions C56_shorter.

Theorem C56_injective : forall x y : Fr, PrettyStringFr x = PrettyStringFr y -> x = y.
Proof. exact pretty_inj. Qed.
Print Assumptions C56_injective.

(** A string is the notation of at most one integer, an integer has at most one notation: the two theorems above are about
    what everybody reads. *)
Theorem C56_unique : forall s t n n', (decimal s n -> decimal s n' -> n = n') /\ (decimal s n -> decimal t n -> s = t).
Proof. exact (fun s t n n' => conj (decimal_value s n n') (decimal_unique s t n)). Qed.
Print Assumptions C56_unique.

(** Slices of any length. *)
Theorem C56_slices : 
  (forall l l', FrSliceToString l = FrSliceToString l' -> l = l') /\
  (forall l l', IntSliceToString l = IntSliceToString l' -> l = l') /\
  (forall l l', UintSliceToString l = UintSliceToString l' -> l = l').
Proof. exact (conj FrSlice_inj (conj IntSlice_inj UintSlice_inj)). Qed.
Print Assumptions C56_slices.

Theorem C56_uint64 : forall x, (x < 2 ^ 64)%N -> frval (Uint64ToFr x) = Z.of_N x.
Proof. exact Uint64ToFr_ok. Qed.
Print Assumptions C56_uint64.

Example C56_ex :
  map (fun z => string_of_list_ascii (PrettyStringFr (mkfr z))) [0; 7; -1; -120; frModulus]
  = ["0"; "7"; "-1"; "-120"; "0"]%string /\
  string_of_list_ascii (FrSliceToString [mkfr 3; mkfr (-2)]) = "[3, -2, ]"%string /\
  string_of_list_ascii (IntSliceToString []) = "[]"%string.
Proof. vm_compute. repeat split. Qed.
