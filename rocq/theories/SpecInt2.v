(** Vocabulary of the statements about 64-bit integers, continued (MInt2.v). *)
From Coq Require Import ZArith Bool.
Local Open Scope Z_scope.
Local Open Scope bool_scope.

(** A polynomial of this degree can be allocated: -1 gives one without coefficients. *)
Definition allocatable (maxLen degree : Z) : bool := (-1 <=? degree) && (degree + 1 <=? maxLen).

(** So can the rounds of a sumcheck.  The degrees of a phase without rounds do not count. *)
Definition sumcheck_allocatable (maxLen bN bG degHL degHR degHPrime : Z) : bool :=
  (0 <=? bN) && (0 <=? bG) && (bN + 2 * bG <=? maxLen) &&
  ((bG =? 0) || (allocatable maxLen degHL && allocatable maxLen degHR)) &&
  ((bN =? 0) || allocatable maxLen degHPrime).
