(** Decimal notation, independently of how it is produced. *)
From Coq Require Import List ZArith Ascii String.
Import ListNotations.
Local Open Scope Z_scope.

Definition is_digit (c : ascii) : Prop := (48 <= nat_of_ascii c <= 57)%nat.
Definition digit_value (c : ascii) : Z := Z.of_nat (nat_of_ascii c) - 48.

(** The number written by a string of digits, first digit most significant *)
Definition value (s : list ascii) : Z := fold_left (fun v c => 10 * v + digit_value c) s 0.

(** [s] is the decimal notation of [n >= 0]: digits, no leading zero unless it is the only digit *)
Definition decimal (s : list ascii) (n : Z) : Prop :=
  s <> [] /\ (forall c, In c s -> is_digit c) /\ value s = n /\ (hd "0"%char s = "0"%char -> s = ["0"%char]).

(** ... of any integer: "-" in front of the notation of [- n] for negative [n] *)
Definition signed_decimal (s : list ascii) (n : Z) : Prop :=
  0 <= n /\ decimal s n \/ n < 0 /\ exists t, s = "-"%char :: t /\ decimal t (- n).

(** [s] is a way to write [n]: digits, leading zeros allowed, with an optional sign *)
Definition readable (s : list ascii) (n : Z) : Prop :=
  exists ds, ds <> [] /\ (forall c, In c ds -> is_digit c) /\
    ((s = ds \/ s = "+"%char :: ds) /\ n = value ds \/ s = "-"%char :: ds /\ n = - value ds).

(** [r] is the 64-bit integer written in the variable [name], absent when the variable is not set to such an integer *)
Definition readInt (env : list ascii -> option (list ascii)) (name : list ascii) (r : option Z) : Prop :=
  forall n, r = Some n <-> exists s, env name = Some s /\ readable s n /\ - 2 ^ 63 <= n < 2 ^ 63.
