(** Model of the printing functions of common/common.go.  Go strings are lists of bytes. *)
From Coq Require Import List ZArith Ascii String.
From Verif Require Import Field FrPrime Fr.
Import ListNotations.
Local Open Scope Z_scope.

Definition Str := list ascii.
Definition str (s : string) : Str := list_ascii_of_string s.

(** The digit [d], 0 <= d < 10 *)
Definition digit (d : Z) : ascii := ascii_of_nat (48 + Z.to_nat d).

(** Decimal digits of a natural number, as printed by math/big and strconv; [fuel] bounds their number. *)
Fixpoint digits (fuel : nat) (n : Z) : Str :=
  match fuel with
  | O => []
  | S f => if n <? 10 then [digit n] else (digits f (n / 10) ++ [digit (n mod 10)])%list
  end.
(** math/big Int.String, strconv.FormatInt base 10 *)
Definition intString (n : Z) : Str :=
  if n <? 0 then (str "-" ++ digits (S (Z.to_nat (Z.log2 (- n)))) (- n))%list
  else digits (S (Z.to_nat (Z.log2 n))) n.

(** gurvy bn256/fr Element.String: the regular (non-Montgomery) representative in [0, q), in decimal *)
Definition FrString (x : Fr) : Str := intString (frval x).

(** common/common.go:10-21 PrettyStringFr *)
Definition PrettyStringFr (x : Fr) : Str :=
  let negX := fr_opp x in
  let negXStr := FrString negX in
  let xStr := FrString x in
  if (List.length xStr <=? List.length negXStr)%nat then xStr else (str "-" ++ negXStr)%list.

(** common/common.go:24-31 FrSliceToString *)
Definition FrSliceToString (slice : list Fr) : Str :=
  (fold_left (fun res x => res ++ (PrettyStringFr x ++ str ", ")) slice (str "[") ++ str "]")%list.

(** common/common.go:34-41 UintSliceToString, 44-51 IntSliceToString: the same text, for unsigned and signed values *)
Definition IntSliceToString (slice : list Z) : Str :=
  (fold_left (fun res x => res ++ (intString x ++ str ", ")) slice (str "[") ++ str "]")%list.
Definition UintSliceToString (slice : list N) : Str :=
  (fold_left (fun res x => res ++ (intString (Z.of_N x) ++ str ", ")) slice (str "[") ++ str "]")%list.

(** common/common.go:84-88 Uint64ToFr *)
Definition Uint64ToFr (x : N) : Fr := mkfr (Z.of_N x).
