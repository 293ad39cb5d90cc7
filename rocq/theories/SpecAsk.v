(** The messages whose hashes a run of the GKR protocol uses as challenges. *)
From Coq Require Import List Arith Bool.
From Verif Require Import Field MCircuit MGkr.
Import ListNotations.

Section S.
  Context {F : Field}.

  (** All round polynomials of the [n] layers, and the two claims about each layer but the first. *)
  Definition asked (n : nat) (pf : Proof F) : list (list F) :=
    concat (firstn n (SumcheckProofs pf)) ++
    map (fun j => [nth (S j) (ClaimsLeft pf) fzero; nth (S j) (ClaimsRight pf) fzero]) (seq 0 (n - 1)).

  (** Two challenge functions cannot be told apart on these messages. *)
  Definition agree_on (msgs : list (list F)) (ch ch' : list F -> F) : Prop := forall x, In x msgs -> ch x = ch' x.

  (** Their number for a proof of the right shape. *)
  Definition questions (c : list (Layer F)) (bN : nat) : nat :=
    list_sum (map (fun l => 2 * lBGInputs l + bN) c) + (length c - 1).
End S.
