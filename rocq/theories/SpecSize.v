(** Size of a constraint system. *)
From Coq Require Import List Arith Bool.
From Verif Require Import Field MSnark.
Import ListNotations.

Section S.
  Context {F : Field}.

  (** A gate L * R = O multiplies if R is a wire other than the constant one (wire 0). *)
  Definition isMul (r : r1c F) : bool := match rR r with [(_, S _)] => true | _ => false end.
  Definition muls (cs : CS F) : nat := length (filter isMul (gates cs)).
  Definition asserts (cs : CS F) : nat := length (assertions cs).

  (** [m] adds [n] multiplications and [k] assertions, and its result has [P]. *)
  Definition costs {A} (m : M (F:=F) A) (n k : nat) (P : A -> Prop) : Prop :=
    forall cs a cs', 0 < nbWires cs -> m cs = Some (a, cs') ->
      muls cs' = muls cs + n /\ asserts cs' = asserts cs + k /\ 0 < nbWires cs' /\ P a.

  (** no constant wire among the variables *)
  Definition proper (l : list nat) : Prop := ~ In 0 l.
End S.
