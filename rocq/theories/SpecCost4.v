(** How many multiplications the evaluation of a circuit takes, said without reference to loops. *)
From Coq Require Import List Arith.
From Verif Require Import Field MCircuit MCost SpecCost.
Import ListNotations.

Section S.
  Context {F : Field}.

  (** The prices of the gates of all wires, once. *)
  Definition wires_price (price : Gate F -> Price) (c : list (Layer F)) : nat :=
    list_sum (map (fun l => list_sum (map (fun w => cEval (price (wGate w))) (Wires l))) c).

  (** Every wire of the circuit has a counting copy of its gate, at this price. *)
  Definition priced_wires (counting : Gate F -> WGate F) (price : Gate F -> Price) (c : list (Layer F)) : Prop :=
    forall l w, In l c -> In w (Wires l) -> wbase (counting (wGate w)) = wGate w /\ priced (counting (wGate w)) (price (wGate w)).
End S.

(** The gates of the code, told apart by their identifiers. *)
Definition std_counting {F : Field} (g : Gate F) : WGate F :=
  match gid g with IdCipher ark => WCipherGate ark | IdCopy => WCopyGate | IdMul => WMulGate | _ => WAddGate end.
Definition std_price {F : Field} (g : Gate F) : Price :=
  match gid g with IdCipher ark => CipherPrice | IdCopy => CopyPrice | IdMul => MulPrice | _ => AddPrice end.
