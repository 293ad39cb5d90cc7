(** Which chunks a layer can be evaluated on, and the layer that is evaluated. *)
From Coq Require Import List Arith Lia.
From Verif Require Import Field Go MCircuit.
Import ListNotations.

Section S.
  Context {F : Field}.

  (** The number of instances found in a chunk of [n] entries. *)
  Definition instances (l : Layer F) (n : nat) : nat := n / 2 ^ lBGInputs l.

  (** All entries read and written are there. *)
  Definition reads (l : Layer F) (n : nat) : Prop :=
    let N := instances l n in
    N = 0 \/ forall w, In w (Wires l) -> wO w < 2 ^ lBGOutputs l /\ wL w * N + N <= n /\ wR w * N * N + N <= n.

  (** The layer with its right rows multiplied by [N]. *)
  Definition scaled (N : nat) (l : Layer F) : Layer F :=
    MkLayer (map (fun w => MkWire (wL w) (wR w * N) (wO w) (wGate w)) (Wires l)) (lGates l) (lBGInputs l) (lBGOutputs l).

  (** Every layer reads what the layer below it writes. *)
  Fixpoint assignable (c : list (Layer F)) (n : nat) : Prop :=
    match c with
    | [] => True
    | l :: c' => reads l n /\ assignable c' (2 ^ lBGOutputs l * instances l n)
    end.

  (** The right operand does not matter. *)
  Definition ignores_right (g : Gate F) : Prop := forall x y z, geval g x y = geval g x z.

  (** Where the wire [w] stands in the table of its gate. *)
  Definition place (l : Layer F) (w : Wire F) : nat := (wO w * 2 ^ lBGInputs l + wL w) * 2 ^ lBGInputs l + wR w.

  (** The number of variables of these tables. *)
  Definition table_vars (l : Layer F) : nat := lBGOutputs l + 2 * lBGInputs l.

  (** Every wire of a listed gate stands inside. *)
  Definition placed (l : Layer F) : Prop :=
    forall g w, In g (lGates l) -> In w (Wires l) -> gid (wGate w) = gid g -> place l w < 2 ^ table_vars l.
End S.
