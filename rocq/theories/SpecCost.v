(** How many multiplications the sum-check needs, said without reference to its loops. *)
From Coq Require Import List Arith Bool.
From Verif Require Import Field MCircuit MSumcheck MCost.
Import ListNotations.

(** The result without the count. *)
Definition erase {A} (m : W A) : option A := match m with Some (a, _) => Some a | None => None end.

(** The price of a gate: one evaluation, and the evaluations along a line of [m] points in either argument. *)
Record Price := MkPrice { cEval : nat; cVL : nat -> nat; cVR : nat -> nat }.

Definition AddPrice := MkPrice 0 (fun _ => 0) (fun _ => 0).
Definition MulPrice := MkPrice 1 (fun m => m) (fun m => m).
Definition CopyPrice := MkPrice 0 (fun _ => 0) (fun _ => 0).
Definition CipherPrice := MkPrice 4 (fun _ => 4) (fun m => 4 * m).

Section S.
  Context {F : Field}.
  Open Scope F_scope.

  (** A counting gate computes what the gate does, at this price, and writes within its buffer. *)
  Definition priced (g : WGate F) (c : Price) : Prop :=
    (forall x y, wEval g x y = Some (geval (wbase g) x y, cEval c)) /\
    (forall res vs x, erase (wManyVL g res vs x) = gmanyVL (wbase g) res vs x) /\
    (forall res x vs, erase (wManyVR g res x vs) = gmanyVR (wbase g) res x vs) /\
    (forall res vs x res' k, wManyVL g res vs x = Some (res', k) -> length res' = length res /\ k = cVL c (length vs)) /\
    (forall res x vs res' k, wManyVR g res x vs = Some (res', k) -> length res' = length res /\ k = cVR c (length vs)).

  (** The nonzero entries of a table, and the pairs of opposite entries that are not both zero. *)
  Definition support (tab : list F) : nat := length (filter (fun x => negb (x =? 0)) tab).
  Definition live (tab : list F) : nat :=
    length (filter (fun h => negb ((nth h tab 0 =? 0) && (nth (length tab / 2 + h) tab 0 =? 0))) (seq 0 (length tab / 2))).
End S.

(** A sum over the gates, each with a number of lines. *)
Definition over (cost : Price -> nat) (lines : list nat) (cs : list Price) : nat :=
  list_sum (map (fun lc => fst lc * cost (snd lc)) (combine lines cs)).

(** One round with [e] evaluations: [lines] non-zero lines per gate, [n] values of h', [size] lines per table. *)
Definition round_left (e n size : nat) (lines : list nat) (cs : list Price) : nat :=
  n * over (fun c => cVL c e + e) lines cs + length cs * (size * e).
Definition round_right (e n size : nat) (lines : list nat) (cs : list Price) : nat :=
  n * over (fun c => cVR c e + e) lines cs + length cs * (size * e).
Definition round_prime (e mid : nat) (cs : list Price) : nat :=
  mid * list_sum (map (fun c => e * (cEval c + 1)) cs) + length cs * e.

(** All rounds on tables of [2 ^ bG * 2 ^ bN] entries and static tables with these supports: interpolations, evaluations, folds. *)
Definition work_left (e bG bN : nat) (supports : list nat) (cs : list Price) : nat :=
  bG * (2 ^ bN * over (fun c => cVL c e + e) supports cs + e * e) + (2 ^ bG - 1) * (length cs * (2 ^ bG * (e + 1)) + 2 ^ bN).
Definition work_right (e bG bN : nat) (supports : list nat) (cs : list Price) : nat :=
  bG * (2 ^ bN * over (fun c => cVR c e + e) supports cs + e * e) + (2 ^ bG - 1) * (length cs * (e + 1) + 2 ^ bN).
Definition work_prime (e bN : nat) (cs : list Price) : nat :=
  bN * (length cs * e + e * e) + (2 ^ bN - 1) * (list_sum (map (fun c => e * (cEval c + 1)) cs) + 3).

Section S2.
  Context {F : Field}.

  (** The wires of a layer that carry this gate. *)
  Definition wires_of (l : Layer F) (g : Gate F) : nat := length (filter (fun w => id_eqb (gid (wGate w)) (gid g)) (Wires l)).

  (** What sumcheck.NewSingleThreadedProver's Prove may cost on the tables of a layer with [2 ^ bN] instances:
      the supports are the numbers of wires, and [NewSingleThreadedProver] evaluates at (largest degree) + 2 points. *)
  Definition layer_work (l : Layer F) (bN : nat) (cs : list Price) : nat :=
    let most d := list_max (map d (lGates l)) + 2 in
    work_left (most degHL) (lBGInputs l) bN (map (wires_of l) (lGates l)) cs +
    work_right (most degHR) (lBGInputs l) bN (map (wires_of l) (lGates l)) cs +
    work_prime (most degHPrime) bN cs.
End S2.
