(** How many multiplications the GKR verifier needs, said without reference to its loops. *)
From Coq Require Import List Arith Bool.
From Verif Require Import Field MCircuit MSumcheck MGkr MCost SpecCost.
Import ListNotations.

Section S.
  Context {F : Field}.

  (** Counting gates for every layer, with these prices. *)
  Definition priced_layers (c : list (Layer F)) (gates : list (list (WGate F))) (prices : list (list Price)) : Prop :=
    forall i l, nth_error c i = Some l -> lGates l = map wbase (nth i gates []) /\ Forall2 priced (nth i gates []) (nth i prices []).

  (** A sum-check with hashes of [h] multiplications per word: each polynomial is evaluated three times and hashed once. *)
  Definition rounds_work (h : nat) (sp : list (list F)) : nat := list_sum (map (fun p => 3 * (length p - 1) + h * length p) sp).

  (** Evaluating the static tables of a layer, one per gate, at one point. *)
  Definition tables_work (l : Layer F) : nat := length (lGates l) * (2 ^ (lBGOutputs l + 2 * lBGInputs l) - 1).

  (** The sum over the gates at the two claimed values. *)
  Definition gates_work (cs : list Price) : nat := list_sum (map (fun c => cEval c + 1) cs) + 1.

  (** The layer of the outputs, and a layer below: there the two claims are combined, and so are the tables at two points. *)
  Definition last_work (h bN : nat) (l : Layer F) (cs : list Price) (sp : list (list F)) : nat :=
    rounds_work h sp + 2 * bN + tables_work l + gates_work cs.
  Definition inner_work (h bN : nat) (l : Layer F) (cs : list Price) (sp : list (list F)) : nat :=
    2 * h + 1 + rounds_work h sp + 2 * bN + 2 * (tables_work l + length (lGates l)) + gates_work cs.
  Definition inner_sum (h bN : nat) (c : list (Layer F)) (prices : list (list Price)) (sps : list (list (list F))) (n : nat) : nat :=
    list_sum (map (fun i => match nth_error c i with Some l => inner_work h bN l (nth i prices []) (nth i sps []) | None => 0 end) (seq 0 n)).

  (** Reading the tables of inputs ([b] bits of rows, at two points) and of outputs ([o] bits of rows, at one), given in chunks of
      [2 ^ m] instances. *)
  Definition reading_work (b o bN m : nat) : nat := (2 ^ (o + bN) - 1) + (2 ^ (b + bN) + 2 ^ (b + m) - 2).

  (** Layer [l] is the last of the circuit. *)
  Definition verifier_work (h bN m b : nat) (c : list (Layer F)) (prices : list (list Price)) (sps : list (list (list F))) (l : Layer F) : nat :=
    let last := length c - 1 in
    reading_work b (lBGOutputs l) bN m + last_work h bN l (nth last prices []) (nth last sps []) + inner_sum h bN c prices sps last.
End S.

(** The MiMC circuit: 90 layers of a cipher and a copy gate, and a last one of a cipher gate. *)
Definition mimc_gates {F : Field} (arks : list F) : list (list (WGate F)) :=
  map (fun a => [WCipherGate a; WCopyGate]) (firstn 90 arks) ++ [[WCipherGate (nth 90 arks fzero)]].
Definition mimc_prices : list (list Price) := repeat [CipherPrice; CopyPrice] 90 ++ [[CipherPrice]].

(** All that the verifier multiplies on that circuit: tables, the rest without hashes, and hashes. *)
Definition mimc_verifier (h bN m : nat) : nat := 3 * 2 ^ bN + 2 * 2 ^ m + (2366 * bN + 70 * 90 + 36) + h * (819 * bN + 1272).
