(** What the prover of package gkr makes of any assignment, and what the verifier says to it. *)
From Coq Require Import List Arith Lia Bool.
From Verif Require Import Field Spec Trans MCircuit SpecCircuit MSumcheck SpecSumcheck MSumPar SpecSumPar SpecEnds MGkr SpecGkr.
Import ListNotations.

Section S.
  Context {F : Field}.
  Open Scope F_scope.

  (** The gates in the list of the layer that have the ID of the gate of the wire: with [gates_once] that gate alone, otherwise
      none or several. *)
  Definition listed (l : Layer F) (w : Wire F) : list (Gate F) := filter (fun g => id_eqb (gid (wGate w)) (gid g)) (lGates l).

  (** The output table of the layer when every wire is given the sum of those gates; [layer_value] has its own gate instead. *)
  Definition listed_value (l : Layer F) (N : nat) (inp : list F) (o h : nat) : F :=
    suml (filter (fun w => (wO w =? o)%nat) (Wires l))
      (fun w => suml (listed l w) (fun g => geval g (nth (wL w * N + h) inp 0) (nth (wR w * N + h) inp 0))).
  Definition listed_table (l : Layer F) (N : nat) (inp : list F) : list F :=
    map (fun i => listed_value l N inp (i / N) (i mod N)) (seq 0 (2 ^ lBGOutputs l * N)).

  (** An assignment with tables of the right sizes for the layers of [c], whatever is in them. *)
  Definition shaped (k m : nat) (c : list (Layer F)) (a : list (list (list F))) : Prop :=
    forall j l, nth_error c j = Some l -> chunked k m (lBGInputs l) (nth j a []).

  (** A layer on which the sum-check prover can be started. *)
  Definition startable (l : Layer F) : Prop :=
    wf_layer l /\ (lBGInputs l = 0%nat \/ lGates l <> []) /\ (forall g, In g (lGates l) -> many_ok g).

  (** The degrees of the round polynomials that it has to interpolate are at most 11. *)
  Definition in_range (bN : nat) (l : Layer F) : Prop :=
    (lBGInputs l = 0 \/ maxHL (lGates l) <= 10 /\ maxHR (lGates l) <= 10)%nat /\ (bN = 0 \/ maxHP (lGates l) <= 10)%nat.

  (** [mtProve] also panics when every schedule does. *)
  Definition panics_with_machine (ch : list F -> F) (nCore : nat)
      (mtProve : MTProver F -> option (list (list F) * list F * list F * list F * list F)) : Prop :=
    forall p n k bG K c, mt_ok p n k bG -> mtPrepare p = Some (n, bG, K, c) ->
      fails (mt_step ch p nCore n bG K c) (mt_init nCore n) -> mtProve p = None.

  (** What the verifier has to be shown about the output table [T] of layer [j]: its value at the initial point for the top
      layer, else the combination, with [lam], of the two values at the points of the layer above. *)
  Definition claim_about (ch : list F -> F) (c : list (Layer F)) (bN : nat) (pf : Proof F) (j : nat) (l : Layer F) (lam : F) (T : list F) : F :=
    let b := lBGOutputs l in
    if (S j =? length c)%nat then mle T (count b ++ count bN)
    else mle T (ptL ch pf b (S j) ++ ptP ch pf b (S j)) + lam * mle T (ptR ch pf b (S j) ++ ptP ch pf b (S j)).

  (** The claim of layer [j] is the same for the table [W] above it and for the one computed from the table [V] below it. *)
  Definition in_line (ch : list F -> F) (c : list (Layer F)) (bN : nat) (pf : Proof F) (j : nat) (l : Layer F) (V W : list F) : Prop :=
    let b := lBGOutputs l in
    let lam := ch [mle W (ptL ch pf b (S j) ++ ptP ch pf b (S j)); mle W (ptR ch pf b (S j) ++ ptP ch pf b (S j))] in
    claim_about ch c bN pf j l lam W = claim_about ch c bN pf j l lam (listed_table l (2 ^ bN) V).

  (** The same for all layers: [a] is the assignment of the prover, [outputs] are those of the verifier. *)
  Definition all_in_line (ch : list F -> F) (c : list (Layer F)) (m k : nat) (pf : Proof F) (a : list (list (list F))) (outputs : list (list F)) : Prop :=
    forall j l, nth_error c j = Some l ->
      in_line ch c (m + k) pf j l (glued (lBGInputs l) m (nth j a []))
        (glued (lBGOutputs l) m (if (S j =? length c)%nat then outputs else nth (S j) a [])).

  (** The layers that the code can build: the list has one gate per wire, so that every wire counts as many times as there are
      wires with its gate. *)
  Definition copies (ws : list (Wire F)) (w : Wire F) : nat := length (filter (fun w' => id_eqb (gid (wGate w)) (gid (wGate w'))) ws).
  Definition counted_value (ws : list (Wire F)) (N : nat) (inp : list F) (o h : nat) : F :=
    suml (filter (fun w => (wO w =? o)%nat) ws)
      (fun w => fnat (copies ws w) * geval (wGate w) (nth (wL w * N + h) inp 0) (nth (wR w * N + h) inp 0)).

  (** Two wires with the same gate ID have the same gate. *)
  Definition ids_ok (ws : list (Wire F)) : Prop := forall w w', In w ws -> In w' ws -> gid (wGate w) = gid (wGate w') -> wGate w = wGate w'.
End S.
