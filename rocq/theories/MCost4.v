(** Counting model of the evaluation of a circuit: Evaluate and Assign of MCircuit.v once more, with the number of field
    multiplications.  As in MCost.v additions, copies and allocations are not counted. *)
From Coq Require Import List Arith ZArith Lia Bool.
From Verif Require Import Field Go MCommon MPoly MCircuit MCost.
Import ListNotations.

Section Cost.
  Context {F : Field}.
  Open Scope F_scope.

  (** The counting copy of the gate of a wire. *)
  Variable counting : Gate F -> WGate F.

  (** circuit/layers.go:78-96 *)
  Definition Weval_chunk (l : Layer F) (inps : list F) : W (list F) :=
    let GInputs := (2 ^ lBGInputs l)%nat in
    let GOutputs := (2 ^ lBGOutputs l)%nat in
    let N := (length inps / GInputs)%nat in
    foldW (fun subRes w =>
      let wON := (wO w * N)%nat in
      let wLN := (wL w * N)%nat in
      let wRN := (wR w * N)%nat in
      forW N (fun subRes h =>
        vL <- get inps (wLN + h) ;;
        vR <- get inps (wRN * N + h) ;;
        tmp <~ wEval (counting (wGate w)) vL vR ;;
        x <- get subRes (wON + h) ;;
        subRes <- set subRes (wON + h) (x + tmp) ;;
        ret subRes) subRes) (Wires l) (repeat 0 (N * GOutputs)%nat).

  (** circuit/layers.go:68-102 Evaluate *)
  Definition WLayerEvaluate (l : Layer F) (inputs : list (list F)) : W (list (list F)) := mapW (Weval_chunk l) inputs.

  (** circuit/circuit.go:37-47 Assign *)
  Definition WAssign (c : Circuit F) (inputs : list (list F)) : W (Assignment F) :=
    let assignment := repeat [] (length c + 1) in
    assignment <- set assignment 0 inputs ;;
    foldW (fun assignment il =>
      cur <- get assignment (fst il) ;;
      nxt <~ WLayerEvaluate (snd il) cur ;;
      assignment <- set assignment (fst il + 1) nxt ;;
      ret assignment) (combine (seq 0 (length c)) c) assignment.
End Cost.
