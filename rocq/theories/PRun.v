(** Property theorems for whole runs of package gkr: Assign, Prove, Verify (C91). *)
From Coq Require Import List Arith ZArith Lia Bool.
From Verif Require Import Field Go Spec MPoly MCircuit SpecCircuit MSumcheck SpecSumcheck MSumPar SpecSumPar MGkr SpecGkr SpecHonest SpecRun LRun
  FrPrime Fr LGkr3 LPoly3 LRun2 PPoly PCircuit PSumcheck PGkr PHonest.
Import ListNotations.

(* ---------------------------------------------------------------- C91 *)
(** The circuits that can be built from the gates of the library, on [2 ^ k] chunks, at least two, of [2 ^ m] instances.
    Assign panics exactly if a right row times the number of instances of a chunk is no row.  Otherwise the prover returns a
    proof and the verifier, given the assigned outputs, a verdict: it accepts exactly if the claims about the tables that were
    computed, with the right rows multiplied, are those of the tables in which wires count once for each wire of their gate. *)
Theorem C91_run : forall (ch : list Fr -> Fr) nCore mtProve wiring b m k inputs, 0 < nCore -> follows_machine ch nCore mtProve -> 0 < k ->
  wiring <> [] -> (forall ws, In ws wiring -> ws <> [] /\ forall w, In w ws -> library_gate (wGate w)) ->
  fits b (NewCircuit wiring) -> chunked k m b inputs ->
  match Assign (NewCircuit wiring) inputs with
  | None => exists ws w, In ws wiring /\ In w ws /\ 2 ^ BGInputs ws <= wR w * 2 ^ m
  | Some a => (forall ws w, In ws wiring -> In w ws -> wR w * 2 ^ m < 2 ^ BGInputs ws) /\
      exists pf, GkrProve ch mtProve (NewCircuit wiring) a nCore = Some pf /\
        (GkrVerify ch (m + k) (NewCircuit wiring) pf inputs (nth (length wiring) a []) = Some true <-> agrees ch wiring m k pf (glued b m inputs)) /\
        (GkrVerify ch (m + k) (NewCircuit wiring) pf inputs (nth (length wiring) a []) = Some false <-> ~ agrees ch wiring m k pf (glued b m inputs))
  end.
Proof. exact run_exact. Qed.
Print Assumptions C91_run.

(** The runs that are accepted for every input and every hash function: one wire per gate, and one instance per chunk or right
    operands in row 0 or unused. *)
Theorem C91_accepts : forall (ch : list Fr -> Fr) nCore mtProve wiring b m k inputs, 0 < nCore -> follows_machine ch nCore mtProve -> 0 < k ->
  wiring <> [] -> (forall ws, In ws wiring -> ws <> [] /\ forall w, In w ws -> library_gate (wGate w)) ->
  fits b (NewCircuit wiring) -> chunked k m b inputs ->
  (forall ws, In ws wiring -> unshifted m ws /\ NoDup (map (fun w => gid (wGate w)) ws)) ->
  (forall ws w, In ws wiring -> In w ws -> wR w * 2 ^ m < 2 ^ BGInputs ws) ->
  exists a pf, Assign (NewCircuit wiring) inputs = Some a /\ GkrProve ch mtProve (NewCircuit wiring) a nCore = Some pf /\
    GkrVerify ch (m + k) (NewCircuit wiring) pf inputs (nth (length wiring) a []) = Some true.
Proof. exact run_accepts. Qed.
Print Assumptions C91_accepts.

(** A circuit of one layer: the verdict does not depend on the hash function. *)
Theorem C91_one_layer : forall (ch : list Fr -> Fr) nCore mtProve ws m k inputs, 0 < nCore -> follows_machine ch nCore mtProve -> 0 < k ->
  ws <> [] -> (forall w, In w ws -> library_gate (wGate w) /\ wR w * 2 ^ m < 2 ^ BGInputs ws) -> chunked k m (BGInputs ws) inputs ->
  let V := glued (BGInputs ws) m inputs in
  let z := count (BGOutputs ws) ++ count (m + k) in
  exists a pf, Assign (NewCircuit [ws]) inputs = Some a /\ GkrProve ch mtProve (NewCircuit [ws]) a nCore = Some pf /\
    (GkrVerify ch (m + k) (NewCircuit [ws]) pf inputs (nth 1 a []) = Some true <->
      mle (shifted_table ws (2 ^ m) (2 ^ (m + k)) V) z = mle (counted_table ws (2 ^ (m + k)) V) z) /\
    (GkrVerify ch (m + k) (NewCircuit [ws]) pf inputs (nth 1 a []) = Some false <->
      mle (shifted_table ws (2 ^ m) (2 ^ (m + k)) V) z <> mle (counted_table ws (2 ^ (m + k)) V) z).
Proof. exact run_one_layer. Qed.
Print Assumptions C91_one_layer.

(** [far]: row 3 times row 1, two chunks of two instances; row 2 is read instead of row 1. *)
Example C91_one_layer_ex : follows_machine ex_hash 2 (mtWhole ex_hash) /\
  (forall w, In w far -> library_gate (wGate w) /\ wR w * 2 ^ 1 < 2 ^ BGInputs far) /\ chunked 1 1 (BGInputs far) far_inputs /\
  frval (mle (shifted_table far 2 4 (glued (BGInputs far) 1 far_inputs)) (count (BGOutputs far) ++ count 2)) = 18%Z /\
  frval (mle (counted_table far 4 (glued (BGInputs far) 1 far_inputs)) (count (BGOutputs far) ++ count 2)) = 12%Z.
Proof.
  split; [apply C36_follows|]. split; [intros w [<-|[]]; split; [constructor|vm_compute; lia]|].
  split; [split; [reflexivity|intros t [<-|[<-|[]]]; reflexivity]|]. split; vm_compute; reflexivity.
Qed.

(** So the honest run of a circuit without repeated gates is rejected, with every hash function. *)
Theorem C91_complete_refuted : exists (ws : list (Wire Fr)) m k inputs, NoDup (map (fun w => gid (wGate w)) ws) /\
  (forall w, In w ws -> library_gate (wGate w)) /\ 0 < k /\ chunked k m (BGInputs ws) inputs /\
  forall (ch : list Fr -> Fr) nCore mtProve, 0 < nCore -> follows_machine ch nCore mtProve ->
  exists a pf, Assign (NewCircuit [ws]) inputs = Some a /\ GkrProve ch mtProve (NewCircuit [ws]) a nCore = Some pf /\
    GkrVerify ch (m + k) (NewCircuit [ws]) pf inputs (nth 1 a []) = Some false.
Proof. exact honest_rejected. Qed.
Print Assumptions C91_complete_refuted.

(** Two layers, two chunks of two instances.  In the first circuit every right row is 0 or unused; in the second row 2 * 2 of
    the first layer is not there. *)
Example C91_run_ex :
  let good := [[MkWire 3 0 0 MulGate; MkWire 2 1 1 CopyGate]; [MkWire 1 0 0 AddGate]] in
  let bad := [[MkWire 3 2 0 MulGate; MkWire 2 1 1 CopyGate]; [MkWire 1 0 0 AddGate]] in
  (forall ws, In ws (good ++ bad) -> ws <> [] /\ forall w, In w ws -> library_gate (F:=Fr) (wGate w)) /\
  fits 2 (NewCircuit good) /\ fits 2 (NewCircuit bad) /\ chunked 1 1 2 far_inputs /\
  (forall ws, In ws good -> unshifted 1 ws /\ NoDup (map (fun w => gid (wGate w)) ws)) /\
  (forall ws w, In ws good -> In w ws -> wR w * 2 ^ 1 < 2 ^ BGInputs ws) /\
  option_map (fun a : list (list (list Fr)) => map (map frval) (nth 2 a [])) (Assign (NewCircuit good) far_inputs) = Some [[7; 7]; [7; 8]]%Z /\
  option_map (@length (list (list Fr))) (Assign (NewCircuit bad) far_inputs) = None.
Proof.
  cbv zeta. split; [intros ws Hw; cbn in Hw; repeat (destruct Hw as [<-|Hw]; [split; [discriminate|intros w Hx; repeat (destruct Hx as [<-|Hx]; [constructor|]); destruct Hx]|]); destruct Hw|].
  split; [vm_compute; auto|]. split; [vm_compute; auto|]. split; [split; [reflexivity|intros t [<-|[<-|[]]]; reflexivity]|].
  split; [intros ws [<-|[<-|[]]]; (split; [right; intros w Hx; repeat (destruct Hx as [<-|Hx]; [cbn; auto|]); destruct Hx|])|].
  - constructor; [intros [H|[]]; discriminate H|]. constructor; [intros []|constructor].
  - constructor; [intros []|constructor].
  - split; [intros ws w [<-|[<-|[]]] Hx; repeat (destruct Hx as [<-|Hx]; [vm_compute; lia|]); destruct Hx|].
    split; vm_compute; reflexivity.
Qed.
