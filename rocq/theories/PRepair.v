(** Property theorems for the repaired program (C79).  The definitions of MRepair.v are not those of the repository: they are the
    models of the code with six small edits. *)
From Coq Require Import List Arith ZArith Lia Bool.
From Verif Require Import Field Go Trans MCommon Spec MPoly MCircuit SpecCircuit LCircuit MSumcheck SpecSumcheck MSumPar SpecSumPar
  MGkr SpecGkr FrPrime Fr LPoly2 PPoly PCircuit PSumcheck PGkr SpecProof MRepair SpecRepair LRepair LRepair2 LRepair3 LRepair4 LRepair5 MForkJoin.
Import ListNotations.

(* ---------------------------------------------------------------- C79 *)
(** What C22 asks for: each gate of the wires once, in the order of first occurrence. *)
Theorem C79_gates : forall (F : Field) (ws : list (Wire F)),
  RGates ws = first_by_id [] (map wGate ws) /\ NoDup (map gid (RGates ws)) /\
  (forall i, In i (map gid (RGates ws)) <-> exists w, In w ws /\ gid (wGate w) = i) /\
  (forall g, In g (RGates ws) -> exists w, In w ws /\ wGate w = g).
Proof. exact @RGates_full. Qed.
Print Assumptions C79_gates.

(** Every layer of gates of the library can be proved. *)
Theorem C79_layers : forall (F : Field) (ws : list (Wire F)),
  (forall w, In w ws -> library_gate (wGate w)) -> layer_ok (RNewLayer ws).
Proof. exact @RNewLayer_ok. Qed.
Print Assumptions C79_layers.

(** What C24 asks for, without a condition on the right operands. *)
Theorem C79_evaluate : forall (F : Field) (l : Layer F) (N : nat) (inputs : list (list F)),
  wf_layer l -> (forall inp, In inp inputs -> length inp = 2 ^ lBGInputs l * N) ->
  exists outs, RLayerEvaluate l inputs = Some outs /\ length outs = length inputs /\
    forall i, i < length inputs -> layer_table l N (nth i inputs []) (nth i outs []).
Proof. exact @rlayer_evaluate_ok. Qed.
Print Assumptions C79_evaluate.

(** The same with one goroutine per chunk, under every schedule. *)
Theorem C79_concurrent : forall (F : Field) (l : Layer F) (N : nat) (inputs : list (list F)) nCore,
  0 < nCore -> wf_layer l -> (forall inp, In inp inputs -> length inp = 2 ^ lBGInputs l * N) ->
  exists outs, RLayerEvaluate l inputs = Some outs /\
    must (step (rlayer_exec l inputs) (per_chunk (length inputs)) nCore false true)
      (fun z => main z = MEnd /\ closed z = true /\ mem z = outs)
      (init (per_chunk (length inputs)) nCore false (repeat [] (length inputs))).
Proof. exact @rlayer_concurrent. Qed.
Print Assumptions C79_concurrent.

(** What C26 asks for. *)
Theorem C79_assign : forall (F : Field) (c : list (Layer F)) (b N : nat) (inputs : list (list F)),
  (forall l, In l c -> wf_layer l) -> fits b c -> (forall inp, In inp inputs -> length inp = 2 ^ b * N) ->
  exists a, RAssign c inputs = Some a /\ assignment_of c N inputs a.
Proof. exact @rassign_ok. Qed.
Print Assumptions C79_assign.

Theorem C79_assign_chunks : forall (F : Field) (c : list (Layer F)) (b N n : nat) (inp : list F),
  0 < n -> (forall l, In l c -> wf_layer l) -> fits b c -> length inp = 2 ^ b * (N * n) ->
  exists chunks a a', mapM (fun s => InterleavedChunk inp s n) (seq 0 n) = Some chunks /\
    RAssign c [inp] = Some a /\ RAssign c chunks = Some a' /\
    length a = S (length c) /\ length a' = S (length c) /\
    forall k, k <= length c -> exists t, nth k a [] = [t] /\
      mapM (fun s => InterleavedChunk t s n) (seq 0 n) = Some (nth k a' []).
Proof. exact @rassign_chunks. Qed.
Print Assumptions C79_assign_chunks.

(** What C07 and C08 ask for, also of a single chunk. *)
Theorem C79_chunked : forall (F : Field) (bkts : list (list F)) (q : list F) k m,
  length bkts = 2 ^ k -> (forall i, i < 2 ^ k -> length (nth i bkts []) = 2 ^ m) -> length q = m + k ->
  REvaluateChunked bkts q = Some (mle (interleave (2 ^ m) bkts) q).
Proof. exact (fun F bkts q k m H1 H2 => @REvaluateChunked_ok F bkts q k m (conj H1 H2)). Qed.
Print Assumptions C79_chunked.

Theorem C79_mixed : forall (F : Field) (bkts : list (list F)) (hP hL hR : list F) k m g,
  length bkts = 2 ^ k -> (forall i, i < 2 ^ k -> length (nth i bkts []) = 2 ^ (g + m)) ->
  length hP = m + k -> length hL = g -> length hR = g ->
  REvaluateMixedChunked bkts hP hL hR =
  Some (mle (interleave (2 ^ (g + m)) bkts) (hL ++ hP), mle (interleave (2 ^ (g + m)) bkts) (hR ++ hP)).
Proof. exact (fun F bkts hP hL hR k m g H1 H2 => @REvaluateMixedChunked_ok F bkts hP hL hR k m g (conj H1 H2)). Qed.
Print Assumptions C79_mixed.

(** What C36 asks for: every wiring of gates of the library whose layers fit, every number of chunks and of instances per chunk (one
    included), every point, every number of cores and every schedule. *)
Theorem C79_complete : forall (ch : list Fr -> Fr) nCore mtProve wiring b m k inputs l q qP,
  0 < nCore -> follows_machine ch nCore mtProve ->
  (forall ws w, In ws wiring -> In w ws -> library_gate (wGate w)) -> fits b (RNewCircuit wiring) -> chunked k m b inputs ->
  nth_error (RNewCircuit wiring) (length wiring - 1) = Some l -> length q = lBGOutputs l -> length qP = m + k ->
  exists a pf, RAssign (RNewCircuit wiring) inputs = Some a /\ assignment_of (RNewCircuit wiring) (2 ^ m) inputs a /\
    RGkrProve ch mtProve qP q (RNewCircuit wiring) a nCore = Some pf /\
    RGkrVerify ch qP q (m + k) (RNewCircuit wiring) pf inputs (nth (length wiring) a []) = Some true /\
    forall j, ~ collision_from ch pf (RNewCircuit wiring) m k a q qP j.
Proof. exact rcomplete_library. Qed.
Print Assumptions C79_complete.

(** The same for layers of other gates. *)
Theorem C79_complete_any : forall (ch : list Fr -> Fr) nCore mtProve c b m k inputs l q qP,
  0 < nCore -> follows_machine ch nCore mtProve ->
  (forall l, In l c -> layer_ok l) -> fits b c -> chunked k m b inputs ->
  nth_error c (length c - 1) = Some l -> length q = lBGOutputs l -> length qP = m + k ->
  exists a pf, RAssign c inputs = Some a /\ assignment_of c (2 ^ m) inputs a /\
    RGkrProve ch mtProve qP q c a nCore = Some pf /\
    RGkrVerify ch qP q (m + k) c pf inputs (nth (length c) a []) = Some true /\
    forall j, ~ collision_from ch pf c m k a q qP j.
Proof. exact rcomplete. Qed.
Print Assumptions C79_complete_any.

(** What C34 and C35 ask of package gkr: no proof makes the verifier panic, and only the lengths the prover uses can be accepted. *)
Theorem C79_total : forall (ch : list Fr -> Fr) c b m k inputs outputs l q qP pf,
  (forall l, In l c -> wf_layer l) -> fits b c -> chunked k m b inputs ->
  nth_error c (length c - 1) = Some l -> chunked k m (lBGOutputs l) outputs -> length q = lBGOutputs l -> length qP = m + k ->
  exists verdict, RGkrVerify ch qP q (m + k) c pf inputs outputs = Some verdict /\
    (~ exact_shape c (m + k) pf -> verdict = false).
Proof. exact rtotal. Qed.
Print Assumptions C79_total.

(** What C38 asks for: an accepted proof shows the value of the outputs at the point unless a challenge collides. *)
Theorem C79_sound : forall (F : Field) (ch : list F -> F) m k b c l inputs a pf outputs q qP,
  (forall l, In l c -> wf_layer l /\ gates_once l) -> fits b c -> nth_error c (length c - 1) = Some l ->
  chunked k m b inputs -> assignment_of c (2 ^ m) inputs a -> chunked k m (lBGOutputs l) outputs ->
  length q = lBGOutputs l -> length qP = m + k ->
  RGkrVerify ch qP q (m + k) c pf inputs outputs = Some true ->
  mle (glued (lBGOutputs l) m outputs) (q ++ qP) = mle (glued (lBGOutputs l) m (nth (length c) a [])) (q ++ qP) \/
  exists j, collision_from ch pf c m k a q qP j.
Proof. exact @rsound. Qed.
Print Assumptions C79_sound.

(** With the point chosen by the caller, wrong outputs pass at few points only.  In the code the point is fixed, and C39 gives wrong
    outputs that always pass. *)
Theorem C79_binding : forall (F : Field) (ch : list F -> F) m k b c l inputs a outputs S,
  (forall l, In l c -> wf_layer l /\ gates_once l) -> fits b c -> nth_error c (length c - 1) = Some l ->
  chunked k m b inputs -> assignment_of c (2 ^ m) inputs a -> chunked k m (lBGOutputs l) outputs ->
  outputs <> nth (length c) a [] -> NoDup S ->
  forall qs, NoDup qs ->
    (forall x, In x qs -> In x (grid S (lBGOutputs l + (m + k))) /\ exists pf,
       RGkrVerify ch (skipn (lBGOutputs l) x) (firstn (lBGOutputs l) x) (m + k) c pf inputs outputs = Some true /\
       ~ exists j, collision_from ch pf c m k a (firstn (lBGOutputs l) x) (skipn (lBGOutputs l) x) j) ->
    length qs <= (lBGOutputs l + (m + k)) * length S ^ (lBGOutputs l + (m + k) - 1).
Proof. exact @rbinding. Qed.
Print Assumptions C79_binding.

(** Proofs are no longer malleable (C78). *)
Theorem C79_unique : forall (ch : list Fr -> Fr) nCore mtProve c b m k inputs a pf outputs l q qP,
  0 < nCore -> follows_machine ch nCore mtProve ->
  (forall l, In l c -> layer_ok l) -> fits b c -> chunked k m b inputs -> assignment_of c (2 ^ m) inputs a ->
  nth_error c (length c - 1) = Some l -> chunked k m (lBGOutputs l) outputs -> length q = lBGOutputs l -> length qP = m + k ->
  RGkrVerify ch qP q (m + k) c pf inputs outputs = Some true -> (forall j, ~ collision_from ch pf c m k a q qP j) ->
  RGkrProve ch mtProve qP q c a nCore = Some pf.
Proof. exact runique. Qed.
Print Assumptions C79_unique.

Theorem C79_same_proof : forall (ch : list Fr -> Fr) c b l q qP nCore mtProve m k inputs a nCore' mtProve' m' k' inputs' a',
  (forall l, In l c -> layer_ok l) -> fits b c -> nth_error c (length c - 1) = Some l -> length q = lBGOutputs l ->
  0 < nCore -> follows_machine ch nCore mtProve -> chunked k m b inputs -> assignment_of c (2 ^ m) inputs a ->
  0 < nCore' -> follows_machine ch nCore' mtProve' -> chunked k' m' b inputs' -> assignment_of c (2 ^ m') inputs' a' ->
  length qP = m + k -> length qP = m' + k' -> glued b m inputs = glued b m' inputs' ->
  RGkrProve ch mtProve qP q c a nCore = RGkrProve ch mtProve' qP q c a' nCore'.
Proof. exact rsame_proof. Qed.
Print Assumptions C79_same_proof.

(** Where the code was right the repaired program does the same. *)
Theorem C79_agree_circuit : forall (F : Field) (wiring : list (list (Wire F))),
  (forall ws, In ws wiring -> NoDup (map (fun w => gid (wGate w)) ws)) -> RNewCircuit wiring = NewCircuit wiring.
Proof. exact @circuit_same. Qed.
Print Assumptions C79_agree_circuit.

Theorem C79_agree_assign : forall (F : Field) (c : list (Layer F)) b N inputs,
  (forall l, In l c -> wf_layer l) -> fits b c -> right_ok N c ->
  (forall inp, In inp inputs -> length inp = 2 ^ b * N) -> RAssign c inputs = Assign c inputs.
Proof. exact @assign_same. Qed.
Print Assumptions C79_agree_assign.

Theorem C79_agree_prove : forall (F : Field) (ch : list F -> F) mtProve c b m k inputs a l nCore,
  fits b c -> chunked k m b inputs -> assignment_of c (2 ^ m) inputs a -> nth_error c (length c - 1) = Some l ->
  RGkrProve ch mtProve (count (m + k)) (count (lBGOutputs l)) c a nCore = GkrProve ch mtProve c a nCore.
Proof. exact @prove_same. Qed.
Print Assumptions C79_agree_prove.

Theorem C79_agree_verify : forall (F : Field) (ch : list F -> F) c b m k inputs outputs l pf,
  0 < k -> fits b c -> chunked k m b inputs -> nth_error c (length c - 1) = Some l -> chunked k m (lBGOutputs l) outputs ->
  exact_shape c (m + k) pf ->
  RGkrVerify ch (count (m + k)) (count (lBGOutputs l)) (m + k) c pf inputs outputs = GkrVerifyWith ch false (m + k) c pf inputs outputs.
Proof. exact @verify_same. Qed.
Print Assumptions C79_agree_verify.

(** Two multiplications and two additions, right operands in both rows, one chunk of two instances: the code fails here three times
    over, and the repaired program computes, proves and verifies. *)
Definition twins : list (list (Wire Fr)) :=
  [[MkWire 0 1 0 MulGate; MkWire 1 1 1 MulGate]; [MkWire 0 1 0 AddGate; MkWire 1 0 0 AddGate]].
Example C79_ex :
  (forall ws w, In ws twins -> In w ws -> library_gate (wGate w)) /\ fits 1 (RNewCircuit twins) /\
  chunked 0 1 1 [frs [2;3;5;7]%Z] /\
  map (fun l => length (lGates l)) (NewCircuit twins) = [2; 2] /\ map (fun l => length (lGates l)) (RNewCircuit twins) = [1; 1] /\
  option_map (map (map (map frval))) (Assign (NewCircuit twins) [frs [2;3;5;7]%Z]) = None /\
  option_map (map (map (map frval))) (RAssign (RNewCircuit twins) [frs [2;3;5;7]%Z])
  = Some [[[2;3;5;7]]; [[10;21;25;49]]; [[70;140]]]%Z /\
  (a <- RAssign (RNewCircuit twins) [frs [2;3;5;7]%Z] ;;
   pf <- RGkrProve ex_hash (mtWhole ex_hash) [el 11] [] (RNewCircuit twins) a 3 ;;
   yes <- RGkrVerify ex_hash [el 11] [] 1 (RNewCircuit twins) pf [frs [2;3;5;7]%Z] (nth 2 a []) ;;
   no <- RGkrVerify ex_hash [el 11] [] 1 (RNewCircuit twins) pf [frs [2;3;5;7]%Z] [frs [70;141]%Z] ;; Some (yes, no)) = Some (true, false).
Proof.
  split; [intros ws w [<-|[<-|[]]] [<-|[<-|[]]]; constructor|].
  split; [repeat split|]. split; [split; [reflexivity|intros t [<-|[]]; reflexivity]|].
  split; [reflexivity|]. split; [reflexivity|]. split; [vm_compute; reflexivity|]. split; [vm_compute; reflexivity|].
  vm_compute; reflexivity.
Qed.
