(** C77: the size of the native proofs, and their independence of chunks and threads. *)
From Coq Require Import List Arith NArith ZArith Lia Bool.
From Verif Require Import Field Fr Go MCommon Spec MCircuit SpecCircuit LCircuit MSumcheck SpecSumcheck MSumPar SpecSumPar LSumPar2 MGkr SpecGkr MArk MHash
  SpecProof LProof2 PPoly PCircuit PSumcheck PGkr.
Import ListNotations.

(* ---------------------------------------------------------------- C77 *)
(** A proof holds two claims per layer and one polynomial per round, with one coefficient more than its degree bound; the
    number of elements is linear in the number of variables [m + k] and does not otherwise depend on the number of instances. *)
Theorem C77_size : forall (ch : list Fr -> Fr) nCore mtProve c b m k inputs a,
  0 < nCore -> follows_machine ch nCore mtProve -> c <> [] ->
  (forall l, In l c -> layer_ok l) -> fits b c -> chunked k m b inputs -> assignment_of c (2 ^ m) inputs a ->
  exists pf, GkrProve ch mtProve c a nCore = Some pf /\
    length (ClaimsLeft pf) = length c /\ length (ClaimsRight pf) = length c /\ length (SumcheckProofs pf) = length c /\
    (forall i l, nth_error c i = Some l -> map (@length Fr) (nth i (SumcheckProofs pf) []) = coefficients l (m + k)) /\
    elements pf = list_sum (map (fun l => layer_elements l (m + k)) c).
Proof. exact proof_size. Qed.
Print Assumptions C77_size.

(** The same inputs give the same proof, element by element, however they are cut into chunks, whatever the number of
    threads and in whatever order these answer. *)
Theorem C77_same : forall (ch : list Fr -> Fr) c b nCore mtProve m k inputs a nCore' mtProve' m' k' inputs' a',
  c <> [] -> (forall l, In l c -> layer_ok l) -> fits b c ->
  0 < nCore -> follows_machine ch nCore mtProve -> chunked k m b inputs -> assignment_of c (2 ^ m) inputs a ->
  0 < nCore' -> follows_machine ch nCore' mtProve' -> chunked k' m' b inputs' -> assignment_of c (2 ^ m') inputs' a' ->
  m + k = m' + k' -> glued b m inputs = glued b m' inputs' ->
  GkrProve ch mtProve c a nCore = GkrProve ch mtProve' c a' nCore'.
Proof. exact same_proof_Fr. Qed.
Print Assumptions C77_same.

(** Two values in each of two chunks and three threads, or four values in one chunk and one thread. *)
Lemma toy_chunked_one : chunked 0 1 1 [frs [0; 1; 2; 3]%Z].
Proof. split; [reflexivity|]. intros x [<-|[]]. reflexivity. Qed.

Lemma toy_assignment_one : assignment_of toy_circuit (2 ^ 1) [frs [0; 1; 2; 3]%Z] (assign toy_circuit [frs [0; 1; 2; 3]%Z]).
Proof.
  destruct (C26_assign_partial Fr toy_circuit 1 (2 ^ 1) [frs [0; 1; 2; 3]%Z]) as (a & E & Ha).
  - intros l Hl. apply (toy_ok l Hl).
  - repeat split.
  - right. intros l w [<-|[<-|[]]]; cbn; intuition subst; reflexivity.
  - apply toy_chunked_one.
  - unfold assign. rewrite E. exact Ha.
Qed.

Example C77_same_ex : exists pf,
  GkrProve ex_hash (mtWhole ex_hash) toy_circuit (assign toy_circuit toy_inputs) 3 = Some pf /\
  GkrProve ex_hash (mtWhole ex_hash) toy_circuit (assign toy_circuit [frs [0; 1; 2; 3]%Z]) 1 = Some pf /\
  elements pf = list_sum (map (fun l => layer_elements l 1) toy_circuit) /\ elements pf = 46.
Proof.
  destruct (C77_size ex_hash 3 (mtWhole ex_hash) toy_circuit 1 0 1 toy_inputs (assign toy_circuit toy_inputs))
    as (pf & E & _ & _ & _ & _ & H);
    [lia|apply C36_follows|discriminate|exact toy_ok|repeat split|exact toy_chunked|apply toy_assignment; exact toy_chunked|].
  exists pf. split; [exact E|]. split; [|split; [exact H|rewrite H; reflexivity]].
  rewrite <- E. symmetry.
  apply (C77_same ex_hash toy_circuit 1 3 (mtWhole ex_hash) 0 1 toy_inputs (assign toy_circuit toy_inputs)
    1 (mtWhole ex_hash) 1 0 [frs [0; 1; 2; 3]%Z] (assign toy_circuit [frs [0; 1; 2; 3]%Z]));
    [discriminate|exact toy_ok|repeat split|lia|apply C36_follows|exact toy_chunked|apply toy_assignment; exact toy_chunked
    |lia|apply C36_follows|exact toy_chunked_one|exact toy_assignment_one|reflexivity|reflexivity].
Qed.

(** The number of elements does depend on the gates and on the variables. *)
Example C77_size_ex : map (fun l : Layer Fr => (coefficients l 1, layer_elements l 1, layer_elements l 2)) toy_circuit =
  [([3; 9; 9], 23, 32); ([3; 9; 9], 23, 32)].
Proof. vm_compute. reflexivity. Qed.

(** The circuit that the repository runs on: 91 layers. *)
Theorem C77_mimc_size : forall (ch : list Fr -> Fr) nCore mtProve m k inputs,
  0 < nCore -> follows_machine ch nCore mtProve -> chunked k m 1 inputs ->
  exists c a pf, CreateMimcCircuit Arks = Some c /\ Assign c inputs = Some a /\ GkrProve ch mtProve c a nCore = Some pf /\
    elements pf = 91 * (14 + 9 * (m + k)).
Proof. exact mimc_size. Qed.
Print Assumptions C77_mimc_size.

Theorem C77_mimc_same : forall (ch : list Fr -> Fr) nCore mtProve m k inputs nCore' mtProve' m' k' inputs',
  0 < nCore -> follows_machine ch nCore mtProve -> chunked k m 1 inputs ->
  0 < nCore' -> follows_machine ch nCore' mtProve' -> chunked k' m' 1 inputs' ->
  m + k = m' + k' -> glued 1 m inputs = glued 1 m' inputs' ->
  exists c a a' pf, CreateMimcCircuit Arks = Some c /\ Assign c inputs = Some a /\ Assign c inputs' = Some a' /\
    GkrProve ch mtProve c a nCore = Some pf /\ GkrProve ch mtProve' c a' nCore' = Some pf.
Proof. exact mimc_same. Qed.
Print Assumptions C77_mimc_same.

Example C77_mimc_ex : exists c a pf, CreateMimcCircuit Arks = Some c /\ Assign c toy_inputs = Some a /\
  GkrProve ex_hash (mtWhole ex_hash) c a 2 = Some pf /\ elements pf = 91 * 23.
Proof. apply (C77_mimc_size ex_hash 2 (mtWhole ex_hash) 0 1 toy_inputs); [lia|apply C36_follows|exact toy_chunked]. Qed.

(** The proof for 2^n hashes is shorter than the 3 * 2^n elements of the inputs and outputs exactly from 2^12 hashes on. *)
Theorem C77_smaller : forall n : N, (91 * (14 + 9 * n) < 3 * 2 ^ n <-> 12 <= n)%N.
Proof. exact smaller. Qed.
Print Assumptions C77_smaller.

Example C77_smaller_ex : (91 * (14 + 9 * 20) < 3 * 2 ^ 20 /\ ~ 91 * (14 + 9 * 11) < 3 * 2 ^ 11)%N.
Proof. split; [apply C77_smaller; discriminate|rewrite C77_smaller; intros H; apply H; reflexivity]. Qed.
