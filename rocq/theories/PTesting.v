(** Property theorems for sumcheck/testing.go and the test built on it (C62). *)
From Coq Require Import List Arith ZArith Lia Bool.
From Verif Require Import Field FrPrime Fr Go Trans MCommon MPoly Spec MCircuit SpecCircuit MSumcheck SpecSumcheck MSumPar SpecSumPar
  MTesting LTesting PPoly.
Import ListNotations.

(* ---------------------------------------------------------------- C62 *)
(** Both test provers hold the same values: the chunks of the multi-threaded one interleave to the tables of the other. *)
Theorem C62_same_values : forall bN c, c <= bN ->
  exists p s, InitializeMultiThreadedProver bN (2 ^ c) = Some p /\ InitializeProverForTests bN = Some s /\
    mt_ok p (2 ^ c) (bN - c) 1 /\ whole p (bN - c) 1 = s.
Proof. exact test_values. Qed.
Print Assumptions C62_same_values.

(** Every other number of chunks panics. *)
Theorem C62_panics : forall bN nChunks, (2 ^ bN < nChunks \/ (forall k, nChunks <> 2 ^ k)) ->
  InitializeMultiThreadedProver bN nChunks = None.
Proof. exact test_panics. Qed.
Print Assumptions C62_panics.

(** TestMultiThreaded of sumcheck/par_test.go for every size, number of chunks, number of cores and schedule, and for every
    value [b] of the argument that Verify does not read (the test passes 1). *)
Theorem C62_test_multi_threaded : forall (ch : list Fr -> Fr) bN c nCore1 nCore2 b, c <= bN -> 0 < nCore1 -> 0 < nCore2 ->
  exists p s claim proof qP qL qR fc fin,
    InitializeMultiThreadedProver bN (2 ^ c) = Some p /\ InitializeProverForTests bN = Some s /\
    GetClaim s = Some claim /\ must (claim_step p nCore1) (fun st => cmn st = CRet claim) (claim_init p nCore1) /\
    Prove ch s = Some (proof, qP, qL, qR, fc) /\
    mtPrepare p = Some (2 ^ c, 1, 2 + (bN - c), c) /\
    must (mt_step ch p nCore2 (2 ^ c) 1 (2 + (bN - c)) c) (fun st => main st = MEnd (proof, qP, qL, qR, fc)) (mt_init nCore2 (2 ^ c)) /\
    Verify ch claim proof b 1 = Some (Accept qP qL qR fin) /\
    length proof = 2 + bN /\ map (@length Fr) proof = [3; 9] ++ repeat 9 bN.
Proof. exact test_multi_threaded. Qed.
Print Assumptions C62_test_multi_threaded.

Theorem C62_claim : forall bN s, InitializeProverForTests bN = Some s ->
  exists eq, GetFoldedEqTable (repeat two bN) = Some eq /\
  GetClaim s = Some (sumn (2 ^ bN) (fun h =>
    let t : Fr := mkfr 2 in
    let vL : Fr := mkfr (Z.of_nat (2 ^ bN + h)) in
    let vR : Fr := mkfr (Z.of_nat h) in
    (nth h eq 0 * (t * vL + (1 - t) * (vL + fpow (vR + t) 7)))%F)).
Proof. exact test_claim. Qed.
Print Assumptions C62_claim.

(** bN = 1: eq = [-1; 2], so the claim is -(2*2 - (2 + 2^7)) + 2*(2*3 - (3 + 3^7)) *)
Example C62_ex :
  val (s <- InitializeProverForTests 1 ;; GetClaim s) = Some ((- (2*2 - (2 + 2^7)) + 2 * (2*3 - (3 + 3^7))) mod frModulus)%Z /\
  option_map (fun p : MTProver Fr => map (map frval) (tVL p)) (InitializeMultiThreadedProver 1 2) = Some [[0; 2]; [1; 3]]%Z /\
  option_map (fun p : MTProver Fr => map (map frval) (tStatic p)) (InitializeMultiThreadedProver 1 2)
  = Some [[0; 0; 2; 0]; [0; 0; frModulus - 1; 0]]%Z.
Proof. vm_compute. repeat split. Qed.
