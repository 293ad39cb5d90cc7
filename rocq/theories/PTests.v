(** Property theorems for the tests of the native packages (C71): for which sizes and values the tests of polynomial,
    sumcheck, gkr, examples and common pass, and for which they panic. *)
From Coq Require Import List Arith ZArith NArith Lia Bool.
From Verif Require Import Field FrPrime Fr Go MCommon MPoly Spec MCircuit SpecCircuit MSumcheck SpecSumcheck MSumPar MGkr SpecGkr MArk MHash
  SpecHash MTesting MTests LGkr4 LGkr5 LGkr6 LGkr7 LTests LTests2 PPoly PCircuit PHash.
Import ListNotations.

(* ---------------------------------------------------------------- C71 *)
(** TestLinearCombinationOfBookKeepingTables, for tables of any length and any two coefficients *)
Theorem C71_linear_combination : forall (F : Field) n i0 i1, TestLinearCombination (F:=F) n i0 i1 = Some true.
Proof. exact @test_linear_combination. Qed.
Print Assumptions C71_linear_combination.

(** TestFold on 2m entries; it reads two entries of the result, hence panics for m < 2. *)
Theorem C71_fold : forall (F : Field) m (r : F), 2 <= m -> TestFold m r (r * fnat m)%F (1 + r * fnat m)%F = Some true.
Proof. exact @test_fold. Qed.
Print Assumptions C71_fold.

Theorem C71_fold_short : forall (F : Field) m (r e0 e1 : F), m < 2 -> TestFold m r e0 e1 = None.
Proof. exact @test_fold_short. Qed.
Print Assumptions C71_fold_short.

Theorem C71_func_eval : forall (F : Field) m, 2 <= m -> TestFuncEval (F:=F) m (fnat m) = Some true.
Proof. exact @test_func_eval. Qed.
Print Assumptions C71_func_eval.

(** The numbers written in the test: four entries folded at 5 give 10 and 11, the differences are 2. *)
Example C71_fold_ex : TestFold (F:=Fr) 2 (fnat 5) (fnat 10) (fnat 11) = Some true /\ TestFuncEval (F:=Fr) 2 (fnat 2) = Some true.
Proof.
  split; [|apply C71_func_eval; lia].
  rewrite <- (C71_fold Fr 2 (fnat 5)) by lia. f_equal; apply fr_eq; vm_compute; reflexivity.
Qed.

(** TestChunked, any sizes with at least two chunks and at least as many common coordinates as chunk bits *)
Theorem C71_chunked : forall (F : Field) logSize logNChunks (qPrime : list F) hs mixed,
  0 < logNChunks <= logSize -> length qPrime = logSize -> (forall h, In h hs -> length h = logSize) ->
  (forall hC hL hR, In (hC, hL, hR) mixed ->
     logNChunks <= length hC /\ length hL + length hC = logSize /\ length hR = length hL) ->
  TestChunked logSize logNChunks qPrime hs mixed = Some true.
Proof. exact @test_chunked. Qed.
Print Assumptions C71_chunked.

(** With fewer common coordinates, or with one chunk, the test panics. *)
Theorem C71_chunked_mixed_panics : forall (F : Field) logSize logNChunks (qPrime : list F) hs mixed,
  0 < logNChunks <= logSize -> length qPrime = logSize -> (forall h, In h hs -> length h = logSize) -> mixed <> [] ->
  (forall hC hL hR, In (hC, hL, hR) mixed -> length hC < logNChunks) ->
  TestChunked logSize logNChunks qPrime hs mixed = None.
Proof. exact @test_chunked_mixed. Qed.
Print Assumptions C71_chunked_mixed_panics.

Theorem C71_chunked_one_panics : forall (F : Field) logSize (qPrime : list F) hs mixed, length qPrime = logSize ->
  hs <> [] -> (forall h, In h hs -> length h = logSize) -> TestChunked logSize 0 qPrime hs mixed = None.
Proof. exact @test_chunked_one. Qed.
Print Assumptions C71_chunked_one_panics.

(** The three cases of the test, (10, 5, 3), (10, 1, 3) and (10, 4, 1), whatever the random values; (10, 5, 6) would panic. *)
Example C71_chunked_ex : forall (qPrime : list Fr) hs mixed,
  length qPrime = 10 -> (forall h, In h hs -> length h = 10) ->
  ((forall hC hL hR, In (hC, hL, hR) mixed -> length hC = 7 /\ length hL = 3 /\ length hR = 3) ->
     TestChunked 10 5 qPrime hs mixed = Some true /\ TestChunked 10 1 qPrime hs mixed = Some true) /\
  ((forall hC hL hR, In (hC, hL, hR) mixed -> length hC = 9 /\ length hL = 1 /\ length hR = 1) ->
     TestChunked 10 4 qPrime hs mixed = Some true) /\
  (mixed <> [] -> (forall hC hL hR, In (hC, hL, hR) mixed -> length hC = 4 /\ length hL = 6 /\ length hR = 6) ->
     TestChunked 10 5 qPrime hs mixed = None).
Proof.
  intros qPrime hs mixed H1 H2. split; [|split].
  - intros H. split; apply C71_chunked; auto; try lia; intros hC hL hR Hi; destruct (H _ _ _ Hi) as (-> & -> & ->); lia.
  - intros H. apply C71_chunked; auto; try lia; intros hC hL hR Hi; destruct (H _ _ _ Hi) as (-> & -> & ->); lia.
  - intros Hn H. apply C71_chunked_mixed_panics; auto; try lia; intros hC hL hR Hi; destruct (H _ _ _ Hi) as (-> & _); lia.
Qed.

Theorem C71_folded_eq_table : forall (F : Field) (a b c d : F), TestGetFoldedEqTable a b c d = Some true.
Proof. exact @test_folded_eq. Qed.
Print Assumptions C71_folded_eq_table.

(** TestLagrangeCoefficients (domain 4, value 2 in the test) *)
Theorem C71_lagrange : forall domain value, value < domain <= 12 -> TestLagrangeCoefficients (F:=Fr) domain value = Some true.
Proof. exact test_lagrange. Qed.
Print Assumptions C71_lagrange.

Theorem C71_lagrange_panics : forall domain value, 12 < domain \/ domain <= value -> TestLagrangeCoefficients (F:=Fr) domain value = None.
Proof. exact test_lagrange_panics. Qed.
Print Assumptions C71_lagrange_panics.

(** TestSumcheck, for all sizes, tables and transcripts *)
Theorem C71_sumcheck : forall (ch : list Fr -> Fr) bN bG (v eQ add : list Fr),
  length v = 2 ^ (bG + bN) -> length eQ = 2 ^ bN -> length add = 2 ^ (bG + bG) -> TestSumcheck ch bN bG v eQ add = Some true.
Proof. exact test_sumcheck. Qed.
Print Assumptions C71_sumcheck.

Example C71_sumcheck_ex : forall ch : list Fr -> Fr, TestSumcheck ch 1 1 (frs [0; 1; 2; 3]%Z) (frs [0; 1]%Z) (frs [0; 0; 1; 0]%Z) = Some true.
Proof. intros ch. apply C71_sumcheck; reflexivity. Qed.

Theorem C71_get_evals : TestGetEvals (F:=Fr) = Some true.
Proof. exact test_get_evals. Qed.
Print Assumptions C71_get_evals.

(** TestBenchmarkSetup; the argument bN of the verifier is 1 for every size, and is not read. *)
Theorem C71_benchmark_setup : forall (ch : list Fr -> Fr) bN, TestBenchmarkSetup ch bN = Some true.
Proof. exact test_benchmark_setup. Qed.
Print Assumptions C71_benchmark_setup.

Theorem C71_log2 : TestLog2 = true.
Proof. exact eq_refl. Qed.
Print Assumptions C71_log2.

(** TestGKR and TestMultiBGs with 2^k chunks of one instance: they pass on all values. *)
Theorem C71_gkr : forall (ch : list Fr -> Fr) mtProve k ps, follows_machine ch 1 (mtProve 1) -> 0 < k -> length ps = 2 ^ k ->
  TestGKR ch mtProve k (map (fun p => [fst p; snd p]) ps)
    [map (fun p => [fst p; snd p]) ps;
     map (fun p => [fst p + snd p; fst p * snd p])%F ps;
     map (fun p => [fst p + snd p + fst p * snd p; (fst p + snd p) * (fst p * snd p)])%F ps] = Some true.
Proof. exact test_gkr. Qed.
Print Assumptions C71_gkr.

Theorem C71_multi_bgs : forall (ch : list Fr -> Fr) mtProve k ps, follows_machine ch 1 (mtProve 1) -> 0 < k -> length ps = 2 ^ k ->
  TestMultiBGs ch mtProve k (map (fun p => [fst p; snd p]) ps)
    [map (fun p => [fst p; snd p]) ps;
     map (fun p => [fst p + snd p; fst p * snd p])%F ps;
     map (fun p => [fst p + snd p + fst p * snd p])%F ps] = Some true.
Proof. exact test_multi. Qed.
Print Assumptions C71_multi_bgs.

(** With two instances or more in a chunk, and with one chunk, both tests panic, whatever is expected of them. *)
Theorem C71_gkr_panics : forall (F : Field) (ch : list F -> F) mtProve N bN (inputs : list (list F)) expected, 2 <= N -> inputs <> [] ->
  (forall t, In t inputs -> length t = 2 * N) ->
  TestGKR ch mtProve bN inputs expected = None /\ TestMultiBGs ch mtProve bN inputs expected = None.
Proof. exact @test_gkr_panics. Qed.
Print Assumptions C71_gkr_panics.

Theorem C71_gkr_one_chunk_panics : forall (F : Field) (ch : list F -> F) mtProve bN p (expected : list (list (list F))),
  TestGKR ch mtProve bN [[fst p; snd p]] expected = None /\ TestMultiBGs ch mtProve bN [[fst p; snd p]] expected = None.
Proof. exact @test_gkr_one. Qed.
Print Assumptions C71_gkr_one_chunk_panics.

(** The values written in the two tests *)
Example C71_gkr_ex : forall ch : list Fr -> Fr,
  TestGKR ch (fun _ => mtWhole ch) 1 [frs [1; 2]%Z; frs [3; 4]%Z]
    [[frs [1; 2]%Z; frs [3; 4]%Z]; [frs [3; 2]%Z; frs [7; 12]%Z]; [frs [5; 6]%Z; frs [19; 84]%Z]] = Some true /\
  TestMultiBGs ch (fun _ => mtWhole ch) 1 [frs [1; 2]%Z; frs [3; 4]%Z]
    [[frs [1; 2]%Z; frs [3; 4]%Z]; [frs [3; 2]%Z; frs [7; 12]%Z]; [frs [5]%Z; frs [19]%Z]] = Some true.
Proof.
  intros ch. pose proof (mtWhole_follows ch 1) as HF. set (ps := [(el 1, el 2); (el 3, el 4)]). split.
  - rewrite <- (C71_gkr ch (fun _ => mtWhole ch) 1 ps HF) by (cbn; lia). unfold ps. cbn [map fst snd].
    repeat (f_equal; try reflexivity); apply fr_eq; vm_compute; reflexivity.
  - rewrite <- (C71_multi_bgs ch (fun _ => mtWhole ch) 1 ps HF) by (cbn; lia). unfold ps. cbn [map fst snd].
    repeat (f_equal; try reflexivity); apply fr_eq; vm_compute; reflexivity.
Qed.

(** TestMimc passes for all sizes, all inputs and with at least two chunks, with the real round constants. *)
Theorem C71_mimc : forall (ch : list Fr -> Fr) mtProve mtClaim m k inputs,
  follows_machine ch 1 (mtProve 1) -> follows_claim 1 (mtClaim 1) -> 0 < k -> chunked k m 1 inputs ->
  TestMimc ch mtProve mtClaim Arks (m + k) (2 ^ k) inputs = Some true.
Proof. exact test_mimc. Qed.
Print Assumptions C71_mimc.

Theorem C71_mimc_one_chunk_panics : forall (F : Field) (ch : list F -> F) mtProve mtClaim arks bN inputs, length inputs = 1 -> 91 <= length arks ->
  TestMimc ch mtProve mtClaim arks bN 1 inputs = None.
Proof. exact @test_mimc_one. Qed.
Print Assumptions C71_mimc_one_chunk_panics.

(** GetClaim on the whole tables is what the multi-threaded GetClaim may return. *)
Theorem C71_follows_claim : forall (F : Field) nCore, follows_claim (F:=F) nCore claimWhole.
Proof. exact @claimWhole_follows. Qed.
Print Assumptions C71_follows_claim.

(** randomInputs gives inputs of the shape TestMimc and the benchmarks need. *)
Theorem C71_random_inputs : forall (F : Field) (rnd : nat -> F) m k, exists inputs,
  randomInputs rnd (2 ^ k) (m + k) = Some inputs /\ chunked k m 1 inputs /\
  forall i j, i < 2 ^ k -> j < 2 * 2 ^ m -> nth j (nth i inputs []) 0%F = rnd (i * (2 * 2 ^ m) + j).
Proof. exact random_inputs. Qed.
Print Assumptions C71_random_inputs.

(** The proof of the benchmark, which nothing verifies in Go, is one the verifier accepts. *)
Theorem C71_benchmark_proof : forall (ch : list Fr -> Fr) mtProve rnd m k nCore,
  0 < nCore -> follows_machine ch nCore (mtProve nCore) -> 0 < k ->
  exists c inputs a pf, CreateMimcCircuit Arks = Some c /\ randomInputs rnd (2 ^ k) (m + k) = Some inputs /\ Assign c inputs = Some a /\
    benchmarkMIMCCircuit ch mtProve Arks rnd (m + k) nCore (2 ^ k) = Some pf /\
    GkrVerify ch (m + k) c pf inputs (nth 91 a []) = Some true.
Proof. exact benchmark_mimc. Qed.
Print Assumptions C71_benchmark_proof.

(** The test's own size: bN = 3, two chunks, any random values, any hash *)
Example C71_mimc_ex : forall (ch : list Fr -> Fr) rnd, exists inputs, randomInputs rnd 2 3 = Some inputs /\
  TestMimc ch (fun _ => mtWhole ch) (fun _ => claimWhole) Arks 3 2 inputs = Some true.
Proof.
  intros ch rnd. destruct (C71_random_inputs Fr rnd 2 1) as (inputs & E & H & _). exists inputs. split; [exact E|].
  apply (C71_mimc ch _ _ 2 1 inputs); [apply mtWhole_follows|apply C71_follows_claim|lia|exact H].
Qed.
