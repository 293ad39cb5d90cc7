(** Property theorems for what the tests of the native packages notice (C74): each test is run with any functions in place of
    those under test, and the theorem says what of them makes it pass. *)
From Coq Require Import List Arith ZArith NArith Lia Bool.
From Verif Require Import Field FrPrime Fr Go MCommon MPoly Spec MCircuit SpecCircuit MSumcheck SpecSumcheck MSumPar MGkr SpecGkr MArk MHash
  MTesting MTests SpecTests LGkr4 LTests LTests2 LTests3 PPoly PCircuit PTests.
Import ListNotations.
Open Scope F_scope.

(* ---------------------------------------------------------------- C74 *)
(** TestFold looks at the first two entries of one folded table, TestFuncEval at the first two differences. *)
Theorem C74_fold : forall (F : Field) (f : list F -> F -> option (list F)) m r e0 e1,
  TestFold_with f m r e0 e1 = Some true <->
  exists rest, f (map (fun i => fnat i) (seq 0 (2 * m))) r = Some (e0 :: e1 :: rest).
Proof. exact @fold_detects. Qed.
Print Assumptions C74_fold.

Theorem C74_func_eval : forall (F : Field) (f : list F -> option (list F)) m e,
  TestFuncEval_with f m e = Some true <->
  exists rest, f (map (fun i => fnat i) (seq 0 (2 * m))) = Some (e :: e :: rest).
Proof. exact @func_eval_detects. Qed.
Print Assumptions C74_func_eval.

(** A fold that keeps the table as it is does not pass, a constant one does. *)
Example C74_fold_ex :
  TestFold_with (F:=Fr) (fun t _ => Some t) 2 (fnat 5) (fnat 10) (fnat 11) <> Some true /\
  TestFold_with (F:=Fr) (fun _ _ => Some [fnat 10; fnat 11]) 2 (fnat 5) (fnat 10) (fnat 11) = Some true /\
  TestFuncEval_with (F:=Fr) (fun t => Some t) 2 (fnat 2) <> Some true.
Proof.
  split; [|split].
  - intros H. apply C74_fold in H. destruct H as (rest & H). apply some_inj in H.
    apply (f_equal (fun l : list Fr => frval (nth 0 l 0))) in H. vm_compute in H. discriminate H.
  - apply C74_fold. exists []. reflexivity.
  - intros H. apply C74_func_eval in H. destruct H as (rest & H). apply some_inj in H.
    apply (f_equal (fun l : list Fr => frval (nth 0 l 0))) in H. vm_compute in H. discriminate H.
Qed.

(** TestChunked compares five entries of the chunked table with the table in one piece, and the evaluations at all points drawn. *)
Theorem C74_chunked : forall (F : Field) getChunked (getFolded : list F -> option (list F)) evaluate evaluateChunked evaluateMixed evaluateLR
  logSize logNChunks (qPrime : list F) hs mixed, (logNChunks <= logSize)%nat ->
  TestChunked_with getChunked getFolded evaluate evaluateChunked evaluateMixed evaluateLR logSize logNChunks qPrime hs mixed = Some true ->
  exists ec e, getChunked qPrime (2 ^ logNChunks)%nat 1%nat = Some ec /\ getFolded qPrime = Some e /\
    (forall u s, In (u, s) (probes (2 ^ (logSize - logNChunks)) (2 ^ logNChunks)) ->
       exists x, nth_error e (u * 2 ^ logNChunks + s) = Some x /\ cell ec s u = Some x) /\
    (forall h, In h hs -> exists v, evaluate e h = Some v /\ evaluateChunked ec h = Some v) /\
    (forall hC hL hR, In (hC, hL, hR) mixed ->
       exists a b, evaluateLR e hC hL hR = Some (a, b) /\ evaluateMixed ec hC hL hR = Some (a, b)).
Proof. exact @chunked_detects. Qed.
Print Assumptions C74_chunked.

(** The entries themselves are compared with nothing else: the test passes for every table of the right length, as long as the
    chunked version of it is the same table. *)
Theorem C74_chunked_blind : forall (F : Field) (T : list F -> list F) logSize logNChunks (qPrime : list F) hs mixed,
  (0 < logNChunks <= logSize)%nat -> (forall q, length (T q) = 2 ^ logSize)%nat ->
  (forall h, In h hs -> length h = logSize) ->
  (forall hC hL hR, In (hC, hL, hR) mixed -> (logNChunks <= length hC)%nat /\ (length hL + length hC = logSize)%nat /\ length hR = length hL) ->
  TestChunked_with
    (fun q n _ => Some (map (fun s => map (fun u => nth (u * n + s) (T q) 0) (seq 0 (2 ^ logSize / n))) (seq 0 n)))
    (fun q => Some (T q)) Evaluate EvaluateChunked EvaluateMixedChunked EvaluateLeftAndRight
    logSize logNChunks qPrime hs mixed = Some true.
Proof. exact @chunked_blind. Qed.
Print Assumptions C74_chunked_blind.

(** The sizes (10, 5) of the test with tables of zeros in place of eq *)
Example C74_chunked_ex : forall (qPrime : list Fr) hs mixed,
  (forall h, In h hs -> length h = 10)%nat ->
  (forall hC hL hR, In (hC, hL, hR) mixed -> length hC = 7 /\ length hL = 3 /\ length hR = 3)%nat ->
  TestChunked_with
    (fun _ n _ => Some (map (fun s => map (fun u => nth (u * n + s) (repeat 0 (2 ^ 10)) 0) (seq 0 (2 ^ 10 / n))) (seq 0 n)))
    (fun _ => Some (repeat 0 (2 ^ 10))) Evaluate EvaluateChunked EvaluateMixedChunked EvaluateLeftAndRight 10 5 qPrime hs mixed = Some true.
Proof.
  intros qPrime hs mixed H1 H2. apply (C74_chunked_blind Fr (fun _ => repeat 0 (2 ^ 10)) 10 5); auto; try lia.
  - intros hC hL hR Hi. destruct (H2 _ _ _ Hi) as (-> & -> & ->). lia.
Qed.

(** TestSumcheck: the prover's challenges and claims are those of the verifier, who accepts, and the values claimed are the
    evaluations of the tables. *)
Theorem C74_sumcheck : forall (F : Field) (getClaim : Prover F -> option F) prove verify evaluate evaluateLR bN bG (v eQ add : list F),
  TestSumcheck_with getClaim prove verify evaluate evaluateLR bN bG v eQ add = Some true <->
  exists claim proof qPrime qL qR vL vR e s rest,
    let p := NewSingleThreadedProver v v eQ [AddGate] [add] in
    getClaim p = Some claim /\ prove p = Some (proof, qPrime, qL, qR, vL :: vR :: e :: s :: rest) /\
    verify claim proof bN bG = Some (Accept qPrime qL qR ((vL + vR) * s * e)) /\
    evaluateLR v qPrime qL qR = Some (vL, vR) /\ evaluate eQ qPrime = Some e /\ evaluate add (qL ++ qR) = Some s.
Proof. exact @sumcheck_detects. Qed.
Print Assumptions C74_sumcheck.

(** A verifier that omits the check of every round passes. *)
Theorem C74_sumcheck_blind : forall (ch : list Fr -> Fr) bN bG (v eQ add : list Fr),
  length v = (2 ^ (bG + bN))%nat -> length eQ = (2 ^ bN)%nat -> length add = (2 ^ (bG + bG))%nat ->
  TestSumcheck_with GetClaim (Prove ch) (replay ch) Evaluate EvaluateLeftAndRight bN bG v eQ add = Some true.
Proof. exact sumcheck_blind. Qed.
Print Assumptions C74_sumcheck_blind.

(** Yet that verifier accepts a proof which Verify rejects. *)
Theorem C74_replay_unsound : forall (F : Field) (ch : list F -> F) claim, claim <> 0 ->
  replay ch claim [[0]; [0]; [0]] 1 1 = Some (Accept [ch [0]] [ch [0]] [ch [0]] 0) /\
  Verify ch claim [[0]; [0]; [0]] 1 1 = Some Reject.
Proof. exact @replay_unsound. Qed.
Print Assumptions C74_replay_unsound.

Example C74_sumcheck_ex : forall ch : list Fr -> Fr,
  TestSumcheck_with GetClaim (Prove ch) (replay ch) Evaluate EvaluateLeftAndRight 1 1
    (frs [0; 1; 2; 3]%Z) (frs [0; 1]%Z) (frs [0; 0; 1; 0]%Z) = Some true /\ el 7 <> 0.
Proof. intros ch. split; [apply C74_sumcheck_blind; reflexivity|]. intros H. apply (f_equal frval) in H. vm_compute in H. discriminate H. Qed.

(** TestGetEvals fixes one prover: its claim and the three sums of three rounds. *)
Theorem C74_get_evals : forall (F : Field) (getClaim : Prover F -> option F) onHL onHR onHPrime foldHL foldHR,
  TestGetEvals_with getClaim onHL onHR onHPrime foldHL foldHR = Some true <->
  let v := [fnat 0; fnat 1; fnat 2; fnat 3] in
  let p := NewSingleThreadedProver v v [fnat 0; fnat 1] [AddGate] [[fnat 0; fnat 0; fnat 1; fnat 0]] in
  exists p1 p2 r0 r1 r2,
    getClaim p = Some (fnat 4) /\ onHL p = Some (fnat 0 :: fnat 4 :: fnat 12 :: r0) /\
    foldHL p (fnat 1) = Some p1 /\ onHR p1 = Some (fnat 4 :: fnat 0 :: - fnat 8 :: r1) /\
    foldHR p1 (fnat 0) = Some p2 /\ onHPrime p2 = Some (fnat 0 :: fnat 4 :: fnat 12 :: r2).
Proof. exact @get_evals_detects. Qed.
Print Assumptions C74_get_evals.

(** The sums over h' in place of those over hL are noticed; the sums over hR are not, they have the same three values. *)
Example C74_get_evals_ex :
  TestGetEvals_with (F:=Fr) GetClaim GetEvalsOnHPrime GetEvalsOnHR GetEvalsOnHPrime FoldHL FoldHR <> Some true /\
  vals (GetEvalsOnHR (NewSingleThreadedProver (frs [0; 1; 2; 3]%Z) (frs [0; 1; 2; 3]%Z) (frs [0; 1]%Z) [AddGate] [frs [0; 0; 1; 0]%Z])) = Some [0; 4; 12]%Z.
Proof.
  split; [|vm_compute; reflexivity]. intros H. apply C74_get_evals in H. cbv zeta in H.
  destruct H as (p1 & p2 & r0 & r1 & r2 & _ & H & _).
  apply (f_equal (fun o : option (list Fr) => match o with Some l => frval (nth 1 l 0) | None => 0%Z end)) in H. vm_compute in H. discriminate H.
Qed.

(** TestGKR and TestMultiBGs, on any circuit: the assignment is the expected one and the proof of it is accepted. *)
Theorem C74_gkr : forall (F : Field) (assign : Circuit F -> list (list F) -> option (Assignment F)) prove verify c bN inputs expected,
  testGkr_with assign prove verify c bN inputs expected = Some true <->
  exists outputs pf, assign c inputs = Some expected /\ nth_error expected 2 = Some outputs /\
    prove c expected 1%nat = Some pf /\ verify bN c pf inputs outputs = Some true.
Proof. exact @gkr_detects. Qed.
Print Assumptions C74_gkr.

Theorem C74_gkr_blind : forall (F : Field) (assign : Circuit F -> list (list F) -> option (Assignment F)) prove c bN inputs a outputs pf,
  assign c inputs = Some a -> nth_error a 2 = Some outputs -> prove c a 1%nat = Some pf ->
  testGkr_with assign prove (fun _ _ _ _ _ => Some true) c bN inputs a = Some true.
Proof. exact @gkr_blind. Qed.
Print Assumptions C74_gkr_blind.

(** One wrong expected value: the test of the repository does not pass. *)
Example C74_gkr_ex : forall ch : list Fr -> Fr,
  TestGKR ch (fun _ => mtWhole ch) 1 [frs [1; 2]%Z; frs [3; 4]%Z]
    [[frs [1; 2]%Z; frs [3; 4]%Z]; [frs [3; 2]%Z; frs [7; 12]%Z]; [frs [5; 6]%Z; frs [19; 85]%Z]] <> Some true.
Proof.
  intros ch H. apply C74_gkr in H. destruct H as (o & pf & H & _).
  pose proof (proj1 (C71_gkr_ex ch)) as K. apply C74_gkr in K. destruct K as (o' & pf' & K & _).
  rewrite H in K. apply some_inj in K. apply (f_equal (fun a : list (list (list Fr)) => frval (nth 1 (nth 1 (nth 2 a []) []) 0))) in K.
  vm_compute in K. discriminate K.
Qed.

(** TestMimc *)
Theorem C74_mimc : forall (F : Field) arks (assign : Circuit F -> list (list F) -> option (Assignment F)) permutation combinator
  intermediate initial getClaim prove verify bN nChunks inputs,
  TestMimc_with arks assign permutation combinator intermediate initial getClaim prove verify bN nChunks inputs = Some true ->
  exists c a l0 pf h p0 p1 pI,
    let half := (2 * 2 ^ bN / nChunks / 2)%nat in
    let x := nth 0 (nth 0 inputs []) 0 in
    let key := nth half (nth 0 inputs []) 0 in
    let o := nth 0 (nth 0 (nth 91 a []) []) 0 in
    let r0 := nth 0 (nth 0 (nth 1 a []) []) 0 in
    let r1 := nth half (nth 0 (nth 1 a []) []) 0 in
    let q := repeat 0 bN in
    CreateMimcCircuit arks = Some c /\ assign c inputs = Some a /\ nth_error c 0 = Some l0 /\
    permutation (x - key) key = Some h /\ o = h + key /\
    combinator key x 1 (lGates l0) [1; 0] = Some r0 /\ combinator key x 1 (lGates l0) [0; 1] = Some r1 /\
    intermediate c a 0%nat q [0] [0] 1 0 1%nat = Some p0 /\ getClaim p0 = Some r0 /\
    intermediate c a 0%nat q [1] [0] 1 0 1%nat = Some p1 /\ getClaim p1 = Some r1 /\
    initial c a q [] 1%nat = Some pI /\ getClaim pI = Some o /\
    prove c a 1%nat = Some pf /\ verify bN c pf inputs (nth 91 a []) = Some true.
Proof. exact @mimc_detects. Qed.
Print Assumptions C74_mimc.

Theorem C74_mimc_blind : forall (ch : list Fr -> Fr) mtProve mtClaim m k inputs,
  follows_machine ch 1 (mtProve 1%nat) -> follows_claim 1 (mtClaim 1%nat) -> (0 < k)%nat -> chunked k m 1 inputs ->
  TestMimc_with Arks Assign (MimcPermutation Arks) EvaluateCombinator IntermediateRoundsSumcheckProver InitialRoundSumcheckProver
    (mtClaim 1%nat) (GkrProve ch (mtProve 1%nat)) (fun _ _ _ _ _ => Some true) (m + k) (2 ^ k) inputs = Some true.
Proof. exact mimc_blind. Qed.
Print Assumptions C74_mimc_blind.

(** TestBenchmarkSetup sees only whether the verifier accepts. *)
Theorem C74_benchmark : forall getClaim prove verify bN, TestBenchmarkSetup_with getClaim prove verify bN = Some true <->
  exists p claim proof qP qL qR fin vP vL vR vc, InitializeProverForTests bN = Some p /\ getClaim p = Some claim /\
    prove p = Some (proof, qP, qL, qR, fin) /\ verify claim proof 1%nat 1%nat = Some (Accept vP vL vR vc).
Proof. exact benchmark_detects. Qed.
Print Assumptions C74_benchmark.

Theorem C74_benchmark_blind : forall (ch : list Fr -> Fr) bN,
  TestBenchmarkSetup_with GetClaim (Prove ch) (fun _ _ _ _ => Some (Accept [] [] [] 0)) bN = Some true.
Proof. exact benchmark_blind. Qed.
Print Assumptions C74_benchmark_blind.

(** The sizes of TestMimc: 2^3 instances in 2 chunks; the round constants and inputs meet the hypotheses. *)
Example C74_mimc_ex : forall (ch : list Fr -> Fr) (rnd : nat -> Fr), exists inputs,
  randomInputs rnd 2 3 = Some inputs /\
  TestMimc_with Arks Assign (MimcPermutation Arks) EvaluateCombinator IntermediateRoundsSumcheckProver InitialRoundSumcheckProver
    claimWhole (GkrProve ch (mtWhole ch)) (fun _ _ _ _ _ => Some true) 3 2 inputs = Some true.
Proof.
  intros ch rnd. destruct (C71_random_inputs Fr rnd 2 1) as (inputs & H1 & H2 & _). exists inputs. split; [exact H1|].
  apply (C74_mimc_blind ch (fun _ => mtWhole ch) (fun _ => claimWhole) 2 1 inputs); [apply mtWhole_follows|apply C71_follows_claim|lia|exact H2].
Qed.

(** TestLog2 sees the arguments 1 to 9 only. *)
Theorem C74_log2 : forall f g, TestLog2_with f g = true <-> forall x : Z, (1 <= x <= 9)%Z -> f x = Z.log2 x /\ g x = Z.log2_up x.
Proof. exact log2_detects. Qed.
Print Assumptions C74_log2.

(** Logarithms that are wrong from 10 on pass; a ceiling that rounds powers of two up does not. *)
Example C74_log2_ex : TestLog2_with (fun x => Z.min 3 (Z.log2 x)) (fun x => Z.min 4 (Z.log2_up x)) = true /\
  TestLog2_with Z.log2 (fun x => Z.log2 x + 1)%Z = false.
Proof. split; reflexivity. Qed.
