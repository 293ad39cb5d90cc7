(** Property theorems for the test circuits of package snark (C70): what each test circuit checks, and that the tests pass
    for every size, or for which sizes they do not. *)
From Coq Require Import List Arith ZArith Lia Bool.
From Verif Require Import Field FrPrime Fr Go MCommon MPoly Spec MHash SpecHash MSumcheck SpecSumcheck MSnark SpecSnark MTesting
  MGnarkTests SpecGnarkTests LGnarkTests LGnarkTests2 PPoly PCircuit.
Import ListNotations.

(* ---------------------------------------------------------------- C70 *)
(** snark/polynomial/eq_test.go: the circuit compiles, and is solved exactly by the values with ExpectedValue[k] = eq(H[k], Q[k]). *)
Theorem C70_eq_circuit : forall (F : Field) n m (cs : CS F) vH vQ vE, EqCompile n m = (cs, (vH, vQ, vE)) ->
  exists cs', EqDefine vH vQ vE cs = Some (tt, cs') /\
    forall H Q E, rect n m H -> rect n m Q -> length E = n ->
      (solves cs' (vH ++ vQ ++ [vE]) (map (map Some) (H ++ Q ++ [E])) <->
       forall k, k < n -> EvalEq (nth k H []) (nth k Q []) = Some (nth k E 0%F)).
Proof. exact @EqDefine_ok. Qed.
Print Assumptions C70_eq_circuit.

(** TestEq passes for every number of tests equal to the size of a test, and all vectors. *)
Theorem C70_eq_square : forall (F : Field) n (cs : CS F) vH vQ vE H Q, EqCompile n n = (cs, (vH, vQ, vE)) -> rect n n H -> rect n n Q ->
  exists cs' eH eQ eE, EqDefine vH vQ vE cs = Some (tt, cs') /\ EqAssign (EqWitness n n) H Q = Some (eH, eQ, eE) /\
    solves cs' (vH ++ vQ ++ [vE]) (eH ++ eQ ++ [eE]).
Proof. exact @EqTest_square. Qed.
Print Assumptions C70_eq_square.

(** Assign runs over the tests where it should run over the elements of a test.  With fewer tests than elements it
    leaves variables without a value, and the test fails although the values are right. *)
Theorem C70_eq_rectangular : forall (F : Field) n m (cs : CS F) vH vQ vE H Q, 0 < n < m ->
  EqCompile n m = (cs, (vH, vQ, vE)) -> rect n m H -> rect n m Q ->
  exists cs' eH eQ eE, EqDefine vH vQ vE cs = Some (tt, cs') /\ EqAssign (EqWitness n m) H Q = Some (eH, eQ, eE) /\
    ~ solves cs' (vH ++ vQ ++ [vE]) (eH ++ eQ ++ [eE]).
Proof. exact @EqTest_rectangular. Qed.
Print Assumptions C70_eq_rectangular.

(** With more tests than elements it panics. *)
Theorem C70_eq_panics : forall (F : Field) n m (H Q : list (list F)), rect n m H -> length Q = n -> m < n ->
  EqAssign (EqWitness n m) H Q = None.
Proof. exact @EqAssign_panics. Qed.
Print Assumptions C70_eq_panics.

(** snark/hash/mimc_test.go *)
Theorem C70_hash_circuit : forall (F : Field) (Arks : list F) n m cs vX vY, 91 <= length Arks -> HashCompile n m = (cs, (vX, vY)) ->
  exists cs', HashDefine Arks vX vY cs = Some (tt, cs') /\
    forall X Y, rect n m X -> length Y = n ->
      (solves cs' (vX ++ [vY]) (map (map Some) (X ++ [Y])) <->
       forall k, k < n -> MimcHash Arks (nth k X []) = Some (nth k Y 0%F)).
Proof. exact @HashDefine_ok. Qed.
Print Assumptions C70_hash_circuit.

Theorem C70_hash_test : forall (F : Field) (Arks : list F) n m cs vX vY x, 91 <= length Arks ->
  HashCompile n m = (cs, (vX, vY)) -> rect n m x ->
  exists cs' cX cY, HashDefine Arks vX vY cs = Some (tt, cs') /\ HashAssign Arks (HashWitness n m) x = Some (cX, cY) /\
    solves cs' (vX ++ [vY]) (cX ++ [cY]).
Proof. exact @HashTest_ok. Qed.
Print Assumptions C70_hash_test.

(** snark/polynomial/multilinear_test.go *)
Theorem C70_multilinear_circuit : forall (F : Field) nVars (cs : CS F) vP vX vY, MultilinearCompile nVars = (cs, (vP, vX, vY)) ->
  exists cs', MultilinearDefine vP vX vY cs = Some (tt, cs') /\
    forall p x y, length p = 2 ^ nVars -> length x = nVars ->
      (solves cs' [vP; vX; [vY]] (map (map Some) [p; x; [y]]) <-> Evaluate p x = Some y).
Proof. exact @MultilinearDefine_ok. Qed.
Print Assumptions C70_multilinear_circuit.

Theorem C70_multilinear_test : forall (F : Field) nVars (cs : CS F) vP vX vY p x, MultilinearCompile nVars = (cs, (vP, vX, vY)) ->
  length p = 2 ^ nVars -> length x = nVars ->
  exists cs' wP wX wY, MultilinearDefine vP vX vY cs = Some (tt, cs') /\ MultilinearWitness nVars p x = Some (wP, wX, wY) /\
    solves cs' [vP; vX; [vY]] [wP; wX; [wY]].
Proof. exact @MultilinearTest_ok. Qed.
Print Assumptions C70_multilinear_test.

(** snark/polynomial/univariate_test.go *)
Theorem C70_univariate_circuit : forall (F : Field) degree (cs : CS F) vC vZ vE, UnivariateCompile degree = (cs, (vC, vZ, vE)) ->
  exists cs', UnivariateDefine vC vZ vE cs = Some (tt, cs') /\
    forall c zno e, length c = S degree ->
      (solves cs' [vC; [vZ; vE]] (map (map Some) [c; [zno; e]]) <->
       zno = (peval c 0 + peval c 1)%F /\ e = peval c (fnat 5)).
Proof. exact @UnivariateDefine_ok. Qed.
Print Assumptions C70_univariate_circuit.

(** snark/sumcheck/sumcheck_test.go: hR and hL are named in the other order than AssertValid returns them, so ExpectedQR
    is compared with the left challenges and ExpectedQL with the right ones. *)
Theorem C70_sumcheck_circuit : forall (F : Field) (Arks : list F) bN dL dR dP cs vC vPr vL vR vP, 91 <= length Arks ->
  SumcheckCompile bN 1 dL dR dP = (cs, (vC, vPr, vL, vR, vP)) ->
  exists cs', SumcheckDefine Arks vC vPr vL vR vP cs = Some (tt, cs') /\
    forall claim proof eL eR eP, map (@length _) proof = dL + 1 :: dR + 1 :: repeat (dP + 1) bN ->
      length eL = 1 -> length eR = 1 -> length eP = bN ->
      (solves cs' ([vC] :: vPr ++ [vL; vR; vP]) (map (map Some) ([claim] :: proof ++ [eL; eR; eP])) <->
       exists last, Verify (challenge Arks) claim proof bN 1 = Some (Accept eP eR eL last)).
Proof. exact @SumcheckDefine_ok. Qed.
Print Assumptions C70_sumcheck_circuit.

(** TestSumcheckCircuit passes for every bN: the names are swapped once more when the prover's challenges are taken. *)
Theorem C70_sumcheck_test : forall (Arks : list Fr) bN cs vC vPr vL vR vP, 91 <= length Arks ->
  SumcheckCompile bN 1 2 8 8 = (cs, (vC, vPr, vL, vR, vP)) ->
  exists cs' s firstClaim proof qPrime qL qR fc fin w c p l r q,
    SumcheckDefine Arks vC vPr vL vR vP cs = Some (tt, cs') /\
    InitializeProverForTests bN = Some s /\ GetClaim s = Some firstClaim /\ Prove (challenge Arks) s = Some (proof, qPrime, qL, qR, fc) /\
    Verify (challenge Arks) firstClaim proof bN 1 = Some (Accept qPrime qL qR fin) /\
    SumcheckWitness bN 1 2 8 8 firstClaim proof qR qL qPrime = Some w /\ w = (c, p, l, r, q) /\
    solves cs' ([vC] :: vPr ++ [vL; vR; vP]) ([c] :: p ++ [l; r; q]).
Proof. exact SumcheckTest_ok. Qed.
Print Assumptions C70_sumcheck_test.

(** The numbers of TestUnivariate are right: X^3 + 2X^2 + 3X + 4 gives 14 and 194; and 195 would be refused. *)
Example C70_univariate_ex :
  exists cs', (let '(cs, (vC, vZ, vE)) := UnivariateCompile 3 in UnivariateDefine vC vZ vE cs) = Some (tt, cs') /\
    solves cs' [[1; 2; 3; 4]; [5; 6]] (map (map Some) [frs [4; 3; 2; 1]%Z; frs [14; 194]%Z]) /\
    ~ solves cs' [[1; 2; 3; 4]; [5; 6]] (map (map Some) [frs [4; 3; 2; 1]%Z; frs [14; 195]%Z]).
Proof.
  destruct (C70_univariate_circuit Fr 3 _ _ _ _ eq_refl) as (cs' & E & H). exists cs'. split; [exact E|]. split.
  - apply (H (frs [4; 3; 2; 1]%Z) (el 14) (el 194)); [reflexivity|]. split; apply fr_eq; vm_compute; reflexivity.
  - intros HS. apply (H (frs [4; 3; 2; 1]%Z) (el 14) (el 195)) in HS; [|reflexivity]. destruct HS as [_ HS]. apply (f_equal frval) in HS.
    vm_compute in HS. discriminate.
Qed.

(** One test of two elements, with eq = (2*5 + (-1)*(-4)) * (3*7 + (-2)*(-6)) = 462: the second element of each row is left without a value. *)
Example C70_eq_ex : EqAssign (EqWitness 1 2) [frs [2; 3]%Z] [frs [5; 7]%Z] =
    Some ([[Some (el 2); None]], [[Some (el 5); None]], [Some (el 462)]) /\
  rect 1 2 [frs [2; 3]%Z] /\ rect 1 2 [frs [5; 7]%Z].
Proof.
  split; [|split; (split; [reflexivity|intros r [<-|[]]; reflexivity])].
  rewrite (EqAssign_ok 1 2 [frs [2; 3]%Z] [frs [5; 7]%Z] [el 462]);
    try (split; [reflexivity|intros r [<-|[]]; reflexivity]); try reflexivity; try lia.
  intros k Hk. destruct k; [|lia]. rewrite LPoly.EvalEq_spec by (cbn; lia). f_equal.
Qed.
