(** Property theorems for the size of the gadgets (C75): the number of multiplications and assertions each adds. *)
From Coq Require Import List Arith NArith Lia Bool.
From Verif Require Import Field FrPrime Fr Go MHash MArk MGkr MSnark SpecSnark LSnark6 SpecSize LSize LSize2 PHash PSnark.
Import ListNotations.

(* ---------------------------------------------------------------- C75 *)
(** Evaluating a table of 2^n entries takes 2^n - 1 multiplications. *)
Theorem C75_eval : forall (F : Field) table xs, proper table -> proper xs -> length table = 2 ^ length xs ->
  costs (SEval (F:=F) table xs) (2 ^ length xs - 1) 0 (fun v => 0 < v).
Proof. exact @cost_eval. Qed.
Print Assumptions C75_eval.

(** Evaluating at two points with a common part of n coordinates takes 2^bG tables of 2^n entries once. *)
Theorem C75_eval_mixed : forall (F : Field) table qL qR qPrime, proper table -> proper qL -> proper qR -> proper qPrime ->
  length table = 2 ^ (length qL + length qPrime) -> length qR = length qL ->
  costs (SEvalMixed (F:=F) table qL qR qPrime) (2 ^ length qL * (2 ^ length qPrime - 1) + 2 * (2 ^ length qL - 1)) 0
    (fun v => 0 < fst v /\ 0 < snd v).
Proof. exact @cost_eval_mixed. Qed.
Print Assumptions C75_eval_mixed.

Theorem C75_eq_eval : forall (F : Field) q h, proper h -> costs (SEqEval (F:=F) q h) (3 * length q) 0 (fun v => 0 < v).
Proof. exact @cost_eq_eval. Qed.
Print Assumptions C75_eq_eval.

(** A polynomial takes one multiplication for each coefficient. *)
Theorem C75_univariate : forall (F : Field) coeffs x, coeffs <> [] -> 0 < x ->
  costs (SUniEval (F:=F) coeffs x) (length coeffs) 0 (fun v => 0 < v).
Proof. exact @cost_uni_eval. Qed.
Print Assumptions C75_univariate.

(** MiMC takes 4 * 91 multiplications for each block. *)
Theorem C75_hash : forall (F : Field) (arks : list F) stream, costs (SMimcHash arks stream) (364 * length stream) 0 (fun v => 0 < v).
Proof. exact @cost_hash. Qed.
Print Assumptions C75_hash.

(** A sum-check takes 365 for each coefficient and one assertion for each round. *)
Theorem C75_sumcheck : forall (F : Field) (arks : list F) polys claim bG, (forall p, In p polys -> p <> []) -> 2 * bG <= length polys ->
  costs (SSumcheckAssertValid arks polys claim bG) (365 * length (concat polys)) (length polys)
    (fun r => let '(hL, hR, hPrime, last) := r in
      proper hL /\ proper hR /\ proper hPrime /\ length hL = bG /\ length hR = bG /\ length hPrime = length polys - 2 * bG).
Proof. exact @cost_sumcheck. Qed.
Print Assumptions C75_sumcheck.

(** The hypotheses are met, and the gadgets run: a table of four entries and a sum-check of three rounds, in a system with
    ten variables. *)
Definition ten : CS Fr := MkCS 11 [] [].
Definition sizes {A} (o : option (A * CS Fr)) : option (nat * nat) := option_map (fun p => (muls (snd p), asserts (snd p))) o.
Example C75_ex : proper [1; 2; 3; 4] /\ sizes (SEval [1; 2; 3; 4] [5; 6] ten) = Some (3, 0) /\
  sizes (SEvalMixed [1; 2; 3; 4] [5] [6] [7] ten) = Some (4, 0) /\ sizes (SEqEval [1; 2] [3; 4] ten) = Some (6, 0) /\
  sizes (SUniEval [1; 2; 3] 4 ten) = Some (3, 0) /\ sizes (SMimcHash Arks [1; 2] ten) = Some (728, 0) /\
  sizes (SSumcheckAssertValid Arks [[1; 2; 3]; [4; 5]; [6]] 7 1 ten) = Some (2190, 3).
Proof.
  split; [intros [H|[H|[H|[H|[]]]]]; discriminate|]. repeat split; vm_compute; reflexivity.
Qed.

(** The GKR gadget for 2^bN hashes: three multiplications for each hash, and a part linear in bN. *)
Theorem C75_gadget : forall (F : Field) (arks : list F) sc bN p (cs : CS F) qPI vIn vOut, 91 <= length arks ->
  SCreateMimcCircuit arks = Some sc -> cs_ok cs -> proof_vars cs bN sc p -> vars cs (qPI ++ vIn ++ vOut) ->
  length qPI = bN -> length vIn = 2 * 2 ^ bN -> length vOut = 2 ^ bN ->
  proper (sLeft p ++ sRight p ++ qPI ++ vIn ++ vOut) ->
  exists cs', SGkrAssertValid arks p sc [] qPI vIn vOut cs = Some (tt, cs') /\
    N.of_nat (muls cs') = (N.of_nat (muls cs) + 3 * 2 ^ N.of_nat bN + 299208 * N.of_nat bN + 466268)%N /\
    asserts cs' = asserts cs + 91 * bN + 275.
Proof. exact @gadget_size. Qed.
Print Assumptions C75_gadget.

(** The circuit of snark/gkr/mimc_test.go, compiled for any bN, with its variables (one of them the constant one). *)
Theorem C75_test_circuit : forall (F : Field) (arks : list F) sc bN cs p qP vIn vOut, 91 <= length arks -> SCreateMimcCircuit arks = Some sc ->
  AllocateGKRMimcTestCircuit bN sc = (cs, (p, qP, vIn, vOut)) ->
  nbWires cs = 1 + 91 * (14 + 9 * bN) + bN + 3 * 2 ^ bN /\
  exists cs', SGkrAssertValid arks p sc [] qP vIn vOut cs = Some (tt, cs') /\
    N.of_nat (muls cs') = (3 * 2 ^ N.of_nat bN + 299208 * N.of_nat bN + 466268)%N /\
    asserts cs' = 91 * bN + 275.
Proof. exact @test_circuit_size. Qed.
Print Assumptions C75_test_circuit.

(** Hashing the messages in the constraint system, one block each *)
Theorem C75_direct : forall (F : Field) (arks : list F) ms (cs : CS F), 91 <= length arks -> cs_ok cs -> vars cs ms ->
  exists hs cs', mmap (fun m => SMimcHash arks [m]) ms cs = Some (hs, cs') /\
    muls cs' = muls cs + 364 * length ms /\ asserts cs' = asserts cs.
Proof. exact @direct_size. Qed.
Print Assumptions C75_direct.

(** The gadget is the smaller of the two from 2^14 hashes on, and takes less than four multiplications for each hash from 2^23 on. *)
Theorem C75_threshold : forall n : N, (3 * 2 ^ n + 299208 * n + 466268 < 364 * 2 ^ n <-> 14 <= n)%N.
Proof. exact threshold_direct. Qed.
Print Assumptions C75_threshold.

Theorem C75_four : forall n : N, (3 * 2 ^ n + 299208 * n + 466268 < 4 * 2 ^ n <-> 23 <= n)%N.
Proof. exact threshold_four. Qed.
Print Assumptions C75_four.

(** The round constants of the code give a circuit, whose gadget compiles for bN = 2, the size of TestMimcCircuit. *)
Example C75_gadget_ex : exists sc cs p qP vIn vOut cs', SCreateMimcCircuit Arks = Some sc /\
  AllocateGKRMimcTestCircuit 2 sc = (cs, (p, qP, vIn, vOut)) /\ nbWires cs = 2927 /\
  SGkrAssertValid Arks p sc [] qP vIn vOut cs = Some (tt, cs') /\ N.of_nat (muls cs') = 1064696%N /\ asserts cs' = 457.
Proof.
  pose proof (SCreateMimcCircuit_ok Arks enough_arks) as E. set (sc := smimc _ _) in E. clearbody sc.
  destruct (AllocateGKRMimcTestCircuit 2 sc) as [cs [[[p qP] vIn] vOut]] eqn:EC.
  destruct (C75_test_circuit Fr Arks sc 2 cs p qP vIn vOut enough_arks E EC) as (H & cs' & E1 & E2 & E3).
  exists sc, cs, p, qP, vIn, vOut, cs'. repeat (split; [first [reflexivity|assumption]|]). assumption.
Qed.
