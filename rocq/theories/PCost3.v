(** C97: the number of field multiplications of the tables that the GKR prover makes for a layer. *)
From Coq Require Import List Arith ZArith Lia Bool.
From Verif Require Import Field Fr Go MCommon MPoly MCircuit SpecCircuit MSumcheck MSumPar MGkr SpecGkr MCost SpecCost MCost2 MCost3 SpecCost3
  LPoly LPoly2 LCost9 LCost10 LCost11 PPoly PCircuit PGkr.
Import ListNotations.

(* ---------------------------------------------------------------- C97 *)
(** The counting model is the model: without the counts it returns the same, or panics in the same cases. *)
Theorem C97_first_values : forall (F : Field) c (a : Assignment F) qP q nCore,
  erase (WInitialRoundSumcheckProver c a qP q nCore) = InitialRoundSumcheckProver c a qP q nCore.
Proof. exact @er_Initial. Qed.
Print Assumptions C97_first_values.
Theorem C97_inner_values : forall (F : Field) c (a : Assignment F) j qP qL qR lamL lamR nCore,
  erase (WIntermediateRoundsSumcheckProver c a j qP qL qR lamL lamR nCore) = IntermediateRoundsSumcheckProver c a j qP qL qR lamL lamR nCore.
Proof. exact @er_Intermediate. Qed.
Print Assumptions C97_inner_values.

(** The table of eq: one multiplication per entry but the first, and no more when it is made in chunks, on however many cores. *)
Theorem C97_eq_values : forall (F : Field) (q : list F) nChunks nCore, erase (WGetChunkedEqTable q nChunks nCore) = GetChunkedEqTable q nChunks nCore.
Proof. exact @er_Chunked. Qed.
Print Assumptions C97_eq_values.
Theorem C97_eq_table : forall (F : Field) (q t : list F), GetFoldedEqTable q = Some t -> WGetFoldedEqTable q = Some (t, 2 ^ length q - 1).
Proof. exact @folded_count. Qed.
Print Assumptions C97_eq_table.
Theorem C97_eq_chunks : forall (F : Field) (q : list F) k nCore ts, GetChunkedEqTable q (2 ^ k) nCore = Some ts ->
  WGetChunkedEqTable q (2 ^ k) nCore = Some (ts, 2 ^ length q - 1).
Proof. exact @chunked_count. Qed.
Print Assumptions C97_eq_chunks.

(** The wiring tables at one point, and the combination of two tables. *)
Theorem C97_wiring : forall (F : Field) (l : Layer F) q ts, length q = lBGOutputs l -> GetStaticTable l q = Some ts -> WGetStaticTable l q = Some (ts, wiring_work l).
Proof. exact @static_count. Qed.
Print Assumptions C97_wiring.
Theorem C97_combination : forall (F : Field) (t0 t1 : list F) a0 a1 r, LinearCombination t0 t1 a0 a1 = Some r ->
  WLinearCombination t0 t1 a0 a1 = Some (r, 2 * length t1).
Proof. exact @linear_count. Qed.
Print Assumptions C97_combination.

(** On an assignment made by the circuit, all tables of the last layer and of a layer below it. *)
Theorem C97_first : forall (F : Field) (c : list (Layer F)) b m k nCore inputs a,
  0 < nCore -> (forall l, In l c -> claimable l) -> fits b c -> chunked k m b inputs -> assignment_of c (2 ^ m) inputs a ->
  forall l qP q, nth_error c (length c - 1) = Some l -> length qP = m + k -> length q = lBGOutputs l ->
  exists p, InitialRoundSumcheckProver c a qP q nCore = Some p /\ WInitialRoundSumcheckProver c a qP q nCore = Some (p, first_tables l (m + k)).
Proof. exact @honest_first. Qed.
Print Assumptions C97_first.
Theorem C97_inner : forall (F : Field) (c : list (Layer F)) b m k nCore inputs a,
  0 < nCore -> (forall l, In l c -> claimable l) -> fits b c -> chunked k m b inputs -> assignment_of c (2 ^ m) inputs a ->
  forall j l qP qL qR lamL lamR, nth_error c j = Some l -> length qP = m + k -> length qL = lBGOutputs l -> length qR = lBGOutputs l ->
  exists p, IntermediateRoundsSumcheckProver c a j qP qL qR lamL lamR nCore = Some p /\
    WIntermediateRoundsSumcheckProver c a j qP qL qR lamL lamR nCore = Some (p, inner_tables l (m + k)).
Proof. exact @honest_inner. Qed.
Print Assumptions C97_inner.

(** The two kinds of layers of the MiMC circuit: the tables alone, and together with the sum-check of one thread (C95). *)
Theorem C97_mimc : forall (F : Field) (ark ark' : F) bN,
  let l := NewLayer [MkWire 1 0 0 (CipherGate ark); MkWire 1 0 1 CopyGate] in let l' := NewLayer [MkWire 1 0 0 (CipherGate ark')] in
  inner_tables l bN = 2 ^ bN + 31 /\ first_tables l' bN = 2 ^ bN - 1 /\
  inner_tables l bN + layer_work l bN [CipherPrice; CopyPrice] = 124 * 2 ^ bN + 99 * bN + 100 /\
  first_tables l' bN + layer_work l' bN [CipherPrice] = 103 * 2 ^ bN + 90 * bN + 59.
Proof. exact @mimc_tables. Qed.
Print Assumptions C97_mimc.

(** From 2^13 instances on, the tables and the sum-checks of one thread of all 91 layers stay below 31 times the permutations
    of all instances (364 multiplications each, C96_permutation); the hashes of the challenges not counted. *)
Theorem C97_overhead : forall (F : Field) (ark ark' : F) bN, 13 <= bN ->
  let l := NewLayer [MkWire 1 0 0 (CipherGate ark); MkWire 1 0 1 CopyGate] in let l' := NewLayer [MkWire 1 0 0 (CipherGate ark')] in
  (90 * Z.of_nat (inner_tables l bN + layer_work l bN [CipherPrice; CopyPrice]) + Z.of_nat (first_tables l' bN + layer_work l' bN [CipherPrice])
   < 31 * (364 * 2 ^ Z.of_nat bN))%Z.
Proof. exact mimc_overhead. Qed.
Print Assumptions C97_overhead.

(** The table of three coordinates, whole and in four chunks on two cores; too many chunks panic. *)
Example C97_ex : option_map snd (WGetFoldedEqTable (frs [2; 3; 5]%Z)) = Some 7 /\ option_map snd (WGetChunkedEqTable (frs [2; 3; 5]%Z) 4 2) = Some 7 /\
  (exists t, GetFoldedEqTable (frs [2; 3; 5]%Z) = Some t) /\ (exists ts, GetChunkedEqTable (frs [2; 3; 5]%Z) (2 ^ 2) 2 = Some ts) /\
  option_map snd (WGetChunkedEqTable (frs [2]%Z) 4 2) = None /\
  option_map snd (WLinearCombination (frs [2; 3]%Z) (frs [5; 7]%Z) (el 1) (el 3)) = Some 4 /\
  option_map snd (WGetStaticTable (NewLayer [MkWire 1 0 0 (CipherGate (el 5)); MkWire 1 0 1 CopyGate]) (frs [10]%Z)) = Some 8.
Proof.
  split; [vm_compute; reflexivity|]. split; [vm_compute; reflexivity|]. split; [eexists; apply GetFoldedEqTable_spec|].
  split; [eexists; apply GetChunkedEqTable_spec; [lia|exact (le_S _ _ (le_n 2))]|]. split; [vm_compute; reflexivity|]. split; vm_compute; reflexivity.
Qed.

(** Both layers of the small circuit. *)
Example C97_layers : exists p p', let a := assign toy_circuit toy_inputs in
  WInitialRoundSumcheckProver toy_circuit a (frs [7]%Z) (frs []%Z) 2 = Some (p, 1) /\
  WIntermediateRoundsSumcheckProver toy_circuit a 0 (frs [7]%Z) (frs [2]%Z) (frs [3]%Z) (el 1) (el 4) 2 = Some (p', 33).
Proof.
  destruct (nth_error toy_circuit 1) as [l|] eqn:E1; [|discriminate E1]. destruct (nth_error toy_circuit 0) as [l0|] eqn:E0; [|discriminate E0].
  destruct (C97_first Fr toy_circuit 1 0 1 2 toy_inputs (assign toy_circuit toy_inputs)) with (l := l) (qP := frs [7]%Z) (q := frs []%Z) as (p & _ & H);
    [lia|exact toy_claimable|repeat split|exact toy_chunked|apply toy_assignment; exact toy_chunked|exact E1|reflexivity|rewrite <- (some_eq _ _ E1); reflexivity|].
  destruct (C97_inner Fr toy_circuit 1 0 1 2 toy_inputs (assign toy_circuit toy_inputs)) with (j := 0) (l := l0) (qP := frs [7]%Z) (qL := frs [2]%Z) (qR := frs [3]%Z) (lamL := el 1) (lamR := el 4) as (p' & _ & H');
    [lia|exact toy_claimable|repeat split|exact toy_chunked|apply toy_assignment; exact toy_chunked|exact E0|reflexivity|rewrite <- (some_eq _ _ E0); reflexivity|rewrite <- (some_eq _ _ E0); reflexivity|].
  exists p, p'. rewrite <- (some_eq _ _ E1) in H. rewrite <- (some_eq _ _ E0) in H'. split; [exact H|exact H'].
Qed.
