(** The tables of an honest run, and those of the MiMC circuit (lemmas for PCost3.v). *)
From Coq Require Import List Arith ZArith Lia Bool.
From Verif Require Import Field Go MCommon MPoly LPoly MCircuit SpecCircuit MSumcheck MSumPar MGkr SpecGkr MCost SpecCost MCost2 MCost3 SpecCost3 LCost5 LCost10 LGkr7.
Import ListNotations.

Section S.
  Context {F : Field}.

  Lemma assigned_chunks (c : list (Layer F)) b m k inputs a j : chunked k m b inputs -> assignment_of c (2 ^ m) inputs a -> j < length c ->
    LayerAsBKTWithCopy a j = Some (nth j a []) /\ length (nth j a []) = 2 ^ k.
  Proof.
    intros [I1 _] (A1 & A2 & A3) Hj. split.
    - unfold LayerAsBKTWithCopy. rewrite (get_nth a j []) by lia. f_equal. apply map_id.
    - destruct j as [|j]; [rewrite A2; exact I1|]. destruct (nth_error c j) as [l|] eqn:E; [|apply nth_error_None in E; lia].
      destruct (A3 j l E) as [L _]. lia.
  Qed.

  Lemma honest_first (c : list (Layer F)) b m k nCore inputs a : 0 < nCore -> (forall l, In l c -> claimable l) -> fits b c -> chunked k m b inputs ->
    assignment_of c (2 ^ m) inputs a -> forall l qP q, nth_error c (length c - 1) = Some l -> length qP = m + k -> length q = lBGOutputs l ->
    exists p, InitialRoundSumcheckProver c a qP q nCore = Some p /\ WInitialRoundSumcheckProver c a qP q nCore = Some (p, first_tables l (m + k)).
  Proof.
    intros H1 H2 H3 H4 H5 l qP q Hl HP Hq. destruct (initial_claim c b m k nCore inputs a H1 H2 H3 H4 H5 l qP q Hl HP Hq) as (p & E & _).
    exists p. split; [exact E|]. assert (Hj : length c - 1 < length c) by (destruct c; [discriminate Hl|cbn; lia]).
    destruct (assigned_chunks c b m k inputs a _ H4 H5 Hj) as [V1 V2]. rewrite <- HP. exact (initial_count c a qP q nCore l _ k p Hl Hq V1 V2 E).
  Qed.

  Lemma honest_inner (c : list (Layer F)) b m k nCore inputs a : 0 < nCore -> (forall l, In l c -> claimable l) -> fits b c -> chunked k m b inputs ->
    assignment_of c (2 ^ m) inputs a -> forall j l qP qL qR lamL lamR, nth_error c j = Some l -> length qP = m + k -> length qL = lBGOutputs l -> length qR = lBGOutputs l ->
    exists p, IntermediateRoundsSumcheckProver c a j qP qL qR lamL lamR nCore = Some p /\
      WIntermediateRoundsSumcheckProver c a j qP qL qR lamL lamR nCore = Some (p, inner_tables l (m + k)).
  Proof.
    intros H1 H2 H3 H4 H5 j l qP qL qR x y Hl HP HL HR. destruct (intermediate_claim c b m k nCore inputs a H1 H2 H3 H4 H5 j l qP qL qR x y Hl HP HL HR) as (p & E & _).
    exists p. split; [exact E|]. assert (Hj : j < length c) by (apply nth_error_Some; congruence).
    destruct (assigned_chunks c b m k inputs a _ H4 H5 Hj) as [V1 V2]. rewrite <- HP. exact (intermediate_count c a j qP qL qR x y nCore l _ k p Hl HL HR V1 V2 E).
  Qed.

  (** With the sum-check of one thread (C95). *)
  Lemma mimc_tables (ark ark' : F) bN :
    let l := NewLayer [MkWire 1 0 0 (CipherGate ark); MkWire 1 0 1 CopyGate] in let l' := NewLayer [MkWire 1 0 0 (CipherGate ark')] in
    inner_tables l bN = 2 ^ bN + 31 /\ first_tables l' bN = 2 ^ bN - 1 /\
    inner_tables l bN + layer_work l bN [CipherPrice; CopyPrice] = 124 * 2 ^ bN + 99 * bN + 100 /\
    first_tables l' bN + layer_work l' bN [CipherPrice] = 103 * 2 ^ bN + 90 * bN + 59.
  Proof.
    intros l l'. destruct (mimc_mid ark bN) as (_ & _ & _ & W1). destruct (mimc_last ark' bN) as (_ & _ & _ & W2). fold l in W1. fold l' in W2.
    assert (P : 2 ^ bN <> 0) by (apply Nat.pow_nonzero; lia).
    assert (E1 : inner_tables l bN = 2 ^ bN + 31) by (unfold inner_tables; replace (wiring_work l) with 8 by reflexivity; replace (length (lGates l) * (2 * 2 ^ (2 * lBGInputs l))) with 16 by reflexivity; lia).
    assert (E2 : first_tables l' bN = 2 ^ bN - 1) by (unfold first_tables; replace (wiring_work l') with 0 by reflexivity; lia).
    split; [exact E1|]. split; [exact E2|]. rewrite W1, W2, E1, E2. split; lia.
  Qed.
End S.

Local Open Scope Z_scope.
(** All 91 layers, against the permutations of all instances. *)
Lemma mimc_overhead (F : Field) (ark ark' : F) bN : (13 <= bN)%nat ->
  let l := NewLayer [MkWire 1 0 0 (CipherGate ark); MkWire 1 0 1 CopyGate] in let l' := NewLayer [MkWire 1 0 0 (CipherGate ark')] in
  90 * Z.of_nat (inner_tables l bN + layer_work l bN [CipherPrice; CopyPrice]) + Z.of_nat (first_tables l' bN + layer_work l' bN [CipherPrice])
  < 31 * (364 * 2 ^ Z.of_nat bN).
Proof.
  intros Hb l l'. destruct (mimc_tables ark ark' bN) as (_ & _ & E1 & E2). fold l in E1. fold l' in E2. rewrite E1, E2. clear E1 E2.
  assert (HB : 9000 * Z.of_nat bN + 9059 < 21 * 2 ^ Z.of_nat bN).
  { induction Hb as [|b Hb IH]; [reflexivity|]. replace (Z.of_nat (S b)) with (Z.succ (Z.of_nat b)) by lia. rewrite Z.pow_succ_r by lia. lia. }
  rewrite !Nat2Z.inj_add, !Nat2Z.inj_mul, !Nat2Z.inj_pow. change (Z.of_nat 124) with 124. change (Z.of_nat 99) with 99. change (Z.of_nat 100) with 100.
  change (Z.of_nat 103) with 103. change (Z.of_nat 90) with 90. change (Z.of_nat 59) with 59. change (Z.of_nat 2) with 2. lia.
Qed.
