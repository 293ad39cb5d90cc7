(** Forged proofs under the hash function and the round constants of the code (statements for PForge.v). *)
From Coq Require Import List Arith Lia Bool ZArith.
From Verif Require Import Field FrPrime Fr Go MCommon Spec MPoly LPoly3 MCircuit SpecCircuit MSumcheck SpecSumcheck MSumPar SpecSumPar MGkr SpecGkr
  MHash MArk SpecHash LHash MSnark SpecSnark LSnark10 LForge LForge2 LZeroHash.
Import ListNotations.
Local Open Scope F_scope.

Lemma code_arks : (91 <= length Arks)%nat.
Proof. unfold Arks. rewrite map_length. apply Nat.leb_le. vm_compute. reflexivity. Qed.

Lemma code_zeros (h3 h9 : Fr) : GetChallenge Arks (repeat 0 3) = Some h3 -> GetChallenge Arks (repeat 0 9) = Some h9 -> h3 <> h9.
Proof.
  unfold GetChallenge. rewrite !(challenge_MimcHash Arks _ code_arks). intros E3 E9 E. apply zeros_no_collision. congruence.
Qed.

Theorem native_forged_code (ch : list Fr -> Fr) m k : (forall seed, GetChallenge Arks seed = Some (ch seed)) ->
  (0 < k)%nat -> (2 <= m + k)%nat -> (Z.of_nat (m + k) < frModulus)%Z ->
  exists c l inputs a pf, CreateMimcCircuit Arks = Some c /\ nth_error c 90 = Some l /\ chunked k m 1 inputs /\ Assign c inputs = Some a /\
    let zeros := repeat (repeat 0 (2 ^ m)) (2 ^ k) in
    output_claim (m + k) m l (nth 91 a []) <> output_claim (m + k) m l zeros /\
    length (ClaimsLeft pf) = 91%nat /\ length (ClaimsRight pf) = 91%nat /\
    map (map (@length Fr)) (SumcheckProofs pf) = repeat (3 :: 9 :: repeat 9 (m + k))%nat 91 /\
    forall mm, GkrVerifyWith ch mm (m + k) c pf inputs zeros = Some true.
Proof.
  intros Hch Hk Hn HZ. apply (native_forged Arks ch m k code_arks Hk Hn HZ).
  assert (E : forall seed, ch seed = challenge Arks seed).
  { intros seed. pose proof (Hch seed) as H. unfold GetChallenge in H. rewrite (challenge_MimcHash Arks seed code_arks) in H. congruence. }
  rewrite !E. exact zeros_no_collision.
Qed.

Theorem gadget_forged_code bN : (2 <= bN)%nat -> (Z.of_nat bN < frModulus)%Z ->
  exists c sc vi a, CreateMimcCircuit Arks = Some c /\ SCreateMimcCircuit Arks = Some sc /\ Assign c [vi] = Some a /\
    mle (nth 0 (nth 91 a []) []) (count bN) <> 0 /\
    forall cs p qP vIn vOut, AllocateGKRMimcTestCircuit bN sc = (cs, (p, qP, vIn, vOut)) ->
    forall q, length q = bN ->
    exists cs' w, SGkrAssertValid Arks p sc [] qP vIn vOut cs = Some (tt, cs') /\ satisfied w cs' /\
      map w qP = q /\ map w vIn = vi /\ map w vOut = repeat 0 (2 ^ bN).
Proof. intros Hn HZ. exact (gadget_forged Arks bN code_arks Hn HZ zeros_no_collision). Qed.
