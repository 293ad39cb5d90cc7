(** Property theorems about forged proofs: the challenges depend on one round polynomial only (C66). *)
From Coq Require Import List Arith ZArith Lia Bool.
From Verif Require Import Field Go Trans MCommon Spec MPoly MCircuit SpecCircuit MSumcheck SpecSumcheck MSumPar SpecSumPar MGkr SpecGkr
  MHash MArk SpecHash MSnark SpecSnark LPoly3 PHash LForge LForge2 LZeroHash LForge3 FrPrime Fr PPoly PCircuit PSumcheck PSumPar PGkr PSnark.
Import ListNotations.

(* ---------------------------------------------------------------- C66 *)
(** The challenge of a round is the hash of the polynomial of that round: not of the statement, the circuit, the outputs, the
    round number or the earlier rounds.  So zero polynomials, which answer the claim 0, have one challenge per length: the
    prover knows the challenges of the last layer beforehand, and wrong outputs with claim 0 are accepted, with the right
    number of polynomials of the right lengths, whenever the polynomial of the last layer vanishes at that point. *)
Theorem C66_zero_polynomials : forall (ch : list Fr -> Fr) m k (c : list (Layer Fr)) b inputs a l outputs,
  (forall l, In l c -> layer_ok l) -> fits b c -> 0 < k -> chunked k m b inputs -> assignment_of c (2 ^ m) inputs a ->
  c <> [] -> nth_error c (length c - 1) = Some l -> chunked k m (lBGOutputs l) outputs -> output_claim (m + k) m l outputs = 0%F ->
  let zL := repeat 0%F (maxHL (lGates l) + 2) in
  let zR := repeat 0%F (maxHR (lGates l) + 2) in
  let zP := repeat 0%F (maxHP (lGates l) + 2) in
  layer_poly l (fun o => chi (to_bits (lBGOutputs l) o) (count (lBGOutputs l))) (count (m + k))
    (glued (lBGInputs l) m (nth (length c - 1) a []))
    (map ch (repeat zL (lBGInputs l) ++ repeat zR (lBGInputs l) ++ repeat zP (m + k))) = 0%F ->
  exists pf, length (SumcheckProofs pf) = length c /\ length (ClaimsLeft pf) = length c /\ length (ClaimsRight pf) = length c /\
    (forall j l, nth_error c j = Some l -> map (@length Fr) (nth j (SumcheckProofs pf) []) =
       repeat (maxHL (lGates l) + 2) (lBGInputs l) ++ repeat (maxHR (lGates l) + 2) (lBGInputs l) ++ repeat (maxHP (lGates l) + 2) (m + k)) /\
    forall mm, GkrVerifyWith ch mm (m + k) c pf inputs outputs = Some true.
Proof. exact (fun ch m k c b inputs a l outputs => zero_native ch m k c b inputs a l outputs (Fr_distinct_le 12 ltac:(lia))). Qed.
Print Assumptions C66_zero_polynomials.

(** There is a wrong statement for which every challenge function has an accepted proof, also with the early return of
    gkr/verifier.go:99 repaired. *)
Theorem C66_every_hash_refuted : exists (c : list (Layer Fr)) l inputs a outputs,
  (forall l', In l' c -> layer_ok l') /\ fits 1 c /\ nth_error c (length c - 1) = Some l /\
  chunked 1 1 1 inputs /\ chunked 1 1 (lBGOutputs l) outputs /\ Assign c inputs = Some a /\
  output_claim 2 1 l (nth (length c) a []) <> output_claim 2 1 l outputs /\
  forall ch, exists pf, forall mm, GkrVerifyWith ch mm 2 c pf inputs outputs = Some true.
Proof. exact any_hash_forged. Qed.
Print Assumptions C66_every_hash_refuted.

(** The MiMC circuit, any number of chunks and of instances from 4 on: it is enough to know the hashes of three and of nine
    zeros, if they differ.  The proof has the shape of an honest one. *)
Theorem C66_mimc_refuted : forall (arks : list Fr) ch m k, 91 <= length arks -> 0 < k -> 2 <= m + k -> (Z.of_nat (m + k) < frModulus)%Z ->
  ch (repeat 0%F 3) <> ch (repeat 0%F 9) ->
  exists c l inputs a pf, CreateMimcCircuit arks = Some c /\ nth_error c 90 = Some l /\ chunked k m 1 inputs /\ Assign c inputs = Some a /\
    let zeros := repeat (repeat 0%F (2 ^ m)) (2 ^ k) in
    output_claim (m + k) m l (nth 91 a []) <> output_claim (m + k) m l zeros /\
    length (ClaimsLeft pf) = 91 /\ length (ClaimsRight pf) = 91 /\
    map (map (@length Fr)) (SumcheckProofs pf) = repeat (3 :: 9 :: repeat 9 (m + k)) 91 /\
    forall mm, GkrVerifyWith ch mm (m + k) c pf inputs zeros = Some true.
Proof. exact native_forged. Qed.
Print Assumptions C66_mimc_refuted.

(** The compiled circuit of snark/gkr/mimc_test.go: unless the MiMC hash collides on three and nine zeros, there are inputs
    whose true outputs have a claim other than 0 and for which the all-zero outputs have a witness at every point [q']. *)
Theorem C66_gadget_refuted : forall (arks : list Fr) bN, 91 <= length arks -> 2 <= bN -> (Z.of_nat bN < frModulus)%Z ->
  MimcHash arks (repeat 0%F 3) = MimcHash arks (repeat 0%F 9) \/
  exists c sc vi a, CreateMimcCircuit arks = Some c /\ SCreateMimcCircuit arks = Some sc /\ Assign c [vi] = Some a /\
    mle (nth 0 (nth 91 a []) []) (count bN) <> 0%F /\
    forall cs p qP vIn vOut, AllocateGKRMimcTestCircuit bN sc = (cs, (p, qP, vIn, vOut)) ->
    forall q, length q = bN ->
    exists cs' w, SGkrAssertValid arks p sc [] qP vIn vOut cs = Some (tt, cs') /\ satisfied w cs' /\
      map w qP = q /\ map w vIn = vi /\ map w vOut = repeat 0%F (2 ^ bN).
Proof. exact gadget_forged_or_collision. Qed.
Print Assumptions C66_gadget_refuted.

(** With the constants of hash/ark.go the hashes of three and of nine zeros differ. *)
Theorem C66_zeros : forall h3 h9, GetChallenge Arks (repeat 0%F 3) = Some h3 -> GetChallenge Arks (repeat 0%F 9) = Some h9 -> h3 <> h9.
Proof. exact code_zeros. Qed.
Print Assumptions C66_zeros.

(** So the code as it is accepts wrong statements: with its hash, its constants and its MiMC circuit, for every number of
    chunks and of instances from 4 on, there are inputs for which all-zero outputs, which are not the true ones, are proved
    by a proof with the shape of an honest one; with or without the early return. *)
Theorem C66_code_refuted : forall (ch : list Fr -> Fr) m k, (forall seed, GetChallenge Arks seed = Some (ch seed)) ->
  0 < k -> 2 <= m + k -> (Z.of_nat (m + k) < frModulus)%Z ->
  exists c l inputs a pf, CreateMimcCircuit Arks = Some c /\ nth_error c 90 = Some l /\ chunked k m 1 inputs /\ Assign c inputs = Some a /\
    let zeros := repeat (repeat 0%F (2 ^ m)) (2 ^ k) in
    output_claim (m + k) m l (nth 91 a []) <> output_claim (m + k) m l zeros /\
    length (ClaimsLeft pf) = 91 /\ length (ClaimsRight pf) = 91 /\
    map (map (@length Fr)) (SumcheckProofs pf) = repeat (3 :: 9 :: repeat 9 (m + k)) 91 /\
    forall mm, GkrVerifyWith ch mm (m + k) c pf inputs zeros = Some true.
Proof. exact native_forged_code. Qed.
Print Assumptions C66_code_refuted.

(** The same for the compiled circuit, at every point [q']. *)
Theorem C66_code_gadget_refuted : forall bN, 2 <= bN -> (Z.of_nat bN < frModulus)%Z ->
  exists c sc vi a, CreateMimcCircuit Arks = Some c /\ SCreateMimcCircuit Arks = Some sc /\ Assign c [vi] = Some a /\
    mle (nth 0 (nth 91 a []) []) (count bN) <> 0%F /\
    forall cs p qP vIn vOut, AllocateGKRMimcTestCircuit bN sc = (cs, (p, qP, vIn, vOut)) ->
    forall q, length q = bN ->
    exists cs' w, SGkrAssertValid Arks p sc [] qP vIn vOut cs = Some (tt, cs') /\ satisfied w cs' /\
      map w qP = q /\ map w vIn = vi /\ map w vOut = repeat 0%F (2 ^ bN).
Proof. exact gadget_forged_code. Qed.
Print Assumptions C66_code_gadget_refuted.

(** The hash of the code exists, and 4 chunks of 2 instances. *)
Example C66_ex3 : (exists ch : list Fr -> Fr, forall seed, GetChallenge Arks seed = Some (ch seed)) /\ 2 <= 1 + 2 /\ (Z.of_nat (1 + 2) < frModulus)%Z.
Proof. split; [eexists; exact C37_challenge|]. split; [lia|reflexivity]. Qed.

(** 4 chunks of 2 instances, and a hash that counts. *)
Example C66_ex : 91 <= length Arks /\ (Z.of_nat (1 + 2) < frModulus)%Z /\
  (let ch := fun p : list Fr => fnat (length p) : Fr in ch (repeat 0%F 3) <> ch (repeat 0%F 9)).
Proof.
  split; [exact enough_arks|]. split; [reflexivity|]. cbv zeta. intros E. apply (f_equal frval) in E. vm_compute in E. discriminate E.
Qed.

(** The wrong statement of C66_every_hash_refuted (a cipher gate with constant 0, keys 0, -1, 1, 0 and states 0) meets the
    last hypothesis of C66_zero_polynomials, for every hash. *)
Example C66_ex2 : forall ch : list Fr -> Fr,
  layer_poly (nth 0 one_cipher (NewLayer [])) (fun o => chi (to_bits 0 o) (count 0)) (count 2) (glued 1 1 one_inputs)
    (map ch (repeat (repeat 0%F 3) 1 ++ repeat (repeat 0%F 9) 1 ++ repeat (repeat 0%F 9) 2)) = 0%F.
Proof. intros ch. rewrite one_glued. exact (mimc_last_poly ch 0%F (count 2) 1 0%F 0%F 1%F (one_zero _ _)). Qed.
