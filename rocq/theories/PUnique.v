(** C78: which proofs the verifiers accept. *)
From Coq Require Import List Arith ZArith Lia Bool.
From Verif Require Import Field FrPrime Fr Go MCommon Spec MPoly MCircuit SpecCircuit LCircuit MSumcheck SpecSumcheck MSumPar SpecSumPar LSumPar2 MGkr SpecGkr MArk MHash MSnark SpecSnark
  SpecProof LProof2 LGkr5 SpecUnique LUnique4 LUnique5 LUnique6 PPoly PCircuit PSumcheck PGkr PSnark.
Import ListNotations.

(* ---------------------------------------------------------------- C78 *)
(** A proof that the verifier accepts (once the [return true] of gkr/verifier.go:99 is removed) and in which no challenge
    collides is right everywhere: every polynomial is the partial sum it stands for, and every claim is the value of the
    layer at the point of the challenges. *)
Theorem C78_right : forall (F : Field) (ch : list F -> F) m k b (c : list (Layer F)) inputs a pf outputs llast,
  (forall l, In l c -> wf_layer l /\ gates_once l) -> fits b c -> chunked k m b inputs -> assignment_of c (2 ^ m) inputs a ->
  c <> [] -> 0 < k -> nth_error c (length c - 1) = Some llast -> chunked k m (lBGOutputs llast) outputs ->
  GkrVerifyWith ch false (m + k) c pf inputs outputs = Some true -> (forall j, ~ collision_at ch pf c m k a j) ->
  output_claim (m + k) m llast outputs = output_claim (m + k) m llast (nth (length c) a []) /\
  forall j, j < length c -> right_layer ch pf c m k a (count (lBGOutputs llast)) (count (m + k)) j.
Proof. exact @accepted_right. Qed.
Print Assumptions C78_right.

(** The prover's proof is right everywhere and has no collision. *)
Theorem C78_honest : forall (ch : list Fr -> Fr) nCore mtProve c b m k inputs a llast,
  0 < nCore -> follows_machine ch nCore mtProve ->
  (forall l, In l c -> layer_ok l) -> fits b c -> chunked k m b inputs -> assignment_of c (2 ^ m) inputs a ->
  nth_error c (length c - 1) = Some llast ->
  exists pf, GkrProve ch mtProve c a nCore = Some pf /\
    forall j, j < length c -> right_layer ch pf c m k a (count (lBGOutputs llast)) (count (m + k)) j.
Proof. exact honest_right. Qed.
Print Assumptions C78_honest.

Theorem C78_honest_no_collision : forall (ch : list Fr -> Fr) nCore mtProve c b m k inputs a pf,
  0 < nCore -> follows_machine ch nCore mtProve ->
  (forall l, In l c -> layer_ok l) -> fits b c -> chunked k m b inputs -> assignment_of c (2 ^ m) inputs a ->
  GkrProve ch mtProve c a nCore = Some pf -> forall j, ~ collision_at ch pf c m k a j.
Proof. exact honest_no_collision. Qed.
Print Assumptions C78_honest_no_collision.

(** So the repaired verifier accepts one proof with the prover's lengths and without collision: the prover's. *)
Theorem C78_only_proof : forall (ch : list Fr -> Fr) nCore mtProve c b m k inputs a pf outputs llast,
  0 < nCore -> follows_machine ch nCore mtProve ->
  (forall l, In l c -> layer_ok l) -> fits b c -> chunked k m b inputs -> assignment_of c (2 ^ m) inputs a ->
  0 < k -> nth_error c (length c - 1) = Some llast -> chunked k m (lBGOutputs llast) outputs ->
  length (SumcheckProofs pf) = length c -> length (ClaimsLeft pf) = length c -> length (ClaimsRight pf) = length c ->
  (forall j l, nth_error c j = Some l -> map (@length Fr) (nth j (SumcheckProofs pf) []) = coefficients l (m + k)) ->
  GkrVerifyWith ch false (m + k) c pf inputs outputs = Some true -> (forall j, ~ collision_at ch pf c m k a j) ->
  GkrProve ch mtProve c a nCore = Some pf.
Proof. exact only_proof. Qed.
Print Assumptions C78_only_proof.

(** The hypotheses are met, by the proof of three threads for two instances of the toy circuit. *)
Example C78_ex : exists pf, GkrProve ex_hash (mtWhole ex_hash) toy_circuit (assign toy_circuit toy_inputs) 3 = Some pf /\
  GkrVerifyWith ex_hash false 1 toy_circuit pf toy_inputs (nth 2 (assign toy_circuit toy_inputs) []) = Some true /\
  (forall j, ~ collision_at ex_hash pf toy_circuit 0 1 (assign toy_circuit toy_inputs) j) /\
  length (SumcheckProofs pf) = 2 /\ length (ClaimsLeft pf) = 2 /\ length (ClaimsRight pf) = 2 /\
  map (map (@length Fr)) (SumcheckProofs pf) = map (fun l => coefficients l 1) toy_circuit.
Proof.
  destruct (gkr_complete_Fr ex_hash 3 (mtWhole ex_hash) toy_circuit 1 0 1 toy_inputs (assign toy_circuit toy_inputs)) as (pf & E & _ & HV);
    [lia|apply C36_follows|discriminate|lia|exact toy_ok|repeat split|exact toy_chunked|apply toy_assignment; exact toy_chunked|].
  exists pf. split; [exact E|]. split; [exact HV|]. split.
  - apply (C78_honest_no_collision ex_hash 3 (mtWhole ex_hash) toy_circuit 1 0 1 toy_inputs);
      [lia|apply C36_follows|exact toy_ok|repeat split|exact toy_chunked|apply toy_assignment; exact toy_chunked|exact E].
  - destruct (proof_size ex_hash 3 (mtWhole ex_hash) toy_circuit 1 0 1 toy_inputs (assign toy_circuit toy_inputs)) as (pf' & E' & L1 & L2 & L3 & L4 & _);
      [lia|apply C36_follows|discriminate|exact toy_ok|repeat split|exact toy_chunked|apply toy_assignment; exact toy_chunked|].
    rewrite E in E'. injection E' as <-. split; [exact L3|]. split; [exact L1|]. split; [exact L2|].
    destruct (SumcheckProofs pf) as [|s0 [|s1 [|? ?]]]; try discriminate L3. cbn [map].
    rewrite (L4 0 _ eq_refl : map (@length Fr) s0 = _), (L4 1 _ eq_refl : map (@length Fr) s1 = _). reflexivity.
Qed.

(** The lengths of the three lists have to be checked by the caller: whatever follows the entries of the layers is ignored,
    by the code and by the repaired verifier. *)
Theorem C78_padding_refuted : forall (F : Field) (ch : list F -> F) mm (c : list (Layer F)) bN sps cls crs xs ys zs inputs outputs,
  length sps = length c -> length cls = length c -> length crs = length c ->
  GkrVerifyWith ch mm bN c (MkProof (sps ++ xs) (cls ++ ys) (crs ++ zs)) inputs outputs =
  GkrVerifyWith ch mm bN c (MkProof sps cls crs) inputs outputs.
Proof. exact @verify_padding. Qed.
Print Assumptions C78_padding_refuted.

(** The code as it is accepts a wrong proof with the prover's lengths, with the true inputs and outputs, although no
    challenge collides: the claim about the inputs is wrong. *)
Definition more (pf : Proof Fr) : Proof Fr :=
  match ClaimsLeft pf with [] => pf | x :: r => MkProof (SumcheckProofs pf) ((x + 1)%F :: r) (ClaimsRight pf) end.

Definition quadruple : list (Layer Fr) := 
  NewCircuit [[MkWire 0 0 0 AddGate]; [MkWire 0 0 0 AddGate]].
Definition quadruple_inputs : list (list Fr) := [frs [2]; frs [3]]%Z.
Lemma quadruple_ok : forall l, In l quadruple -> layer_ok l.
Proof.
  intros l [<-|[<-|[]]]; (split; [apply NewLayer_wf|]); (split; [split; [|intros w Hw; cbn in *; intuition (subst; auto)]|]).
  - repeat constructor; cbn; intuition discriminate.
  - split; [right; discriminate|]. split; [|cbn; lia]. intros g [<-|[]]. apply add_ok.
  - repeat constructor; cbn; intuition discriminate.
  - split; [right; discriminate|]. split; [|cbn; lia]. intros g [<-|[]]. apply add_ok.
Qed.
Lemma quadruple_assignment : assignment_of quadruple (2 ^ 0) quadruple_inputs (assign quadruple quadruple_inputs).
Proof.
  destruct (C26_assign_partial Fr quadruple 0 (2 ^ 0) quadruple_inputs) as (a & E & Ha).
  - intros l Hl. apply (quadruple_ok l Hl).
  - repeat split.
  - left. reflexivity.
  - intros t [<-|[<-|[]]]; reflexivity.
  - unfold assign. rewrite E. exact Ha.
Qed.
Lemma quadruple_chunked : chunked 1 0 0 quadruple_inputs.
Proof. split; [reflexivity|]. intros t [<-|[<-|[]]]; reflexivity. Qed.
Lemma code_run : match GkrProve ex_hash (mtWhole ex_hash) quadruple (assign quadruple quadruple_inputs) 3 with
    Some pf => (GkrVerify ex_hash 1 quadruple (more pf) quadruple_inputs (nth 2 (assign quadruple quadruple_inputs) []),
                GkrVerifyWith ex_hash false 1 quadruple (more pf) quadruple_inputs (nth 2 (assign quadruple quadruple_inputs) []))
  | None => (None, None) end = (Some true, Some false).
Proof. vm_compute. reflexivity. Qed.
Theorem C78_code_refuted : exists pf pf',
  GkrProve ex_hash (mtWhole ex_hash) quadruple (assign quadruple quadruple_inputs) 3 = Some pf /\ pf' <> pf /\
  GkrVerify ex_hash 1 quadruple pf' quadruple_inputs (nth 2 (assign quadruple quadruple_inputs) []) = Some true /\
  GkrVerifyWith ex_hash false 1 quadruple pf' quadruple_inputs (nth 2 (assign quadruple quadruple_inputs) []) = Some false /\
  map (map (@length Fr)) (SumcheckProofs pf') = map (map (@length Fr)) (SumcheckProofs pf) /\
  length (ClaimsLeft pf') = length (ClaimsLeft pf) /\ length (ClaimsRight pf') = length (ClaimsRight pf) /\
  forall j, ~ collision_at ex_hash pf' quadruple 0 1 (assign quadruple quadruple_inputs) j.
Proof.
  destruct (proof_size ex_hash 3 (mtWhole ex_hash) quadruple 0 0 1 quadruple_inputs (assign quadruple quadruple_inputs)) as (pf & E & L2 & L3 & _);
    [lia|apply C36_follows|discriminate|exact quadruple_ok|repeat split|exact quadruple_chunked|exact quadruple_assignment|].
  assert (HN : forall j, ~ collision_at ex_hash pf quadruple 0 1 (assign quadruple quadruple_inputs) j).
  { apply (C78_honest_no_collision ex_hash 3 (mtWhole ex_hash) quadruple 0 0 1 quadruple_inputs);
      [lia|apply C36_follows|exact quadruple_ok|repeat split|exact quadruple_chunked|exact quadruple_assignment|exact E]. }
  exists pf, (more pf). split; [exact E|].
  destruct pf as [sps cl cr]. cbn [SumcheckProofs ClaimsLeft ClaimsRight] in *.
  destruct cl as [|x cl]; [discriminate L2|]. destruct cr as [|y cr]; [discriminate L3|].
  pose proof code_run as Eb. rewrite E in Eb. apply pair_equal_spec in Eb.
  split; [|split; [|split; [|repeat split]]].
  - intros H. injection H as H. exact (one_more x H).
  - exact (proj1 Eb).
  - exact (proj2 Eb).
  - intros j Hj. apply (HN j). exact (first_claims ex_hash sps (x + 1)%F y cl cr x y quadruple 0 1 _ j Hj).
Qed.
Print Assumptions C78_code_refuted.

(** The same for the sum-check by itself: with the prover's lengths, a last value that is right and no collision, the
    claim is the sum and the proof is the prover's, with its challenges. *)
Theorem C78_sumcheck : forall (ch : list Fr -> Fr) bN bG (gates : list (Gate Fr)) st eq vL vR claim proof qP qL qR fin,
  tables_ok bG bG bN gates st eq vL vR -> (bG = 0 \/ gates <> []) -> (forall g, In g gates -> gate_ok g) ->
  (maxHL gates <= 10 /\ maxHR gates <= 10 /\ maxHP gates <= 10) ->
  Verify ch claim proof bN bG = Some (Accept qP qL qR fin) -> fin = combinator bG bG gates st eq vL vR (qL ++ qR ++ qP) ->
  map (@length Fr) proof = repeat (maxHL gates + 2) bG ++ repeat (maxHR gates + 2) bG ++ repeat (maxHP gates + 2) bN ->
  ~ sumcheck_collision ch (combinator bG bG gates st eq vL vR) (2 * bG + bN) proof ->
  claim = table_sum (2 ^ bN) (2 ^ bG) gates st eq vL vR /\
  exists fc, Prove ch (NewSingleThreadedProver vL vR eq gates st) = Some (proof, qP, qL, qR, fc).
Proof. exact sumcheck_only. Qed.
Print Assumptions C78_sumcheck.

(** Polynomials of other lengths give other proofs that are accepted, as many as one likes: zeros can be appended. *)
Theorem C78_lengths_refuted : forall (F : Field) (ch : list F -> F) z, let p := [1 + 1; - (1 + 1)]%F ++ repeat 0%F z in
  Verify ch (1 + 1)%F [p] 1 0 = Some (Accept [ch p] [] [] (combinator 0 0 [AddGate] [[1]] [1; 0] [1; 1] [1; 1] [ch p])%F) /\
  ~ sumcheck_collision ch (combinator 0 0 [AddGate] [[1]] [1; 0] [1; 1] [1; 1])%F 1 [p].
Proof. exact @padded_accepted. Qed.
Print Assumptions C78_lengths_refuted.

(** The hypotheses of C78_sumcheck for that example; the prover sends three coefficients, as C78_sumcheck says. *)
Example C78_sumcheck_ex :
  let eq := [fone; fzero] in let v := [fone; fone] in
  tables_ok 0 0 1 [AddGate] [[fone : Fr]] eq v v /\ gate_ok (AddGate (F:=Fr)) /\ maxHP [AddGate (F:=Fr)] + 2 = 3 /\
  option_map (fun '(proof, qP, _, _, _) => (map (map frval) proof, map frval qP)) (Prove ex_ch (NewSingleThreadedProver v v eq [AddGate] [[fone]])) =
    Some ([[2; frModulus - 2; 0]%Z], map frval [ex_ch [el 2; el (-2); el 0]]).
Proof.
  cbv zeta. split; [repeat split; intros tab [<-|[]]; reflexivity|]. split; [apply add_ok|]. split; [reflexivity|]. vm_compute. reflexivity.
Qed.

(** In the snark: the values of the inputs and of the initial point determine those of the proof, and so of everything the
    solver is asked for, unless a challenge collides. *)
Theorem C78_snark : forall (arks : list Fr) sc c bN p (cs : CS Fr) qPI vIn vOut, 91 <= length arks ->
  SCreateMimcCircuit arks = Some sc -> CreateMimcCircuit arks = Some c ->
  cs_ok cs -> proof_vars cs bN sc p -> vars cs (qPI ++ vIn ++ vOut) ->
  length qPI = bN -> length vIn = 2 * 2 ^ bN -> length vOut = 2 ^ bN ->
  exists cs', SGkrAssertValid arks p sc [] qPI vIn vOut cs = Some (tt, cs') /\
    forall w w', satisfied w cs' -> satisfied w' cs' -> map w qPI = map w' qPI -> map w vIn = map w' vIn ->
    exists a, Assign c [map w vIn] = Some a /\
      ((forall j, ~ collision_from (challenge arks) (read_proof w p) c bN 0 a [] (map w qPI) j) ->
       (forall j, ~ collision_from (challenge arks) (read_proof w' p) c bN 0 a [] (map w qPI) j) ->
       (forall j, j < 91 -> right_layer (challenge arks) (read_proof w p) c bN 0 a [] (map w qPI) j) /\
       read_proof w p = read_proof w' p /\
       forall v, In v (concat (concat (sSumchecks p)) ++ sLeft p ++ sRight p) -> w v = w' v).
Proof. exact witness_unique. Qed.
Print Assumptions C78_snark.

(** The variables of the test circuit meet the hypotheses (a satisfying assignment: C51). *)
Example C78_snark_ex : exists sc c, SCreateMimcCircuit Arks = Some sc /\ CreateMimcCircuit Arks = Some c /\
  let '(cs, (p, qP, vIn, vOut)) := AllocateGKRMimcTestCircuit 1 sc in
  cs_ok cs /\ proof_vars cs 1 sc p /\ vars cs (qP ++ vIn ++ vOut) /\ length qP = 1 /\ length vIn = 2 * 2 ^ 1 /\ length vOut = 2 ^ 1.
Proof.
  destruct C57_ex as (_ & _ & _ & sc & c & E1 & E2). exists sc, c. split; [exact E1|]. split; [exact E2|].
  destruct (AllocateGKRMimcTestCircuit 1 sc) as [cs [[[p qP] vIn] vOut]] eqn:E. exact (C52_test_circuit_variables Fr 1 sc cs p qP vIn vOut E).
Qed.
