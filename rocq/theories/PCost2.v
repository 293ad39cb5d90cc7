(** C96: the number of field multiplications of the GKR verifier. *)
From Coq Require Import List Arith ZArith Lia Bool.
From Verif Require Import Field Fr Go MCommon Spec MPoly MCircuit SpecCircuit MSumcheck MGkr SpecGkr SpecProof MHash MArk LHash3 MCost SpecCost MCost2 SpecCost2
  LCost6 LCost8 LCost9 LGkr6 LRepair4 PPoly PCircuit PGkr PProof PCost.
Import ListNotations.

(* ---------------------------------------------------------------- C96 *)
(** The counting model is the model: without the counts it returns the same, or panics in the same cases. *)
Theorem C96_values : forall (F : Field) (ch : list F -> F) wch, (forall m, erase (wch m) = Some (ch m)) ->
  forall c gates prices, priced_layers c gates prices ->
  forall mm bN pf inputs outputs, erase (WGkrVerifyWith wch gates mm bN c pf inputs outputs) = GkrVerifyWith ch mm bN c pf inputs outputs.
Proof. exact @er_GkrVerify. Qed.
Print Assumptions C96_values.

(** The hash of the challenges: 364 multiplications per word, as much as the permutation. *)
Theorem C96_hash : forall (F : Field) (arks input : list F) x, MimcHash arks input = Some x -> WMimcHash arks input = Some (x, 364 * length input).
Proof. exact @hash_exact. Qed.
Print Assumptions C96_hash.
Theorem C96_permutation : forall (F : Field) (arks : list F) s b x, MimcPermutation arks s b = Some x -> WMimcPermutation arks s b = Some (x, 364).
Proof. exact @permutation_exact. Qed.
Print Assumptions C96_permutation.

(** Whatever the proof says, as long as it has the right number of round polynomials: the verifier stays within these multiplications. *)
Theorem C96_bound : forall (F : Field) h (ch : list F -> F) wch, (forall m, wch m = Some (ch m, h * length m)) ->
  forall c gates prices bN b pf, priced_layers c gates prices -> fits b c ->
  (forall j l, nth_error c j = Some l -> length (nth j (SumcheckProofs pf) []) = 2 * lBGInputs l + bN) ->
  forall m k l inputs outputs, bN = m + k -> nth_error c (length c - 1) = Some l -> chunked k m b inputs -> chunked k m (lBGOutputs l) outputs ->
  forall mm verdict, GkrVerifyWith ch mm bN c pf inputs outputs = Some verdict ->
  exists n, WGkrVerifyWith wch gates mm bN c pf inputs outputs = Some (verdict, n) /\ n <= verifier_work h bN m b c prices (SumcheckProofs pf) l.
Proof. exact @verify_bound. Qed.
Print Assumptions C96_bound.

(** A proof that passes all checks takes exactly as many, also when a failure at verifier.go:99 would be accepted. *)
Theorem C96_exact : forall (F : Field) h (ch : list F -> F) wch, (forall m, wch m = Some (ch m, h * length m)) ->
  forall c gates prices bN b pf, priced_layers c gates prices -> fits b c ->
  (forall j l, nth_error c j = Some l -> length (nth j (SumcheckProofs pf) []) = 2 * lBGInputs l + bN) ->
  forall m k l inputs outputs, bN = m + k -> nth_error c (length c - 1) = Some l -> chunked k m b inputs -> chunked k m (lBGOutputs l) outputs ->
  forall mm, GkrVerifyWith ch false bN c pf inputs outputs = Some true ->
  WGkrVerifyWith wch gates mm bN c pf inputs outputs = Some (true, verifier_work h bN m b c prices (SumcheckProofs pf) l).
Proof. exact @verify_exact. Qed.
Print Assumptions C96_exact.

(** The MiMC circuit: its gates and prices, and the sum for proofs of the prescribed degrees (C77). *)
Theorem C96_mimc_gates : forall (F : Field) (arks : list F) c, 91 <= length arks -> CreateMimcCircuit arks = Some c ->
  priced_layers c (mimc_gates arks) mimc_prices /\ fits 1 c /\ length c = 91.
Proof. exact @mimc_priced. Qed.
Print Assumptions C96_mimc_gates.
Theorem C96_mimc_sum : forall (F : Field) (arks : list F) c l h bN m sps, 91 <= length arks -> CreateMimcCircuit arks = Some c -> nth_error c 90 = Some l -> m <= bN ->
  (forall i l, nth_error c i = Some l -> map (@length F) (nth i sps []) = coefficients l bN) ->
  verifier_work h bN m 1 c mimc_prices sps l = mimc_verifier h bN m.
Proof. exact @mimc_total. Qed.
Print Assumptions C96_mimc_sum.

(** An honest run with the constants and the hash of the code. *)
Theorem C96_mimc : forall nCore mtProve m k inputs, 0 < nCore -> follows_machine mimc_challenge nCore mtProve -> 0 < k -> chunked k m 1 inputs ->
  exists c a pf, CreateMimcCircuit Arks = Some c /\ Assign c inputs = Some a /\ GkrProve mimc_challenge mtProve c a nCore = Some pf /\
    WGkrVerifyWith (WMimcHash Arks) (mimc_gates Arks) true (m + k) c pf inputs (nth 91 a []) = Some (true, mimc_verifier 364 (m + k) m).
Proof. exact mimc_honest. Qed.
Print Assumptions C96_mimc.

(** Verifying is cheaper than computing the 2^bN permutations again from 2^14 instances on, and not before. *)
Theorem C96_cheaper : forall bN m, 14 <= bN -> m <= bN -> (Z.of_nat (mimc_verifier 364 bN m) < 364 * 2 ^ Z.of_nat bN)%Z.
Proof. exact mimc_cheaper. Qed.
Print Assumptions C96_cheaper.
Theorem C96_dearer : forall bN m, bN <= 13 -> (364 * 2 ^ Z.of_nat bN < Z.of_nat (mimc_verifier 364 bN m))%Z.
Proof. exact mimc_dearer. Qed.
Print Assumptions C96_dearer.

(** An honest run on a circuit of two layers with a price of 5 per hashed word; and a proof of zeros, rejected after the outputs and
    the first polynomial are read. *)
Definition toy_gates : list (list (WGate Fr)) := [[WCipherGate (el 1); WCopyGate]; [WCipherGate (el 2)]].
Definition toy_prices : list (list Price) := [[CipherPrice; CopyPrice]; [CipherPrice]].
Definition toy_wch (m : list Fr) : W Fr := Some (ex_hash m, 5 * length m).
Definition toy_zeros : Proof Fr := MkProof (repeat [repeat (el 0) 3; repeat (el 0) 9; repeat (el 0) 9] 2) (repeat (el 0) 2) (repeat (el 0) 2).
Example C96_hypotheses : (forall m, toy_wch m = Some (ex_hash m, 5 * length m)) /\ priced_layers toy_circuit toy_gates toy_prices /\ fits 1 toy_circuit /\
  (forall j l, nth_error toy_circuit j = Some l -> length (nth j (SumcheckProofs toy_zeros) []) = 2 * lBGInputs l + 1) /\
  1 = 0 + 1 /\ chunked 1 0 1 toy_inputs /\ exists l, nth_error toy_circuit (length toy_circuit - 1) = Some l /\ chunked 1 0 (lBGOutputs l) [frs [1]%Z; frs [2]%Z].
Proof.
  split; [reflexivity|]. split.
  - intros [|[|j]] l E; [| |destruct j; discriminate E]; injection E as <-; (split; [reflexivity|]);
      repeat (constructor; [first [apply C95_cipher | apply C95_copy]|]); constructor.
  - split; [repeat split|]. split; [intros [|[|j]] l E; [| |destruct j; discriminate E]; injection E as <-; reflexivity|]. split; [reflexivity|]. split; [exact toy_chunked|].
    eexists. split; [reflexivity|]. split; [reflexivity|]. intros t [<-|[<-|[]]]; reflexivity.
Qed.

Example C96_ex : (exists pf, GkrProve ex_hash (mtWhole ex_hash) toy_circuit (assign toy_circuit toy_inputs) 3 = Some pf /\
    WGkrVerifyWith toy_wch toy_gates true 1 toy_circuit pf toy_inputs (nth 2 (assign toy_circuit toy_inputs) []) = Some (true, 386)) /\
  WGkrVerifyWith toy_wch toy_gates true 1 toy_circuit toy_zeros toy_inputs [frs [1]%Z; frs [2]%Z] = Some (false, 5).
Proof.
  split; [|vm_compute; reflexivity].
  destruct (C77_size ex_hash 3 (mtWhole ex_hash) toy_circuit 1 0 1 toy_inputs (assign toy_circuit toy_inputs)) as (pf & E & _ & _ & _ & HS & _);
    [lia|apply C36_follows|discriminate|exact toy_ok|repeat split|exact toy_chunked|apply toy_assignment; exact toy_chunked|].
  destruct (C36_from_assignment_partial ex_hash 3 (mtWhole ex_hash) toy_circuit 1 0 1 toy_inputs (assign toy_circuit toy_inputs)) as (pf' & E' & _ & V);
    [lia|apply C36_follows|discriminate|lia|exact toy_ok|repeat split|exact toy_chunked|apply toy_assignment; exact toy_chunked|].
  rewrite E in E'. apply some_eq in E'. subst pf'. exists pf. split; [exact E|].
  destruct C96_hypotheses as (H1 & H2 & H3 & _). destruct (nth_error toy_circuit 1) as [l|] eqn:El; [|discriminate El].
  assert (HW : verifier_work 5 1 0 1 toy_circuit toy_prices (SumcheckProofs pf) l = 386).
  { destruct (nth_error toy_circuit 0) as [l0|] eqn:E0; [|discriminate E0].
    unfold verifier_work, inner_sum. change (length toy_circuit - 1) with 1. cbn [seq map]. rewrite E0. unfold last_work, inner_work.
    rewrite (rounds_lengths 5 _ _ (HS 1 l El)), (rounds_lengths 5 _ _ (HS 0 l0 E0)).
    apply some_eq in E0. apply some_eq in El. subst l l0. vm_compute. reflexivity. }
  rewrite <- HW. apply (C96_exact Fr 5 ex_hash toy_wch H1 toy_circuit toy_gates toy_prices 1 1 pf H2 H3) with (k := 1).
  - intros j l' Hj. rewrite <- (map_length (@length Fr)), (HS j l' Hj). unfold coefficients. rewrite !app_length, !repeat_length. lia.
  - reflexivity.
  - exact El.
  - exact toy_chunked.
  - apply (assignment_tables toy_circuit 0 1 1 toy_inputs (assign toy_circuit toy_inputs) l toy_chunked); [apply toy_assignment; exact toy_chunked|exact El].
  - exact V.
Qed.

(** The hash and the permutation of the code return. *)
Example C96_hash_ex : (exists x, MimcHash Arks [el 1; el 2] = Some x) /\ exists x, MimcPermutation Arks 0%F (el 2) = Some x.
Proof.
  split; [eexists; exact (mimc_challenge_ok [el 1; el 2])|].
  destruct (MimcPermutation Arks 0%F (el 2)) as [x|] eqn:E; [exists x; reflexivity|].
  pose proof (mimc_challenge_ok [el 2]) as H. unfold GetChallenge, MimcHash in H. cbn [foldM] in H. unfold MimcUpdate in H. rewrite E in H. discriminate H.
Qed.
