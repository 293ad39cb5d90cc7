(** Property theorems for package gkr (C35, C36, C38, C39, C60). *)
From Coq Require Import List Arith ZArith Lia Bool.
From Verif Require Import Field Go Trans MCommon Spec MPoly MCircuit SpecCircuit LCircuit MSumcheck SpecSumcheck MSumPar SpecSumPar
  MGkr SpecGkr LGkr3 LGkr4 LGkr5 LGkr6 LGkr7 FrPrime Fr LPoly3 PPoly PCircuit PSumcheck.
Import ListNotations.

(** A challenge function for the examples. *)
Definition ex_hash (c : list Fr) : Fr := fold_left (fun s x => (s * s + el 3 * x + el 5)%F) c (el 7).

Lemma toy_ok : forall l, In l toy_circuit -> layer_ok l.
Proof.
  intros l [<-|[<-|[]]]; (split; [apply NewLayer_wf|]); (split; [split; [|intros w Hw; cbn in *; intuition (subst; auto)]|]).
  - repeat constructor; cbn; intuition discriminate.
  - split; [right; discriminate|]. split; [|cbn; lia]. intros g [<-|[<-|[]]]; [apply cipher_ok|apply copy_ok].
  - repeat constructor; cbn; intuition discriminate.
  - split; [right; discriminate|]. split; [|cbn; lia]. intros g [<-|[]]; apply cipher_ok.
Qed.

Definition toy_inputs : list (list Fr) := [frs [0;2]%Z; frs [1;3]%Z].
Definition assign (c : Circuit Fr) (inputs : list (list Fr)) : list (list (list Fr)) :=
  match Assign c inputs with Some a => a | None => [] end.

Lemma toy_assignment inputs : chunked 1 0 1 inputs -> assignment_of toy_circuit (2 ^ 0) inputs (assign toy_circuit inputs).
Proof.
  intros [_ H]. destruct (C26_assign_partial Fr toy_circuit 1 (2 ^ 0) inputs) as (a & E & Ha); [| | |exact H|].
  - intros l Hl. apply (toy_ok l Hl).
  - repeat split.
  - left. reflexivity.
  - unfold assign. rewrite E. exact Ha.
Qed.
Lemma toy_chunked : chunked 1 0 1 toy_inputs.
Proof. split; [reflexivity|]. intros t [<-|[<-|[]]]; reflexivity. Qed.
(* ---------------------------------------------------------------- C36 *)
(** [mtProve] is what the multi-threaded prover returns under every schedule.
    Missing for the full statement: a single chunk, layers in which two wires share a gate ID,
    and (for [Assign]) right operands outside row 0 with several instances per chunk; see the refutations below and C24.
    Gate degrees are limited by the interpolation tables of package polynomial. *)
Theorem C36_complete_partial : forall (ch : list Fr -> Fr) nCore mtProve c b m k inputs,
  0 < nCore -> follows_machine ch nCore mtProve -> c <> [] -> 0 < k ->
  (forall l, In l c -> layer_ok l) -> fits b c -> chunked k m b inputs -> right_ok (2 ^ m) c ->
  exists a pf, Assign c inputs = Some a /\ GkrProve ch mtProve c a nCore = Some pf /\
    GkrVerify ch (m + k) c pf inputs (nth (length c) a []) = Some true.
Proof. exact gkr_complete_assign. Qed.
Print Assumptions C36_complete_partial.

(** The same from any true assignment, whatever the right operands, also for the repaired verifier. *)
Theorem C36_from_assignment_partial : forall (ch : list Fr -> Fr) nCore mtProve c b m k inputs a,
  0 < nCore -> follows_machine ch nCore mtProve -> c <> [] -> 0 < k ->
  (forall l, In l c -> layer_ok l) -> fits b c -> chunked k m b inputs -> assignment_of c (2 ^ m) inputs a ->
  exists pf, GkrProve ch mtProve c a nCore = Some pf /\
    GkrVerify ch (m + k) c pf inputs (nth (length c) a []) = Some true /\
    GkrVerifyWith ch false (m + k) c pf inputs (nth (length c) a []) = Some true.
Proof. exact gkr_complete_Fr. Qed.
Print Assumptions C36_from_assignment_partial.

(** The hypothesis on [mtProve] can be met. *)
Theorem C36_follows : forall (F : Field) (ch : list F -> F) nCore, follows_machine ch nCore (mtWhole ch).
Proof. exact @mtWhole_follows. Qed.
Print Assumptions C36_follows.

Example C36_ex : exists a pf, Assign toy_circuit toy_inputs = Some a /\
  GkrProve ex_hash (mtWhole ex_hash) toy_circuit a 3 = Some pf /\
  GkrVerify ex_hash 1 toy_circuit pf toy_inputs (nth 2 a []) = Some true.
Proof.
  apply (C36_complete_partial ex_hash 3 (mtWhole ex_hash) toy_circuit 1 0 1 toy_inputs);
    [lia|apply C36_follows|discriminate|lia|exact toy_ok|repeat split|exact toy_chunked|left; reflexivity].
Qed.

(** One chunk: the verifier panics on every proof. *)
Theorem C36_one_chunk_refuted : forall (F : Field) (ch : list F -> F) bN c pf inputs out,
  GkrVerify ch bN c pf inputs [out] = None.
Proof. exact (fun F ch => @verify_one_chunk F ch true). Qed.
Print Assumptions C36_one_chunk_refuted.

(** Two wires with the same gate: the honest proof is rejected. *)
Definition twin_circuit : list (Layer Fr) := NewCircuit [[MkWire 0 0 0 AddGate; MkWire 1 0 1 AddGate]].
Theorem C36_same_gate_refuted : exists a pf,
  (forall l, In l twin_circuit -> wf_layer l) /\ fits 1 twin_circuit /\ chunked 1 0 1 toy_inputs /\
  Assign twin_circuit toy_inputs = Some a /\ assignment_of twin_circuit (2 ^ 0) toy_inputs a /\
  GkrProve ex_hash (mtWhole ex_hash) twin_circuit a 1 = Some pf /\
  GkrVerify ex_hash 1 twin_circuit pf toy_inputs (nth 1 a []) = Some false.
Proof.
  destruct (C26_assign_partial Fr twin_circuit 1 (2 ^ 0) toy_inputs) as (a & E & Ha).
  { intros l [<-|[]]. apply NewLayer_wf. } { repeat split. } { left. reflexivity. } { apply toy_chunked. }
  destruct (GkrProve ex_hash (mtWhole ex_hash) twin_circuit a 1) as [pf|] eqn:EP.
  - exists a, pf. split; [intros l [<-|[]]; apply NewLayer_wf|]. split; [repeat split|]. split; [apply toy_chunked|].
    split; [exact E|]. split; [exact Ha|]. split; [exact EP|].
    assert (Eb : match Assign twin_circuit toy_inputs with Some a => match GkrProve ex_hash (mtWhole ex_hash) twin_circuit a 1 with
      Some pf => GkrVerify ex_hash 1 twin_circuit pf toy_inputs (nth 1 a []) | None => None end | None => None end = Some false)
      by (vm_compute; reflexivity).
    rewrite E, EP in Eb. exact Eb.
  - exfalso. assert (Eb : match Assign twin_circuit toy_inputs with Some a => match GkrProve ex_hash (mtWhole ex_hash) twin_circuit a 1 with
      Some pf => true | None => false end | None => true end = true) by (vm_compute; reflexivity).
    rewrite E, EP in Eb. discriminate.
Qed.
Print Assumptions C36_same_gate_refuted.

(* ---------------------------------------------------------------- C38 *)
(** The verifier with verifier.go:99 repaired ([return false]). *)
Theorem C38_repaired_sound : forall (F : Field) (ch : list F -> F) m k b (c : list (Layer F)) inputs a pf,
  (forall l, In l c -> wf_layer l /\ gates_once l) -> fits b c -> chunked k m b inputs ->
  assignment_of c (2 ^ m) inputs a ->
  forall outputs llast, c <> [] -> 0 < k -> nth_error c (length c - 1) = Some llast ->
  chunked k m (lBGOutputs llast) outputs ->
  GkrVerifyWith ch false (m + k) c pf inputs outputs = Some true ->
  output_claim (m + k) m llast outputs <> output_claim (m + k) m llast (nth (length c) a []) ->
  exists j, collision_at ch pf c m k a j.
Proof. exact @gkr_sound. Qed.
Print Assumptions C38_repaired_sound.

(** The code itself, for circuits of one layer. *)
Theorem C38_one_layer_partial : forall (F : Field) (ch : list F -> F) m k (l : Layer F) inputs a pf,
  wf_layer l /\ gates_once l -> chunked k m (lBGInputs l) inputs -> assignment_of [l] (2 ^ m) inputs a ->
  forall outputs, 0 < k -> chunked k m (lBGOutputs l) outputs ->
  GkrVerify ch (m + k) [l] pf inputs outputs = Some true ->
  output_claim (m + k) m l outputs <> output_claim (m + k) m l (nth 1 a []) ->
  exists j, collision_at ch pf [l] m k a j.
Proof. exact @one_layer_sound. Qed.
Print Assumptions C38_one_layer_partial.

(** Code and repaired verifier differ only by accepting more. *)
Theorem C38_code_vs_repaired : forall (F : Field) (ch : list F -> F) bN (c : list (Layer F)) pf inputs outputs,
  (GkrVerify ch bN c pf inputs outputs = Some false -> GkrVerifyWith ch false bN c pf inputs outputs = Some false) /\
  (GkrVerify ch bN c pf inputs outputs = None <-> GkrVerifyWith ch false bN c pf inputs outputs = None) /\
  (GkrVerifyWith ch false bN c pf inputs outputs = Some true -> GkrVerify ch bN c pf inputs outputs = Some true).
Proof. exact @code_vs_repaired. Qed.
Print Assumptions C38_code_vs_repaired.

(** For a pair of wrong claims at most one challenge is a collision (for round polynomials see C33_few_collisions). *)
Theorem C38_lambda_unique : forall (F : Field) (cl cr tl tr x y : F), (cl, cr) <> (tl, tr) ->
  (cr * x + cl = tr * x + tl)%F -> (cr * y + cl = tr * y + tl)%F -> x = y.
Proof. exact @lambda_unique. Qed.
Print Assumptions C38_lambda_unique.

(** The code, for every circuit of at least two layers: the outputs of any inputs are accepted
    together with any other inputs, whatever their shape. *)
Theorem C38_any_inputs_refuted : forall (ch : list Fr -> Fr) c b m k inputs a,
  2 <= length c -> 0 < k ->
  (forall l, In l c -> layer_ok l) -> fits b c -> chunked k m b inputs -> assignment_of c (2 ^ m) inputs a ->
  exists pf, forall inputs', GkrVerify ch (m + k) c pf inputs' (nth (length c) a []) = Some true.
Proof. exact any_inputs. Qed.
Print Assumptions C38_any_inputs_refuted.

(** An instance in which there is no collision: two layers that square. *)
Definition square_circuit : list (Layer Fr) := NewCircuit [[MkWire 0 0 0 MulGate]; [MkWire 0 0 0 MulGate]].
Definition square_inputs : list (list Fr) := [frs [2]%Z; frs [3]%Z].
Definition square_inputs' : list (list Fr) := [frs [10]%Z; frs [20]%Z].
Lemma square_chunked' : chunked 1 0 0 square_inputs'.
Proof. split; [reflexivity|]. intros t [<-|[<-|[]]]; reflexivity. Qed.

Theorem C38_no_collision_refuted : exists inputs outputs pf l,
  chunked 1 0 0 inputs /\ nth_error square_circuit 1 = Some l /\ chunked 1 0 (lBGOutputs l) outputs /\
  GkrVerify ex_hash 1 square_circuit pf inputs outputs = Some true /\
  output_claim 1 0 l outputs <> output_claim 1 0 l (nth 2 (assign square_circuit inputs) []) /\
  forall j, ~ collision_at ex_hash pf square_circuit 0 1 (assign square_circuit inputs) j.
Proof.
  set (pf := match GkrProve ex_hash (mtWhole ex_hash) square_circuit (assign square_circuit square_inputs) 1 with
    Some pf => pf | None => MkProof [] [] [] end).
  set (tot := match nth_error (SumcheckProofs pf) 0 with Some sp => peval (last sp []) (ex_hash (last sp [])) | None => fzero end).
  exists square_inputs', (nth 2 (assign square_circuit square_inputs) []), (forge pf 0 [(tot * finv (1 + 1))%F]), (nth 1 square_circuit (NewLayer [])).
  split; [exact square_chunked'|]. split; [reflexivity|].
  split; [split; [vm_compute; reflexivity|]|].
  { intros t Ht. assert (H : forallb (fun t => Nat.eqb (length t) 1) (nth 2 (assign square_circuit square_inputs) []) = true) by (vm_compute; reflexivity).
    rewrite forallb_forall in H. apply Nat.eqb_eq. exact (H t Ht). }
  split; [vm_compute; reflexivity|]. split.
  - apply feqb_neq. vm_compute. reflexivity.
  - apply no_collision_ok. vm_compute. reflexivity.
Qed.
Print Assumptions C38_no_collision_refuted.

(* ---------------------------------------------------------------- C39 *)
(** The verdict depends on the outputs only through the second half of the rows (or the only row) of
    the second half of the instances. *)
Theorem C39_ignored : forall (F : Field) (ch : list F -> F) mm m k (c : list (Layer F)) l pf inputs outs outs',
  0 < k -> nth_error c (length c - 1) = Some l -> chunked k m (lBGOutputs l) outs -> chunked k m (lBGOutputs l) outs' ->
  (forall o h, o < 2 ^ lBGOutputs l -> 2 ^ lBGOutputs l <= 2 * o + 1 -> h < 2 ^ (m + k) -> 2 ^ (m + k) <= 2 * h ->
    nth (o * 2 ^ (m + k) + h) (glued (lBGOutputs l) m outs) 0%F = nth (o * 2 ^ (m + k) + h) (glued (lBGOutputs l) m outs') 0%F) ->
  GkrVerifyWith ch mm (m + k) c pf inputs outs = GkrVerifyWith ch mm (m + k) c pf inputs outs'.
Proof. exact @outputs_ignored. Qed.
Print Assumptions C39_ignored.

(** So every honest proof is accepted with wrong outputs too. *)
Theorem C39_binding_refuted : forall (ch : list Fr -> Fr) nCore mtProve c b m k inputs a,
  0 < nCore -> follows_machine ch nCore mtProve -> c <> [] -> 0 < k ->
  (forall l, In l c -> layer_ok l) -> fits b c -> chunked k m b inputs -> assignment_of c (2 ^ m) inputs a ->
  exists pf outs', GkrProve ch mtProve c a nCore = Some pf /\ outs' <> nth (length c) a [] /\
    GkrVerify ch (m + k) c pf inputs (nth (length c) a []) = Some true /\
    GkrVerify ch (m + k) c pf inputs outs' = Some true.
Proof. exact honest_two_outputs. Qed.
Print Assumptions C39_binding_refuted.

Example C39_ex : exists pf outs',
  GkrProve ex_hash (mtWhole ex_hash) toy_circuit (assign toy_circuit toy_inputs) 2 = Some pf /\
  outs' <> nth 2 (assign toy_circuit toy_inputs) [] /\
  GkrVerify ex_hash 1 toy_circuit pf toy_inputs (nth 2 (assign toy_circuit toy_inputs) []) = Some true /\
  GkrVerify ex_hash 1 toy_circuit pf toy_inputs outs' = Some true.
Proof.
  apply (C39_binding_refuted ex_hash 2 (mtWhole ex_hash) toy_circuit 1 0 1 toy_inputs);
    [lia|apply C36_follows|discriminate|lia|exact toy_ok|repeat split|exact toy_chunked|apply toy_assignment; exact toy_chunked].
Qed.

(** Exactly which outputs an accepted proof can be shown with: those with the same claim at the constant point. *)
Theorem C39_exact : forall (F : Field) (ch : list F -> F) mm m k (c : list (Layer F)) l pf inputs outs outs',
  0 < k -> nth_error c (length c - 1) = Some l -> chunked k m (lBGOutputs l) outs -> chunked k m (lBGOutputs l) outs' ->
  GkrVerifyWith ch mm (m + k) c pf inputs outs = Some true ->
  (GkrVerifyWith ch mm (m + k) c pf inputs outs' = Some true <->
   output_claim (m + k) m l outs' = output_claim (m + k) m l outs).
Proof. exact @outputs_exact. Qed.
Print Assumptions C39_exact.

Example C39_exact_ex : forall pf (x y x' y' : Fr),
  GkrVerify ex_hash 1 toy_circuit pf toy_inputs [[x]; [y]] = Some true ->
  (GkrVerify ex_hash 1 toy_circuit pf toy_inputs [[x']; [y']] = Some true <->
   output_claim 1 0 (nth 1 toy_circuit (MkLayer [] [] 0 0)) [[x']; [y']] =
   output_claim 1 0 (nth 1 toy_circuit (MkLayer [] [] 0 0)) [[x]; [y]]).
Proof.
  intros pf x y x' y'. apply (C39_exact Fr ex_hash true 0 1 toy_circuit); [lia|reflexivity| |];
    (split; [reflexivity|intros t [<-|[<-|[]]]; reflexivity]).
Qed.

(* ---------------------------------------------------------------- C60 *)
(** What the two kinds of layer provers claim, for every true assignment: the value of the outputs of the layer at the
    point of the claim, and the combination of its values at the two points. *)
Theorem C60_initial : forall (F : Field) (c : list (Layer F)) b m k nCore inputs a,
  0 < nCore -> (forall l, In l c -> claimable l) -> fits b c -> chunked k m b inputs ->
  assignment_of c (2 ^ m) inputs a ->
  forall l qP q, nth_error c (length c - 1) = Some l -> length qP = m + k -> length q = lBGOutputs l ->
  exists p, InitialRoundSumcheckProver c a qP q nCore = Some p /\ mt_ok p (2 ^ k) m (lBGInputs l) /\
    let claim := mle (glued (lBGOutputs l) m (nth (length c) a [])) (q ++ qP) in
    GetClaim (whole p m (lBGInputs l)) = Some claim /\
    must (claim_step p nCore) (fun s => cmn s = CRet claim) (claim_init p nCore).
Proof. exact @initial_claim. Qed.
Print Assumptions C60_initial.

Theorem C60_intermediate : forall (F : Field) (c : list (Layer F)) b m k nCore inputs a,
  0 < nCore -> (forall l, In l c -> claimable l) -> fits b c -> chunked k m b inputs ->
  assignment_of c (2 ^ m) inputs a ->
  forall j l qP qL qR lamL lamR, nth_error c j = Some l ->
  length qP = m + k -> length qL = lBGOutputs l -> length qR = lBGOutputs l ->
  exists p, IntermediateRoundsSumcheckProver c a j qP qL qR lamL lamR nCore = Some p /\ mt_ok p (2 ^ k) m (lBGInputs l) /\
    let W := glued (lBGOutputs l) m (nth (S j) a []) in
    let claim := (lamL * mle W (qL ++ qP) + lamR * mle W (qR ++ qP))%F in
    GetClaim (whole p m (lBGInputs l)) = Some claim /\
    must (claim_step p nCore) (fun s => cmn s = CRet claim) (claim_init p nCore).
Proof. exact @intermediate_claim. Qed.
Print Assumptions C60_intermediate.

Lemma toy_claimable : forall l, In l toy_circuit -> claimable l.
Proof.
  intros l Hl. destruct (toy_ok l Hl) as (H1 & H2 & H3 & H4 & _). repeat (split; [assumption|]). intros g Hg. apply H4, Hg.
Qed.
Example C60_ex : exists p, IntermediateRoundsSumcheckProver toy_circuit (assign toy_circuit toy_inputs) 0 [el 4] [el 5] [el 6] (el 7) (el 8) 3 = Some p /\ mt_ok p 2 0 1 /\
  let W := glued 1 0 (nth 1 (assign toy_circuit toy_inputs) []) in
  let claim := (el 7 * mle W [el 5; el 4] + el 8 * mle W [el 6; el 4])%F in
  GetClaim (whole p 0 1) = Some claim /\
  must (claim_step p 3) (fun s => cmn s = CRet claim) (claim_init p 3).
Proof.
  apply (C60_intermediate Fr toy_circuit 1 0 1 3 toy_inputs (assign toy_circuit toy_inputs)) with (j := 0) (1 := Nat.lt_0_succ 2)
    (l := nth 0 toy_circuit (MkLayer [] [] 0 0));
    [exact toy_claimable|repeat split|exact toy_chunked|apply toy_assignment; exact toy_chunked|reflexivity..].
Qed.
Example C60_ex_value :
  val (p <- IntermediateRoundsSumcheckProver toy_circuit (assign toy_circuit toy_inputs) 0 [el 1] [el 1] [el 0] (el 7) (el 8) 3 ;;
       GetClaim (whole p 0 1)) = Some (7 * 3 + 8 * (3 + 2 ^ 7))%Z.
Proof. vm_compute. reflexivity. Qed.

(* ---------------------------------------------------------------- C35, GKR *)
Theorem C35_gkr_refuted : forall (F : Field) (ch : list F -> F) bN (c : list (Layer F)) inputs outputs,
  GkrVerify ch bN c (MkProof [] [] []) inputs outputs = None.
Proof. exact (fun F ch => @verify_empty F ch true). Qed.
Print Assumptions C35_gkr_refuted.

(** With the right number of polynomials and claims, and no empty polynomial, there is a verdict. *)
Theorem C35_gkr_partial : forall (F : Field) (ch : list F -> F) mm m k b (c : list (Layer F)) l pf inputs outputs,
  0 < k -> (forall l, In l c -> wf_layer l) -> fits b c -> nth_error c (length c - 1) = Some l ->
  chunked k m b inputs -> chunked k m (lBGOutputs l) outputs -> proof_shape c (m + k) pf ->
  exists verdict, GkrVerifyWith ch mm (m + k) c pf inputs outputs = Some verdict.
Proof. exact @verify_total. Qed.
Print Assumptions C35_gkr_partial.

Example C35_gkr_ex : proof_shape toy_circuit 1
  (MkProof [[frs [1]%Z; frs [2;3]%Z; frs [4]%Z]; [frs [1]%Z; frs [2;3]%Z; frs [4]%Z]] (frs [0;0]%Z) (frs [1;2]%Z)).
Proof.
  repeat (split; [reflexivity|]). intros [|[|j]] l sp Hl Hs; try (destruct j; discriminate);
    injection Hl as <-; injection Hs as <-; (split; [reflexivity|]); cbn; intuition discriminate.
Qed.
