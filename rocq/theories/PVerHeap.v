(** Property theorems about the verifiers in shared memory (C65). *)
From Coq Require Import List Arith ZArith Lia Bool.
From Verif Require Import Field Go Trans MCommon Spec MPoly MCircuit SpecCircuit MSumcheck SpecSumcheck MSumPar SpecSumPar MGkr SpecGkr
  MHeap SpecHeap MGkrHeap MVerHeap SpecVerHeap LVerHeap FrPrime Fr PPoly PCircuit PSumcheck PSumPar PGkr.
Import ListNotations.

(* ---------------------------------------------------------------- C65 *)
(** Verification reads its arguments and changes none of them, whichever capacities the runtime gives the slices made by
    append (hence whether or not append writes in place), and gives the answer of the value-level verifier.  Slices of the
    proof, the inputs and the outputs may overlap. *)
Theorem C65_gkr : forall (F : Field) (ch : list F -> F) grow m bN c pf inputs outputs,
  pfwf m pf -> (forall s, In s inputs -> swf m s) -> (forall s, In s outputs -> swf m s) ->
  match HGkrVerify ch grow m bN c pf inputs outputs with
  | Some (m', b) => ext m m' /\ GkrVerify ch bN c (viewProof m pf) (map (tab m) inputs) (map (tab m) outputs) = Some b
  | None => GkrVerify ch bN c (viewProof m pf) (map (tab m) inputs) (map (tab m) outputs) = None
  end.
Proof. exact @gkr_verify_memory. Qed.
Print Assumptions C65_gkr.

(** The sum-check verifier: the three points it returns lie in new memory, and the memory append may write to through the
    second does not meet the others. *)
Theorem C65_sumcheck : forall (F : Field) (ch : list F -> F) grow m claim proof bN bG, (forall c, In c proof -> swf m c) ->
  match HSumVerify ch grow m claim proof bG with
  | Some (m', HReject) => ext m m' /\ Verify ch claim (map (tab m) proof) bN bG = Some Reject
  | Some (m', HAccept qPrime qL qR fin) => ext m m' /\
      Verify ch claim (map (tab m) proof) bN bG = Some (Accept (tab m' qPrime) (tab m' qL) (tab m' qR) fin) /\
      (forall a, base qPrime <= a < base qPrime + scap qPrime \/ base qL <= a < base qL + scap qL \/ base qR <= a < base qR + scap qR -> length m <= a) /\
      (forall a, base qL <= a < base qL + scap qL -> ~ base qPrime <= a < base qPrime + scap qPrime /\ ~ base qR <= a < base qR + scap qR)
  | None => Verify ch claim (map (tab m) proof) bN bG = None
  end.
Proof. exact @sum_verify_memory. Qed.
Print Assumptions C65_sumcheck.

(** Any proof, inputs and outputs can be laid out in memory, so the hypotheses can be met. *)
Theorem C65_layout : forall (F : Field) (pf : Proof F) inputs outputs, exists m hpf ins outs,
  pfwf m hpf /\ (forall s, In s ins -> swf m s) /\ (forall s, In s outs -> swf m s) /\
  viewProof m hpf = pf /\ map (tab m) ins = inputs /\ map (tab m) outs = outputs.
Proof. exact @proof_store. Qed.
Print Assumptions C65_layout.

Example C65_ex : exists m hpf ins outs, map (tab m) ins = toy_inputs /\ forall grow, exists m',
  HGkrVerify ex_hash grow m 1 toy_circuit hpf ins outs = Some (m', true) /\ ext m m'.
Proof.
  destruct C36_ex as (a & pf & _ & _ & E). destruct (C65_layout Fr pf toy_inputs (nth 2 a [])) as (m & hpf & ins & outs & Wp & Wi & Wo & Vp & Vi & Vo).
  exists m, hpf, ins, outs. split; [exact Vi|]. intros grow. pose proof (C65_gkr Fr ex_hash grow m 1 toy_circuit hpf ins outs Wp Wi Wo) as H.
  rewrite Vp, Vi, Vo, E in H. destruct (HGkrVerify ex_hash grow m 1 toy_circuit hpf ins outs) as [[m' b]|]; [|discriminate].
  destruct H as [X H]. injection H as <-. exists m'. auto.
Qed.
