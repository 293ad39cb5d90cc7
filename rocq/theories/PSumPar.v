(** Property theorems for the multi-threaded sum-check prover (C30, C31). *)
From Coq Require Import List Arith ZArith Lia Bool.
From Verif Require Import Field Go Trans MCommon Spec MPoly MCircuit SpecCircuit LCircuit MSumcheck SpecSumcheck MSumPar SpecSumPar
  LSumPar4 FrPrime Fr LPoly3 PPoly PCircuit PSumcheck.
Import ListNotations.

(** The tables of the examples of PSumcheck.v cut in two chunks of one instance. *)
Definition ex_mt : MTProver Fr :=
  MkMT [frs [1;5]%Z; frs [2;6]%Z] [frs [1;5]%Z; frs [2;6]%Z] [frs [3]%Z; frs [-2]%Z] ex_gates ex_st.
Lemma ex_mt_ok : mt_ok ex_mt 2 0 1.
Proof.
  unfold mt_ok. split; [lia|]. repeat (split; [reflexivity|]).
  split; [intros c [<-|[<-|[]]]; reflexivity|]. split; [intros c [<-|[<-|[]]]; reflexivity|].
  split; [intros c [<-|[<-|[]]]; reflexivity|]. split; [reflexivity|].
  split; [intros c [<-|[<-|[]]]; reflexivity|]. split; [right; discriminate|].
  intros g Hg. apply (ex_gates_ok g Hg).
Qed.

(* ---------------------------------------------------------------- C30 *)
(** Any number of chunks and of tokens.  [must]: no execution panics (in particular none sends on or closes a closed
    channel) or is infinite, and one that cannot go on is in the described state: main has returned, every sub-prover has ended,
    all tokens are back and all channels are empty and closed. *)
Theorem C30_same_result : forall (F : Field) ch (p : MTProver F) n k bG nCore out,
  mt_ok p n k bG -> 0 < nCore -> Prove ch (whole p k bG) = Some out ->
  mtPrepare p = Some (n, bG, bG + bG + k, log2ceil n) /\
  must (mt_step ch p nCore n bG (bG + bG + k) (log2ceil n))
    (fun s => main s = MEnd out /\ ws s = repeat WEnd n /\ toks s = nCore /\ rCs s = repeat (MkChan [] true) n /\
       evC s = MkChan [] true /\ finC s = MkChan [] true) (mt_init nCore n).
Proof. exact @mt_same_result. Qed.
Print Assumptions C30_same_result.

(** With a power-of-two number of chunks and gates of the right kind there is a result. *)
Theorem C30_total : forall (ch : list Fr -> Fr) (p : MTProver Fr) c k bG nCore, mt_ok p (2 ^ c) k bG -> 0 < nCore ->
  (forall g, In g (tGates p) -> gate_ok g) ->
  maxHL (tGates p) <= 10 /\ maxHR (tGates p) <= 10 /\ maxHP (tGates p) <= 10 ->
  exists out, Prove ch (whole p k bG) = Some out /\
    mtPrepare p = Some (2 ^ c, bG, bG + bG + k, c) /\
    must (mt_step ch p nCore (2 ^ c) bG (bG + bG + k) c) (fun s => main s = MEnd out) (mt_init nCore (2 ^ c)).
Proof. exact mt_complete_Fr. Qed.
Print Assumptions C30_total.

(** Without a token the prover never returns. *)
Theorem C30_no_core : forall (F : Field) ch (p : MTProver F) n bG K c s,
  0 < n -> reach (mt_step ch p 0 n bG K c) (mt_init 0 n) s -> forall out, main s <> MEnd out.
Proof. exact @mt_stuck. Qed.
Print Assumptions C30_no_core.

Example C30_ex : exists out, Prove (fun c => hd fzero c) (whole ex_mt 0 1) = Some out /\
  mtPrepare ex_mt = Some (2, 1, 2, 1) /\
  must (mt_step (fun c => hd fzero c) ex_mt 3 2 1 2 1) (fun s => main s = MEnd out) (mt_init 3 2).
Proof. apply (C30_total (fun c => hd fzero c) ex_mt 1 0 1 3 ex_mt_ok); [lia|exact ex_gates_ok|cbn; lia]. Qed.

(* ---------------------------------------------------------------- C31 *)
Theorem C31_getclaim : forall (F : Field) (p : MTProver F) n k bG nCore, mt_ok p n k bG -> 0 < nCore ->
  exists claim, GetClaim (whole p k bG) = Some claim /\
  must (claim_step p nCore) (fun s => cmn s = CRet claim /\ cws s = repeat CEnd n /\ ctok s = nCore /\ cbuf (cch s) = [])
    (claim_init p nCore).
Proof. exact @mt_claim. Qed.
Print Assumptions C31_getclaim.

Theorem C31_no_core : forall (F : Field) (p : MTProver F) s, 0 < length (tEq p) ->
  reach (claim_step p 0) (claim_init p 0) s -> forall res, cmn s <> CRet res.
Proof. exact @claim_stuck. Qed.
Print Assumptions C31_no_core.

Example C31_ex : exists claim, GetClaim (whole ex_mt 0 1) = Some claim /\
  must (claim_step ex_mt 1) (fun s => cmn s = CRet claim /\ cws s = repeat CEnd 2 /\ ctok s = 1 /\ cbuf (cch s) = [])
    (claim_init ex_mt 1).
Proof. apply (C31_getclaim Fr ex_mt 2 0 1 1 ex_mt_ok). lia. Qed.
Example C31_ex_value : val (GetClaim (whole ex_mt 0 1)) = Some ((3 * (5 + 2^7 + 2*5) - 2 * (6 + 3^7 + 2*6)) mod frModulus)%Z.
Proof. vm_compute. reflexivity. Qed.
