(** Property theorems for the executions that panic, hang or return (C83). *)
From Coq Require Import List Arith ZArith Lia Bool.
From Verif Require Import Field Go Trans MCommon Spec MPoly MCircuit SpecCircuit LCircuit MSumcheck SpecSumcheck MSumPar SpecSumPar
  SpecEnds LEnds LEnds5 FrPrime Fr LPoly3 PPoly PCircuit PSumcheck PSumPar.
From Verif Require MForkJoin.
Import ListNotations.

(* ---------------------------------------------------------------- C83 *)
(** [must] is [ends] without panics, and a machine that [fails] is never stuck otherwise. *)
Theorem C83_must : forall (S : Type) (step : S -> option S -> Prop) (P : S -> Prop) s,
  must step P s <-> ends step P s /\ (forall s', reach step s s' -> ~ step s' None).
Proof. exact @must_ends. Qed.
Print Assumptions C83_must.

(** Prove(nCore) of the multi-threaded prover, on any tables for which it starts a goroutine: every execution is finite. *)
Theorem C83_finite : forall (F : Field) ch (p : MTProver F) n bG K rest, mtPrepare p = Some (n, bG, K, rest) ->
  forall nCore, ends (mt_step ch p nCore n bG K rest) (fun _ => True) (mt_init nCore n).
Proof. exact @par_finite. Qed.
Print Assumptions C83_finite.

(** It returns only when every sub-prover runs the same number of rounds as main. *)
Theorem C83_returns : forall (F : Field) ch (p : MTProver F) n bG K rest, mtPrepare p = Some (n, bG, K, rest) ->
  forall nCore s o x, reach (mt_step ch p nCore n bG K rest) (mt_init nCore n) s -> main s = MEnd o -> x < n -> rounds_of p x K.
Proof. exact @par_returns. Qed.
Print Assumptions C83_returns.

(** With a token, when those that run rounds at all run the right number of them, it does not hang: it returns, all goroutines
    having ended and released their tokens, or panics. *)
Theorem C83_no_hang : forall (F : Field) ch (p : MTProver F) n bG K rest, mtPrepare p = Some (n, bG, K, rest) ->
  forall nCore, 0 < nCore -> (forall x r, x < n -> rounds_of p x r -> r = K) ->
  ends (mt_step ch p nCore n bG K rest) (fun s => exists o, main s = MEnd o /\ ws s = repeat WEnd n /\ toks s = nCore) (mt_init nCore n).
Proof. exact @par_ends. Qed.
Print Assumptions C83_no_hang.

(** A chunk without tables makes it panic. *)
Theorem C83_missing : forall (F : Field) ch (p : MTProver F) n bG K rest, mtPrepare p = Some (n, bG, K, rest) ->
  forall nCore x, 0 < nCore -> (forall x r, x < n -> rounds_of p x r -> r = K) -> x < n -> ~ (exists r, rounds_of p x r) ->
  fails (mt_step ch p nCore n bG K rest) (mt_init nCore n).
Proof. exact @par_missing. Qed.
Print Assumptions C83_missing.

(** A chunk with another number of rounds makes it panic or hang: no execution returns. *)
Theorem C83_unequal : forall (F : Field) ch (p : MTProver F) n bG K rest, mtPrepare p = Some (n, bG, K, rest) ->
  forall nCore x r, x < n -> rounds_of p x r -> r <> K ->
  ends (mt_step ch p nCore n bG K rest) (fun s => forall o, main s <> MEnd o) (mt_init nCore n).
Proof. exact @par_unequal. Qed.
Print Assumptions C83_unequal.

(** So does a semaphore without tokens. *)
Theorem C83_no_core : forall (F : Field) ch (p : MTProver F) n bG K rest, mtPrepare p = Some (n, bG, K, rest) ->
  ends (mt_step ch p 0 n bG K rest) (fun s => forall o, main s <> MEnd o) (mt_init 0 n).
Proof. exact @par_no_core. Qed.
Print Assumptions C83_no_core.

(** Tables of the right shape, over the scalar field: the number of chunks and the degrees of the gates decide, for the two
    provers alike. *)
Theorem C83_exact : forall ch (p : MTProver Fr) n k bG nCore, mt_ok p n k bG -> 0 < nCore ->
  mtPrepare p = Some (n, bG, bG + bG + k, log2ceil n) /\
  (mt_fine p n k bG -> exists out, Prove ch (whole p k bG) = Some out /\
     must (mt_step ch p nCore n bG (bG + bG + k) (log2ceil n)) (fun s => main s = MEnd out) (mt_init nCore n)) /\
  (~ mt_fine p n k bG -> Prove ch (whole p k bG) = None /\ fails (mt_step ch p nCore n bG (bG + bG + k) (log2ceil n)) (mt_init nCore n)).
Proof. exact mt_exact. Qed.
Print Assumptions C83_exact.

Theorem C83_single : forall ch (vL vR eq : list Fr) (gates : list (Gate Fr)) (st : list (list Fr)) bG,
  0 < length eq -> length vL = 2 ^ bG * length eq -> length vR = 2 ^ bG * length eq -> length st = length gates ->
  (forall tab, In tab st -> length tab = 2 ^ bG * 2 ^ bG) -> (bG = 0 \/ gates <> []) -> (forall g, In g gates -> many_ok g) ->
  (Prove ch (NewSingleThreadedProver vL vR eq gates st) <> None <->
   (exists c, length eq = 2 ^ c) /\ (bG = 0 \/ maxHL gates <= 10 /\ maxHR gates <= 10) /\ (length eq = 1 \/ maxHP gates <= 10)).
Proof. exact single_exact. Qed.
Print Assumptions C83_single.

(** GetClaim(nCore), on any tables. *)
Theorem C83_claim : forall (F : Field) (p : MTProver F) nCore (cl : nat -> F), 0 < nCore ->
  (forall x, x < length (tEq p) -> chunkClaim p x = Some (cl x)) ->
  must (claim_step p nCore) (fun s => cmn s = CRet (sumn (length (tEq p)) cl) /\ cws s = repeat CEnd (length (tEq p)) /\ ctok s = nCore /\ cbuf (cch s) = [])
    (claim_init p nCore).
Proof. exact @claim_sum. Qed.
Print Assumptions C83_claim.

Theorem C83_claim_panics : forall (F : Field) (p : MTProver F) nCore x, 0 < nCore -> x < length (tEq p) -> chunkClaim p x = None ->
  fails (claim_step p nCore) (claim_init p nCore).
Proof. exact @claim_panics. Qed.
Print Assumptions C83_claim_panics.

(** The goroutines of Layer.Evaluate and of the tables' functions, whatever their bodies do. *)
Theorem C83_fork_join : forall (M A : Type) (exec : A -> M -> option M) (prog : list (list A)) nTok inMain closes, 0 < nTok ->
  forall m, ends (MForkJoin.step exec prog nTok inMain closes)
    (fun s => MForkJoin.main s = MForkJoin.MEnd /\ MForkJoin.closed s = closes /\ MForkJoin.toks s = nTok) (MForkJoin.init prog nTok inMain m).
Proof. exact @fj_ends. Qed.
Print Assumptions C83_fork_join.

Theorem C83_layer : forall (F : Field) (l : Layer F) (inputs : list (list F)) nCore, 0 < nCore -> LayerEvaluate l inputs = None ->
  fails (MForkJoin.step (layer_exec l inputs) (per_chunk (length inputs)) nCore false true)
    (MForkJoin.init (per_chunk (length inputs)) nCore false (repeat [] (length inputs))).
Proof. exact @layer_fails. Qed.
Print Assumptions C83_layer.

(** Examples.  The tables of PSumPar.v; three chunks; a chunk without its second table. *)
Example C83_exact_ex : exists out, must (mt_step (fun c => hd fzero c) ex_mt 3 2 1 2 1) (fun s => main s = MEnd out) (mt_init 3 2).
Proof.
  destruct (C83_exact (fun c => hd fzero c) ex_mt 2 0 1 3 ex_mt_ok) as (_ & H & _); [lia|].
  destruct H as (out & _ & H); [|exists out; exact H]. split; [exists 1; reflexivity|]. cbn. lia.
Qed.

Definition ex_mt3 : MTProver Fr := MkMT [frs [1]%Z; frs [2]%Z; frs [3]%Z] [frs [4]%Z; frs [5]%Z; frs [6]%Z] [frs [1]%Z; frs [1]%Z; frs [1]%Z] [CopyGate] [frs [1]%Z].
Example C83_three_chunks : fails (mt_step (fun c => hd fzero c) ex_mt3 2 3 0 0 2) (mt_init 2 3).
Proof.
  apply (C83_exact (fun c => hd fzero c) ex_mt3 3 0 0 2).
  - unfold mt_ok. split; [lia|]. repeat (split; [reflexivity|]). split; [intros c [<-|[<-|[<-|[]]]]; reflexivity|].
    split; [intros c [<-|[<-|[<-|[]]]]; reflexivity|]. split; [intros c [<-|[<-|[<-|[]]]]; reflexivity|]. split; [reflexivity|].
    split; [intros c [<-|[]]; reflexivity|]. split; [left; reflexivity|]. intros g [<-|[]]. apply copy_many.
  - lia.
  - intros ((c & Hc) & _). destruct c as [|[|c]]; cbn in Hc; lia.
Qed.

Definition ex_mt1 : MTProver Fr := MkMT [frs [1]%Z; frs [2]%Z] [frs [4]%Z] [frs [1]%Z; frs [1]%Z] [CopyGate] [frs [1]%Z].
Example C83_missing_ex : fails (mt_step (fun c => hd fzero c) ex_mt1 2 2 0 0 1) (mt_init 2 2).
Proof.
  apply (C83_missing Fr (fun c => hd fzero c) ex_mt1 2 0 0 1 eq_refl 2 1); [lia| |lia|].
  - intros [|[|x]] r Hx (vL & vR & eq & H1 & H2 & H3 & H4 & H5); [|discriminate H2|lia].
    injection H2 as <-. injection H3 as <-. exact H5.
  - intros (r & vL & vR & eq & H1 & H2 & _). discriminate H2.
Qed.

(** Two chunks of one and two instances: main waits for a sub-prover that waits for main. *)
Definition ex_mt2 : MTProver Fr := MkMT [frs [1]%Z; frs [2; 3]%Z] [frs [4]%Z; frs [5; 6]%Z] [frs [1]%Z; frs [1; 1]%Z] [] [].
Definition ex_run (a : tid) := run (Wk:=Sub Fr) (E:=list Fr) (R:=Fr) (MS:=MLoc) (G:=Merged) [] fzero zSub 2 2 0
  (subInit ex_mt2) subMore subEvals subFold consumeEvals (mtRound (fun c => hd fzero c) 0) (mergeSub 2) (mtFinish (fun c => hd fzero c) 1) a.
Fixpoint ex_exec (l : list tid) s :=
  match l with [] => Some s | t :: l => match ex_run t s with Gives s => ex_exec l s | _ => None end end.
Lemma ex_exec_reach l : forall i0 s s', reach (mt_step (fun c => hd fzero c) ex_mt2 2 2 0 0 1) i0 s -> ex_exec l s = Some s' ->
  reach (mt_step (fun c => hd fzero c) ex_mt2 2 2 0 0 1) i0 s'.
Proof.
  induction l as [|t l IH]; intros i0 s s' H E; cbn [ex_exec] in E; [injection E as <-; exact H|].
  destruct (ex_run t s) as [| |s1] eqn:E1; try discriminate E.
  apply (IH i0 s1 s'); [|exact E]. eapply reach_step; [exact H|]. eapply step_ok. exact E1.
Qed.
Definition waits (s : option (st (Wk:=Sub Fr) (E:=list Fr) (R:=Fr) (MS:=MLoc (F:=Fr)) (G:=Merged (F:=Fr)) (Out:=list (list Fr) * list Fr * list Fr * list Fr * list Fr))) : bool :=
  match s with
  | Some (MkSt (MMerge 1 _) _ _ (MkChan [] false) [_; MkChan [] false] _ [] [WEnd; WRecv 0 _] _) => true
  | _ => false
  end.
Theorem C83_hangs : exists s, reach (mt_step (fun c => hd fzero c) ex_mt2 2 2 0 0 1) (mt_init 2 2) s /\
  (forall o, ~ mt_step (fun c => hd fzero c) ex_mt2 2 2 0 0 1 s o) /\ forall o, main s <> MEnd o.
Proof.
  set (w0 := TWorker 0). set (w1 := TWorker 1).
  assert (H : waits (ex_exec [TMain; TMain; TMain; w0; w0; w0; w0; w0; w0; w1; w1; w1; w1; w1; TMain] (mt_init 2 2)) = true) by (vm_compute; reflexivity).
  destruct (ex_exec _ _) as [s|] eqn:E in H; [|discriminate H]. exists s. split; [eapply ex_exec_reach; [apply reach_refl|exact E]|]. clear E.
  destruct s as [pc l eC fC rC w h t k]. unfold waits in H. destruct pc as [| | | | |[|[|m]] g| | | |]; try discriminate H.
  destruct fC as [[|b fb] [|]]; try discriminate H. destruct rC as [|c0 [|[[|b1 cb] [|]] [|c2 rC]]]; try discriminate H.
  destruct h; try discriminate H. destruct t as [|t0 t]; try discriminate H. destruct t0; try discriminate H. destruct t as [|t1 t]; try discriminate H.
  destruct t1 as [| | | | | |[|j] q| | | | | |]; try discriminate H. destruct t; try discriminate H.
  split; [|intros o Hm; discriminate Hm].
  intros o Hs. inversion Hs as [a s' Ha Eo|a Ha Eo]; destruct a as [|x|x]; cbn [run] in Ha; try discriminate Ha;
    try (destruct x as [|[|[|x]]]; discriminate Ha).
Qed.
Print Assumptions C83_hangs.

Example C83_unequal_ex : mtPrepare ex_mt2 = Some (2, 0, 0, 1) /\ rounds_of ex_mt2 1 1.
Proof. split; [reflexivity|]. do 3 eexists. repeat (split; [reflexivity|]). split; [cbn; lia|reflexivity]. Qed.

Example C83_claim_ex : fails (claim_step ex_mt1 2) (claim_init ex_mt1 2).
Proof. apply (C83_claim_panics Fr ex_mt1 2 1); [lia|cbn; lia|reflexivity]. Qed.

(** The layer and the input of C24 on which Evaluate panics. *)
Example C83_layer_ex : exists (l : Layer Fr) inp, fails (MForkJoin.step (layer_exec l [inp]) (per_chunk 1) 2 false true) (MForkJoin.init (per_chunk 1) 2 false [[]]).
Proof.
  destruct (C24_evaluate_panics_refuted Fr) as (l & N & inp & _ & _ & H). exists l, inp. apply (C83_layer Fr l [inp] 2); [lia|exact H].
Qed.
