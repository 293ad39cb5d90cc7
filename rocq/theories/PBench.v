(** Property theorems for the benchmark with several provers (C72), examples/mimc_test.go:125-163. *)
From Coq Require Import List Arith ZArith Lia Bool.
From Verif Require Import Field FrPrime Fr Go Trans MCommon MPoly Spec MCircuit SpecCircuit MSumcheck SpecSumcheck MSumPar MGkr SpecGkr LGkr5
  MArk MHash SpecHash MTests MBench LBench PPoly PCircuit.
Import ListNotations.

(* ---------------------------------------------------------------- C72 *)
(** When every call returns, every schedule ends, without a panic of a wait group, with all goroutines finished and one of
    the proofs in _mimcProof. *)
Theorem C72_ends : forall (A B : Type) (setup : nat -> outcome A) (prove : A -> outcome B) n c0,
  (forall i, i < n -> exists a b, setup i = Ret a /\ prove a = Ret b) ->
  must (bstep setup prove n)
    (fun s => bm s = BEnd /\ procs s = repeat PEnd n /\ ready s = 0 /\ go s = 0 /\ done s = 0 /\
       (n = 0 -> cell s = c0) /\
       (0 < n -> exists i b, i < n /\ (exists a, setup i = Ret a /\ prove a = Ret b) /\ cell s = Some b))
    (binit n c0).
Proof. exact bench_ends. Qed.
Print Assumptions C72_ends.

(** No goroutine proves before main has given the signal, and main gives it only when all have built their prover. *)
Theorem C72_signal_first : forall (A B : Type) (setup : nat -> outcome A) (prove : A -> outcome B) n c0 s i p,
  reach (bstep setup prove n) (binit n c0) s -> nth_error (procs s) i = Some p ->
  match p with PProve _ | PStore _ | PDone | PEnd => True | _ => False end -> bm s = BDone \/ bm s = BEnd.
Proof. exact signal_first. Qed.
Print Assumptions C72_signal_first.

Theorem C72_all_ready : forall (A B : Type) (setup : nat -> outcome A) (prove : A -> outcome B) n c0 s j,
  reach (bstep setup prove n) (binit n c0) s -> bm s = BGo \/ bm s = BDone \/ bm s = BEnd -> j < n ->
  exists q, nth_error (procs s) j = Some q /\ match q with PNew | PSetup | PReady _ => False | _ => True end.
Proof. exact all_ready. Qed.
Print Assumptions C72_all_ready.

(** A panic can only come from building a prover or from proving. *)
Theorem C72_panics : forall (A B : Type) (setup : nat -> outcome A) (prove : A -> outcome B) n c0 s,
  reach (bstep setup prove n) (binit n c0) s -> bstep setup prove n s None ->
  (exists i, i < n /\ setup i = Panics) \/ (exists i a, i < n /\ setup i = Ret a /\ prove a = Panics).
Proof. exact only_panics. Qed.
Print Assumptions C72_panics.

(** Exactly when some schedule panics: a goroutine panics while it builds its prover, or all goroutines build theirs and one
    panics while it proves. *)
Theorem C72_panics_iff : forall (A B : Type) (setup : nat -> outcome A) (prove : A -> outcome B) n c0,
  (exists s, reach (bstep setup prove n) (binit n c0) s /\ bstep setup prove n s None) <->
  (exists i, i < n /\ setup i = Panics) \/
  ((forall j, j < n -> exists a, setup j = Ret a) /\ exists i a, i < n /\ setup i = Ret a /\ prove a = Panics).
Proof. exact panics_iff. Qed.
Print Assumptions C72_panics_iff.

(** One goroutine that does not get ready, and main never gives the signal; one that does not finish its proof, and main never
    returns. *)
Theorem C72_setup_stuck : forall (A B : Type) (setup : nat -> outcome A) (prove : A -> outcome B) n c0 i s,
  i < n -> (forall a, setup i <> Ret a) -> reach (bstep setup prove n) (binit n c0) s ->
  bm s <> BGo /\ bm s <> BDone /\ bm s <> BEnd /\ cell s = c0.
Proof. exact @setup_stuck. Qed.
Print Assumptions C72_setup_stuck.

Theorem C72_prove_stuck : forall (A B : Type) (setup : nat -> outcome A) (prove : A -> outcome B) n c0 i a s,
  i < n -> setup i = Ret a -> (forall b, prove a <> Ret b) -> reach (bstep setup prove n) (binit n c0) s -> bm s <> BEnd.
Proof. exact @prove_stuck. Qed.
Print Assumptions C72_prove_stuck.

(** The data race: all goroutines can be about to write the package variable _mimcProof at the same time. *)
Theorem C72_race : forall (A B : Type) (setup : nat -> outcome A) (prove : A -> outcome B) n c0 a b,
  (forall i, i < n -> setup i = Ret (a i)) -> (forall i, i < n -> prove (a i) = Ret (b i)) ->
  exists s, reach (bstep setup prove n) (binit n c0) s /\ forall i, i < n -> nth_error (procs s) i = Some (PStore (b i)).
Proof. exact all_store. Qed.
Print Assumptions C72_race.

(** Even with writes that are atomic, any of the proofs may stay. *)
Theorem C72_any : forall (A B : Type) (setup : nat -> outcome A) (prove : A -> outcome B) n c0 a b w,
  (forall i, i < n -> setup i = Ret (a i)) -> (forall i, i < n -> prove (a i) = Ret (b i)) -> w < n ->
  reach (bstep setup prove n) (binit n c0) (MkB BEnd 0 0 0 (repeat PEnd n) (Some (b w))).
Proof. exact any_proof. Qed.
Print Assumptions C72_any.

(** A negative nProcesses panics at once. *)
Theorem C72_negative : forall (A B : Type) (nProcesses : Z) (c0 : option B),
  bstart (A:=A) nProcesses c0 = None <-> (nProcesses < 0)%Z.
Proof. exact bstart_none. Qed.
Print Assumptions C72_negative.

(** With the MiMC circuit: n goroutines, at least n cores, 2^k chunks each (k > 0).  Every schedule ends, and the proof that
    stays is accepted for the inputs of its goroutine. *)
Theorem C72_mimc : forall (ch : list Fr -> Fr) mtProve rnd m k bN n nCore nChunks c0,
  0 < n -> n <= nCore -> nChunks / n = 2 ^ k -> bN = m + k + log2ceil n -> 0 < k ->
  follows_machine ch (nCore / n) (mtProve (nCore / n)) ->
  must (bstep (mimcSetup Arks rnd bN n nCore nChunks) (mimcProve ch mtProve) n)
    (fun s => bm s = BEnd /\ procs s = repeat PEnd n /\
       exists i c inputs a pf, i < n /\ randomInputs (rnd i) (2 ^ k) (m + k) = Some inputs /\
         CreateMimcCircuit Arks = Some c /\ Assign c inputs = Some a /\ cell s = Some pf /\
         GkrVerify ch (m + k) c pf inputs (nth 91 a []) = Some true)
    (binit n c0).
Proof. exact mimc_bench. Qed.
Print Assumptions C72_mimc.

(** With fewer cores than goroutines, or fewer chunks, the benchmark never comes to prove anything. *)
Theorem C72_few_cores : forall (ch : list Fr -> Fr) mtProve rnd bN n nCore nChunks c0 s, nCore < n ->
  reach (bstep (mimcSetup Arks rnd bN n nCore nChunks) (mimcProve ch mtProve) n) (binit n c0) s ->
  bm s <> BGo /\ bm s <> BDone /\ bm s <> BEnd /\ cell s = c0.
Proof. exact mimc_bench_cores. Qed.
Print Assumptions C72_few_cores.

Theorem C72_few_chunks : forall (ch : list Fr -> Fr) mtProve rnd bN n nCore nChunks c0 s, nChunks < n ->
  reach (bstep (mimcSetup Arks rnd bN n nCore nChunks) (mimcProve ch mtProve) n) (binit n c0) s ->
  bm s <> BGo /\ bm s <> BDone /\ bm s <> BEnd /\ cell s = c0.
Proof. exact mimc_bench_chunks. Qed.
Print Assumptions C72_few_chunks.

(** Three goroutines on 8 cores, 12 chunks and 2^6 instances: 2 cores, 4 chunks and 2^4 instances for each. *)
Example C72_ex : forall (ch : list Fr -> Fr) rnd c0,
  must (bstep (mimcSetup Arks rnd 6 3 8 12) (mimcProve ch (fun _ => mtWhole ch)) 3)
    (fun s => bm s = BEnd /\ procs s = repeat PEnd 3 /\ exists pf, cell s = Some pf) (binit 3 c0).
Proof.
  intros ch rnd c0. eapply must_mono; [|apply (C72_mimc ch (fun _ => mtWhole ch) rnd 2 2 6 3 8 12 c0)]; try reflexivity; try lia.
  - intros s (H1 & H2 & i & c & inputs & a & pf & H3). split; [exact H1|]. split; [exact H2|]. exists pf. apply H3.
  - apply LGkr4.mtWhole_follows.
Qed.

(** Two goroutines whose proofs are 10 and 11: both may stay. *)
Example C72_race_ex : forall w, w < 2 ->
  reach (bstep (fun i => Ret i) (fun a => Ret (10 + a)) 2) (binit 2 None) (MkB BEnd 0 0 0 [PEnd; PEnd] (Some (10 + w))).
Proof. intros w Hw. apply (C72_any nat nat _ _ 2 None (fun i => i) (fun i => 10 + i) w); auto. Qed.

(** The second of two goroutines panics while proving; and nobody panics when the first never gets ready. *)
Example C72_panics_ex : exists s,
  reach (bstep (fun i => Ret i) (fun a => if a =? 1 then Panics else Ret a) 2) (binit 2 None) s /\
  bstep (fun i => Ret i) (fun a => if a =? 1 then Panics else Ret a) 2 s None.
Proof.
  apply C72_panics_iff. right. split; [intros j _; exists j; reflexivity|]. exists 1, 1. auto.
Qed.
Example C72_no_panics_ex : ~ exists s,
  reach (bstep (fun i => if i =? 0 then Blocks else Ret i) (fun a : nat => @Panics nat) 2) (binit 2 None) s /\
  bstep (fun i => if i =? 0 then Blocks else Ret i) (fun a : nat => @Panics nat) 2 s None.
Proof.
  intros H. apply C72_panics_iff in H. destruct H as [(i & _ & E)|(H & _)].
  - destruct (i =? 0); discriminate E.
  - destruct (H 0) as (a & E); [lia|discriminate E].
Qed.
