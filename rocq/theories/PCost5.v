(** C99: the number of field multiplications of the multi-threaded sum-check. *)
From Coq Require Import List Arith ZArith Lia Bool.
From Verif Require Import Field Fr Go MCommon Spec MPoly MCircuit MSumcheck SpecSumcheck MSumPar SpecSumPar MCost SpecCost MCost5 SpecCost5 LCost13 LCost14 LCost15 PPoly PCircuit PSumcheck PSumPar PCost.
Import ListNotations.

(* ---------------------------------------------------------------- C99 *)
(** The counting sub-prover is the sub-prover of C30. *)
Theorem C99_evals : forall (F : Field) gs cs j (s : Sub F), Forall2 priced gs cs -> sGates (subProver s) = map wbase gs -> erase (WsubEvals gs j s) = subEvals j s.
Proof. exact @sub_evals. Qed.
Print Assumptions C99_evals.
Theorem C99_folds : forall (F : Field) j (s : Sub F) r, erase (WsubFold j s r) = subFold j s r.
Proof. exact @sub_fold. Qed.
Print Assumptions C99_folds.
Theorem C99_values : forall (F : Field) gs cs qL qR qP (s : Sub F), Forall2 priced gs cs -> sGates (subProver s) = map wbase gs ->
  erase (WsubRun gs qL qR qP s) = sub_run qL qR qP s.
Proof. exact @sub_values. Qed.
Print Assumptions C99_values.

(** One sub-prover, on any challenges: so in whatever order the goroutines run. *)
Theorem C99_sub_prover : forall (F : Field) gs cs (p : MTProver F) n m bG i s qL qR qP s', Forall2 priced gs cs -> tGates p = map wbase gs ->
  mt_ok p n m bG -> subInit p i = Some s -> length qL = bG -> length qR = bG -> length qP = m -> sub_run qL qR qP s = Some s' ->
  exists c, WsubRun gs qL qR qP s = Some (s', c) /\
    c <= sub_work (maxHL (tGates p) + 2) (maxHR (tGates p) + 2) (maxHP (tGates p) + 2) bG m (map support (tStatic p)) cs.
Proof. exact @sub_cost. Qed.
Print Assumptions C99_sub_prover.

(** Every sub-prover returns, on any challenges of the right number, with one value left in each of its tables. *)
Theorem C99_returns : forall (F : Field) (p : MTProver F) n m bG i (qL qR qP : list F), mt_ok p n m bG -> i < n -> length qL = bG -> length qR = bG -> length qP = m ->
  exists s s', subInit p i = Some s /\ sub_run qL qR qP s = Some s' /\
    length (sVL (subProver s')) = 1 /\ length (sVR (subProver s')) = 1 /\ length (sEq (subProver s')) = 1.
Proof. exact @sub_returns. Qed.
Print Assumptions C99_returns.

(** The main goroutine only interpolates while the sub-provers run. *)
Theorem C99_main_round : forall (F : Field) (ch : list F -> F) bG i l evals x, mtRound ch bG i l evals = Some x ->
  WmtRound ch bG i l evals = Some (x, length evals * length evals).
Proof. exact @main_round. Qed.
Print Assumptions C99_main_round.

(** The last rounds, on the merged tables with one entry per sub-prover. *)
Theorem C99_merged : forall (F : Field) gs cs (ch : list F -> F) k l vL vR eq st out, Forall2 priced gs cs ->
  length vL = 2 ^ k -> length vR = 2 ^ k -> length eq = 2 ^ k -> length st = length gs ->
  mtFinish ch k l (vL, vR, eq, map wbase gs, st) = Some out ->
  exists c, WmtFinish gs ch k l (vL, vR, eq, map wbase gs, st) = Some (out, c) /\ c <= work_prime (maxHP (map wbase gs) + 2) k cs.
Proof. exact @finish_cost. Qed.
Print Assumptions C99_merged.

(** What a sub-prover sends after any challenges [q]: so many values, as the main goroutine interpolates. *)
Theorem C99_sent : forall (F : Field) (p : MTProver F) n m bG i s (q : list F), mt_ok p n m bG -> subInit p i = Some s -> length q < bG + bG + m ->
  exists s' ev, foldM sub_round (combine (seq 0 (length q)) q) s = Some s' /\ subEvals (length q) s' = Some ev /\ length ev = evaluations (tGates p) bG (length q).
Proof. exact @sent. Qed.
Print Assumptions C99_sent.

(** All sub-provers, the interpolations of their rounds and the rounds on the merged tables. *)
Theorem C99_together : forall (F : Field) gs cs (p : MTProver F) m k bG qL qR qP (count : nat -> nat) (ch : list F -> F) l vL vR eq st out c,
  Forall2 priced gs cs -> tGates p = map wbase gs -> mt_ok p (2 ^ k) m bG -> length qL = bG -> length qR = bG -> length qP = m ->
  (forall i, i < 2 ^ k -> exists s s', subInit p i = Some s /\ WsubRun gs qL qR qP s = Some (s', count i)) ->
  length vL = 2 ^ k -> length vR = 2 ^ k -> length eq = 2 ^ k -> length st = length gs ->
  WmtFinish gs ch k l (vL, vR, eq, tGates p, st) = Some (out, c) ->
  list_sum (map count (seq 0 (2 ^ k))) + list_sum (map (fun j => evaluations (tGates p) bG j * evaluations (tGates p) bG j) (seq 0 (bG + bG + m))) + c
  <= threads_work (maxHL (tGates p) + 2) (maxHR (tGates p) + 2) (maxHP (tGates p) + 2) bG m k (map support (tStatic p)) cs.
Proof. exact @together. Qed.
Print Assumptions C99_together.

(** This is the bound of C95 for the single-threaded prover, and for every sub-prover but one its own copy of the static tables to
    evaluate and fold, and the static values in its rounds of h'. *)
Theorem C99_overhead : forall el er ep bG m k supports cs,
  threads_work el er ep bG m k supports cs =
  work_left el bG (k + m) supports cs + work_right er bG (k + m) supports cs + work_prime ep (k + m) cs
  + (2 ^ k - 1) * ((2 ^ bG - 1) * (length cs * (2 ^ bG * (el + 1) + (er + 1))) + m * (length cs * ep)).
Proof. exact threads_overhead. Qed.
Print Assumptions C99_overhead.

(** The second sub-prover of C30_ex, with the bound met, and the merged round. *)
Example C99_hypotheses : Forall2 (priced (F := Fr)) [WCipherGate (el 1); WCopyGate] [CipherPrice; CopyPrice] /\ tGates ex_mt = map wbase [WCipherGate (el 1); WCopyGate] /\ mt_ok ex_mt 2 0 1.
Proof. split; [constructor; [apply C95_cipher|constructor; [apply C95_copy|constructor]]|]. split; [reflexivity|exact ex_mt_ok]. Qed.

Example C99_ex :
  option_map snd (match subInit ex_mt 1 with Some s => WsubRun [WCipherGate (el 1); WCopyGate] (frs [3]%Z) (frs [4]%Z) [] s | None => None end) =
    Some (sub_work (maxHL (tGates ex_mt) + 2) (maxHR (tGates ex_mt) + 2) (maxHP (tGates ex_mt) + 2) 1 0 (map support (tStatic ex_mt)) [CipherPrice; CopyPrice]) /\
  option_map (fun _ => tt) (match subInit ex_mt 1 with Some s => sub_run (frs [3]%Z) (frs [4]%Z) [] s | None => None end) = Some tt /\
  option_map (fun _ => tt) (match subInit ex_mt 1 with Some s => sub_run (frs [3]%Z) (frs [4]%Z) (frs [5]%Z) s | None => None end) = None /\
  option_map snd (WmtFinish [WCipherGate (el 1); WCopyGate] (fun _ => el 7) 1 (MkLoc [] [] [] []) (frs [1; 2]%Z, frs [3; 4]%Z, frs [5; 6]%Z, map wbase [WCipherGate (el 1); WCopyGate], [frs [1]%Z; frs [2]%Z])) =
    Some (work_prime (maxHP (tGates ex_mt) + 2) 1 [CipherPrice; CopyPrice]).
Proof. vm_compute. repeat split. Qed.
