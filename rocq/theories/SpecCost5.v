(** How many multiplications the multi-threaded sum-check needs, said without reference to its loops. *)
From Coq Require Import List Arith Bool.
From Verif Require Import Field Go MCommon MCircuit MSumcheck SpecSumcheck MSumPar MCost SpecCost.
Import ListNotations.

Section S.
  Context {F : Field}.

  (** The iterations of the sub-prover that C30 speaks of, on the challenges of the three loops. *)
  Definition sub_round (s : Sub F) (jr : nat * F) : option (Sub F) :=
    if subMore (fst jr) s then
      match subEvals (fst jr) s with Some _ => subFold (fst jr) s (snd jr) | None => None end
    else None.
  Definition sub_run (qL qR qP : list F) (s : Sub F) : option (Sub F) :=
    match foldM sub_round (combine (seq 0 (length qL)) qL) s with
    | None => None
    | Some s =>
        match foldM sub_round (combine (seq (length qL) (length qR)) qR) s with
        | None => None
        | Some s => foldM sub_round (combine (seq (length qL + length qR) (length qP)) qP) s
        end
    end.

  (** The number of values sent in iteration [j]. *)
  Definition evaluations (gates : list (Gate F)) (bG j : nat) : nat :=
    if j <? bG then maxHL gates + 2 else if j <? bG + bG then maxHR gates + 2 else maxHP gates + 2.
End S.

(** A sub-prover with [2 ^ m] instances, with [el], [er] and [ep] evaluations a round: evaluations and folds. *)
Definition sub_left (e bG m : nat) (supports : list nat) (cs : list Price) : nat :=
  bG * (2 ^ m * over (fun c => cVL c e + e) supports cs) + (2 ^ bG - 1) * (length cs * (2 ^ bG * (e + 1)) + 2 ^ m).
Definition sub_right (e bG m : nat) (supports : list nat) (cs : list Price) : nat :=
  bG * (2 ^ m * over (fun c => cVR c e + e) supports cs) + (2 ^ bG - 1) * (length cs * (e + 1) + 2 ^ m).
Definition sub_prime (e m : nat) (cs : list Price) : nat :=
  m * (length cs * e) + (2 ^ m - 1) * (list_sum (map (fun c => e * (cEval c + 1)) cs) + 3).
Definition sub_work (el er ep bG m : nat) (supports : list nat) (cs : list Price) : nat :=
  sub_left el bG m supports cs + sub_right er bG m supports cs + sub_prime ep m cs.

(** [2 ^ k] sub-provers, the main goroutine's interpolations for them, and its rounds on the merged tables. *)
Definition threads_work (el er ep bG m k : nat) (supports : list nat) (cs : list Price) : nat :=
  2 ^ k * sub_work el er ep bG m supports cs + (bG * (el * el) + bG * (er * er) + m * (ep * ep)) + work_prime ep k cs.
