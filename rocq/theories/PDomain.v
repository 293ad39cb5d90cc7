(** Property theorems: on which sizes the table functions succeed, and what they return there (C81). *)
From Coq Require Import List Arith ZArith Lia Bool.
From Verif Require Import Field Go MCommon Spec SpecDomain MPoly LPoly LDomain FrPrime Fr PPoly.
Import ListNotations.

(* ---------------------------------------------------------------- C81 *)
(** Tables of any length: Evaluate panics exactly when there are more slots than entries. *)
Theorem C81_evaluate : forall (F : Field) (t x : list F),
  Evaluate t x = if 2 ^ length x <=? length t then Some (folded t x) else None.
Proof. exact @Evaluate_exact. Qed.
Print Assumptions C81_evaluate.

(** A table of a power of two entries and too few coordinates: the missing ones are read as zero. *)
Theorem C81_missing_coordinates : forall (F : Field) (t x : list F) n,
  length t = 2 ^ (length x + n) -> folded t x = mle t (x ++ repeat 0%F n).
Proof. exact @folded_mle. Qed.
Print Assumptions C81_missing_coordinates.

(** The slots are entries of the table. *)
Theorem C81_slots : forall (b : list bool) L, 2 ^ length b <= L -> slot L b < L.
Proof. exact slot_lt. Qed.
Print Assumptions C81_slots.

Theorem C81_left_right : forall (F : Field) (t hP hL hR : list F),
  EvaluateLeftAndRight t hP hL hR =
  if 2 ^ (Nat.max (length hL) (length hR) + length hP) <=? length t
  then Some (folded t (hL ++ hP), folded t (hR ++ hP)) else None.
Proof. exact @EvaluateLeftAndRight_exact. Qed.
Print Assumptions C81_left_right.

(** Five entries and one coordinate: the fifth entry is ignored.  Seven entries and two coordinates: slots 0, 1, 3, 4. *)
Example C81_evaluate_ex :
  val (Evaluate (frs [1;2;3;4;5]%Z) (frs [10]%Z)) = Some 21%Z /\
  map (slot 5) (cube 1) = [0;2] /\ map (slot 7) (cube 2) = [0;1;3;4] /\
  val (Evaluate (frs [1;2;3;4;5;6;7]%Z) (frs [1;1]%Z)) = Some 5%Z /\
  val (Evaluate (frs [1;2;3]%Z) (frs [1;1]%Z)) = None /\
  val (Evaluate (frs [1;2;3;4]%Z) (frs [5]%Z)) = Some (frval (mle (frs [1;2;3;4]%Z) (frs [5;0]%Z))) /\
  option_map (fun p => (frval (fst p), frval (snd p)))
    (EvaluateLeftAndRight (frs [1;2;3;4;5]%Z) [] (frs [1;1]%Z) (frs [10]%Z)) = Some (4, 21)%Z.
Proof. vm_compute. repeat split. Qed.

(** Any start, any number of chunks. *)
Theorem C81_interleaved_chunk : forall (F : Field) (t : list F) on n,
  InterleavedChunk t on n =
  if n =? 0 then None else
  if length t / n =? 0 then Some [] else
  if on + (length t / n - 1) * n <? length t
  then Some (map (fun i => nth (on + i * n) t 0%F) (seq 0 (length t / n))) else None.
Proof. exact @InterleavedChunk_exact. Qed.
Print Assumptions C81_interleaved_chunk.

Example C81_interleaved_chunk_ex :
  vals (InterleavedChunk (frs [1;2;3;4;5]%Z) 2 2) = Some [3;5]%Z /\
  vals (InterleavedChunk (frs [1;2;3;4;5]%Z) 3 2) = None /\
  vals (InterleavedChunk (frs [1;2]%Z) 9 3) = Some [].
Proof. vm_compute. repeat split. Qed.

(** Chunked evaluation succeeds exactly when the chunks have equal lengths, their number is a power of two other than
    one, no more than the coordinates allow, and the chunks have entries enough for the remaining coordinates. *)
Theorem C81_evaluate_chunked : forall (F : Field) (chunks : list (list F)) q v,
  EvaluateChunked chunks q = Some v <->
  exists x y L, q = x ++ y /\ y <> [] /\ length chunks = 2 ^ length y /\ even_chunks L chunks /\
    2 ^ length x <= L /\ v = folded (blend L chunks y) x.
Proof. exact @EvaluateChunked_exact. Qed.
Print Assumptions C81_evaluate_chunked.

Theorem C81_evaluate_mixed_chunked : forall (F : Field) (chunks : list (list F)) hP hL hR v w,
  EvaluateMixedChunked chunks hP hL hR = Some (v, w) <->
  exists x y L, hP = x ++ y /\ y <> [] /\ length chunks = 2 ^ length y /\ even_chunks L chunks /\
    2 ^ (Nat.max (length hL) (length hR) + length x) <= L /\
    v = folded (blend L chunks y) (hL ++ x) /\ w = folded (blend L chunks y) (hR ++ x).
Proof. exact @EvaluateMixedChunked_exact. Qed.
Print Assumptions C81_evaluate_mixed_chunked.

(** Two chunks of three entries work; three chunks, chunks of different lengths and a single chunk do not. *)
Example C81_chunked_ex :
  val (EvaluateChunked [frs [1;2;3]%Z; frs [4;5;6]%Z] (frs [10;2]%Z)) = Some 17%Z /\
  map frval (blend 3 [frs [1;2;3]%Z; frs [4;5;6]%Z] (frs [2]%Z)) = [7;8;9]%Z /\
  val (EvaluateChunked [frs [1;2]%Z; frs [3;4]%Z; frs [5;6]%Z] (frs [1;1;1]%Z)) = None /\
  val (EvaluateChunked [frs [1;2]%Z; frs [3]%Z] (frs [1]%Z)) = None /\
  val (EvaluateChunked [frs [1;2]%Z] (frs [1]%Z)) = None /\
  option_map (fun p => (frval (fst p), frval (snd p)))
    (EvaluateMixedChunked [frs [1;2;3]%Z; frs [4;5;6]%Z] (frs [2]%Z) (frs [10]%Z) []) = Some (17, 7)%Z.
Proof. vm_compute. repeat split. Qed.

Theorem C81_chunked_eq_table : forall (F : Field) (q : list F) n nCore,
  GetChunkedEqTable q n nCore <> None <->
  exists k, k <= length q /\ n = 2 ^ k /\ (k = 0 \/ 0 < nCore).
Proof. exact @GetChunkedEqTable_exact. Qed.
Print Assumptions C81_chunked_eq_table.

Example C81_chunked_eq_table_ex :
  option_map (map (map frval)) (GetChunkedEqTable (frs [1]%Z) 1 0) = Some [[0;1]%Z] /\
  option_map (map (map frval)) (GetChunkedEqTable (frs [1]%Z) 2 1) = Some [[0]%Z;[1]%Z] /\
  option_map (map (map frval)) (GetChunkedEqTable (frs [1]%Z) 2 0) = None /\
  option_map (map (map frval)) (GetChunkedEqTable (frs [1;2]%Z) 3 1) = None /\
  option_map (map (map frval)) (GetChunkedEqTable (frs [1;2]%Z) 0 1) = None.
Proof. vm_compute. repeat split. Qed.

(** The first table may be longer: what is beyond the second is left as it was. *)
Theorem C81_linear_combination : forall (F : Field) (t0 t1 : list F) a0 a1,
  LinearCombination t0 t1 a0 a1 =
  if length t1 <=? length t0
  then Some (map (fun x => x * a0)%F (firstn (length t1) t0) ++ skipn (length t1) t0,
             map (fun i => a0 * nth i t0 0 + a1 * nth i t1 0)%F (seq 0 (length t1)))
  else None.
Proof. exact @LinearCombination_exact. Qed.
Print Assumptions C81_linear_combination.

Theorem C81_add : forall (F : Field) (dst l r : list F),
  TabAdd dst l r = if length r =? length l
    then Some (map (fun i => nth i l 0 + nth i r 0)%F (seq 0 (length l))) else None.
Proof. exact @TabAdd_exact. Qed.
Print Assumptions C81_add.

Theorem C81_sub : forall (F : Field) (dst l r : list F) nCore,
  TabSub dst l r nCore = if (0 <? nCore) && (length r =? length l)
    then Some (map (fun i => nth i l 0 - nth i r 0)%F (seq 0 (length l))) else None.
Proof. exact @TabSub_exact. Qed.
Print Assumptions C81_sub.

Theorem C81_mul : forall (F : Field) (dst : list F) a x nCore,
  TabMul dst a x nCore = if 0 <? nCore then Some (map (fun y => y * a)%F x) else None.
Proof. exact @TabMul_exact. Qed.
Print Assumptions C81_mul.

Theorem C81_eval_eq : forall (F : Field) (q h : list F),
  EvalEq q h = if length q <=? length h then Some (eqprod q h) else None.
Proof. exact @EvalEq_exact. Qed.
Print Assumptions C81_eval_eq.

Example C81_arith_ex :
  option_map (fun p => (map frval (fst p), map frval (snd p)))
    (LinearCombination (frs [1;2;3]%Z) (frs [4;5]%Z) (mkfr 10) (mkfr 100)) = Some ([10;20;3], [410;520])%Z /\
  option_map (fun p => (map frval (fst p), map frval (snd p)))
    (LinearCombination (frs [1]%Z) (frs [4;5]%Z) (mkfr 10) (mkfr 100)) = None /\
  vals (TabAdd (frs [9]%Z) (frs [1;2]%Z) (frs [3;4]%Z)) = Some [4;6]%Z /\
  vals (TabAdd (frs [9]%Z) (frs [1;2]%Z) (frs [3]%Z)) = None /\
  vals (TabSub [] (frs [5;9]%Z) (frs [3;4]%Z) 3) = Some [2;5]%Z /\
  vals (@TabMul Fr [] (mkfr 3) (frs [3;4]%Z) 0) = None /\
  val (EvalEq (frs [1]%Z) (frs [1;5]%Z)) = Some 1%Z /\
  val (EvalEq (frs [1;5]%Z) (frs [1]%Z)) = None.
Proof. vm_compute. repeat split. Qed.
