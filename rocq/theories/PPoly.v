(** Property theorems for package polynomial (C01-C12, C14) and common (C15, C16).
    [F] is any field; examples are in the BN254 scalar field [Fr]. *)
From Coq Require Import List Arith ZArith Lia Bool.
From Verif Require Import Field Go MCommon Spec MPoly LSpec LCommon LPoly LPoly2 LPoly3 FrPrime Fr.
Import ListNotations.

Definition frs (l : list Z) : list Fr := map mkfr l.
Definition vals (o : option (list Fr)) : option (list Z) := option_map (map frval) o.
Definition val (o : option Fr) : option Z := option_map frval o.

(* ---------------------------------------------------------------- C01 *)
Theorem C01_fold : forall (F : Field) (t : list F) (r : F) (m : nat),
  length t = 2 * m ->
  exists t', Fold t r = Some t' /\ length t' = m /\
    forall i, i < m -> nth i t' 0%F = ((1 - r) * nth i t 0 + r * nth (i + m) t 0)%F.
Proof. exact fold_spec. Qed.
Print Assumptions C01_fold.

Theorem C01_fold_all : forall (F : Field) (t rs : list F),
  length t = 2 ^ length rs -> exists v, FoldMany t rs = Some [v].
Proof. exact fold_all_spec. Qed.
Print Assumptions C01_fold_all.

(** Fold never panics, whatever the length; an odd last entry is dropped. *)
Theorem C01_fold_never_panics : forall (F : Field) (t : list F) (r : F),
  exists t', Fold t r = Some t' /\ length t' = length t / 2.
Proof. exact fold_total. Qed.
Print Assumptions C01_fold_never_panics.

Example C01_ex : length (frs [1;2;3;4]%Z) = 2 * 2 /\
  vals (Fold (frs [1;2;3;4]%Z) (mkfr 5)) = Some [11;12]%Z /\
  vals (FoldMany (frs [1;2;3;4]%Z) (frs [5;7]%Z)) = Some [18]%Z.
Proof. vm_compute. repeat split. Qed.

(* ---------------------------------------------------------------- C02 *)
Theorem C02_evaluate : forall (F : Field) (t x : list F),
  length t = 2 ^ length x -> Evaluate t x = Some (mle t x).
Proof. exact @Evaluate_mle. Qed.
Print Assumptions C02_evaluate.

Theorem C02_evaluate_boolean : forall (F : Field) (t : list F) (b : list bool),
  length t = 2 ^ length b -> Evaluate t (bpoint b) = Some (nth (bits_val b) t 0%F).
Proof. exact evaluate_boolean. Qed.
Print Assumptions C02_evaluate_boolean.

Theorem C02_evaluate_too_many : forall (F : Field) (t x : list F) n,
  length t = 2 ^ n -> n < length x -> Evaluate t x = None.
Proof. exact evaluate_too_many. Qed.
Print Assumptions C02_evaluate_too_many.

Example C02_ex : length (frs [1;2;3;4]%Z) = 2 ^ length (frs [5;7]%Z) /\
  val (Evaluate (frs [1;2;3;4]%Z) (frs [5;7]%Z)) = Some 18%Z /\
  frval (mle (frs [1;2;3;4]%Z) (frs [5;7]%Z)) = 18%Z /\
  val (Evaluate (frs [10;20;30;40]%Z) (bpoint [true;false])) = Some 30%Z /\
  val (Evaluate (frs [1;2;3;4]%Z) (frs [5;7;9]%Z)) = None.
Proof. vm_compute. repeat split. Qed.

(* ---------------------------------------------------------------- C03 *)
Theorem C03_evaluate_left_right : forall (F : Field) (t hP hL hR : list F),
  length hL = length hR -> length t = 2 ^ (length hL + length hP) ->
  EvaluateLeftAndRight t hP hL hR = Some (mle t (hL ++ hP), mle t (hR ++ hP)).
Proof. exact @EvaluateLeftAndRight_mle. Qed.
Print Assumptions C03_evaluate_left_right.

Example C03_ex :
  option_map (fun p => (frval (fst p), frval (snd p)))
    (EvaluateLeftAndRight (frs [1;2;3;4]%Z) (frs [7]%Z) (frs [5]%Z) (frs [0]%Z)) = Some (18, 8)%Z.
Proof. vm_compute. reflexivity. Qed.

(* ---------------------------------------------------------------- C04 *)
Theorem C04_eq_table : forall (F : Field) (q : list F),
  exists t, GetFoldedEqTable q = Some t /\ length t = 2 ^ length q /\
    (forall b, length b = length q -> nth (bits_val b) t 0%F = chi b q) /\
    suml t (fun x => x) = 1%F.
Proof. exact eq_table_spec. Qed.
Print Assumptions C04_eq_table.

Example C04_ex : vals (GetFoldedEqTable (frs [2;3]%Z)) = Some (map frval (frs [2; -3; -4; 6]%Z)).
Proof. vm_compute. reflexivity. Qed.

(* ---------------------------------------------------------------- C05 *)
Theorem C05_eval_eq : forall (F : Field) (q h : list F),
  length q = length h ->
  EvalEq q h = Some (eqprod q h) /\
  EvalEq q h = (t <- GetFoldedEqTable q ;; Evaluate t h) /\
  EvalEq q h = EvalEq h q.
Proof. exact eval_eq_spec. Qed.
Print Assumptions C05_eval_eq.

Theorem C05_eval_eq_boolean : forall (F : Field) (b c : list bool),
  length b = length c ->
  EvalEq (F:=F) (bpoint b) (bpoint c) = Some (if list_eq_dec bool_dec b c then 1%F else 0%F).
Proof. exact eval_eq_boolean. Qed.
Print Assumptions C05_eval_eq_boolean.

(** Extra coordinates of the second point are ignored; missing ones panic. *)
Theorem C05_eval_eq_longer : forall (F : Field) (q h : list F),
  length q <= length h -> EvalEq q h = Some (eqprod q (firstn (length q) h)).
Proof. exact eval_eq_longer. Qed.
Print Assumptions C05_eval_eq_longer.

Theorem C05_eval_eq_panics : forall (F : Field) (q h : list F),
  length h < length q -> EvalEq q h = None.
Proof. exact @EvalEq_panics. Qed.
Print Assumptions C05_eval_eq_panics.

Example C05_ex : val (EvalEq (frs [2;3]%Z) (frs [5;7]%Z)) = Some (frval (mkfr ((2*5+1*4)*(3*7+2*6))))%Z /\
  val (EvalEq (F:=Fr) (bpoint [true;false]) (bpoint [true;false])) = Some 1%Z /\
  val (EvalEq (F:=Fr) (bpoint [true;false]) (bpoint [true;true])) = Some 0%Z.
Proof. vm_compute. repeat split. Qed.

(* ---------------------------------------------------------------- C06 *)
Theorem C06_chunked_eq_table : forall (F : Field) (q : list F) (k nCore : nat),
  0 < nCore -> k <= length q ->
  exists chunks t, GetChunkedEqTable q (2 ^ k) nCore = Some chunks /\ GetFoldedEqTable q = Some t /\
    length chunks = 2 ^ k /\
    (forall s, s < 2 ^ k -> length (nth s chunks []) = 2 ^ (length q - k)) /\
    (forall u s, u < 2 ^ (length q - k) -> s < 2 ^ k ->
       nth u (nth s chunks []) 0%F = nth (u * 2 ^ k + s) t 0%F).
Proof. exact chunked_eq_spec. Qed.
Print Assumptions C06_chunked_eq_table.

Theorem C06_chunked_eq_table_panics : forall (F : Field) (q : list F) (nChunks nCore : nat),
  (2 ^ length q < nChunks \/ (forall k, nChunks <> 2 ^ k)) -> GetChunkedEqTable q nChunks nCore = None.
Proof. exact chunked_eq_panics. Qed.
Print Assumptions C06_chunked_eq_table_panics.

Example C06_ex : option_map (map (map frval)) (GetChunkedEqTable (frs [2;3]%Z) (2 ^ 1) 3)
  = Some [map frval (frs [2;-4]%Z); map frval (frs [-3;6]%Z)].
Proof. vm_compute. reflexivity. Qed.

(* ---------------------------------------------------------------- C07 *)
(** At least two chunks. *)
Theorem C07_evaluate_chunked_partial : forall (F : Field) (chunks : list (list F)) (q : list F) (k m : nat),
  0 < k -> length chunks = 2 ^ k -> (forall c, In c chunks -> length c = 2 ^ m) -> length q = m + k ->
  EvaluateChunked chunks q = Evaluate (interleave (2 ^ m) chunks) q /\
  EvaluateChunked chunks q = Some (mle (interleave (2 ^ m) chunks) q).
Proof. exact evaluate_chunked_spec. Qed.
Print Assumptions C07_evaluate_chunked_partial.

(** With a single chunk the statement is false: the code always panics, whereas evaluating the
    (only) table succeeds. *)
Theorem C07_evaluate_chunked_one_refuted : forall (F : Field) (t q : list F),
  length t = 2 ^ length q ->
  EvaluateChunked [t] q = None /\ exists v, Evaluate (interleave (2 ^ length q) [t]) q = Some v.
Proof. exact evaluate_chunked_one. Qed.
Print Assumptions C07_evaluate_chunked_one_refuted.

Example C07_ex : val (EvaluateChunked [frs [1;3]%Z; frs [2;4]%Z] (frs [5;7]%Z)) = Some 18%Z /\
  map frval (interleave 2 [frs [1;3]%Z; frs [2;4]%Z]) = [1;2;3;4]%Z /\
  val (EvaluateChunked [frs [1;2]%Z] (frs [7]%Z)) = None.
Proof. vm_compute. repeat split. Qed.

(* ---------------------------------------------------------------- C08 *)
Theorem C08_evaluate_mixed_chunked_partial :
  forall (F : Field) (chunks : list (list F)) (hP hL hR : list F) (k m g : nat),
  0 < k -> length chunks = 2 ^ k -> (forall c, In c chunks -> length c = 2 ^ (g + m)) ->
  length hP = m + k -> length hL = g -> length hR = g ->
  EvaluateMixedChunked chunks hP hL hR = EvaluateLeftAndRight (interleave (2 ^ (g + m)) chunks) hP hL hR /\
  EvaluateMixedChunked chunks hP hL hR =
    Some (mle (interleave (2 ^ (g + m)) chunks) (hL ++ hP), mle (interleave (2 ^ (g + m)) chunks) (hR ++ hP)).
Proof. exact evaluate_mixed_chunked_spec. Qed.
Print Assumptions C08_evaluate_mixed_chunked_partial.

Theorem C08_evaluate_mixed_chunked_panics : forall (F : Field) (chunks : list (list F)) (hP hL hR : list F),
  2 ^ length hP < length chunks -> EvaluateMixedChunked chunks hP hL hR = None.
Proof. exact @EvaluateMixedChunked_panics. Qed.
Print Assumptions C08_evaluate_mixed_chunked_panics.

(** One chunk: always a panic. *)
Theorem C08_evaluate_mixed_chunked_one_refuted : forall (F : Field) (t hP hL hR : list F),
  length hL = length hR -> length t = 2 ^ (length hL + length hP) ->
  EvaluateMixedChunked [t] hP hL hR = None /\ exists v, EvaluateLeftAndRight t hP hL hR = Some v.
Proof. exact evaluate_mixed_chunked_one. Qed.
Print Assumptions C08_evaluate_mixed_chunked_one_refuted.

Example C08_ex : option_map (fun p => (frval (fst p), frval (snd p)))
    (EvaluateMixedChunked [frs [1;3]%Z; frs [2;4]%Z] (frs [7]%Z) (frs [5]%Z) (frs [0]%Z)) = Some (18, 8)%Z.
Proof. vm_compute. reflexivity. Qed.

(* ---------------------------------------------------------------- C09 *)
Theorem C09_interleaved_chunk : forall (F : Field) (t : list F) (nChunk m s : nat),
  length t = m * nChunk -> s < nChunk ->
  exists c, InterleavedChunk t s nChunk = Some c /\ length c = m /\
    forall u, u < m -> nth u c 0%F = nth (u * nChunk + s) t 0%F.
Proof. exact interleaved_chunk_spec. Qed.
Print Assumptions C09_interleaved_chunk.

(** All chunks together: interleaving them gives the table back, and chunked evaluation agrees. *)
Theorem C09_interleaved_chunks_rebuild : forall (F : Field) (t : list F) (nChunk m : nat),
  0 < nChunk -> length t = m * nChunk ->
  exists chunks, mapM (fun s => InterleavedChunk t s nChunk) (seq 0 nChunk) = Some chunks /\
    length chunks = nChunk /\ interleave m chunks = t.
Proof. exact interleaved_chunks_rebuild. Qed.
Print Assumptions C09_interleaved_chunks_rebuild.

Theorem C09_chunked_evaluation : forall (F : Field) (t q : list F) (k : nat),
  0 < k <= length q -> length t = 2 ^ length q ->
  (chunks <- mapM (fun s => InterleavedChunk t s (2 ^ k)) (seq 0 (2 ^ k)) ;; EvaluateChunked chunks q)
  = Evaluate t q.
Proof. exact interleaved_chunks_evaluate. Qed.
Print Assumptions C09_chunked_evaluation.

Theorem C09_zero_chunks_panics : forall (F : Field) (t : list F) s, InterleavedChunk t s 0 = None.
Proof. exact @InterleavedChunk_zero. Qed.
Print Assumptions C09_zero_chunks_panics.

Example C09_ex : vals (InterleavedChunk (frs [1;2;3;4;5;6]%Z) 1 3) = Some [2;5]%Z.
Proof. vm_compute. reflexivity. Qed.

(* ---------------------------------------------------------------- C10 *)
Theorem C10_evaluate_polynomial : forall (F : Field) (c : list F) (x : F),
  EvaluatePolynomial c x =
  match c with [] => None | _ => Some (sumn (length c) (fun i => nth i c 0 * fpow x i)%F) end.
Proof. exact evaluate_polynomial_spec. Qed.
Print Assumptions C10_evaluate_polynomial.

Example C10_ex : val (EvaluatePolynomial (frs [1;2;3]%Z) (mkfr 10)) = Some 321%Z.
Proof. vm_compute. reflexivity. Qed.

(* ---------------------------------------------------------------- C11 *)
Theorem C11_interpolation_exact : forall (values : list Fr), length values <= 12 ->
  exists c, InterpolateOnRange values = Some c /\ length c = length values /\
    forall i, i < length values -> peval c (fnat i) = nth i values 0%F.
Proof. exact interpolation_exact. Qed.
Print Assumptions C11_interpolation_exact.

Theorem C11_interpolation_unique : forall (values c : list Fr), length values <= 12 ->
  length c = length values ->
  (forall i, i < length values -> peval c (fnat i) = nth i values 0%F) ->
  InterpolateOnRange values = Some c.
Proof. exact interpolation_unique. Qed.
Print Assumptions C11_interpolation_unique.

(** Lagrange bases of every size up to the field size. *)
Theorem C11_lagrange_basis : forall n : nat, (Z.of_nat n <= frModulus)%Z ->
  exists rows, LagrangeCoefficient (F:=Fr) n = Some rows /\ length rows = n /\
    forall l, l < n -> length (nth l rows []) = n /\
      forall i, i < n -> peval (nth l rows []) (fnat i) = if i =? l then 1%F else 0%F.
Proof. exact lagrange_basis. Qed.
Print Assumptions C11_lagrange_basis.

Example C11_ex : vals (InterpolateOnRange (frs [1;6;17]%Z)) = Some [1;2;3]%Z.
Proof. vm_compute. reflexivity. Qed.

(* ---------------------------------------------------------------- C12 *)
Theorem C12_interpolation_limit : forall (values : list Fr),
  InterpolateOnRange values = None <-> 12 < length values.
Proof. exact interpolation_limit. Qed.
Print Assumptions C12_interpolation_limit.

Example C12_ex : vals (InterpolateOnRange (frs (repeat 1%Z 13))) = None.
Proof. vm_compute. reflexivity. Qed.

(* ---------------------------------------------------------------- C14 *)
Theorem C14_linear_combination : forall (F : Field) (t0 t1 : list F) (a0 a1 : F),
  length t0 = length t1 ->
  exists t0' t1', LinearCombination t0 t1 a0 a1 = Some (t0', t1') /\
    length t1' = length t1 /\ (forall i, i < length t1 -> nth i t1' 0%F = (a0 * nth i t0 0 + a1 * nth i t1 0)%F) /\
    length t0' = length t0 /\ (forall i, i < length t0 -> nth i t0' 0%F = (a0 * nth i t0 0)%F).
Proof. exact linear_combination_spec. Qed.
Print Assumptions C14_linear_combination.

Theorem C14_linear_combination_eval : forall (F : Field) (t0 t1 x : list F) (a0 a1 : F),
  length t0 = 2 ^ length x -> length t1 = 2 ^ length x ->
  (' (_, t) <- LinearCombination t0 t1 a0 a1 ;; Evaluate t x)
  = (v0 <- Evaluate t0 x ;; v1 <- Evaluate t1 x ;; Some (a0 * v0 + a1 * v1)%F).
Proof. exact linear_combination_eval. Qed.
Print Assumptions C14_linear_combination_eval.

(** The loop ranges over the second table, so a shorter first table panics. *)
Theorem C14_linear_combination_panics : forall (F : Field) (t0 t1 : list F) (a0 a1 : F),
  length t0 < length t1 -> LinearCombination t0 t1 a0 a1 = None.
Proof. exact linear_combination_panics. Qed.
Print Assumptions C14_linear_combination_panics.

Example C14_ex : option_map (fun p => (map frval (fst p), map frval (snd p)))
    (LinearCombination (frs [1;2]%Z) (frs [3;4]%Z) (mkfr 10) (mkfr 100)) = Some ([10;20], [310;420])%Z.
Proof. vm_compute. reflexivity. Qed.

(* ---------------------------------------------------------------- C15 *)
(** [ranges_from b N l]: consecutive non-empty ranges covering exactly [b, N). *)
Fixpoint ranges_from (b N : Z) (l : list (Z * Z)) : Prop :=
  match l with
  | [] => b = N
  | (x, y) :: l' => x = b /\ (x < y)%Z /\ ranges_from y N l'
  end.

Theorem C15_chunk_ranges : forall nCore N : Z, nCore <> 0%Z -> (0 <= N)%Z ->
  exists chunks, IntoChunkRanges nCore N = Some chunks /\
    ranges_from 0 N chunks /\
    (forall l x y l', chunks = l ++ (x, y) :: l' -> l' <> [] -> (y - x = Z.max 4096 (Z.quot N nCore))%Z) /\
    (forall x y, In (x, y) chunks -> (y - x <= Z.max 4096 (Z.quot N nCore))%Z).
Proof. exact (fun nCore N => chunk_ranges_spec ranges_from (fun b N => conj (fun H => H) (fun H => H)) (fun b N x y l => conj (fun H => H) (fun H => H)) nCore N). Qed.
Print Assumptions C15_chunk_ranges.

Theorem C15_chunk_ranges_nonpos : forall N : Z, IntoChunkRanges 0 N = None.
Proof. exact IntoChunkRanges_zero. Qed.
Print Assumptions C15_chunk_ranges_nonpos.

Theorem C15_chunk_ranges_empty : forall nCore : Z, nCore <> 0%Z -> IntoChunkRanges nCore 0 = Some [].
Proof. exact chunk_ranges_empty. Qed.
Print Assumptions C15_chunk_ranges_empty.

Example C15_ex : IntoChunkRanges 2 10001 = Some [(0,5000);(5000,10000);(10000,10001)]%Z.
Proof. vm_compute. reflexivity. Qed.

(* ---------------------------------------------------------------- C16 *)
Theorem C16_log2_floor : forall a : Z, (1 <= a)%Z ->
  (0 <= Log2Floor a /\ 2 ^ Log2Floor a <= a < 2 ^ (Log2Floor a + 1))%Z.
Proof. exact Log2Floor_spec. Qed.
Print Assumptions C16_log2_floor.

Theorem C16_log2_ceil : forall a : Z, (1 <= a)%Z ->
  (0 <= Log2Ceil a)%Z /\ (a <= 2 ^ Log2Ceil a)%Z /\ (forall k, (0 <= k)%Z -> (a <= 2 ^ k)%Z -> (Log2Ceil a <= k)%Z).
Proof. exact Log2Ceil_spec. Qed.
Print Assumptions C16_log2_ceil.

Example C16_ex : Log2Floor 9 = 3%Z /\ Log2Ceil 9 = 4%Z /\ Log2Ceil 8 = 3%Z.
Proof. vm_compute. repeat split. Qed.
