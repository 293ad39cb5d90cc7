(** Properties of the functions computing with [int]s, in 64-bit arithmetic. *)
From Coq Require Import List ZArith Lia.
From Verif Require Import Field Fr Go MCommon MPoly MCircuit SpecCircuit MInt SpecInt LInt LInt2 PPoly PCircuit.
Import ListNotations.
Local Open Scope Z_scope.

(* ------------------------------------------------------------------ C73 *)

(** The logarithms: every [int]. *)
Theorem C73_log2 : forall a, isInt a -> Log2Floor64 a = Log2Floor a /\ Log2Ceil64 a = Some (Log2Ceil a).
Proof. exact log2_64. Qed.
Print Assumptions C73_log2.

Example C73_log2_ex : isInt (2 ^ 63 - 1) /\ Log2Ceil64 (2 ^ 63 - 1) = Some 63 /\ Log2Ceil64 (- 5) = Some 1.
Proof. unfold isInt. split; [lia|split; reflexivity]. Qed.

(** The chunks: any number of cores, and a length up to 2^62. *)
Theorem C73_chunks : forall nCore N, isInt nCore -> isInt N -> N <= 2 ^ 62 ->
  IntoChunkRanges64 nCore N = IntoChunkRanges nCore N.
Proof. exact chunks_64. Qed.
Print Assumptions C73_chunks.

(** For the largest [int] the last range ends before it begins. *)
Theorem C73_chunks_refuted : exists nCore N rs Begin End,
  isInt nCore /\ isInt N /\ IntoChunkRanges64 nCore N = Some rs /\ In (Begin, End) rs /\ End < Begin.
Proof. exact chunks_overflow. Qed.
Print Assumptions C73_chunks_refuted.

(** The equality tables: allocation fails, or the result is the one of the unbounded model. *)
Theorem C73_eq_table : forall (F : Field) maxLen (q : list F), 1 <= maxLen <= 2 ^ 62 ->
  GetFoldedEqTable64 maxLen q = if 2 ^ len q <=? maxLen then GetFoldedEqTable q else None.
Proof. exact @eq_table_64. Qed.
Print Assumptions C73_eq_table.

Theorem C73_chunked_eq_table : forall (F : Field) maxLen (q : list F) nChunks nCore,
  1 <= maxLen <= 2 ^ 62 -> len q < 2 ^ 62 -> 1 <= Z.of_nat nChunks <= maxLen ->
  GetChunkedEqTable64 maxLen q (Z.of_nat nChunks) nCore =
    if 2 ^ (len q - Log2Ceil (Z.of_nat nChunks)) <=? maxLen then GetChunkedEqTable q nChunks nCore
    else None.
Proof. exact @chunked_eq_table_64. Qed.
Print Assumptions C73_chunked_eq_table.

Example C73_eq_table_ex :
  let q := frs [2; 3] in
  vals (GetFoldedEqTable64 (2 ^ 43) q) = Some (map frval (frs [2; -3; -4; 6])) /\
  vals (GetFoldedEqTable64 (2 ^ 43) (repeat (el 2) 64)) = None /\
  option_map (map (map frval)) (GetChunkedEqTable64 (2 ^ 43) q 2 1) =
    Some [map frval (frs [2; -4]); map frval (frs [-3; 6])].
Proof. vm_compute. repeat split. Qed.

(** Interleaved chunks: non-negative arguments, then the others. *)
Theorem C73_interleaved : forall (F : Field) maxLen (t : list F) on nChunk,
  1 <= maxLen <= 2 ^ 62 -> len t <= maxLen -> isInt (Z.of_nat on) -> isInt (Z.of_nat nChunk) ->
  InterleavedChunk64 maxLen t (Z.of_nat on) (Z.of_nat nChunk) = InterleavedChunk t on nChunk.
Proof. exact @interleaved_64. Qed.
Print Assumptions C73_interleaved.

Theorem C73_interleaved_negative : forall (F : Field) maxLen (t : list F) on nChunk,
  1 <= maxLen <= 2 ^ 62 -> len t <= maxLen -> isInt on -> isInt nChunk -> on < 0 \/ nChunk < 0 ->
  InterleavedChunk64 maxLen t on nChunk =
    if ((nChunk =? 0) || (Z.abs nChunk <=? len t))%bool then None else Some [].
Proof. exact @interleaved_neg_64. Qed.
Print Assumptions C73_interleaved_negative.

(** The sizes of a layer, for indices of any sign. *)
Theorem C73_sizes : forall (F : Field) (ws : list (Wire64 F)),
  (forall w, In w ws -> w64L w < 2 ^ 63 - 1 /\ w64R w < 2 ^ 63 - 1 /\ w64O w < 2 ^ 63 - 1) ->
  BGInputs64 ws = Some (Log2Ceil (fold_right Z.max 0 (map w64L ws ++ map w64R ws) + 1)) /\
  BGOutputs64 ws = Some (Log2Ceil (fold_right Z.max 0 (map w64O ws) + 1)).
Proof. exact @sizes_64. Qed.
Print Assumptions C73_sizes.

(** The largest [int] as an output index: the layer is declared to have two outputs. *)
Theorem C73_sizes_refuted : forall (F : Field) (g : Gate F),
  isInt (2 ^ 63 - 1) /\ BGOutputs64 [MkWire64 0 0 (2 ^ 63 - 1) g] = Some 1.
Proof. exact @sizes_overflow. Qed.
Print Assumptions C73_sizes_refuted.

Theorem C73_new_layer : forall (F : Field) (ws : list (Wire F)),
  (forall w, In w ws -> small_wire w) -> NewLayer64 (map wire64 ws) = Some (layer64 (NewLayer ws)).
Proof. exact @NewLayer64_eq. Qed.
Print Assumptions C73_new_layer.

(** The static tables: allocation fails, or they are those of the unbounded model. *)
Theorem C73_static_tables : forall (F : Field) maxLen (ws : list (Wire F)) (q : list F),
  1 <= maxLen <= 2 ^ 62 -> ws <> [] -> (forall w, In w ws -> small_wire w) ->
  (l <- NewLayer64 (map wire64 ws) ;; GetStaticTable64 maxLen l q) =
    let l := NewLayer ws in
    if 2 ^ (Z.of_nat (lBGOutputs l) + 2 * Z.of_nat (lBGInputs l)) <=? maxLen
    then GetStaticTable l q else None.
Proof. exact @static_tables_64. Qed.
Print Assumptions C73_static_tables.

(** Evaluation: same result while the index of the right operand stays below 2^63. *)
Theorem C73_evaluate : forall (F : Field) maxLen (l : Layer F) (inps : list F),
  1 <= maxLen <= 2 ^ 62 -> wf_layer l -> (lBGOutputs l <= 62)%nat -> (lBGInputs l <= 62)%nat ->
  len inps <= maxLen ->
  let N := (length inps / 2 ^ lBGInputs l)%nat in
  Z.of_nat N * 2 ^ Z.of_nat (lBGOutputs l) <= maxLen ->
  (forall w, In w (Wires l) -> Z.of_nat (wR w) * Z.of_nat N * Z.of_nat N + Z.of_nat N <= 2 ^ 63) ->
  eval_chunk64 maxLen (layer64 l) inps = eval_chunk l inps.
Proof. exact @evaluate_64. Qed.
Print Assumptions C73_evaluate.

(** With 2^32 instances it wraps around: row 0 is read in place of row 1, where the unbounded model
    panics. *)
Theorem C73_evaluate_refuted : forall (F : Field) maxLen (g : Gate F) (inps : list F) (N : nat),
  1 <= maxLen <= 2 ^ 62 -> Z.of_nat N = 2 ^ 32 -> length inps = (2 * N)%nat -> len inps <= maxLen ->
  let l := NewLayer [MkWire 0 1 0 g] in
  eval_chunk l inps = None /\
  exists out, eval_chunk64 maxLen (layer64 l) inps = Some out /\ length out = N /\
    forall h, (h < N)%nat -> nth h out 0%F = geval g (nth h inps 0%F) (nth h inps 0%F).
Proof. exact @evaluate_overflow. Qed.
Print Assumptions C73_evaluate_refuted.

(** A negative index makes the evaluation panic unless the product with the number of instances
    wraps. *)
Theorem C73_negative : forall (F : Field) maxLen (l : Layer64 F) (inps : list F) w,
  1 <= maxLen <= 2 ^ 62 -> 0 <= l64BGInputs l <= 62 -> 2 ^ l64BGInputs l <= len inps ->
  len inps <= maxLen -> In w (Wires64 l) ->
  let N := len inps / 2 ^ l64BGInputs l in
  (- 2 ^ 63 <= w64L w * N < 0 \/ - 2 ^ 63 <= w64R w * N * N < 0 \/ - 2 ^ 63 <= w64O w * N < 0) ->
  eval_chunk64 maxLen l inps = None.
Proof. exact @negative_64. Qed.
Print Assumptions C73_negative.

Theorem C73_negative_refuted : forall (F : Field) maxLen (g : Gate F) (a b c d : F), 4 <= maxLen ->
  (l <- NewLayer64 [MkWire64 (- 2 ^ 62) 0 0 g] ;; eval_chunk64 maxLen l [a; b; c; d]) =
    Some [0 + geval g a a; 0 + geval g b b; 0 + geval g c c; 0 + geval g d d]%F.
Proof. exact @negative_wrap. Qed.
Print Assumptions C73_negative_refuted.

(** The static table of a layer accepts a negative index: the wire from row -1 to output 1 is entered
    as a wire from row 1 to output 0. *)
Theorem C73_alias : forall (F : Field) maxLen (g : Gate F), 8 <= maxLen ->
  (l <- NewLayer64 [MkWire64 (-1) 0 1 g; MkWire64 1 0 0 g] ;; wiring_table64 maxLen l g) =
    Some [0; 0; 0 + 1 + 1; 0; 0; 0; 0; 0]%F.
Proof. exact @negative_alias. Qed.
Print Assumptions C73_alias.

(** A layer meeting the hypotheses of [C73_new_layer], [C73_static_tables] and [C73_evaluate]. *)
Example C73_layer_ex :
  let ws := [MkWire 0 1 0 (@AddGate Fr); MkWire 1 0 1 (@MulGate Fr)] in
  let inps := map el [5; 7] in
  (forall w, In w ws -> small_wire w) /\
  vals (eval_chunk64 (2 ^ 43) (layer64 (NewLayer ws)) inps) = Some [12; 35].
Proof.
  cbv zeta. split.
  - intros w [<-|[<-|[]]]; vm_compute; repeat split.
  - vm_compute. reflexivity.
Qed.
