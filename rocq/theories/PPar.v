(** Property theorems: table arithmetic under every schedule (C13), the semaphore (C17) and
    memory effects of the table operations (C53). *)
From Coq Require Import List Arith ZArith Lia Bool.
From Verif Require Import Field Go Trans MCommon Spec MPoly MForkJoin LForkJoin MSem LSem MHeap SpecHeap LPoly LHeap LHeap2 LHeap3 Fr PPoly.
Import ListNotations.

(* ---------------------------------------------------------------- C13 *)
(** The goroutines of Sub and Mul are the transition system of MForkJoin.v; [must] says that every
    execution is finite, panic-free, and ends (nothing blocked) with the stated memory. *)
Theorem C13_add : forall (F : Field) (m : list F) (dst left right : Slice),
  swf m dst -> swf m left -> swf m right -> slen right = slen left ->
  compat (slen left) dst left -> compat (slen left) dst right ->
  exists m' dst', HAdd m dst left right = Some (m', dst') /\
    pointwise m dst m' dst' (slen left) (fun i => rd m left i + rd m right i)%F.
Proof. exact @HAdd_ok. Qed.
Print Assumptions C13_add.

Theorem C13_sub : forall (F : Field) (m : list F) (dst left right : Slice) (nCore : nat),
  0 < nCore -> swf m dst -> swf m left -> swf m right -> slen right = slen left ->
  compat (slen left) dst left -> compat (slen left) dst right ->
  exists m1 dst' prog, HSub_start m dst left right nCore = Some (m1, dst', prog) /\
    must (step (sub_exec dst' left right) prog nCore true false)
      (fun s => main s = MEnd /\
         pointwise m dst (mem s) dst' (slen left) (fun i => rd m left i - rd m right i)%F)
      (init prog nCore true m1).
Proof. exact @HSub_ok. Qed.
Print Assumptions C13_sub.

Theorem C13_mul : forall (F : Field) (m : list F) (dst x : Slice) (lambda : F) (nCore : nat),
  0 < nCore -> swf m dst -> swf m x -> compat (slen x) dst x ->
  exists m1 dst' prog, HMul_start m dst x nCore = Some (m1, dst', prog) /\
    must (step (mul_exec dst' x lambda) prog nCore true false)
      (fun s => main s = MEnd /\
         pointwise m dst (mem s) dst' (slen x) (fun i => rd m x i * lambda)%F)
      (init prog nCore true m1).
Proof. exact @HMul_ok. Qed.
Print Assumptions C13_mul.

Theorem C13_panics : forall (F : Field) (m : list F) (dst left right : Slice) (nCore : nat),
  slen left <> slen right ->
  HAdd m dst left right = None /\ HSub_start m dst left right nCore = None.
Proof. exact (fun F m dst left right nCore H => conj (HAdd_panics m dst left right H) (HSub_panics m dst left right nCore H)). Qed.
Print Assumptions C13_panics.

(** The list-level versions used by the rest of the model. *)
Theorem C13_list_versions : forall (F : Field) (dst left right : list F) (lambda : F) (nCore : nat),
  0 < nCore -> length right = length left ->
  TabAdd dst left right = Some (map (fun i => nth i left 0 + nth i right 0)%F (seq 0 (length left))) /\
  TabSub dst left right nCore = Some (map (fun i => nth i left 0 - nth i right 0)%F (seq 0 (length left))) /\
  TabMul dst lambda left nCore = Some (map (fun a => a * lambda)%F left).
Proof. exact (fun F dst left right lambda nCore Hc H => conj (TabAdd_spec dst left right H) (conj (TabSub_spec dst left right nCore Hc H) (TabMul_spec dst lambda left nCore Hc))). Qed.
Print Assumptions C13_list_versions.

(** Two operand tables at 0..2 and 3..5, the destination being the first operand. *)
Example C13_ex :
  let m := frs [1;2;3;40;50;60]%Z in
  let a := MkSlice 0 3 3 in let b := MkSlice 3 3 3 in
  (swf m a /\ swf m b /\ compat 3 a a /\ compat 3 a b) /\
  option_map (fun p => map frval (fst p)) (HAdd m a a b) = Some [41;52;63;40;50;60]%Z /\
  option_map (fun p => map frval (fst p)) (HSubSeq m b b a 2) = Some [1;2;3;39;48;57]%Z /\
  option_map (fun p => map frval (fst p)) (HMulSeq m a (mkfr 10) a 2) = Some [10;20;30;40;50;60]%Z.
Proof. split; [unfold swf, compat; simpl; lia|]. vm_compute. repeat split. Qed.

(** A destination overlapping an operand at a shifted address really breaks Add, so the
    hypothesis [compat] is needed. *)
Example C13_overlap_ex :
  let m := frs [1;2;3;0]%Z in
  option_map (fun p => map frval (fst p)) (HAdd m (MkSlice 1 3 3) (MkSlice 0 3 4) (MkSlice 0 3 4))
  = Some [1;2;4;8]%Z.
Proof. vm_compute. reflexivity. Qed.

(* ---------------------------------------------------------------- C14 *)
(** In memory: the second table receives the combination, the first one is left multiplied by [a0], and
    nothing else changes. *)
Theorem C14_memory : forall (F : Field) (m : list F) (s0 s1 : Slice) (a0 a1 : F),
  swf m s0 -> swf m s1 -> apart s0 s1 -> slen s1 <= slen s0 ->
  exists m', HLinearCombination m s0 s1 a0 a1 = Some m' /\ length m' = length m /\
    (forall i, i < slen s1 -> rd m' s1 i = (a0 * rd m s0 i + a1 * rd m s1 i)%F) /\
    (forall i, i < slen s1 -> rd m' s0 i = (a0 * rd m s0 i)%F) /\
    (forall a, ~ cell s1 a -> a < base s0 \/ base s0 + slen s1 <= a -> nth a m' 0%F = nth a m 0%F).
Proof. exact @linear_combination_memory. Qed.
Print Assumptions C14_memory.

(** One table given twice: the result is 2 a0 a1 t, not (a0 + a1) t. *)
Theorem C14_memory_same : forall (F : Field) (m : list F) (s : Slice) (a0 a1 : F), swf m s ->
  exists m', HLinearCombination m s s a0 a1 = Some m' /\ length m' = length m /\
    (forall i, i < slen s -> rd m' s i = ((1 + 1) * a0 * a1 * rd m s i)%F) /\
    (forall a, ~ cell s a -> nth a m' 0%F = nth a m 0%F).
Proof. exact @linear_combination_same. Qed.
Print Assumptions C14_memory_same.

Theorem C14_memory_panics : forall (F : Field) (m : list F) (s0 s1 : Slice) (a0 a1 : F),
  slen s0 < slen s1 -> HLinearCombination m s0 s1 a0 a1 = None.
Proof. exact @linear_combination_memory_panics. Qed.
Print Assumptions C14_memory_panics.

Example C14_memory_ex :
  let m := frs [1;2;3;40;50]%Z in
  let a := MkSlice 0 3 3 in let b := MkSlice 3 2 2 in
  (swf m a /\ swf m b /\ apart a b) /\
  option_map (map frval) (HLinearCombination m a b (mkfr 10) (mkfr 100)) = Some [10;20;3;4010;5020]%Z /\
  option_map (map frval) (HLinearCombination m b b (mkfr 10) (mkfr 100)) = Some [1;2;3;80000;100000]%Z /\
  option_map (map frval) (HLinearCombination m b a (mkfr 10) (mkfr 100)) = None.
Proof. split; [unfold swf, apart, cell; simpl; repeat split; lia|]. vm_compute. repeat split. Qed.

(* ---------------------------------------------------------------- C17 *)
Theorem C17_bounded : forall (n : Z) (c : Chan) (g : list gpc) (s : sys),
  (0 <= n)%Z -> NewSemaphore n = Ok c -> (forall p, List.In p g -> exists k, p = Out k) ->
  reach sem_step (MkSys c g) s ->
  inside s <= Z.to_nat n /\ ~ sem_step s None /\
  (forall i k, nth_error (gor s) i = Some (MSem.In k) -> exists c', Release (sem s) = Ok c').
Proof. exact (fun n c g s H1 H2 H3 R => conj (sem_bounded n c g s H1 H2 H3 R) (conj (sem_no_panic n c g s H1 H2 H3 R) (fun i k => sem_release_ok n c g s i k H1 H2 H3 R))). Qed.
Print Assumptions C17_bounded.

Theorem C17_progress : forall (n : Z) (c : Chan) (g : list gpc) (s : sys) (i : nat) (p : gpc),
  (1 <= n)%Z -> NewSemaphore n = Ok c -> (forall p, List.In p g -> exists k, p = Out k) ->
  reach sem_step (MkSys c g) s -> nth_error (gor s) i = Some p -> p <> Out 0 ->
  exists j k, (nth_error (gor s) j = Some (MSem.In k) /\ exists c', Release (sem s) = Ok c') \/
              (nth_error (gor s) j = Some (Out (S k)) /\ exists c', Acquire (sem s) = Ok c').
Proof. exact sem_progress. Qed.
Print Assumptions C17_progress.

Theorem C17_new_semaphore : forall n : Z,
  NewSemaphore n = if (n <? 0)%Z then Panic else Ok (MkChan (Z.to_nat n) (Z.to_nat n) false).
Proof. exact new_semaphore_spec. Qed.
Print Assumptions C17_new_semaphore.

(** The bound n >= 1 is needed: with n = 0 every Acquire blocks for ever. *)
Theorem C17_zero_blocks : forall (c : Chan) (g : list gpc) (s : sys) (i k : nat),
  NewSemaphore 0 = Ok c -> (forall p, List.In p g -> exists k, p = Out k) ->
  reach sem_step (MkSys c g) s -> nth_error (gor s) i = Some (Out (S k)) -> Acquire (sem s) = Block.
Proof. exact sem_zero. Qed.
Print Assumptions C17_zero_blocks.

(** After Close, a second Close and every Release panic, and no Acquire blocks any more, however many there are: the
    semaphore must be closed only when no goroutine is left inside. *)
Theorem C17_close : forall (n : Z) (c : Chan) (g : list gpc) (s : sys),
  (0 <= n)%Z -> NewSemaphore n = Ok c -> (forall p, List.In p g -> exists k, p = Out k) ->
  reach sem_step (MkSys c g) s ->
  exists c', Close (sem s) = Ok c' /\ Close c' = Panic /\ Release c' = Panic /\
             forall k, exists c'', recv_n k c' = Ok c''.
Proof. exact sem_close. Qed.
Print Assumptions C17_close.

(** Two of three goroutines get in, the third has to wait. *)
Example C17_ex : exists c s, NewSemaphore 2 = Ok c /\
  reach sem_step (MkSys c [Out 1; Out 2; Out 1]) s /\ inside s = 2 /\ Acquire (sem s) = Block.
Proof.
  eexists. eexists. split; [reflexivity|]. split.
  - eapply reach_step; [eapply reach_step; [apply reach_refl|]|].
    + apply (st_acquire 0 0); reflexivity.
    + apply (st_acquire 2 0); reflexivity.
  - split; reflexivity.
Qed.

(* ---------------------------------------------------------------- C53 *)
Theorem C53_fold : forall (F : Field) (m : list F) (s : Slice) (r : F), swf m s ->
  exists m' s', HFold m s r = Some (m', s') /\ length m' = length m /\
    s' = MkSlice (base s) (slen s / 2) (scap s) /\ swf m' s' /\
    Fold (tab m s) r = Some (tab m' s') /\
    (forall i, i < slen s / 2 ->
       rd m' s (slen s / 2 + i) = ((rd m s (slen s / 2 + i) - rd m s i) * r)%F) /\
    (forall a, (a < base s \/ base s + 2 * (slen s / 2) <= a) -> nth a m' 0%F = nth a m 0%F).
Proof. exact heap_fold. Qed.
Print Assumptions C53_fold.

Theorem C53_deep_copy : forall (F : Field) (m : list F) (s : Slice), swf m s ->
  exists m' d, HDeepCopy m s = Some (m', d) /\ ext m m' /\ swf m' d /\
    base d = length m /\ slen d = slen s /\ tab m' d = tab m s.
Proof. exact @HDeepCopy_ok. Qed.
Print Assumptions C53_deep_copy.

Theorem C53_function_evals : forall (F : Field) (m : list F) (s : Slice), swf m s ->
  exists m' d, HFunctionEvals m s = Some (m', d) /\ ext m m' /\ swf m' d /\
    FunctionEvals (tab m s) = Some (tab m' d).
Proof. exact @HFunctionEvals_ok. Qed.
Print Assumptions C53_function_evals.

Theorem C53_evaluate : forall (F : Field) (m : list F) (s : Slice) (x : list F), swf m s ->
  match HEvaluate m s x with
  | Some (m', v) => ext m m' /\ Evaluate (tab m s) x = Some v
  | None => Evaluate (tab m s) x = None
  end.
Proof. exact @HEvaluate_ok. Qed.
Print Assumptions C53_evaluate.

Theorem C53_evaluate_left_right : forall (F : Field) (m : list F) (s : Slice) (hP hL hR : list F), swf m s ->
  match HEvaluateLeftAndRight m s hP hL hR with
  | Some (m', v) => ext m m' /\ EvaluateLeftAndRight (tab m s) hP hL hR = Some v
  | None => EvaluateLeftAndRight (tab m s) hP hL hR = None
  end.
Proof. exact @HEvaluateLeftAndRight_ok. Qed.
Print Assumptions C53_evaluate_left_right.

(** The chunks may overlap or coincide. *)
Theorem C53_evaluate_chunked : forall (F : Field) (m : list F) (bkts : list Slice) (q : list F),
  (forall s, List.In s bkts -> swf m s) ->
  match HEvaluateChunked m bkts q with
  | Some (m', v) => ext m m' /\ EvaluateChunked (map (tab m) bkts) q = Some v
  | None => EvaluateChunked (map (tab m) bkts) q = None
  end.
Proof. exact @HEvaluateChunked_ok. Qed.
Print Assumptions C53_evaluate_chunked.

Theorem C53_evaluate_mixed_chunked : forall (F : Field) (m : list F) (bkts : list Slice) (hP hL hR : list F),
  (forall s, List.In s bkts -> swf m s) ->
  match HEvaluateMixedChunked m bkts hP hL hR with
  | Some (m', v) => ext m m' /\ EvaluateMixedChunked (map (tab m) bkts) hP hL hR = Some v
  | None => EvaluateMixedChunked (map (tab m) bkts) hP hL hR = None
  end.
Proof. exact @HEvaluateMixedChunked_ok. Qed.
Print Assumptions C53_evaluate_mixed_chunked.

(** Fold overwrites both halves of the shared array; the surroundings stay. *)
Example C53_ex :
  option_map (fun p => (map frval (fst p), snd p)) (HFold (frs [9;1;2;3;4;9]%Z) (MkSlice 1 4 5) (mkfr 5))
  = Some ([9;11;12;10;10;9]%Z, MkSlice 1 2 5) /\
  option_map (fun p => (map frval (firstn 4 (fst p)), frval (snd p)))
    (HEvaluate (frs [1;2;3;4]%Z) (MkSlice 0 4 4) (frs [5;7]%Z)) = Some ([1;2;3;4], 18)%Z /\
  option_map (fun p => (map frval (firstn 4 (fst p)), frval (snd p)))
    (HEvaluateChunked (frs [1;3;2;4]%Z) [MkSlice 0 2 4; MkSlice 2 2 2] (frs [5;7]%Z)) = Some ([1;3;2;4], 18)%Z.
Proof. vm_compute. repeat split. Qed.
