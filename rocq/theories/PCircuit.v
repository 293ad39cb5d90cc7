(** Property theorems for package circuit (C18-C26). *)
From Coq Require Import List Arith ZArith Lia Bool.
From Verif Require Import Field Go Trans MCommon Spec MPoly MForkJoin LSem MCircuit SpecCircuit
  LCircuit LCircuit2 LCircuit3 LPoly2 LPoly3 LDegree FrPrime Fr PPoly.
Import ListNotations.

(** An element of the BN254 scalar field. *)
Definition el (z : Z) : Fr := mkfr z.

(* ---------------------------------------------------------------- C18 *)
Theorem C18_batched : forall (F : Field) (g : Gate F), library_gate g ->
  many_ok g /\ (forall x y, gnark g x y = geval g x y).
Proof. exact (fun F g H => conj (proj1 (library_gate_ok g H)) (proj2 (proj2 (library_gate_ok g H)))). Qed.
Print Assumptions C18_batched.

Theorem C18_functions : forall (F : Field) (ark x y : F),
  geval AddGate x y = (x + y)%F /\ geval MulGate x y = (x * y)%F /\ geval CopyGate x y = x /\
  geval (CipherGate ark) x y = (x + fpow (y + ark) 7)%F.
Proof. exact (fun F ark x y => conj eq_refl (conj eq_refl (conj eq_refl (cipher_eval ark x y)))). Qed.
Print Assumptions C18_functions.

(** A result slice that is too short: a panic, except that CopyGate.EvalManyVL truncates. *)
Theorem C18_short : forall (F : Field) (g : Gate F) (res xs : list F) (y : F),
  library_gate g -> length res < length xs ->
  gmanyVR g res y xs = None /\
  gmanyVL g res xs y = match gid g with IdCopy => Some (firstn (length res) xs) | _ => None end.
Proof. exact @library_gate_short. Qed.
Print Assumptions C18_short.

Example C18_ex :
  option_map (map frval) (gmanyVR (CipherGate (el 1)) (frs [7;7;7]%Z) (el 5) (frs [0;1]%Z)) = Some [6;133;7]%Z /\
  option_map (map frval) (gmanyVL (CipherGate (el 1)) (frs [7;7;7]%Z) (frs [0;5]%Z) (el 1)) = Some [128;133;7]%Z.
Proof. vm_compute. split; reflexivity. Qed.

(* ---------------------------------------------------------------- C19 *)
Theorem C19_degrees : forall (F : Field) (g : Gate F), library_gate g -> degs_ok g.
Proof. exact (fun F g H => proj1 (proj2 (library_gate_ok g H))). Qed.
Print Assumptions C19_degrees.

(** The declared degrees are the least ones: no round polynomial is longer than it needs to be. *)
Theorem C19_least : forall (F : Field) (g : Gate F), distinct_upto (F:=F) 8 -> library_gate g -> degs_least g.
Proof. exact @library_degs_least. Qed.
Print Assumptions C19_least.

Example C19_ex2 : distinct_upto (F:=Fr) 8.
Proof. exact (Fr_distinct_le 8 ltac:(lia)). Qed.

Example C19_ex : library_gate (F:=Fr) (CipherGate (el 3)) /\
  (degHL (F:=Fr) (CipherGate (el 3)), degHR (F:=Fr) (CipherGate (el 3)), degHPrime (F:=Fr) (CipherGate (el 3))) = (1, 7, 7).
Proof. split; [constructor|reflexivity]. Qed.

(* ---------------------------------------------------------------- C20 *)
Theorem C20_combinator : forall (F : Field) (gates : list (Gate F)) (statics : list F) (vL vR eq : F),
  length gates <= length statics ->
  EvaluateCombinator vL vR eq gates statics =
  Some (eq * suml (combine statics gates) (fun sg => fst sg * geval (snd sg) vL vR))%F.
Proof. exact @combinator_sum. Qed.
Print Assumptions C20_combinator.

Theorem C20_panics : forall (F : Field) (gates : list (Gate F)) (statics : list F) (vL vR eq : F),
  length statics < length gates -> EvaluateCombinator vL vR eq gates statics = None.
Proof. exact @combinator_panics. Qed.
Print Assumptions C20_panics.

Example C20_ex : option_map frval (EvaluateCombinator (el 2) (el 3) (el 10) [AddGate; MulGate] (frs [1;100]%Z)) = Some 6050%Z.
Proof. vm_compute. reflexivity. Qed.

(* ---------------------------------------------------------------- C21 *)
Theorem C21_inputs : forall (F : Field) (ws : list (Wire F)),
  (forall w, In w ws -> wL w < 2 ^ lBGInputs (NewLayer ws) /\ wR w < 2 ^ lBGInputs (NewLayer ws)) /\
  (forall k, (forall w, In w ws -> wL w < 2 ^ k /\ wR w < 2 ^ k) -> lBGInputs (NewLayer ws) <= k).
Proof. exact @BGInputs_spec. Qed.
Print Assumptions C21_inputs.

Theorem C21_outputs : forall (F : Field) (ws : list (Wire F)),
  (forall w, In w ws -> wO w < 2 ^ lBGOutputs (NewLayer ws)) /\
  (forall k, (forall w, In w ws -> wO w < 2 ^ k) -> lBGOutputs (NewLayer ws) <= k).
Proof. exact @BGOutputs_spec. Qed.
Print Assumptions C21_outputs.

Example C21_ex : forall F : Field,
  let l := NewLayer (F:=F) [MkWire 0 4 0 AddGate; MkWire 3 1 1 MulGate] in lBGInputs l = 3 /\ lBGOutputs l = 1.
Proof. intros F. vm_compute. split; reflexivity. Qed.

(* ---------------------------------------------------------------- C22 *)
(** The claim is false: the map used to recognise a known ID is never written. *)
Theorem C22_dedup_refuted : forall F : Field, exists ws : list (Wire F),
  ~ NoDup (map gid (Gates ws)) /\ Gates ws <> first_by_id [] (map wGate ws).
Proof. exact @gates_not_deduplicated. Qed.
Print Assumptions C22_dedup_refuted.

(** What holds: one gate per wire; the intended list when no two wires share an ID. *)
Theorem C22_exact : forall (F : Field) (ws : list (Wire F)),
  Gates ws = map wGate ws /\
  (NoDup (map (fun w => gid (wGate w)) ws) -> Gates ws = first_by_id [] (map wGate ws)).
Proof. exact @gates_exact. Qed.
Print Assumptions C22_exact.

(** The intended list: each ID of the wires once. *)
Theorem C22_intended : forall (F : Field) (gs : list (Gate F)),
  NoDup (map gid (first_by_id [] gs)) /\
  (forall i, In i (map gid (first_by_id [] gs)) <-> In i (map gid gs) /\ ~ In i []).
Proof. exact (fun F gs => first_by_id_spec gs []). Qed.
Print Assumptions C22_intended.

Theorem C22_double_count : forall F : Field, exists (ws : list (Wire F)) (q : list F) tabs,
  length q = lBGOutputs (NewLayer ws) /\ GetStaticTable (NewLayer ws) q = Some tabs /\
  length tabs = 2 /\ nth_error tabs 0 = nth_error tabs 1.
Proof. exact @static_double_count. Qed.
Print Assumptions C22_double_count.

Example C22_ex :
  NoDup (map (fun w : Wire Fr => gid (wGate w)) [MkWire 1 0 0 (CipherGate (el 5)); MkWire 1 0 1 CopyGate]).
Proof. repeat constructor; simpl; intuition discriminate. Qed.

(* ---------------------------------------------------------------- C23 *)
Theorem C23_static_tables : forall (F : Field) (l : Layer F) (q : list F),
  wf_layer l -> length q = lBGOutputs l ->
  exists tabs, GetStaticTable l q = Some tabs /\ length tabs = length (lGates l) /\
    forall i g, nth_error (lGates l) i = Some g ->
      exists t, nth_error tabs i = Some t /\ length t = 4 ^ lBGInputs l /\
        forall a b, a < 2 ^ lBGInputs l -> b < 2 ^ lBGInputs l ->
          nth (a * 2 ^ lBGInputs l + b) t 0%F =
          suml (filter (fun w => id_eqb (gid (wGate w)) (gid g) && (wL w =? a) && (wR w =? b)) (Wires l))
            (fun w => eqprod q (bpoint (to_bits (lBGOutputs l) (wO w)))).
Proof. exact @static_table_spec. Qed.
Print Assumptions C23_static_tables.

Theorem C23_new_layer_wf : forall (F : Field) (ws : list (Wire F)), wf_layer (NewLayer ws).
Proof. exact @NewLayer_wf. Qed.
Print Assumptions C23_new_layer_wf.

Example C23_ex :
  option_map (map (map frval)) (GetStaticTable (NewLayer [MkWire 1 0 0 (CipherGate (el 5)); MkWire 1 0 1 CopyGate]) (frs [10]%Z))
  = Some [[0; 0; frModulus - 9; 0]; [0; 0; 10; 0]]%Z.
Proof. vm_compute. reflexivity. Qed.

(* ---------------------------------------------------------------- C24 *)
(** False in general: layers.go:91 multiplies the right row index by N twice. *)
Theorem C24_evaluate_refuted : forall F : Field, exists (l : Layer F) (N : nat) (inp out : list F),
  wf_layer l /\ length inp = 2 ^ lBGInputs l * N /\
  LayerEvaluate l [inp] = Some [out] /\ ~ layer_table l N inp out.
Proof. exact @evaluate_wrong. Qed.
Print Assumptions C24_evaluate_refuted.

Theorem C24_evaluate_panics_refuted : forall F : Field, exists (l : Layer F) (N : nat) (inp : list F),
  wf_layer l /\ length inp = 2 ^ lBGInputs l * N /\ LayerEvaluate l [inp] = None.
Proof. exact @evaluate_panics. Qed.
Print Assumptions C24_evaluate_panics_refuted.

(** It holds with one instance per chunk, and with all right operands in row 0 (the MiMC circuit). *)
Theorem C24_evaluate_partial : forall (F : Field) (l : Layer F) (N : nat) (inputs : list (list F)),
  wf_layer l -> (forall inp, In inp inputs -> length inp = 2 ^ lBGInputs l * N) ->
  (N = 1 \/ forall w, In w (Wires l) -> wR w = 0) ->
  exists outs, LayerEvaluate l inputs = Some outs /\ length outs = length inputs /\
    forall i, i < length inputs -> layer_table l N (nth i inputs []) (nth i outs []).
Proof. exact @layer_evaluate_ok. Qed.
Print Assumptions C24_evaluate_partial.

(** What is computed when the doubled index stays in range. *)
Theorem C24_exact : forall (F : Field) (l : Layer F) (N : nat) (inp : list F),
  wf_layer l -> length inp = 2 ^ lBGInputs l * N ->
  (forall w, In w (Wires l) -> wR w * N * N + N <= length inp) ->
  exists out, eval_chunk l inp = Some out /\ length out = 2 ^ lBGOutputs l * N /\
    forall o h, o < 2 ^ lBGOutputs l -> h < N ->
      nth (o * N + h) out 0%F = suml (filter (fun w => wO w =? o) (Wires l))
        (fun w => geval (wGate w) (nth (wL w * N + h) inp 0%F) (nth (wR w * N * N + h) inp 0%F)).
Proof. exact @eval_chunk_exact. Qed.
Print Assumptions C24_exact.

(** Key 10, 20 in row 0; state 1, 2 in row 1; two instances. *)
Example C24_ex :
  let l := NewLayer [MkWire 1 0 0 (CipherGate (el (-9))); MkWire 1 0 1 CopyGate] in
  option_map (map (map frval)) (LayerEvaluate l [frs [10;11;1;2]%Z; frs [9;9;5;5]%Z])
  = Some [[2;130;1;2]; [5;5;5;5]]%Z.
Proof. vm_compute. reflexivity. Qed.

(* ---------------------------------------------------------------- C25 *)
Theorem C25_evaluate : forall (F : Field) (l : Layer F) (inputs outs : list (list F)) (nCore : nat),
  0 < nCore -> LayerEvaluate l inputs = Some outs ->
  must (step (layer_exec l inputs) (per_chunk (length inputs)) nCore false true)
    (fun s => main s = MEnd /\ closed s = true /\ mem s = outs)
    (init (per_chunk (length inputs)) nCore false (repeat [] (length inputs))).
Proof. exact @layer_concurrent. Qed.
Print Assumptions C25_evaluate.

Theorem C25_copy : forall (F : Field) (vals : list (list F)) (nCore : nat), 0 < nCore ->
  must (step (copy_exec vals) (per_chunk (length vals)) nCore false true)
    (fun s => main s = MEnd /\ closed s = true /\ mem s = vals)
    (init (per_chunk (length vals)) nCore false (repeat [] (length vals))).
Proof. exact @copy_concurrent. Qed.
Print Assumptions C25_copy.

(** A chunk on which the sequential evaluation panics makes every schedule fail to return. *)
Theorem C25_panic : forall (F : Field) (l : Layer F) (inputs : list (list F)) (nCore : nat) s,
  LayerEvaluate l inputs = None ->
  reach (step (layer_exec l inputs) (per_chunk (length inputs)) nCore false true)
    (init (per_chunk (length inputs)) nCore false (repeat [] (length inputs))) s ->
  main s <> MEnd.
Proof. exact @layer_panics_never_returns. Qed.
Print Assumptions C25_panic.

(** nCore = 0: blocked for ever (nothing written). *)
Theorem C25_zero_cores : forall (F : Field) (l : Layer F) (inputs : list (list F)) s,
  per_chunk (length inputs) <> [] ->
  reach (step (layer_exec l inputs) (per_chunk (length inputs)) 0 false true)
    (init (per_chunk (length inputs)) 0 false (repeat [] (length inputs))) s ->
  main s <> MEnd /\ mem s = repeat [] (length inputs).
Proof. exact (fun F l inputs s => fj_zero_deadlock (layer_exec l inputs) (per_chunk (length inputs)) false true _ s). Qed.
Print Assumptions C25_zero_cores.

Example C25_ex : exists outs,
  LayerEvaluate (NewLayer [MkWire 1 0 0 (CipherGate (el (-9))); MkWire 1 0 1 CopyGate])
    [frs [10;11;1;2]%Z; frs [9;9;5;5]%Z] = Some outs.
Proof.
  destruct (C24_evaluate_partial Fr (NewLayer [MkWire 1 0 0 (CipherGate (el (-9))); MkWire 1 0 1 CopyGate]) 2
    [frs [10;11;1;2]%Z; frs [9;9;5;5]%Z]) as (outs & E & _).
  - apply NewLayer_wf.
  - intros inp [<-|[<-|[]]]; reflexivity.
  - right. intros w [<-|[<-|[]]]; reflexivity.
  - exists outs. exact E.
Qed.

(* ---------------------------------------------------------------- C26 *)
Theorem C26_assign_partial : forall (F : Field) (c : list (Layer F)) (b N : nat) (inputs : list (list F)),
  (forall l, In l c -> wf_layer l) -> fits b c -> right_ok N c ->
  (forall inp, In inp inputs -> length inp = 2 ^ b * N) ->
  exists a, Assign c inputs = Some a /\ assignment_of c N inputs a.
Proof. exact @assign_ok. Qed.
Print Assumptions C26_assign_partial.

(** [assignment_of] determines the assignment. *)
Theorem C26_unique : forall (F : Field) (c : list (Layer F)) (N : nat) (inputs : list (list F)) a a',
  assignment_of c N inputs a -> assignment_of c N inputs a' -> a = a'.
Proof. exact @assignment_unique. Qed.
Print Assumptions C26_unique.

Theorem C26_chunks_partial : forall (F : Field) (c : list (Layer F)) (b N n : nat) (inp : list F),
  0 < n -> (forall l, In l c -> wf_layer l) -> fits b c ->
  (forall l w, In l c -> In w (Wires l) -> wR w = 0) ->
  length inp = 2 ^ b * (N * n) ->
  exists chunks a a', mapM (fun s => InterleavedChunk inp s n) (seq 0 n) = Some chunks /\
    Assign c [inp] = Some a /\ Assign c chunks = Some a' /\
    length a = S (length c) /\ length a' = S (length c) /\
    forall k, k <= length c -> exists t, nth k a [] = [t] /\
      mapM (fun s => InterleavedChunk t s n) (seq 0 n) = Some (nth k a' []).
Proof. exact @assign_chunks_prop. Qed.
Print Assumptions C26_chunks_partial.

(** Without the hypothesis on the right operands the result depends on the chunk count. *)
Theorem C26_chunks_refuted : forall F : Field,
  exists (c : list (Layer F)) (b n : nat) (inp : list F) chunks a a' t,
    (forall l, In l c -> wf_layer l) /\ fits b c /\ length inp = 2 ^ b * n /\
    mapM (fun s => InterleavedChunk inp s n) (seq 0 n) = Some chunks /\
    Assign c [inp] = Some a /\ Assign c chunks = Some a' /\
    nth 1 a [] = [t] /\ mapM (fun s => InterleavedChunk t s n) (seq 0 n) <> Some (nth 1 a' []).
Proof. exact @assign_depends_on_chunks. Qed.
Print Assumptions C26_chunks_refuted.

(** Two rounds of a small MiMC-like circuit, two chunks of two instances. *)
Definition toy_circuit : list (Layer Fr) := NewCircuit
  [[MkWire 1 0 0 (CipherGate (el 1)); MkWire 1 0 1 CopyGate]; [MkWire 1 0 0 (CipherGate (el 2))]].
Example C26_ex :
  ((forall l, In l toy_circuit -> wf_layer l) /\ fits 1 toy_circuit /\ right_ok 2 toy_circuit) /\
  option_map (map (map (map frval))) (Assign toy_circuit [frs [0;1;2;3]%Z; frs [0;0;5;6]%Z])
  = Some [[[0;1;2;3];[0;0;5;6]]; [[3;131;2;3];[6;7;5;6]];
          [[78127; 133^7+3]; [8^7+5; 9^7+6]]]%Z.
Proof.
  split; [split; [|split]|].
  - intros l [<-|[<-|[]]]; apply NewLayer_wf.
  - split; [reflexivity|]. split; [reflexivity|exact I].
  - right. intros l w [<-|[<-|[]]]; cbn; intuition subst; reflexivity.
  - vm_compute. reflexivity.
Qed.
