(** Property theorems: layers and circuits on all sizes (C88). *)
From Coq Require Import List Arith ZArith Lia Bool.
From Verif Require Import Field Go Spec LSpec MPoly MCircuit SpecCircuit SpecLayers LCircuit2 LLayers FrPrime Fr PPoly PCircuit.
Import ListNotations.

(* ---------------------------------------------------------------- C88 *)
(** Layer.Evaluate, on any layer and any chunks: it returns exactly if every chunk has the entries that are read, ... *)
Theorem C88_evaluate : forall (F : Field) (l : Layer F) (inputs : list (list F)),
  LayerEvaluate l inputs <> None <-> forall inp, In inp inputs -> reads l (length inp).
Proof. exact @evaluate_returns. Qed.
Print Assumptions C88_evaluate.

(** ... and then it has evaluated, on each chunk of [N] instances, the layer whose right rows are [N] times those of [l]. *)
Theorem C88_evaluate_values : forall (F : Field) (l : Layer F) (inputs outs : list (list F)), LayerEvaluate l inputs = Some outs ->
  Forall2 (fun inp out => let N := instances l (length inp) in layer_table (scaled N l) N inp out) inputs outs.
Proof. exact @evaluate_values. Qed.
Print Assumptions C88_evaluate_values.

(** On chunks of the right size: exactly if these rows exist. *)
Theorem C88_shape : forall (F : Field) (l : Layer F) N, wf_layer l -> 0 < N ->
  (reads l (2 ^ lBGInputs l * N) <-> forall w, In w (Wires l) -> wR w * N < 2 ^ lBGInputs l).
Proof. exact @reads_shape. Qed.
Print Assumptions C88_shape.

(** C24 exactly: if no two wires have the same output, all results are right if and only if the rows exist and, with several
    instances in a chunk, every wire has its right operand in row 0 or a gate that ignores it. *)
Theorem C88_right : forall (F : Field) (l : Layer F) N, wf_layer l -> 0 < N -> NoDup (map wO (Wires l)) ->
  ((forall inp, length inp = 2 ^ lBGInputs l * N -> exists out, LayerEvaluate l [inp] = Some [out] /\ layer_table l N inp out) <->
   (forall w, In w (Wires l) -> wR w * N < 2 ^ lBGInputs l /\ (N = 1 \/ wR w = 0 \/ ignores_right (wGate w)))).
Proof. exact @evaluate_right. Qed.
Print Assumptions C88_right.

Theorem C88_library : forall (F : Field) (g : Gate F), library_gate g -> (ignores_right g <-> g = CopyGate).
Proof. exact @library_ignores. Qed.
Print Assumptions C88_library.

(** Row 3 times row 1.  Two instances: row 3 times row 2; four instances: row 4 does not exist; a chunk too small for one
    instance gives an empty one, and the ninth entry of a chunk is ignored. *)
Example C88_evaluate_ex :
  let l := NewLayer (F:=Fr) [MkWire 3 1 0 MulGate] in
  option_map (map (map frval)) (LayerEvaluate l [frs [1;2;3;4;5;6;7;8]%Z; frs [1;2;3]%Z; frs [1;2;3;4;5;6;7;8;9]%Z]) = Some [[35; 48]; []; [35; 48]]%Z /\
  reads l 8 /\ reads l 9 /\ reads l 3 /\ ~ reads l 16 /\ ~ (forall w, In w (Wires l) -> wR w * 2 < 2 ^ lBGInputs l /\ (2 = 1 \/ wR w = 0 \/ ignores_right (wGate w))).
Proof.
  cbv zeta. split; [vm_compute; reflexivity|].
  split; [right; intros w [<-|[]]; vm_compute; lia|]. split; [right; intros w [<-|[]]; vm_compute; lia|]. split; [left; reflexivity|]. split.
  - intros [H|H]; [vm_compute in H; lia|]. specialize (H _ (or_introl eq_refl)). vm_compute in H. lia.
  - intros H. specialize (H _ (or_introl eq_refl)). destruct H as (_ & [H|[H|H]]); [lia|vm_compute in H; lia|].
    apply (C88_library Fr MulGate lib_mul) in H. discriminate H.
Qed.

(** Circuit.Assign, on any circuit and any chunks: the sizes decide. *)
Theorem C88_assign : forall (F : Field) (c : list (Layer F)) inputs,
  Assign c inputs <> None <-> forall inp, In inp inputs -> assignable c (length inp).
Proof. exact @assign_returns. Qed.
Print Assumptions C88_assign.

Theorem C88_assign_steps : forall (F : Field) (c : list (Layer F)) inputs a,
  Assign c inputs = Some a <->
  length a = S (length c) /\ nth 0 a [] = inputs /\
  forall k l, nth_error c k = Some l -> LayerEvaluate l (nth k a []) = Some (nth (S k) a []).
Proof. exact @assign_steps. Qed.
Print Assumptions C88_assign_steps.

Theorem C88_assign_shape : forall (F : Field) (c : list (Layer F)) b N, (forall l, In l c -> wf_layer l) -> fits b c -> 0 < N ->
  (assignable c (2 ^ b * N) <-> forall l w, In l c -> In w (Wires l) -> wR w * N < 2 ^ lBGInputs l).
Proof. exact @assignable_shape. Qed.
Print Assumptions C88_assign_shape.

(** C26 without its condition on the wires: the assignment is that of another circuit. *)
Theorem C88_assign_scaled : forall (F : Field) (c : list (Layer F)) b N inputs a, fits b c ->
  (forall inp, In inp inputs -> length inp = 2 ^ b * N) -> Assign c inputs = Some a ->
  assignment_of (map (scaled N) c) N inputs a.
Proof. exact @assign_scaled. Qed.
Print Assumptions C88_assign_scaled.

(** Two layers, two instances: (row 3 * row 1, row 0), then their sum.  [9] entries make the first layer read two instances. *)
Example C88_assign_ex :
  let c := NewCircuit (F:=Fr) [[MkWire 3 1 0 MulGate; MkWire 0 0 1 CopyGate]; [MkWire 1 0 0 AddGate]] in
  option_map (map (map (map frval))) (Assign c [frs [1;2;3;4;5;6;7;8]%Z]) = Some [[[1;2;3;4;5;6;7;8]]; [[35;48;1;2]]; [[36;50]]]%Z /\
  assignable c 8 /\ assignable c 9 /\ ~ assignable c 16 /\ fits 2 c.
Proof.
  cbv zeta. split; [vm_compute; reflexivity|].
  split; [split; [right; intros w [<-|[<-|[]]]; vm_compute; lia|split; [right; intros w [<-|[]]; vm_compute; lia|exact I]]|].
  split; [split; [right; intros w [<-|[<-|[]]]; vm_compute; lia|split; [right; intros w [<-|[]]; vm_compute; lia|exact I]]|].
  split; [|vm_compute; auto]. intros [[H|H] _]; [vm_compute in H; lia|]. specialize (H _ (or_introl eq_refl)). vm_compute in H. lia.
Qed.

(** GetStaticTable, on any layer and any point: it returns exactly if every wire of a listed gate has a place in the tables. *)
Theorem C88_static : forall (F : Field) (l : Layer F) q, GetStaticTable l q <> None <-> placed l.
Proof. exact @static_returns. Qed.
Print Assumptions C88_static.

(** Then the first coordinates of the place of a wire are fixed to [q] and the others left open, wherever the outputs end; ... *)
Theorem C88_static_entries : forall (F : Field) (l : Layer F) q tabs r, table_vars l = length q + r -> GetStaticTable l q = Some tabs ->
  Forall2 (fun g t => length t = 2 ^ r /\ forall j, j < 2 ^ r ->
    nth j t 0%F = suml (filter (fun w => id_eqb (gid (wGate w)) (gid g) && (place l w mod 2 ^ r =? j)) (Wires l))
      (fun w => eqprod q (bpoint (to_bits (length q) (place l w / 2 ^ r))))) (lGates l) tabs.
Proof. exact @static_entries. Qed.
Print Assumptions C88_static_entries.

(** ... with more coordinates than the tables have variables, all tables are empty. *)
Theorem C88_static_long : forall (F : Field) (l : Layer F) q tabs, table_vars l < length q -> GetStaticTable l q = Some tabs ->
  forall t, In t tabs -> t = [].
Proof. exact @static_long. Qed.
Print Assumptions C88_static_long.

(** Two wires to outputs 0 and 1 from (1, 0) and (1, 1), and points of 0, 2 and 4 coordinates; a left row too large. *)
Example C88_static_ex :
  let l := NewLayer (F:=Fr) [MkWire 1 0 0 AddGate; MkWire 1 1 1 MulGate] in
  option_map (map (map frval)) (GetStaticTable l []) = Some [[0;0;1;0;0;0;0;0]; [0;0;0;0;0;0;0;1]]%Z /\
  option_map (map (map frval)) (GetStaticTable l (frs [2;3]%Z)) = Some [[frModulus - 3; 0]; [0; 6]]%Z /\
  option_map (map (map frval)) (GetStaticTable l (frs [2;3;4;5]%Z)) = Some [[]; []] /\
  placed l /\ table_vars l = 3 /\ ~ placed (MkLayer [MkWire 4 0 0 (AddGate (F:=Fr))] [AddGate] 1 0).
Proof.
  cbv zeta. split; [vm_compute; reflexivity|]. split; [vm_compute; reflexivity|]. split; [vm_compute; reflexivity|].
  split; [intros g w _ [<-|[<-|[]]] _; vm_compute; lia|]. split; [reflexivity|].
  intros H. specialize (H _ _ (or_introl eq_refl) (or_introl eq_refl) eq_refl). vm_compute in H. lia.
Qed.
