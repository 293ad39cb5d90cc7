(** What gates, layers and circuits are meant to do. *)
From Coq Require Import List Arith Lia Bool.
From Verif Require Import Field Spec MCircuit.
Import ListNotations.

Section S.
  Context {F : Field}.
  Open Scope F_scope.

  (** Batched evaluation writes the one-by-one values into the front of [res]. *)
  Definition many_ok (g : Gate F) : Prop :=
    forall (res xs : list F) (y : F), (length xs <= length res)%nat ->
      gmanyVL g res xs y = Some (map (fun x => geval g x y) xs ++ skipn (length xs) res) /\
      gmanyVR g res y xs = Some (map (fun x => geval g y x) xs ++ skipn (length xs) res).

  (** The declared degrees bound the degree along every line. *)
  Definition degs_ok (g : Gate F) : Prop :=
    forall a b c d : F,
      poly_deg_le (degHL g) (fun t => geval g (a + b * t) c) /\
      poly_deg_le (degHR g) (fun t => geval g a (c + d * t)) /\
      poly_deg_le (degHPrime g) (fun t => geval g (a + b * t) (c + d * t)).

  (** No smaller degrees would do. *)
  Definition degs_least (g : Gate F) : Prop := forall n : nat,
    ((forall a b c : F, poly_deg_le n (fun t => geval g (a + b * t) c)) -> (degHL g <= n)%nat) /\
    ((forall a c d : F, poly_deg_le n (fun t => geval g a (c + d * t))) -> (degHR g <= n)%nat) /\
    ((forall a b c d : F, poly_deg_le n (fun t => geval g (a + b * t) (c + d * t))) -> (degHPrime g <= n)%nat).

  Definition gate_ok (g : Gate F) : Prop :=
    many_ok g /\ degs_ok g /\ (forall x y, gnark g x y = geval g x y).

  (** The wires of a layer stay within its declared sizes. *)
  Definition wf_layer (l : Layer F) : Prop :=
    forall w, In w (Wires l) ->
      (wL w < 2 ^ lBGInputs l)%nat /\ (wR w < 2 ^ lBGInputs l)%nat /\ (wO w < 2 ^ lBGOutputs l)%nat.

  (** Row [o] of instance [h] after the layer with wires [ws], when [inp] holds row [l] of
      instance [h] at [l * N + h]. *)
  Definition layer_value (ws : list (Wire F)) (N : nat) (inp : list F) (o h : nat) : F :=
    suml (filter (fun w => (wO w =? o)%nat) ws)
      (fun w => geval (wGate w) (nth (wL w * N + h) inp 0) (nth (wR w * N + h) inp 0)).

  (** [out] is the output table of the layer on the input table [inp] of [N] instances. *)
  Definition layer_table (l : Layer F) (N : nat) (inp out : list F) : Prop :=
    length out = (2 ^ lBGOutputs l * N)%nat /\
    forall o h, (o < 2 ^ lBGOutputs l)%nat -> (h < N)%nat ->
      nth (o * N + h) out 0 = layer_value (Wires l) N inp o h.

  (** Consecutive layers have matching sizes; [b] is the log-size of the first input layer. *)
  Fixpoint fits (b : nat) (c : list (Layer F)) : Prop :=
    match c with
    | [] => True
    | l :: c' => lBGInputs l = b /\ fits (lBGOutputs l) c'
    end.

  (** Keeps the first gate of every ID. *)
  Fixpoint first_by_id (seen : list (GateId F)) (gs : list (Gate F)) : list (Gate F) :=
    match gs with
    | [] => []
    | g :: gs' => if existsb (id_eqb (gid g)) seen then first_by_id seen gs'
                  else g :: first_by_id (gid g :: seen) gs'
    end.
End S.

Section A.
  Context {F : Field}.
  Open Scope F_scope.

  (** [a] lists, for the inputs and then for every layer, the chunk tables of [N] instances. *)
  Definition assignment_of (c : list (Layer F)) (N : nat) (inputs : list (list F)) (a : list (list (list F))) : Prop :=
    length a = S (length c) /\ nth 0 a [] = inputs /\
    forall k l, nth_error c k = Some l ->
      length (nth (S k) a []) = length inputs /\
      forall i, (i < length inputs)%nat ->
        layer_table l N (nth i (nth k a []) []) (nth i (nth (S k) a []) []).

  (** The case in which the right operand of every wire is read at the right place:
      one instance per chunk, or all right operands in row 0. *)
  Definition right_ok (N : nat) (c : list (Layer F)) : Prop :=
    N = 1%nat \/ forall l w, In l c -> In w (Wires l) -> wR w = 0%nat.
End A.

(** The gates defined in circuit/gates.go. *)
Inductive library_gate {F : Field} : Gate F -> Prop :=
| lib_add : library_gate AddGate
| lib_mul : library_gate MulGate
| lib_copy : library_gate CopyGate
| lib_cipher ark : library_gate (CipherGate ark).
