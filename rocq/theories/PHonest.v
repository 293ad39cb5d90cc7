(** Property theorems for the prover of package gkr on any assignment, and for the verifier on its proofs (C84). *)
From Coq Require Import List Arith ZArith Lia Bool.
From Verif Require Import Field Go Trans MCommon Spec MPoly MCircuit SpecCircuit LCircuit MSumcheck SpecSumcheck MSumPar SpecSumPar
  MGkr SpecGkr LGkr3 SpecHonest LHonest2 LHonest3 LHonest4 FrPrime Fr LPoly3 PPoly PCircuit PSumcheck PGkr.
Import ListNotations.

(* ---------------------------------------------------------------- C84 *)
(** When gkr.Prover.Prove returns, on tables of the right sizes: iff every layer has degrees that the interpolation covers. *)
Theorem C84_prover : forall (ch : list Fr -> Fr) nCore mtProve, 0 < nCore -> follows_machine ch nCore mtProve -> panics_with_machine ch nCore mtProve ->
  forall m k c b a, (forall l, In l c -> startable l) -> fits b c -> shaped k m c a -> c <> [] ->
  (GkrProve ch mtProve c a nCore <> None <-> forall l, In l c -> in_range (m + k) l).
Proof. exact prover_exact. Qed.
Print Assumptions C84_prover.

(** The hypotheses on [mtProve] can be met. *)
Theorem C84_follows : forall (ch : list Fr -> Fr) nCore, 0 < nCore -> follows_machine ch nCore (mtWhole ch) /\ panics_with_machine ch nCore (mtWhole ch).
Proof. exact (fun ch nCore H => conj (C36_follows Fr ch nCore) (mtWhole_panics ch nCore H)). Qed.
Print Assumptions C84_follows.

(** Then the verifier never panics, and it accepts the proof iff the claims of neighbouring tables are in line.  Neither the
    assignment nor the outputs need be true, and gates may be listed any number of times.  Line 99 of the verifier does not matter. *)
Theorem C84_verdict : forall (ch : list Fr -> Fr) nCore mtProve m k b c a outputs, 0 < nCore -> follows_machine ch nCore mtProve -> 0 < k ->
  c <> [] -> (forall l, In l c -> startable l /\ (forall g, In g (lGates l) -> gate_ok g) /\ in_range (m + k) l) -> fits b c -> shaped k m c a ->
  (forall l, nth_error c (length c - 1) = Some l -> chunked k m (lBGOutputs l) outputs) ->
  exists pf, GkrProve ch mtProve c a nCore = Some pf /\
    (GkrVerify ch (m + k) c pf (nth 0 a []) outputs = Some true <-> all_in_line ch c m k pf a outputs) /\
    (GkrVerify ch (m + k) c pf (nth 0 a []) outputs = Some false <-> ~ all_in_line ch c m k pf a outputs) /\
    GkrVerifyWith ch false (m + k) c pf (nth 0 a []) outputs = GkrVerify ch (m + k) c pf (nth 0 a []) outputs.
Proof. exact verdict_any. Qed.
Print Assumptions C84_verdict.

(** What "in line" compares with, for the layers of the code: every wire counts as many times as there are wires with its gate. *)
Theorem C84_counted : forall (F : Field) (ws : list (Wire F)) N V o h, ids_ok ws ->
  listed_value (NewLayer ws) N V o h = counted_value ws N V o h.
Proof. exact @listed_counted. Qed.
Print Assumptions C84_counted.

Theorem C84_once : forall (F : Field) (l : Layer F) N V o h, gates_once l ->
  listed_value l N V o h = layer_value (Wires l) N V o h.
Proof. exact @listed_once. Qed.
Print Assumptions C84_once.

(** The gates of the library have distinct IDs and degrees in range. *)
Theorem C84_library : forall (F : Field) (ws : list (Wire F)) bN, ws <> [] -> (forall w, In w ws -> library_gate (wGate w)) ->
  ids_ok ws /\ startable (NewLayer ws) /\ (forall g, In g (lGates (NewLayer ws)) -> gate_ok g) /\ in_range bN (NewLayer ws).
Proof. exact (fun F ws bN H1 H2 => conj (library_ids ws H2) (library_ready ws bN H1 H2)). Qed.
Print Assumptions C84_library.

(** Every true assignment is in line when gates are listed once: completeness, with the degrees limited to those of C84_prover. *)
Theorem C84_complete : forall (ch : list Fr -> Fr) nCore mtProve m k b c inputs a, 0 < nCore -> follows_machine ch nCore mtProve -> 0 < k ->
  c <> [] -> (forall l, In l c -> startable l /\ gates_once l /\ (forall g, In g (lGates l) -> gate_ok g) /\ in_range (m + k) l) -> fits b c ->
  chunked k m b inputs -> assignment_of c (2 ^ m) inputs a ->
  exists pf, GkrProve ch mtProve c a nCore = Some pf /\ GkrVerify ch (m + k) c pf inputs (nth (length c) a []) = Some true.
Proof. exact complete_any. Qed.
Print Assumptions C84_complete.

(** A layer of two or more wires of one gate: the honest proof of a true assignment is accepted only if the claim is zero. *)
Theorem C84_one_gate : forall (ch : list Fr -> Fr) nCore mtProve m k g (ws : list (Wire Fr)) inputs a, 0 < nCore -> follows_machine ch nCore mtProve -> 0 < k ->
  library_gate g -> (forall w, In w ws -> wGate w = g) -> 2 <= length ws -> (Z.of_nat (length ws) < frModulus)%Z ->
  chunked k m (BGInputs ws) inputs -> assignment_of [NewLayer ws] (2 ^ m) inputs a ->
  exists pf, GkrProve ch mtProve [NewLayer ws] a nCore = Some pf /\
    (GkrVerify ch (m + k) [NewLayer ws] pf inputs (nth 1 a []) = Some true <-> output_claim (m + k) m (NewLayer ws) (nth 1 a []) = fzero) /\
    (GkrVerify ch (m + k) [NewLayer ws] pf inputs (nth 1 a []) = Some false <-> output_claim (m + k) m (NewLayer ws) (nth 1 a []) <> fzero).
Proof. exact one_gate. Qed.
Print Assumptions C84_one_gate.

(* ---------------------------------------------------------------- instances *)
(** The layer of C36_same_gate_refuted. *)
Definition twins : list (Wire Fr) := [MkWire 0 0 0 AddGate; MkWire 1 0 1 AddGate].
Example C84_one_gate_ex : library_gate (AddGate (F:=Fr)) /\ (forall w, In w twins -> wGate w = AddGate) /\ 2 <= length twins /\
  (Z.of_nat (length twins) < frModulus)%Z /\ chunked 1 0 (BGInputs twins) toy_inputs /\ twin_circuit = [NewLayer twins].
Proof.
  split; [constructor|]. split; [intros w [<-|[<-|[]]]; reflexivity|]. split; [cbn; lia|]. split; [reflexivity|]. split; [exact toy_chunked|reflexivity].
Qed.

(** A false assignment for it: all zeros above inputs that are not. *)
Definition twin_zero : list (list (list Fr)) := [toy_inputs; [frs [0;0]%Z; frs [0;0]%Z]].
Example C84_verdict_ex : exists pf, GkrProve ex_hash (mtWhole ex_hash) twin_circuit twin_zero 1 = Some pf /\
  (GkrVerify ex_hash 1 twin_circuit pf toy_inputs [frs [0;0]%Z; frs [0;0]%Z] = Some false <->
    ~ all_in_line ex_hash twin_circuit 0 1 pf twin_zero [frs [0;0]%Z; frs [0;0]%Z]).
Proof.
  destruct (C84_verdict ex_hash 1 (mtWhole ex_hash) 0 1 1 twin_circuit twin_zero [frs [0;0]%Z; frs [0;0]%Z]) as (pf & E & _ & H & _).
  - lia.
  - apply C36_follows.
  - lia.
  - discriminate.
  - intros l [<-|[]]. apply (C84_library Fr twins 1); [discriminate|]. intros w [<-|[<-|[]]]; constructor.
  - repeat split.
  - intros [|[|j]] l Hj; try discriminate Hj. injection Hj as <-. exact toy_chunked.
  - intros l Hl. injection Hl as <-. split; [reflexivity|]. intros t [<-|[<-|[]]]; reflexivity.
  - exists pf. split; [exact E|exact H].
Qed.

Example C84_counted_ex : ids_ok twins /\ frval (counted_value twins 2 (frs [1;2;3;4]%Z) 1 0) = 8%Z /\ frval (layer_value twins 2 (frs [1;2;3;4]%Z) 1 0) = 4%Z.
Proof. split; [apply (C84_library Fr twins 0); [discriminate|intros w [<-|[<-|[]]]; constructor]|]. split; vm_compute; reflexivity. Qed.

(** A gate that declares degree 11: the prover panics. *)
Definition steep : Gate Fr := MkGate IdCopy (geval CopyGate) (gmanyVL CopyGate) (gmanyVR CopyGate) (gnark CopyGate) (1, 0, 11).
Example C84_panics_ex : GkrProve ex_hash (mtWhole ex_hash) [NewLayer [MkWire 0 0 0 steep]] [[frs [1]%Z; frs [2]%Z]] 2 = None /\
  (exists pf, GkrProve ex_hash (mtWhole ex_hash) [NewLayer [MkWire 0 0 0 steep]] [[frs [1]%Z]] 2 = Some pf).
Proof.
  assert (Hs : forall l, In l [NewLayer [MkWire 0 0 0 steep]] -> startable l).
  { intros l [<-|[]]. split; [apply NewLayer_wf|]. split; [left; reflexivity|]. intros g [<-|[]]. exact copy_many. }
  destruct (C84_follows ex_hash 2 ltac:(lia)) as [Hf Hp].
  assert (H : forall k a, shaped k 0 [NewLayer [MkWire 0 0 0 steep]] a -> (GkrProve ex_hash (mtWhole ex_hash) [NewLayer [MkWire 0 0 0 steep]] a 2 <> None <->
    forall l, In l [NewLayer [MkWire 0 0 0 steep]] -> in_range k l)).
  { intros k a Ha. apply (C84_prover ex_hash 2 (mtWhole ex_hash) ltac:(lia) Hf Hp 0 k _ 0 a Hs); [repeat split|exact Ha|discriminate]. }
  split.
  - destruct (GkrProve _ _ _ _ _) eqn:E; [|reflexivity]. exfalso. destruct (H 1 [[frs [1]%Z; frs [2]%Z]]) as [H1 _].
    + intros [|[|j]] l Hj; try discriminate Hj. injection Hj as <-. split; [reflexivity|]. intros t [<-|[<-|[]]]; reflexivity.
    + destruct (H1 ltac:(rewrite E; discriminate) _ (or_introl eq_refl)) as [_ [X|X]]; cbn in X; lia.
  - destruct (H 0 [[frs [1]%Z]]) as [_ H2].
    + intros [|[|j]] l Hj; try discriminate Hj. injection Hj as <-. split; [reflexivity|]. intros t [<-|[]]; reflexivity.
    + destruct (GkrProve _ _ _ _ _) as [pf|] eqn:E; [exists pf; reflexivity|]. exfalso. apply H2; [|reflexivity].
      intros l [<-|[]]. split; left; reflexivity.
Qed.
