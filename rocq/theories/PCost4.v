(** C98: the number of field multiplications of the evaluation of a circuit. *)
From Coq Require Import List Arith ZArith Lia Bool.
From Verif Require Import Field Fr Go MCommon MPoly MCircuit SpecCircuit MSumcheck MGkr SpecGkr MHash MArk MCost SpecCost MCost4 SpecCost4
  LCost9 LCost12 PPoly PCircuit PGkr PCost.
Import ListNotations.

(* ---------------------------------------------------------------- C98 *)
(** The counting model is the model: without the counts it returns the same, or panics in the same cases. *)
Theorem C98_values : forall (F : Field) counting price (c : list (Layer F)) inputs, priced_wires counting price c ->
  erase (WAssign counting c inputs) = Assign c inputs.
Proof. exact @er_Assign. Qed.
Print Assumptions C98_values.

(** Every wire is evaluated once per instance, and nothing else is multiplied, however the instances are cut into chunks. *)
Theorem C98_exact : forall (F : Field) counting price (c : list (Layer F)) b m k inputs a, priced_wires counting price c -> fits b c -> chunked k m b inputs ->
  Assign c inputs = Some a -> WAssign counting c inputs = Some (a, 2 ^ (m + k) * wires_price price c).
Proof. exact @assign_count. Qed.
Print Assumptions C98_exact.

(** Every circuit with the gates of the code is priced: nothing for an addition or a copy, 1 for a multiplication, 4 for a cipher gate. *)
Theorem C98_standard : forall (F : Field) (c : list (Layer F)),
  (forall l w, In l c -> In w (Wires l) -> wGate w = AddGate \/ wGate w = MulGate \/ wGate w = CopyGate \/ exists ark, wGate w = CipherGate ark) ->
  priced_wires std_counting std_price c.
Proof. exact @std_wires. Qed.
Print Assumptions C98_standard.

(** The MiMC circuit: as much as the permutations of all instances (C96_permutation). *)
Theorem C98_mimc_wires : forall (F : Field) (arks : list F) c, 91 <= length arks -> CreateMimcCircuit arks = Some c ->
  priced_wires std_counting std_price c /\ wires_price std_price c = 364.
Proof. exact @mimc_wires. Qed.
Print Assumptions C98_mimc_wires.
Theorem C98_mimc : forall (F : Field) (arks : list F) c m k inputs, 91 <= length arks -> CreateMimcCircuit arks = Some c -> chunked k m 1 inputs ->
  exists a, Assign c inputs = Some a /\ WAssign std_counting c inputs = Some (a, 2 ^ (m + k) * 364).
Proof. exact @mimc_assign. Qed.
Print Assumptions C98_mimc.

(** Two layers with a cipher gate each, two instances in two chunks: 2 * (4 + 4).  A chunk that is too short holds no instance and costs nothing;
    the wrong offset of the right operand (C24) panics here too. *)
Example C98_ex : option_map snd (WAssign std_counting toy_circuit toy_inputs) = Some 16 /\ wires_price std_price toy_circuit = 8 /\
  option_map snd (WAssign std_counting [NewLayer [MkWire 0 0 0 MulGate; MkWire 1 1 1 AddGate; MkWire 1 0 2 MulGate]] [frs [1; 2]%Z; frs [3; 4]%Z]) = Some 4 /\
  option_map snd (WAssign std_counting [NewLayer [MkWire 0 0 0 MulGate; MkWire 1 1 1 AddGate]] [frs [1; 2]%Z; frs [1]%Z]) = Some 1 /\
  option_map snd (WAssign std_counting [NewLayer [MkWire 0 1 0 MulGate]] [frs [1; 2; 3; 4]%Z]) = None.
Proof. vm_compute. repeat split. Qed.

Example C98_hypotheses : priced_wires std_counting std_price toy_circuit /\ fits 1 toy_circuit /\ chunked 1 0 1 toy_inputs /\ exists a, Assign toy_circuit toy_inputs = Some a.
Proof.
  split; [|split; [repeat split|split; [exact toy_chunked|]]].
  - intros l w [<-|[<-|[]]] Hw; [destruct Hw as [<-|[<-|[]]]|destruct Hw as [<-|[]]]; (split; [reflexivity|]); [apply C95_cipher|apply C95_copy|apply C95_cipher].
  - destruct (WAssign std_counting toy_circuit toy_inputs) as [[a n]|] eqn:E.
    + exists a. rewrite <- (C98_values Fr std_counting std_price toy_circuit toy_inputs), E; [reflexivity|].
      intros l w [<-|[<-|[]]] Hw; [destruct Hw as [<-|[<-|[]]]|destruct Hw as [<-|[]]]; (split; [reflexivity|]); [apply C95_cipher|apply C95_copy|apply C95_cipher].
    + destruct C98_ex as [H _]. rewrite E in H. discriminate H.
Qed.
