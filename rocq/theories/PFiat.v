(** Property theorems for challenges that are derived from everything sent so far (C80).  The definitions of MFiat.v are not those
    of the repository: they are the repaired program of MRepair.v with other challenges. *)
From Coq Require Import List Arith ZArith Lia Bool.
From Verif Require Import Field Go Trans MCommon Spec MPoly MCircuit SpecCircuit LCircuit MSumcheck SpecSumcheck MSumPar SpecSumPar
  MGkr SpecGkr SpecInter MHash LGrid LInter FrPrime Fr PPoly PCircuit PGkr PInter MRepair LRepair3 MFiat SpecFiat LFiat LFiat3 LFiat4 LFiat5.
Import ListNotations.

(* ---------------------------------------------------------------- C80 *)
(** On the challenges of the code it is the repaired verifier, which agrees with the code's where C79_agree_verify says so. *)
Theorem C80_code : forall (F : Field) (ch : list F -> F) (c : list (Layer F)) bN pf inputs outputs l q qP,
  nth_error c (length c - 1) = Some l -> length q = lBGOutputs l -> length qP = bN ->
  IGkrVerify (q ++ qP ++ map ch (messages (length c) pf)) bN c pf inputs outputs = RGkrVerify ch qP q bN c pf inputs outputs.
Proof. exact @igkr_code. Qed.
Print Assumptions C80_code.

(** An adversary that asks [Q] queries, adaptively, and then chooses inputs, outputs and proof.  Of all sequences of [M]
    answers from [S0] at most the fraction [M * d / |S0|] lets it get wrong outputs accepted. *)
Theorem C80_sound : forall (F : Field) m k b (c : list (Layer F)) (A : Adversary F) Q d (S0 : list F) L,
  (forall l, In l c -> layer_ok l) -> fits b c -> c <> [] ->
  1 <= d -> (forall l i, In l c -> i < 2 * lBGInputs l + (m + k) -> layer_round_degree l i <= d) ->
  let M := Q + fs_count (m + k) c in
  NoDup L -> (forall tape, In tape L -> In tape (grid S0 M) /\ breaks m k b c A Q tape) ->
  length L <= M * d * length S0 ^ (M - 1).
Proof. exact @oracle_count. Qed.
Print Assumptions C80_sound.

(** The MiMC circuit: the fraction is 8 (Q + 272 + 92 bN) / |S0|. *)
Theorem C80_mimc : forall (F : Field) (arks : list F) m k c (A : Adversary F) Q (S0 : list F) L,
  91 <= length arks -> CreateMimcCircuit arks = Some c ->
  let M := Q + (272 + 92 * (m + k)) in
  NoDup L -> (forall tape, In tape L -> In tape (grid S0 M) /\ breaks m k 1 c A Q tape) ->
  length L <= M * 8 * length S0 ^ (M - 1).
Proof. exact @mimc_oracle_count. Qed.
Print Assumptions C80_mimc.

(** With 2^100 queries, up to 2^20 variables and answers out of 2^253 values: at most one tape in 2^149. *)
Theorem C80_numbers : forall (F : Field) (arks : list F) m k c (A : Adversary F) Q (S0 : list F) L,
  91 <= length arks -> CreateMimcCircuit arks = Some c ->
  (2 ^ 253 <= Z.of_nat (length S0))%Z -> (Z.of_nat Q <= 2 ^ 100)%Z -> (Z.of_nat (m + k) <= 2 ^ 20)%Z ->
  let M := Q + (272 + 92 * (m + k)) in
  NoDup L -> (forall tape, In tape L -> In tape (grid S0 M) /\ breaks m k 1 c A Q tape) ->
  (2 ^ 149 * Z.of_nat (length L) <= Z.of_nat (length S0) ^ Z.of_nat M)%Z.
Proof. exact @mimc_oracle_numbers. Qed.
Print Assumptions C80_numbers.

(** The field has that many elements. *)
Example C80_ex_numbers : (2 ^ 253 <= frModulus < 2 ^ 254)%Z.
Proof. split; [apply Z.leb_le|apply Z.ltb_lt]; vm_compute; reflexivity. Qed.

(** Whatever the hash function, the true outputs have a proof. *)
Theorem C80_complete : forall (F : Field) (H : Query F -> F) m k b (c : list (Layer F)) inputs a,
  (forall l, In l c -> layer_ok l) -> fits b c -> c <> [] -> chunked k m b inputs -> assignment_of c (2 ^ m) inputs a ->
  exists pf, FSVerify H (m + k) c pf inputs (nth (length c) a []) = Some true.
Proof. exact @fs_complete. Qed.
Print Assumptions C80_complete.

Theorem C80_mimc_complete : forall (F : Field) (arks : list F) (H : Query F -> F) m k c inputs,
  91 <= length arks -> CreateMimcCircuit arks = Some c -> chunked k m 1 inputs ->
  exists a pf, RAssign c inputs = Some a /\ FSVerify H (m + k) c pf inputs (nth 91 a []) = Some true.
Proof. exact @mimc_fs_complete. Qed.
Print Assumptions C80_mimc_complete.

(** One layer that squares 2 and 3, the wrong output 39 for 9.  The adversary asks for both challenges before it gives its
    proof, and is lucky when the first is 0: there the wrong outputs have the right extension. *)
Definition lucky_outputs : list (list Fr) := [frs [4]%Z; frs [39]%Z].
Definition lucky_poly : list Fr := frs [4;0;-3;-1]%Z.
Definition lucky_adversary : Adversary Fr :=
  MkAdversary
    (fun answers => match answers with
                    | [] => fs_query 1 square_inputs lucky_outputs [] []
                    | r :: _ => fs_query 1 square_inputs lucky_outputs [lucky_poly] [r]
                    end)
    (fun answers => let v := (el 2 + nth 1 answers (el 0))%F in
                    (square_inputs, lucky_outputs, MkProof [[lucky_poly]] [v] [v])).
Example C80_ex :
  layer_ok square_layer /\ fits 0 [square_layer] /\
  (forall i, i < 2 * lBGInputs square_layer + 1 -> layer_round_degree square_layer i <= 3) /\ fs_count 1 [square_layer] = 2 /\
  breaks 0 1 0 [square_layer] lucky_adversary 2 (frs [0;5;7;8]%Z) /\
  ~ breaks 0 1 0 [square_layer] lucky_adversary 2 (frs [1;5;7;8]%Z).
Proof.
  split; [apply C67_ex|]. split; [repeat split|].
  split; [intros [|i] Hi; [vm_compute; lia|cbn in Hi; lia]|]. split; [reflexivity|]. split.
  - unfold breaks. cbn [lucky_adversary give].
    split; [apply C67_ex|]. split; [apply C67_ex|]. split.
    + exists (assign [square_layer] square_inputs). split; [apply C67_ex|].
      intros H. apply (f_equal (map (map frval))) in H. vm_compute in H. discriminate.
    + vm_compute. reflexivity.
  - unfold breaks. cbn [lucky_adversary give]. intros (_ & _ & _ & H). vm_compute in H. discriminate.
Qed.

(** Its true outputs, with a hash function that answers the number of challenges before. *)
Example C80_ex2 : let H := fun t : Query Fr => fnat (length (qChals t)) in
  FSVerify H 1 [square_layer] (MkProof [[frs [4;0;-3;-1]%Z]] [el 3] [el 3]) square_inputs [frs [4]%Z; frs [9]%Z] = Some true.
Proof. vm_compute. reflexivity. Qed.
