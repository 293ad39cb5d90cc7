(** C95: the number of field multiplications of the sum-check prover and verifier. *)
From Coq Require Import List Arith ZArith Lia Bool.
From Verif Require Import Field Fr Go MCommon Spec MPoly MCircuit SpecCircuit MSumcheck MGkr MCost SpecCost LCost LCost2 LCost3 LCost4 LCost5 PPoly PCircuit.
Import ListNotations.

(* ---------------------------------------------------------------- C95 *)
(** The counting model is the model: without the counts it returns the same, or panics in the same cases. *)
Theorem C95_prover_values : forall (F : Field) gs cs (ch : list F -> F) (p : Prover F), Forall2 priced gs cs -> sGates p = map wbase gs ->
  erase (WProve gs ch p) = Prove ch p.
Proof. exact @prove_values. Qed.
Print Assumptions C95_prover_values.

Theorem C95_verifier_values : forall (F : Field) (ch : list F -> F) claim proof bN bG,
  erase (WVerify ch claim proof bN bG) = Verify ch claim proof bN bG.
Proof. exact @er_Verify. Qed.
Print Assumptions C95_verifier_values.

(** The gates: a cipher gate costs 4, also along a whole line of left arguments, but 4 for each right argument. *)
Theorem C95_add : forall F : Field, priced (F := F) WAddGate AddPrice.
Proof. exact @priced_add. Qed.
Print Assumptions C95_add.
Theorem C95_mul : forall F : Field, priced (F := F) WMulGate MulPrice.
Proof. exact @priced_mul. Qed.
Print Assumptions C95_mul.
Theorem C95_copy : forall F : Field, priced (F := F) WCopyGate CopyPrice.
Proof. exact @priced_copy. Qed.
Print Assumptions C95_copy.
Theorem C95_cipher : forall (F : Field) (ark : F), priced (WCipherGate ark) CipherPrice.
Proof. exact @priced_cipher. Qed.
Print Assumptions C95_cipher.

(** Folding a table and interpolating. *)
Theorem C95_fold : forall (F : Field) (t : list F) r t', Fold t r = Some t' -> WFold t r = Some (t', length t / 2).
Proof. exact @fold_exact. Qed.
Print Assumptions C95_fold.
Theorem C95_interpolate : forall (F : Field) (v : list F) co, InterpolateOnRange v = Some co -> WInterpolateOnRange v = Some (co, length v * length v).
Proof. exact @interpolate_exact. Qed.
Print Assumptions C95_interpolate.

(** One round, exactly.  Only lines of the static tables that are not zero at both ends are evaluated. *)
Theorem C95_round_left : forall (F : Field) gs cs (p : Prover F) n g a, Forall2 priced gs cs -> sGates p = map wbase gs -> 0 < n -> 0 < g ->
  length (sEq p) = n -> length (sVR p) = g * n -> length (sStatic p) = length gs -> (forall t, In t (sStatic p) -> length t = 2 * (a * g)) ->
  forall ev, GetEvalsOnHL p = Some ev -> WGetEvalsOnHL gs p = Some (ev, round_left (dHL p + 1) n (a * g) (map live (sStatic p)) cs).
Proof. exact @left_exact. Qed.
Print Assumptions C95_round_left.
Theorem C95_round_right : forall (F : Field) gs cs (p : Prover F) n a, Forall2 priced gs cs -> sGates p = map wbase gs -> 0 < n ->
  length (sEq p) = n -> length (sVR p) = 2 * a * n -> length (sStatic p) = length gs -> (forall t, In t (sStatic p) -> length t = 2 * a) ->
  forall ev, GetEvalsOnHR p = Some ev -> WGetEvalsOnHR gs p = Some (ev, round_right (dHR p + 1) n a (map live (sStatic p)) cs).
Proof. exact @right_exact. Qed.
Print Assumptions C95_round_right.
Theorem C95_round_prime : forall (F : Field) gs cs (p : Prover F), Forall2 priced gs cs -> sGates p = map wbase gs -> length (sStatic p) = length gs ->
  forall ev, GetEvalsOnHPrime p = Some ev -> WGetEvalsOnHPrime gs p = Some (ev, round_prime (dHPrime p + 1) (length (sEq p) / 2) cs).
Proof. exact @prime_exact. Qed.
Print Assumptions C95_round_prime.

(** All rounds: linear in the number of instances, with a factor that depends on the non-zero entries of the static tables. *)
Theorem C95_prove : forall (F : Field) gs cs (ch : list F -> F) (p : Prover F) bG bN out, Forall2 priced gs cs -> sGates p = map wbase gs ->
  length (sEq p) = 2 ^ bN -> length (sVL p) = 2 ^ bG * 2 ^ bN -> length (sVR p) = 2 ^ bG * 2 ^ bN ->
  length (sStatic p) = length gs -> (forall t, In t (sStatic p) -> length t = 2 ^ bG * 2 ^ bG) ->
  Prove ch p = Some out -> exists c, WProve gs ch p = Some (out, c) /\
    c <= work_left (dHL p + 1) bG bN (map support (sStatic p)) cs + work_right (dHR p + 1) bG bN (map support (sStatic p)) cs + work_prime (dHPrime p + 1) bN cs.
Proof. exact @prove_work. Qed.
Print Assumptions C95_prove.

(** On the tables of a layer those entries are no more than the wires, with one point q (the last layer) or two (the others). *)
Theorem C95_layer : forall (F : Field) gs cs (ch : list F -> F) (l : Layer F) q tabs vL vR eq bN out, map wbase gs = lGates l -> Forall2 priced gs cs ->
  wf_layer l -> length q = lBGOutputs l -> GetStaticTable l q = Some tabs ->
  length eq = 2 ^ bN -> length vL = 2 ^ (lBGInputs l + bN) -> length vR = 2 ^ (lBGInputs l + bN) ->
  Prove ch (NewSingleThreadedProver vL vR eq (lGates l) tabs) = Some out ->
  exists c, WProve gs ch (NewSingleThreadedProver vL vR eq (lGates l) tabs) = Some (out, c) /\ c <= layer_work l bN cs.
Proof. exact @layer_cost. Qed.
Print Assumptions C95_layer.
Theorem C95_layer_two : forall (F : Field) gs cs (ch : list F -> F) (l : Layer F) qL qR sL sR a0 a1 tabs vL vR eq bN out, map wbase gs = lGates l -> Forall2 priced gs cs ->
  wf_layer l -> length qL = lBGOutputs l -> length qR = lBGOutputs l -> GetStaticTable l qL = Some sL -> GetStaticTable l qR = Some sR ->
  combineStatics sL sR a0 a1 = Some tabs ->
  length eq = 2 ^ bN -> length vL = 2 ^ (lBGInputs l + bN) -> length vR = 2 ^ (lBGInputs l + bN) ->
  Prove ch (NewSingleThreadedProver vL vR eq (lGates l) tabs) = Some out ->
  exists c, WProve gs ch (NewSingleThreadedProver vL vR eq (lGates l) tabs) = Some (out, c) /\ c <= layer_work l bN cs.
Proof. exact @layer_cost2. Qed.
Print Assumptions C95_layer_two.

(** The two kinds of layers of the MiMC circuit. *)
Theorem C95_mimc : forall (F : Field) (ark : F) bN, let l := NewLayer [MkWire 1 0 0 (CipherGate ark); MkWire 1 0 1 CopyGate] in
  map wbase [WCipherGate ark; WCopyGate] = lGates l /\ Forall2 priced [WCipherGate ark; WCopyGate] [CipherPrice; CopyPrice] /\
  lBGInputs l = 1 /\ layer_work l bN [CipherPrice; CopyPrice] = 123 * 2 ^ bN + 99 * bN + 69.
Proof. exact @mimc_mid. Qed.
Print Assumptions C95_mimc.
Theorem C95_mimc_last : forall (F : Field) (ark : F) bN, let l := NewLayer [MkWire 1 0 0 (CipherGate ark)] in
  map wbase [WCipherGate ark] = lGates l /\ Forall2 priced [WCipherGate ark] [CipherPrice] /\
  lBGInputs l = 1 /\ layer_work l bN [CipherPrice] = 102 * 2 ^ bN + 90 * bN + 60.
Proof. exact @mimc_last. Qed.
Print Assumptions C95_mimc_last.

(** The verifier evaluates each polynomial three times if it accepts, and does not go on after a wrong one. *)
Theorem C95_verify : forall (F : Field) (ch : list F -> F) claim proof bN bG x, Verify ch claim proof bN bG = Some x ->
  exists c, WVerify ch claim proof bN bG = Some (x, c) /\ c <= list_sum (map (fun p => 3 * (length p - 1)) proof) /\
    (x <> Reject -> c = list_sum (map (fun p => 3 * (length p - 1)) proof)).
Proof. exact @verify_work. Qed.
Print Assumptions C95_verify.

(** A multiplication and a copy wire, two instances: the counts of the three rounds, and of the whole run beside its bound.
    The static tables have one non-zero entry each, so one of the two lines of each table is skipped. *)
Definition work_ex : Prover Fr :=
  NewSingleThreadedProver (frs [1; 2; 3; 4]%Z) (frs [1; 2; 3; 4]%Z) (frs [5; 6]%Z) [MulGate; CopyGate] [frs [0; 0; 7; 0]%Z; frs [0; 8; 0; 0]%Z].
Example C95_ex :
  map live (sStatic work_ex) = [1; 1] /\ map support (sStatic work_ex) = [1; 1] /\
  option_map snd (WGetEvalsOnHL [WMulGate; WCopyGate] work_ex) = Some 30 /\
  round_left (dHL work_ex + 1) 2 2 [1; 1] [MulPrice; CopyPrice] = 30 /\
  option_map snd (WProve [WMulGate; WCopyGate] (fun _ => el 3) work_ex) = Some 121 /\
  work_left 3 1 1 [1; 1] [MulPrice; CopyPrice] + work_right 3 1 1 [1; 1] [MulPrice; CopyPrice] + work_prime 4 1 [MulPrice; CopyPrice] = 121.
Proof. vm_compute. repeat split. Qed.

Example C95_hypotheses : Forall2 (priced (F := Fr)) [WMulGate; WCopyGate] [MulPrice; CopyPrice] /\ sGates work_ex = map wbase [WMulGate; WCopyGate] /\
  length (sEq work_ex) = 2 ^ 1 /\ length (sVL work_ex) = 2 ^ 1 * 2 ^ 1 /\ length (sVR work_ex) = 2 ^ 1 * 2 ^ 1 /\ length (sStatic work_ex) = 2 /\
  (forall t, In t (sStatic work_ex) -> length t = 2 ^ 1 * 2 ^ 1) /\ (forall t, In t (sStatic work_ex) -> length t = 2 * (1 * 2)).
Proof.
  split; [constructor; [apply C95_mul|constructor; [apply C95_copy|constructor]]|]. split; [reflexivity|].
  repeat split; intros t [<-|[<-|[]]]; reflexivity.
Qed.

(** The layers of the MiMC circuit: the static tables of one and of two points. *)
Example C95_layer_hypotheses : let l := NewLayer [MkWire 1 0 0 (CipherGate (el 5)); MkWire 1 0 1 CopyGate] in
  wf_layer l /\ lBGOutputs l = 1 /\
  option_map (map support) (GetStaticTable l (frs [10]%Z)) = Some [1; 1] /\
  option_map (map support) (sL <- GetStaticTable l (frs [10]%Z) ;; sR <- GetStaticTable l (frs [11]%Z) ;; combineStatics sL sR (el 1) (el 3)) = Some [1; 1].
Proof. split; [apply C23_new_layer_wf|]. vm_compute. repeat split. Qed.

(** Two rounds accepted, and a proof whose first polynomial is already wrong. *)
Example C95_verify_ex :
  option_map snd (WVerify (fun _ => el 5) (el 3) [frs [1; 1]%Z; frs [2; 1; 1]%Z] 2 0) = Some 9 /\
  option_map snd (WVerify (fun _ => el 5) (el 4) [frs [1; 1]%Z; frs [2; 1; 1]%Z] 2 0) = Some 2.
Proof. vm_compute. repeat split. Qed.
