(** Properties of the functions under snark/, of sumcheck.Verify and of GetInitialQPrimeAndQ in 64-bit
    arithmetic. *)
From Coq Require Import List ZArith Lia Bool.
From Verif Require Import Field Fr Go MInt SpecInt MSumcheck MGkr MSnark MInt2 SpecInt2 LInt3 PPoly PCircuit.
Import ListNotations.
Local Open Scope Z_scope.

(* ------------------------------------------------------------------ C89 *)

(** A table of a gadget, for every [int]. *)
Theorem C89_multilinear : forall (F : Field) maxLen, 1 <= maxLen <= 2 ^ 62 -> forall nVars, isInt nVars ->
  AllocateMultilinear64 (F:=F) maxLen nVars =
    if (0 <=? nVars) && (2 ^ nVars <=? maxLen) then Some (SAllocateMultilinear (Z.to_nat nVars))
    else if 64 <=? nVars then Some [] else None.
Proof. exact @multilinear_64. Qed.
Print Assumptions C89_multilinear.

(** Instead of panicking, it returns a table without entries. *)
Theorem C89_multilinear_refuted : forall (F : Field) maxLen, 1 <= maxLen <= 2 ^ 62 ->
  exists nVars, isInt nVars /\ 0 <= nVars /\ AllocateMultilinear64 (F:=F) maxLen nVars = Some [] /\
    AllocateMultilinear64 (F:=F) maxLen nVars <> Some (SAllocateMultilinear (Z.to_nat nVars)).
Proof. exact @multilinear_nothing. Qed.
Print Assumptions C89_multilinear_refuted.

Example C89_multilinear_ex :
  option_map (@length _) (AllocateMultilinear64 (F:=Fr) (2 ^ 43) 3) = Some 8%nat /\
  option_map (@length _) (AllocateMultilinear64 (F:=Fr) (2 ^ 43) (-1)) = None /\
  option_map (@length _) (AllocateMultilinear64 (F:=Fr) (2 ^ 43) 63) = None /\
  option_map (@length _) (AllocateMultilinear64 (F:=Fr) (2 ^ 43) 64) = Some 0%nat.
Proof. vm_compute. repeat split. Qed.

(** A polynomial of a gadget, for every [int]. *)
Theorem C89_univariate : forall (F : Field) maxLen, 1 <= maxLen <= 2 ^ 62 -> forall degree, isInt degree ->
  AllocateUnivariate64 (F:=F) maxLen degree =
    if allocatable maxLen degree then Some (repeat None (Z.to_nat (degree + 1))) else None.
Proof. exact @univariate_64. Qed.
Print Assumptions C89_univariate.

Example C89_univariate_ex :
  option_map (@length _) (AllocateUnivariate64 (F:=Fr) (2 ^ 43) 7) = Some 8%nat /\
  option_map (@length _) (AllocateUnivariate64 (F:=Fr) (2 ^ 43) (-1)) = Some 0%nat /\
  option_map (@length _) (AllocateUnivariate64 (F:=Fr) (2 ^ 43) (2 ^ 63 - 1)) = None.
Proof. vm_compute. repeat split. Qed.

(** The polynomials of a sumcheck, for all [int]s. *)
Theorem C89_sumcheck : forall (F : Field) maxLen, 1 <= maxLen <= 2 ^ 62 -> forall bN bG degHL degHR degHPrime,
  isInt bN -> isInt bG -> isInt degHL -> isInt degHR -> isInt degHPrime ->
  AllocateSumcheck64 (F:=F) maxLen bN bG degHL degHR degHPrime =
    if sumcheck_allocatable maxLen bN bG degHL degHR degHPrime then
      Some (repeat (repeat None (Z.to_nat (degHL + 1))) (Z.to_nat bG) ++
            repeat (repeat None (Z.to_nat (degHR + 1))) (Z.to_nat bG) ++
            repeat (repeat None (Z.to_nat (degHPrime + 1))) (Z.to_nat bN))
    else None.
Proof. exact @sumcheck_64. Qed.
Print Assumptions C89_sumcheck.

(** 2 * (-2^63) is 0, yet the second loop starts at -2^63. *)
Example C89_sumcheck_ex :
  option_map (map (@length _)) (AllocateSumcheck64 (F:=Fr) (2 ^ 43) 2 1 1 2 3) = Some [2; 3; 4; 4]%nat /\
  option_map (map (@length _)) (AllocateSumcheck64 (F:=Fr) (2 ^ 43) 2 0 (-9) (-9) 0) = Some [1; 1]%nat /\
  sumcheck_allocatable (2 ^ 43) 2 (- 2 ^ 63) 1 2 3 = false /\
  add64 2 (mul64 2 (- 2 ^ 63)) = 2.
Proof. vm_compute. repeat split. Qed.

(** The proof of the GKR gadget: a layer is its BG and its three degrees. *)
Theorem C89_proof : forall (F : Field) maxLen, 1 <= maxLen <= 2 ^ 62 -> forall bN layers, isInt bN ->
  (forall bG dL dR dP, In (bG, dL, dR, dP) layers -> isInt bG /\ isInt dL /\ isInt dR /\ isInt dP) ->
  len layers <= maxLen ->
  forall p, AllocateProof64 (F:=F) maxLen bN layers = Some p <->
    (forall bG dL dR dP, In (bG, dL, dR, dP) layers -> sumcheck_allocatable maxLen bN bG dL dR dP = true) /\
    p = MkSProof (map (fun '(bG, dL, dR, dP) =>
          repeat (repeat None (Z.to_nat (dL + 1))) (Z.to_nat bG) ++ repeat (repeat None (Z.to_nat (dR + 1))) (Z.to_nat bG) ++
          repeat (repeat None (Z.to_nat (dP + 1))) (Z.to_nat bN)) layers)
        (repeat None (length layers)) (repeat None (length layers)).
Proof. exact @proof_64. Qed.
Print Assumptions C89_proof.

(** For 2^64 instances the proof can be allocated, with inputs and outputs that have no entries. *)
Example C89_proof_ex :
  option_map (fun p => map (@length _) (sSumchecks p)) (AllocateProof64 (F:=Fr) (2 ^ 43) 64 [(1, 2, 8, 8); (0, 2, 8, 8)]) = Some [66; 64]%nat /\
  option_map (@length _) (AllocateMultilinear64 (F:=Fr) (2 ^ 43) 65) = Some 0%nat /\
  option_map (fun p => length (sLeft p)) (AllocateProof64 (F:=Fr) (2 ^ 43) (-1) [(1, 2, 8, 8)]) = None.
Proof. vm_compute. repeat split. Qed.

(** Assigning chunks: the index is in range or the loop stops before it overflows. *)
Theorem C89_assign_chunked : forall (F : Field) maxLen, 1 <= maxLen <= 2 ^ 62 -> forall (table : list (option F)) values,
  len table <= maxLen -> len values <= maxLen ->
  AssignFromChunkedBKT64 table values = SAssignFromChunkedBKT table values.
Proof. exact @assign_chunked_64. Qed.
Print Assumptions C89_assign_chunked.

Example C89_assign_chunked_ex :
  option_map (map (option_map frval)) (AssignFromChunkedBKT64 (repeat None 4) [frs [1; 2]; frs [3; 4]]) = Some [Some 1; Some 3; Some 2; Some 4] /\
  option_map (@length _) (AssignFromChunkedBKT64 (repeat None 3) [frs [1; 2]; frs [3; 4]]) = None.
Proof. vm_compute. repeat split. Qed.

(** Evaluating at two points: a shift that overflows comes with a table too short for it. *)
Theorem C89_eval_mixed : forall (F : Field) maxLen, 1 <= maxLen <= 2 ^ 62 -> forall table qL qR qPrime (cs : CS F),
  len table <= maxLen -> len qL < 2 ^ 63 ->
  EvalMixed64 (F:=F) maxLen table qL qR qPrime cs = SEvalMixed table qL qR qPrime cs.
Proof. exact @eval_mixed_64. Qed.
Print Assumptions C89_eval_mixed.

(** Wires 1 to 4 are the table, 5 and 6 the points. *)
Example C89_eval_mixed_ex :
  option_map (fun '(v, cs) => (v, nbWires cs)) (EvalMixed64 (F:=Fr) (2 ^ 43) [1; 2; 3; 4]%nat [5]%nat [6]%nat [5]%nat (MkCS 7 [] [])) =
    Some ((15, 18), 19)%nat /\
  option_map (fun '(v, cs) => (v, nbWires cs)) (EvalMixed64 (F:=Fr) (2 ^ 43) [1; 2; 3; 4]%nat (repeat 5%nat 64) [6]%nat [5]%nat (MkCS 7 [] [])) = None.
Proof. vm_compute. repeat split. Qed.

(** The verifier of a sumcheck: a negative bG panics unless a round is rejected. *)
Theorem C89_verify : forall (F : Field) maxLen, 1 <= maxLen <= 2 ^ 62 -> forall GetChallenge (claim : F) proof bN bG,
  len proof <= maxLen -> isInt bG ->
  Verify64 GetChallenge claim proof bN bG =
    if 0 <=? bG then Verify GetChallenge claim proof (Z.to_nat bN) (Z.to_nat bG)
    else match verify_loop GetChallenge claim proof [] with Some None => Some Reject | _ => None end.
Proof. exact @verify_64. Qed.
Print Assumptions C89_verify.

Example C89_verify_ex :
  option_map (fun _ => tt) (Verify64 (fun _ => el 5) (el 3) [frs [1; 1]] 1 (-1)) = None /\
  match Verify64 (fun _ => el 5) (el 4) [frs [1; 1]] 1 (-1) with Some Reject => True | _ => False end /\
  match Verify64 (fun _ => el 5) (el 3) [frs [1; 1]] (-7) 0 with Some (Accept qPrime _ _ e) => map frval qPrime = [5] /\ frval e = 6 | _ => False end.
Proof. vm_compute. repeat split. Qed.

(** The gadget: a negative bG always panics. *)
Theorem C89_assert : forall (F : Field) maxLen, 1 <= maxLen <= 2 ^ 62 -> forall Arks HPolys claim bG (cs : CS F),
  len HPolys <= maxLen -> isInt bG ->
  SumcheckAssertValid64 Arks HPolys claim bG cs =
    if 0 <=? bG then SSumcheckAssertValid Arks HPolys claim (Z.to_nat bG) cs else None.
Proof. exact @assert_64. Qed.
Print Assumptions C89_assert.

Example C89_assert_ex :
  option_map (fun '(r, _) => r) (SumcheckAssertValid64 (repeat (el 0) 91) [[1]]%nat 2%nat 0 (MkCS 3 [] [])) = Some ([], [], [551], 556)%nat /\
  option_map (fun '(r, _) => r) (SumcheckAssertValid64 (repeat (el 0) 91) [[1]]%nat 2%nat (-1) (MkCS 3 [] [])) = None.
Proof. vm_compute. repeat split. Qed.

(** The initial point, for all integers. *)
Theorem C89_initial : forall (F : Field) maxLen, 1 <= maxLen <= 2 ^ 62 -> forall bN bG,
  GetInitialQPrimeAndQ64 (F:=F) maxLen bN bG =
    if (0 <=? bG) && (bG <=? maxLen) && (0 <=? bN) && (bN <=? maxLen)
    then Some (GetInitialQPrimeAndQ (Z.to_nat bN) (Z.to_nat bG)) else None.
Proof. exact @initial_64. Qed.
Print Assumptions C89_initial.

Example C89_initial_ex :
  option_map (fun '(qPrime, q) => (map frval qPrime, map frval q)) (GetInitialQPrimeAndQ64 (F:=Fr) (2 ^ 43) 2 1) = Some ([1; 2], [1]) /\
  option_map (fun '(qPrime, q) => (map frval qPrime, map frval q)) (GetInitialQPrimeAndQ64 (F:=Fr) (2 ^ 43) (-1) 1) = None.
Proof. vm_compute. repeat split. Qed.
