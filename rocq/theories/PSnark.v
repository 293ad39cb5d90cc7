(** Property theorems for the packages under snark/ (C46-C52, C57-C59). *)
From Coq Require Import List Arith ZArith Lia Bool.
From Verif Require Import Field Go Trans MCommon Spec MPoly MCircuit SpecCircuit MSumcheck SpecSumcheck MSumPar SpecSumPar MGkr SpecGkr LGkr4
  FrPrime Fr MArk MHash SpecHash LHash2 LHash4 LPoly3 PPoly PCircuit PHash
  MSnark SpecSnark LGrid LSnark2 LSnark3 LSnark6 LSnark7 LSnark9 LSnark10 LSnark11.
Import ListNotations.

(** A constraint system with variables only, for the examples. *)
Definition free (n : nat) : CS Fr := MkCS n [] [].
Lemma free_ok n : 0 < n -> cs_ok (free n).
Proof. intros H. split; [exact H|split; constructor]. Qed.
Lemma free_sat n (w : nat -> Fr) : w 0 = 1%F -> satisfied w (free n).
Proof. intros H. split; [split; [exact H|constructor]|constructor]. Qed.
(** The witness that gives the variables 1, 2, 3, ... the values [l]. *)
Definition wit (l : list Z) (v : nat) : Fr := nth v (frs (1%Z :: l)) 0%F.

(* ---------------------------------------------------------------- C46 *)
Theorem C46_eval : forall (F : Field) (cs : CS F) t xs, cs_ok cs -> vars cs t -> vars cs xs ->
  (length t < 2 ^ length xs /\ SEval t xs cs = None /\ forall w : nat -> F, Evaluate (map w t) (map w xs) = None) \/
  (2 ^ length xs <= length t /\ exists r cs', SEval t xs cs = Some (r, cs') /\ computes cs cs' /\ vars cs' [r] /\
     forall w, gates_ok w cs' -> Evaluate (map w t) (map w xs) = Some (w r)).
Proof. exact @SEval_spec. Qed.
Print Assumptions C46_eval.

Theorem C46_eval_mixed : forall (F : Field) (cs : CS F) t qL qR qP,
  cs_ok cs -> vars cs t -> vars cs qL -> vars cs qR -> vars cs qP ->
  length qR = length qL -> length t = 2 ^ (length qL + length qP) ->
  exists vL vR cs', SEvalMixed t qL qR qP cs = Some ((vL, vR), cs') /\ computes cs cs' /\ vars cs' [vL; vR] /\
    forall w, gates_ok w cs' -> EvaluateLeftAndRight (map w t) (map w qP) (map w qL) (map w qR) = Some (w vL, w vR).
Proof. exact @SEvalMixed_native. Qed.
Print Assumptions C46_eval_mixed.

(** The table 10, 20, 30, 50 at the point (2, 3). *)
Example C46_ex : cs_ok (free 7) /\ exists r cs' w, SEval [1;2;3;4] [5;6] (free 7) = Some (r, cs') /\ gates_ok w cs' /\
  map w [1;2;3;4;5;6] = frs [10;20;30;50;2;3]%Z /\ w r = el 140.
Proof.
  split; [apply free_ok; lia|].
  destruct (C46_eval Fr (free 7) [1;2;3;4] [5;6]) as [(H & _)|(_ & r & cs' & E & (HO & HG & _) & _ & HW)];
    [apply free_ok; lia|intros v Hv; cbn in Hv |- *; lia|intros v Hv; cbn in Hv |- *; lia|cbn in H; lia|].
  pose proof HG as (_ & _ & _ & HX & _).
  destruct (HX (wit [10;20;30;50;2;3]%Z)) as (w & Ha & Hg); [split; [apply fr_eq; vm_compute; reflexivity|constructor]|].
  exists r, cs', w. split; [exact E|]. split; [exact Hg|].
  assert (Ew : map w [1;2;3;4;5;6] = frs [10;20;30;50;2;3]%Z) by (cbn [map]; rewrite <- !Ha by (cbn; lia); reflexivity).
  split; [exact Ew|]. specialize (HW w Hg). injection Ew as E1 E2 E3 E4 E5 E6. cbn [map] in HW. rewrite E1, E2, E3, E4, E5, E6 in HW.
  assert (HV : val (Evaluate (frs [10;20;30;50]%Z) (frs [2;3]%Z)) = Some 140%Z) by (vm_compute; reflexivity).
  change (Evaluate (frs [10;20;30;50]%Z) (frs [2;3]%Z) = Some (w r)) in HW. rewrite HW in HV. injection HV as HV. apply fr_eq. rewrite HV. vm_compute. reflexivity.
Qed.

(* ---------------------------------------------------------------- C47 *)
(** On a polynomial without coefficients the native function panics and the gadget yields zero. *)
Theorem C47_univariate : forall (F : Field) (cs : CS F) c x, cs_ok cs -> vars cs c -> vars cs [x] ->
  exists r cs', SUniEval c x cs = Some (r, cs') /\ computes cs cs' /\ vars cs' [r] /\
    forall w, gates_ok w cs' ->
      EvaluatePolynomial (map w c) (w x) = (match c with [] => None | _ => Some (w r) end) /\ (c = [] -> w r = 0%F).
Proof. exact @SUniEval_native. Qed.
Print Assumptions C47_univariate.

Theorem C47_zero_and_one : forall (F : Field) (cs : CS F) c, cs_ok cs -> vars cs c -> c <> [] ->
  exists r cs', SZeroAndOne c cs = Some (r, cs') /\ computes cs cs' /\ vars cs' [r] /\
    forall w, gates_ok w cs' -> exists p0 p1,
      EvaluatePolynomial (map w c) 0%F = Some p0 /\ EvaluatePolynomial (map w c) 1%F = Some p1 /\ w r = (p0 + p1)%F.
Proof. exact @SZeroAndOne_native. Qed.
Print Assumptions C47_zero_and_one.

Theorem C47_zero_and_one_panics : forall (F : Field) (cs : CS F), SZeroAndOne [] cs = None.
Proof. exact (fun F cs => eq_refl). Qed.
Print Assumptions C47_zero_and_one_panics.

Theorem C47_eq : forall (F : Field) (cs : CS F) q h, cs_ok cs -> vars cs q -> vars cs h ->
  (length h < length q /\ SEqEval q h cs = None /\ forall w : nat -> F, EvalEq (map w q) (map w h) = None) \/
  (length q <= length h /\ exists r cs', SEqEval q h cs = Some (r, cs') /\ computes cs cs' /\ vars cs' [r] /\
     forall w, gates_ok w cs' -> EvalEq (map w q) (map w h) = Some (w r)).
Proof. exact @SEqEval_native. Qed.
Print Assumptions C47_eq.

Example C47_ex : cs_ok (free 5) /\ vars (free 5) [1;2;3] /\ vars (free 5) [4] /\
  option_map fst (SUniEval [1;2;3] 4 (free 5)) = Some 13 /\ option_map fst (SZeroAndOne [1;2;3] (free 5)) = Some 5 /\
  val (EvaluatePolynomial (frs [5;7;1]%Z) (el 3)) = Some 35%Z.
Proof.
  split; [apply free_ok; lia|]. split; [intros v Hv; cbn in Hv |- *; lia|]. split; [intros v Hv; cbn in Hv |- *; lia|].
  repeat split; vm_compute; reflexivity.
Qed.

(* ---------------------------------------------------------------- C48 *)
Theorem C48_mimc : forall (F : Field) (arks : list F) (cs : CS F) ms, 91 <= length arks -> cs_ok cs -> vars cs ms ->
  exists r cs', SMimcHash arks ms cs = Some (r, cs') /\ computes cs cs' /\ vars cs' [r] /\
    forall w, gates_ok w cs' -> MimcHash arks (map w ms) = Some (w r).
Proof. exact @SMimcHash_native. Qed.
Print Assumptions C48_mimc.

(** [challenge] is the MiMC hash as a total function. *)
Theorem C48_challenge : forall (F : Field) (arks m : list F), 91 <= length arks -> MimcHash arks m = Some (challenge arks m).
Proof. exact @challenge_MimcHash. Qed.
Print Assumptions C48_challenge.

Example C48_ex : 91 <= length Arks /\ cs_ok (free 4) /\ vars (free 4) [3;1;2].
Proof. split; [exact enough_arks|]. split; [apply free_ok; lia|]. intros v Hv. cbn in Hv |- *. lia. Qed.

(* ---------------------------------------------------------------- C49 *)
(** The constraints hold exactly when the native verifier accepts, with the same challenges and last
    claim; otherwise the native verifier rejects. *)
Theorem C49_sumcheck : forall (F : Field) (arks : list F) (cs : CS F) polys claim bN bG, 91 <= length arks ->
  cs_ok cs -> vars cs [claim] -> Forall (vars cs) polys -> ~ In [] polys -> 2 * bG <= length polys ->
  exists hL hR hP last cs', SSumcheckAssertValid arks polys claim bG cs = Some ((hL, hR, hP, last), cs') /\
    vars cs' (hL ++ hR ++ hP ++ [last]) /\
    imposes cs cs' (fun w => Verify (challenge arks) (w claim) (map (map w) polys) bN bG
                             = Some (Accept (map w hP) (map w hL) (map w hR) (w last))) /\
    forall w, gates_ok w cs' ->
      Verify (challenge arks) (w claim) (map (map w) polys) bN bG = Some Reject \/
      Verify (challenge arks) (w claim) (map (map w) polys) bN bG = Some (Accept (map w hP) (map w hL) (map w hR) (w last)).
Proof. exact (fun F arks cs polys claim bN bG HA => @SSumcheck_native F arks HA cs polys claim bN bG). Qed.
Print Assumptions C49_sumcheck.

(** In the other cases the circuit cannot be built. *)
Theorem C49_panics : forall (F : Field) (arks : list F) (cs : CS F) polys claim bG, 91 <= length arks ->
  cs_ok cs -> vars cs [claim] -> Forall (vars cs) polys -> In [] polys \/ length polys < 2 * bG ->
  SSumcheckAssertValid arks polys claim bG cs = None.
Proof. exact @SSumcheck_panics. Qed.
Print Assumptions C49_panics.

Example C49_ex : cs_ok (free 9) /\ vars (free 9) [1] /\ Forall (vars (free 9)) [[2;3];[4;5;6];[7;8]] /\
  ~ In [] [[2;3];[4;5;6];[7;8]] /\ 2 * 1 <= length [[2;3];[4;5;6];[7;8]].
Proof.
  split; [apply free_ok; lia|]. split; [intros v Hv; cbn in Hv |- *; lia|]. split.
  - repeat (apply Forall_cons; [intros v Hv; cbn in Hv |- *; lia|]). constructor.
  - split; [|cbn; lia]. intros [H|[H|[H|[]]]]; discriminate.
Qed.

(* ---------------------------------------------------------------- C50 *)
Theorem C50_description : forall (F : Field) (arks : list F), 91 <= length arks ->
  exists sc c, SCreateMimcCircuit arks = Some sc /\ CreateMimcCircuit arks = Some c /\ length sc = 91 /\ Forall2 describes sc c.
Proof. exact @mimc_description. Qed.
Print Assumptions C50_description.

Theorem C50_panics : forall (F : Field) (arks : list F), length arks < 91 ->
  SCreateMimcCircuit arks = None /\ CreateMimcCircuit arks = None.
Proof. exact (fun F arks H => conj (SCreateMimcCircuit_short arks H) (@LHash3.CreateMimcCircuit_short F arks H)). Qed.
Print Assumptions C50_panics.

(** Proofs with one sum-check and two claims per layer: assigned entirely if every polynomial has
    the allocated number of coefficients, and a panic otherwise.  (C51: native proofs are assigned.) *)
Theorem C50_assign : forall (F : Field) bN (sc : list (SLayer F)) (pf : Proof F),
  length (SumcheckProofs pf) = length sc -> length (ClaimsLeft pf) = length sc -> length (ClaimsRight pf) = length sc ->
  let lengths {A} (p : list (list (list A))) := map (map (@length A)) p in
  let alloc := SAllocateProof (F:=F) bN sc in
  (SAssign alloc pf = None /\ lengths (SumcheckProofs pf) <> lengths (sSumchecks alloc)) \/
  (SAssign alloc pf = Some (MkSProof (map (map (map Some)) (SumcheckProofs pf)) (map Some (ClaimsLeft pf)) (map Some (ClaimsRight pf))) /\
   lengths (SumcheckProofs pf) = lengths (sSumchecks alloc)).
Proof. exact @assign_iff. Qed.
Print Assumptions C50_assign.

(** Whatever the proof, no assignment with fewer layers or other shapes succeeds. *)
Theorem C50_assign_shape : forall (F : Field) bN (sc : list (SLayer F)) (pf : Proof F) r, SAssign (SAllocateProof bN sc) pf = Some r ->
  map (map (@length F)) (firstn (length sc) (SumcheckProofs pf)) = map (map (@length _)) (sSumchecks (SAllocateProof (F:=F) bN sc)) /\
  length sc <= length (SumcheckProofs pf) /\ length sc <= length (ClaimsLeft pf) /\ length sc <= length (ClaimsRight pf).
Proof. exact @SAssign_inv. Qed.
Print Assumptions C50_assign_shape.

(** The tables of the inputs and outputs. *)
Theorem C50_assign_table : forall (F : Field) nVars s (values : list (list F)), s * length values = 2 ^ nVars ->
  (forall v, In v values -> length v = s) ->
  SAssignFromChunkedBKT (SAllocateMultilinear nVars) values = Some (map Some (interleave s values)).
Proof. exact @SAssignFromChunked_ok. Qed.
Print Assumptions C50_assign_table.

Theorem C50_assign_multilinear : forall (F : Field) nVars (values : list F),
  SMultiAssign (SAllocateMultilinear nVars) values = if length values =? 2 ^ nVars then Some (map Some values) else None.
Proof. exact @SMultiAssign_ok. Qed.
Print Assumptions C50_assign_multilinear.

Example C50_ex : 91 <= length Arks /\
  option_map (map (option_map frval)) (SAssignFromChunkedBKT (F:=Fr) (SAllocateMultilinear 2) [frs [1;2]%Z; frs [3;4]%Z]) =
    Some [Some 1; Some 3; Some 2; Some 4]%Z /\
  option_map (map (option_map frval)) (SAssignFromChunkedBKT (F:=Fr) (SAllocateMultilinear 1) [frs [1;2]%Z; frs [3;4]%Z]) = None.
Proof. split; [exact enough_arks|]. split; vm_compute; reflexivity. Qed.

(* ---------------------------------------------------------------- C51 *)
(** In any constraint system: variables with the assigned values can be extended to a witness. *)
Theorem C51_gadget : forall (arks : list Fr) sc c nCore mtProve m k inputs, 91 <= length arks ->
  SCreateMimcCircuit arks = Some sc -> CreateMimcCircuit arks = Some c -> 0 < nCore ->
  follows_machine (challenge arks) nCore mtProve -> chunked k m 1 inputs ->
  exists a pf sp si so,
    Assign c inputs = Some a /\ GkrProve (challenge arks) mtProve c a nCore = Some pf /\
    SAssign (SAllocateProof (m + k) sc) pf = Some sp /\
    SAssignFromChunkedBKT (SAllocateMultilinear (m + k + 1)) inputs = Some si /\
    SAssignFromChunkedBKT (SAllocateMultilinear (m + k)) (nth 91 a []) = Some so /\
    forall (cs : CS Fr) w p qPI vIn vOut, cs_ok cs -> satisfied w cs -> proof_vars cs (m + k) sc p -> vars cs (qPI ++ vIn ++ vOut) ->
      map (map (map (fun v => Some (w v)))) (sSumchecks p) = sSumchecks sp ->
      map (fun v => Some (w v)) (sLeft p) = sLeft sp -> map (fun v => Some (w v)) (sRight p) = sRight sp ->
      map (fun v => Some (w v)) vIn = si -> map (fun v => Some (w v)) vOut = so ->
      map w qPI = count (m + k) ->
      exists cs' w', SGkrAssertValid arks p sc [] qPI vIn vOut cs = Some (tt, cs') /\
        agree_below (nbWires cs) w w' /\ satisfied w' cs'.
Proof.
  exact (fun arks sc c nCore mtProve m k inputs HA Es Ec => gadget_complete arks sc c nCore mtProve m k inputs HA Es Ec (Fr_distinct_le 12 ltac:(lia))).
Qed.
Print Assumptions C51_gadget.

(** The circuit of snark/gkr/mimc_test.go, compiled for any bN. *)
Theorem C51_test_circuit : forall (arks : list Fr) nCore mtProve m k inputs, 91 <= length arks -> 0 < nCore ->
  follows_machine (challenge arks) nCore mtProve -> chunked k m 1 inputs ->
  exists c sc a pf sp si so,
    CreateMimcCircuit arks = Some c /\ SCreateMimcCircuit arks = Some sc /\
    Assign c inputs = Some a /\ GkrProve (challenge arks) mtProve c a nCore = Some pf /\
    SAssign (SAllocateProof (m + k) sc) pf = Some sp /\
    SAssignFromChunkedBKT (SAllocateMultilinear (m + k + 1)) inputs = Some si /\
    SAssignFromChunkedBKT (SAllocateMultilinear (m + k)) (nth 91 a []) = Some so /\
    forall cs p qP vIn vOut, AllocateGKRMimcTestCircuit (m + k) sc = (cs, (p, qP, vIn, vOut)) ->
      exists cs' w, SGkrAssertValid arks p sc [] qP vIn vOut cs = Some (tt, cs') /\ satisfied w cs' /\
        map (map (map (fun v => Some (w v)))) (sSumchecks p) = sSumchecks sp /\
        map (fun v => Some (w v)) (sLeft p) = sLeft sp /\ map (fun v => Some (w v)) (sRight p) = sRight sp /\
        map (fun v => Some (w v)) vIn = si /\ map (fun v => Some (w v)) vOut = so /\
        map w qP = count (m + k).
Proof. exact (fun arks nCore mtProve m k inputs HA => test_circuit_complete arks nCore mtProve m k inputs HA (Fr_distinct_le 12 ltac:(lia))). Qed.
Print Assumptions C51_test_circuit.

Example C51_ex : 91 <= length Arks /\ follows_machine (challenge Arks) 2 (mtWhole (challenge Arks)) /\
  chunked 2 1 1 [frs [1;2;3;4]%Z; frs [5;6;7;8]%Z; frs [9;10;11;12]%Z; frs [13;14;15;16]%Z].
Proof.
  split; [exact enough_arks|]. split; [apply mtWhole_follows|]. split; [reflexivity|].
  intros t [<-|[<-|[<-|[<-|[]]]]]; reflexivity.
Qed.

(* ---------------------------------------------------------------- C52 *)
Theorem C52_gadget : forall (F : Field) (arks : list F) sc c bN p (cs : CS F) qPI vIn vOut, 91 <= length arks ->
  SCreateMimcCircuit arks = Some sc -> CreateMimcCircuit arks = Some c ->
  cs_ok cs -> proof_vars cs bN sc p -> vars cs (qPI ++ vIn ++ vOut) ->
  length qPI = bN -> length vIn = 2 * 2 ^ bN -> length vOut = 2 ^ bN ->
  exists cs', SGkrAssertValid arks p sc [] qPI vIn vOut cs = Some (tt, cs') /\
    forall w, satisfied w cs' ->
    exists a, Assign c [map w vIn] = Some a /\
      let outs := nth 0 (nth 91 a []) [] in
      length outs = 2 ^ bN /\
      (forall h, h < 2 ^ bN ->
         let x := w (nth h vIn 0) in let k := w (nth (2 ^ bN + h) vIn 0) in
         exists y, MimcPermutation arks (x - k)%F k = Some y /\ nth h outs 0%F = (y + k)%F) /\
      (mle (map w vOut) (map w qPI) = mle outs (map w qPI) \/
       exists j, collision_from (challenge arks) (read_proof w p) c bN 0 a [] (map w qPI) j).
Proof. exact @gadget_sound. Qed.
Print Assumptions C52_gadget.

Theorem C52_test_circuit : forall (F : Field) (arks : list F) bN, 91 <= length arks ->
  exists c sc, CreateMimcCircuit arks = Some c /\ SCreateMimcCircuit arks = Some sc /\
  forall cs p qP vIn vOut, AllocateGKRMimcTestCircuit bN sc = (cs, (p, qP, vIn, vOut)) ->
  exists cs', SGkrAssertValid arks p sc [] qP vIn vOut cs = Some (tt, cs') /\
    forall w, satisfied w cs' ->
    exists a, Assign c [map w vIn] = Some a /\
      let outs := nth 0 (nth 91 a []) [] in
      length outs = 2 ^ bN /\
      (forall h, h < 2 ^ bN ->
         let x := w (nth h vIn 0) in let k := w (nth (2 ^ bN + h) vIn 0) in
         exists y, MimcPermutation arks (x - k)%F k = Some y /\ nth h outs 0%F = (y + k)%F) /\
      (mle (map w vOut) (map w qP) = mle outs (map w qP) \/
       exists j, collision_from (challenge arks) (read_proof w p) c bN 0 a [] (map w qP) j).
Proof. exact @test_circuit_sound. Qed.
Print Assumptions C52_test_circuit.

(** The variables of the test circuit meet the hypotheses of C52_gadget. *)
Theorem C52_test_circuit_variables : forall (F : Field) bN (sc : list (SLayer F)) cs p qP vIn vOut,
  AllocateGKRMimcTestCircuit bN sc = (cs, (p, qP, vIn, vOut)) ->
  cs_ok cs /\ proof_vars cs bN sc p /\ vars cs (qP ++ vIn ++ vOut) /\
  length qP = bN /\ length vIn = 2 * 2 ^ bN /\ length vOut = 2 ^ bN.
Proof. exact @test_circuit_ok. Qed.
Print Assumptions C52_test_circuit_variables.

(** The test circuit for bN = 1: 91 sum-checks of three polynomials with 3, 9 and 9 coefficients, 182 claims, a point,
    4 inputs, 2 outputs and the constant one. *)
Example C52_ex : 91 <= length Arks /\
  option_map (fun sc => nbWires (fst (AllocateGKRMimcTestCircuit 1 sc))) (SCreateMimcCircuit Arks) =
    Some (1 + 91 * (3 + 9 + 9) + 182 + 1 + 4 + 2).
Proof. split; [exact enough_arks|]. vm_compute. reflexivity. Qed.

(* ---------------------------------------------------------------- C57 *)
(** With the initial point of the native code, the gadget accepts exactly what the native verifier accepts once
    the [return true] of gkr/verifier.go:99 is removed ([GkrVerifyWith] with [false], see C38). *)
Theorem C57_gadget_vs_native : forall (F : Field) (arks : list F) sc c bN p (cs : CS F) qPI vIn vOut, 91 <= length arks ->
  SCreateMimcCircuit arks = Some sc -> CreateMimcCircuit arks = Some c ->
  cs_ok cs -> proof_vars cs bN sc p -> vars cs (qPI ++ vIn ++ vOut) ->
  length qPI = bN -> length vIn = 2 * 2 ^ bN -> length vOut = 2 ^ bN ->
  exists cs', SGkrAssertValid arks p sc [] qPI vIn vOut cs = Some (tt, cs') /\ cs_ok cs' /\ grows cs cs' /\
    forall m k inputs outputs w, bN = m + k -> 0 < k -> chunked k m 1 inputs -> chunked k m 0 outputs ->
      gates_ok w cs' -> map w qPI = count bN -> map w vIn = glued 1 m inputs -> map w vOut = glued 0 m outputs ->
      (asserts_ok w cs' <-> asserts_ok w cs /\
         GkrVerifyWith (challenge arks) false bN c (read_proof w p) inputs outputs = Some true).
Proof. exact @gadget_native. Qed.
Print Assumptions C57_gadget_vs_native.

Example C57_ex : 91 <= length Arks /\ chunked 1 0 1 [frs [1;2]%Z; frs [3;4]%Z] /\ chunked 1 0 0 [frs [1]%Z; frs [2]%Z] /\
  exists sc c, SCreateMimcCircuit Arks = Some sc /\ CreateMimcCircuit Arks = Some c.
Proof.
  split; [exact enough_arks|]. split; [split; [reflexivity|intros t [<-|[<-|[]]]; reflexivity]|].
  split; [split; [reflexivity|intros t [<-|[<-|[]]]; reflexivity]|].
  destruct (C50_description Fr Arks enough_arks) as (sc & c & H1 & H2 & _). exists sc, c. auto.
Qed.

(* ---------------------------------------------------------------- C58 *)
(** Two different tables with [n] variables agree, as polynomials, on at most [n * s^(n-1)] of the [s^n] points of a
    grid with [s] values. *)
Theorem C58_agreement : forall (F : Field) (S : list F) n (A B : list F), NoDup S -> length A = 2 ^ n -> length B = 2 ^ n -> A <> B ->
  length (filter (fun x => (mle A x =? mle B x)%F) (grid S n)) <= n * length S ^ (n - 1).
Proof. exact @agree_bound. Qed.
Print Assumptions C58_agreement.

Theorem C58_grid : forall (F : Field) (S : list F) n, length (grid S n) = length S ^ n /\
  forall x, In x (grid S n) <-> length x = n /\ forall y, In y x -> In y S.
Proof. exact (fun F S n => conj (grid_length S n) (fun x => grid_in S n x)). Qed.
Print Assumptions C58_grid.

(** Hence outputs that are wrong at one place are refused by the gadget at all but few initial points, unless a
    challenge collides. *)
Theorem C58_few_points : forall (F : Field) (arks : list F) bN (S vi vo : list F), 91 <= length arks -> NoDup S ->
  length vi = 2 * 2 ^ bN -> length vo = 2 ^ bN ->
  exists c sc a, CreateMimcCircuit arks = Some c /\ SCreateMimcCircuit arks = Some sc /\ Assign c [vi] = Some a /\
  forall cs p qP vIn vOut cs', AllocateGKRMimcTestCircuit bN sc = (cs, (p, qP, vIn, vOut)) ->
    SGkrAssertValid arks p sc [] qP vIn vOut cs = Some (tt, cs') ->
    vo <> nth 0 (nth 91 a []) [] ->
    forall qs, NoDup qs ->
      (forall q, In q qs -> In q (grid S bN) /\ exists w, satisfied w cs' /\ map w qP = q /\ map w vIn = vi /\ map w vOut = vo /\
         ~ exists j, collision_from (challenge arks) (read_proof w p) c bN 0 a [] q j) ->
      length qs <= bN * length S ^ (bN - 1).
Proof. exact @few_points. Qed.
Print Assumptions C58_few_points.

(** The bound is reached: (0,0,0,1) and (0,0,0,0) agree on 5 of the 9 points with values 0, 1, 2; the bound is 6.  With one variable
    it is exact. *)
Example C58_ex : NoDup (frs [0;1;2]%Z) /\
  length (filter (fun x => (mle (frs [0;0;0;1]%Z) x =? mle (frs [0;0;0;0]%Z) x)%F) (grid (frs [0;1;2]%Z) 2)) = 5 /\
  length (filter (fun x => (mle (frs [0;1]%Z) x =? mle (frs [0;0]%Z) x)%F) (grid (frs [0;1;2]%Z) 1)) = 1 /\
  2 * 3 ^ (2 - 1) = 6 /\ 1 * 3 ^ (1 - 1) = 1.
Proof.
  split.
  - repeat constructor; intros H; cbn in H; repeat (destruct H as [H|H]; [apply (f_equal frval) in H; vm_compute in H; discriminate|]); exact H.
  - repeat split; vm_compute; reflexivity.
Qed.

(* ---------------------------------------------------------------- C59 *)
(** The allocated shapes bound the degrees: at every round of every layer, whatever the witness, a wrong polynomial agrees with the
    true one for at most eight challenges (the native verifier has no such bound, C34). *)
Theorem C59_few_challenges : forall (F : Field) (arks : list F) bN sc c (cs : CS F) p w j i l poly, 91 <= length arks ->
  SCreateMimcCircuit arks = Some sc -> CreateMimcCircuit arks = Some c -> proof_vars cs bN sc p ->
  nth_error c j = Some l -> nth_error (nth j (SumcheckProofs (read_proof w p)) []) i = Some poly ->
  forall weight qP V rs xs, length qP = bN -> length V = 2 ^ (1 + bN) -> length rs = i ->
  let true_poly t := cube_sum (layer_poly l weight qP V) (2 + bN - S i) (rs ++ [t]) in
  (exists t, peval poly t <> true_poly t) ->
  NoDup xs -> (forall x, In x xs -> peval poly x = true_poly x) -> length xs <= 8.
Proof. exact @gadget_few_collisions. Qed.
Print Assumptions C59_few_challenges.

(** Any layer of any circuit: the bound is the degree of the round. *)
Theorem C59_layer : forall (F : Field) bN (l : Layer F) weight qP V rs c t xs,
  layer_ok l -> length qP = bN -> length V = 2 ^ (lBGInputs l + bN) ->
  length rs < 2 * lBGInputs l + bN ->
  let true_poly t := cube_sum (layer_poly l weight qP V) (2 * lBGInputs l + bN - S (length rs)) (rs ++ [t]) in
  let d := phase_deg (lBGInputs l) (lBGInputs l) (maxHL (lGates l) + 1) (maxHR (lGates l) + 1) (maxHP (lGates l) + 1) (length rs) in
  length c <= S d -> peval c t <> true_poly t ->
  NoDup xs -> (forall x, In x xs -> peval c x = true_poly x) -> length xs <= d.
Proof. exact @layer_few_collisions. Qed.
Print Assumptions C59_layer.

Example C59_ex : exists sc c cs p qP vIn vOut l, SCreateMimcCircuit Arks = Some sc /\ CreateMimcCircuit Arks = Some c /\
  AllocateGKRMimcTestCircuit 1 sc = (cs, (p, qP, vIn, vOut)) /\ proof_vars cs 1 sc p /\ nth_error c 3 = Some l /\ layer_ok l.
Proof.
  destruct (C50_description Fr Arks enough_arks) as (sc & c & H1 & H2 & HL & HD).
  destruct (AllocateGKRMimcTestCircuit 1 sc) as (cs & [[[p qP] vIn] vOut]) eqn:E.
  pose proof (C52_test_circuit_variables _ _ _ _ _ _ _ _ E) as (_ & HP & _).
  assert (Hc : length c = 91) by (rewrite <- (LSnark4.Forall2_len _ _ _ HD); exact HL).
  destruct (nth_error c 3) as [l|] eqn:El; [|apply nth_error_None in El; lia].
  exists sc, c, cs, p, qP, vIn, vOut, l. split; [exact H1|]. split; [exact H2|]. split; [exact E|]. split; [exact HP|]. split; [exact El|].
  apply nth_error_In in El. rewrite LHash3.CreateMimcCircuit_ok in H2 by exact enough_arks. apply some_inj in H2. subst c. apply (LHash3.mimc_layer_ok _ _ l El).
Qed.
