(** Property theorems for the gadgets built by a frontend with linear expressions and constant folding (C93). *)
From Coq Require Import List Arith NArith ZArith Lia Bool.
From Verif Require Import Field FrPrime Fr Go Spec SpecHash MPoly LPoly2 MCircuit SpecCircuit MSumcheck SpecSumcheck MSumPar SpecSumPar MHash MArk MGkr SpecGkr
  MSnark SpecSnark SpecSize MFront SpecFront LFront3 LPoly3 PHash PSnark PSize.
Import ListNotations.

(* ---------------------------------------------------------------- C93 *)
(** A gadget and its counterpart: any witness for the variables extends to the one system iff it extends to the other. *)
Theorem C93_satisfiable : forall (F : Field) (fe : Frontend F) A B (cs : CS F) va vb (m : M A) (m' : M B) a c1 b c1',
  same_gadget fe cs va vb m m' -> m cs = Some (a, c1) -> m' cs = Some (b, c1') -> grows cs c1 ->
  forall w, extends_to cs c1 w <-> extends_to cs c1' w.
Proof. exact @same_extends. Qed.
Print Assumptions C93_satisfiable.

Theorem C93_eval : forall (F : Field) (fe : Frontend F), faithful fe -> forall cs t xs, cs_ok cs -> wires cs (t ++ xs) ->
  same_gadget fe cs (fun w v => [w v]) (fun w a => [lc_val w a]) (SEval t xs) (FEval fe (map wire t) (map wire xs)).
Proof. exact @same_eval. Qed.
Print Assumptions C93_eval.

Theorem C93_eval_mixed : forall (F : Field) (fe : Frontend F), faithful fe -> forall cs t qL qR qP, cs_ok cs -> wires cs (t ++ qL ++ qR ++ qP) ->
  same_gadget fe cs (fun w v => [w (fst v); w (snd v)]) (fun w a => [lc_val w (fst a); lc_val w (snd a)])
    (SEvalMixed t qL qR qP) (FEvalMixed fe (map wire t) (map wire qL) (map wire qR) (map wire qP)).
Proof. exact @same_eval_mixed. Qed.
Print Assumptions C93_eval_mixed.

Theorem C93_eq : forall (F : Field) (fe : Frontend F), faithful fe -> forall cs q h, cs_ok cs -> wires cs (q ++ h) ->
  same_gadget fe cs (fun w v => [w v]) (fun w a => [lc_val w a]) (SEqEval q h) (FEqEval fe (map wire q) (map wire h)).
Proof. exact @same_eq. Qed.
Print Assumptions C93_eq.

Theorem C93_univariate : forall (F : Field) (fe : Frontend F), faithful fe -> forall cs c x, cs_ok cs -> wires cs (x :: c) ->
  same_gadget fe cs (fun w v => [w v]) (fun w a => [lc_val w a]) (SUniEval c x) (FUniEval fe (map wire c) (wire x)).
Proof. exact @same_univariate. Qed.
Print Assumptions C93_univariate.

Theorem C93_zero_and_one : forall (F : Field) (fe : Frontend F), faithful fe -> forall cs c, cs_ok cs -> wires cs c ->
  same_gadget fe cs (fun w v => [w v]) (fun w a => [lc_val w a]) (SZeroAndOne c) (FZeroAndOne fe (map wire c)).
Proof. exact @same_zero_one. Qed.
Print Assumptions C93_zero_and_one.

Theorem C93_hash : forall (F : Field) (fe : Frontend F), faithful fe -> forall (arks : list F) cs l, cs_ok cs -> wires cs l ->
  same_gadget fe cs (fun w v => [w v]) (fun w a => [lc_val w a]) (SMimcHash arks l) (FMimcHash fe arks (map wire l)).
Proof. exact @same_hash. Qed.
Print Assumptions C93_hash.

Theorem C93_sumcheck : forall (F : Field) (fe : Frontend F), faithful fe -> forall (arks : list F) cs ps cl bG, cs_ok cs -> wires cs (cl :: concat ps) ->
  same_gadget fe cs (fun w r => let '(hL, hR, hP, e) := r in map w (hL ++ hR ++ hP ++ [e])) (fun w r => let '(hL, hR, hP, e) := r in map (lc_val w) (hL ++ hR ++ hP ++ [e]))
    (SSumcheckAssertValid arks ps cl bG) (FSumcheckAssertValid fe arks (map (map wire) ps) (wire cl) bG).
Proof. exact @same_sumcheck. Qed.
Print Assumptions C93_sumcheck.

(** CreateMimcCircuit panics for the same constants. *)
Theorem C93_circuit : forall (F : Field) (fe : Frontend F), faithful fe -> forall arks : list F,
  match SCreateMimcCircuit arks, FCreateMimcCircuit fe arks with
  | Some sc, Some fc => length fc = length sc | None, None => True | _, _ => False end.
Proof. exact @create_same. Qed.
Print Assumptions C93_circuit.

(** The GKR gadget, on variables of any shape, including those on which it panics. *)
Theorem C93_gadget : forall (F : Field) (fe : Frontend F), faithful fe -> forall (arks : list F) sc fc cs p qI qPI vIn vOut,
  SCreateMimcCircuit arks = Some sc -> FCreateMimcCircuit fe arks = Some fc ->
  cs_ok cs -> wires cs (concat (concat (sSumchecks p)) ++ sLeft p ++ sRight p ++ qI ++ qPI ++ vIn ++ vOut) ->
  same_gadget fe cs (fun _ _ => []) (fun _ _ => []) (SGkrAssertValid arks p sc qI qPI vIn vOut)
    (FGkrAssertValid fe arks (wire_proof p) fc (map wire qI) (map wire qPI) (map wire vIn) (map wire vOut)).
Proof. exact @same_gkr. Qed.
Print Assumptions C93_gadget.

(** The folded gadget accepts what the native verifier accepts at the point 1, 2, .., bN. *)
Theorem C93_native : forall (F : Field) (fe : Frontend F), faithful fe -> forall (arks : list F), 91 <= length arks -> forall sc c fc bN p cs qPI vIn vOut,
  SCreateMimcCircuit arks = Some sc -> CreateMimcCircuit arks = Some c -> FCreateMimcCircuit fe arks = Some fc ->
  cs_ok cs -> proof_vars cs bN sc p -> vars cs (qPI ++ vIn ++ vOut) ->
  proper (concat (concat (sSumchecks p)) ++ sLeft p ++ sRight p ++ qPI ++ vIn ++ vOut) ->
  length qPI = bN -> length vIn = 2 * 2 ^ bN -> length vOut = 2 ^ bN ->
  exists cs', FGkrAssertValid fe arks (wire_proof p) fc [] (map wire qPI) (map wire vIn) (map wire vOut) cs = Some (tt, cs') /\ cs_ok cs' /\ grows cs cs' /\
    forall m k inputs outputs w, bN = m + k -> 0 < k -> chunked k m 1 inputs -> chunked k m 0 outputs ->
      gates_ok w cs' -> map w qPI = count bN -> map w vIn = glued 1 m inputs -> map w vOut = glued 0 m outputs ->
      (asserts_ok w cs' <-> asserts_ok w cs /\ GkrVerifyWith (challenge arks) false bN c (read_proof w p) inputs outputs = Some true).
Proof. exact @front_native. Qed.
Print Assumptions C93_native.

(** Soundness of the folded gadget at any point. *)
Theorem C93_sound : forall (F : Field) (fe : Frontend F), faithful fe -> forall (arks : list F), 91 <= length arks -> forall sc c fc bN p cs qPI vIn vOut,
  SCreateMimcCircuit arks = Some sc -> CreateMimcCircuit arks = Some c -> FCreateMimcCircuit fe arks = Some fc ->
  cs_ok cs -> proof_vars cs bN sc p -> vars cs (qPI ++ vIn ++ vOut) ->
  proper (concat (concat (sSumchecks p)) ++ sLeft p ++ sRight p ++ qPI ++ vIn ++ vOut) ->
  length qPI = bN -> length vIn = 2 * 2 ^ bN -> length vOut = 2 ^ bN ->
  exists cs', FGkrAssertValid fe arks (wire_proof p) fc [] (map wire qPI) (map wire vIn) (map wire vOut) cs = Some (tt, cs') /\
    forall w, satisfied w cs' ->
    exists a, Assign c [map w vIn] = Some a /\
      let outs := nth 0 (nth 91 a []) [] in
      length outs = 2 ^ bN /\
      (forall h, h < 2 ^ bN ->
         let x := w (nth h vIn 0) in let k := w (nth (2 ^ bN + h) vIn 0) in
         exists y, MimcPermutation arks (x - k)%F k = Some y /\ nth h outs 0%F = (y + k)%F) /\
      (mle (map w vOut) (map w qPI) = mle outs (map w qPI) \/
       exists j, collision_from (challenge arks) (read_proof w p) c bN 0 a [] (map w qPI) j).
Proof. exact @front_sound. Qed.
Print Assumptions C93_sound.

(** Completeness: in the circuit of snark/gkr/mimc_test.go the honest proof extends to a witness of the folded system. *)
Theorem C93_complete : forall (fe : Frontend Fr), faithful fe -> forall arks : list Fr, 91 <= length arks -> forall nCore mtProve m k inputs, 0 < nCore ->
  follows_machine (challenge arks) nCore mtProve -> chunked k m 1 inputs ->
  exists c sc fc a pf sp si so,
    CreateMimcCircuit arks = Some c /\ SCreateMimcCircuit arks = Some sc /\ FCreateMimcCircuit fe arks = Some fc /\
    Assign c inputs = Some a /\ GkrProve (challenge arks) mtProve c a nCore = Some pf /\
    SAssign (SAllocateProof (m + k) sc) pf = Some sp /\
    SAssignFromChunkedBKT (SAllocateMultilinear (m + k + 1)) inputs = Some si /\
    SAssignFromChunkedBKT (SAllocateMultilinear (m + k)) (nth 91 a []) = Some so /\
    forall cs p qP vIn vOut, AllocateGKRMimcTestCircuit (m + k) sc = (cs, (p, qP, vIn, vOut)) ->
      exists cs' w, FGkrAssertValid fe arks (wire_proof p) fc [] (map wire qP) (map wire vIn) (map wire vOut) cs = Some (tt, cs') /\ satisfied w cs' /\
        map (map (map (fun v => Some (w v)))) (sSumchecks p) = sSumchecks sp /\
        map (fun v => Some (w v)) (sLeft p) = sLeft sp /\ map (fun v => Some (w v)) (sRight p) = sRight sp /\
        map (fun v => Some (w v)) vIn = si /\ map (fun v => Some (w v)) vOut = so /\
        map w qP = count (m + k).
Proof. exact (fun fe H arks HA nCore mtProve m k inputs => front_complete fe H arks HA nCore mtProve m k inputs (Fr_distinct_le 12 ltac:(lia))). Qed.
Print Assumptions C93_complete.

(** The number of constraints of the test circuit: at most that of C75, and exactly that if no constant is recognised. *)
Theorem C93_size : forall (F : Field) (fe : Frontend F), faithful fe -> forall arks : list F, 91 <= length arks -> forall sc fc bN cs p qP vIn vOut,
  SCreateMimcCircuit arks = Some sc -> FCreateMimcCircuit fe arks = Some fc ->
  AllocateGKRMimcTestCircuit bN sc = (cs, (p, qP, vIn, vOut)) ->
  exists cs', FGkrAssertValid fe arks (wire_proof p) fc [] (map wire qP) (map wire vIn) (map wire vOut) cs = Some (tt, cs') /\
    asserts cs' = 91 * bN + 275 /\
    (N.of_nat (length (gates cs')) <= 3 * 2 ^ N.of_nat bN + 299208 * N.of_nat bN + 466268)%N /\
    (never_folds fe -> N.of_nat (length (gates cs')) = (3 * 2 ^ N.of_nat bN + 299208 * N.of_nat bN + 466268)%N).
Proof. exact @front_test_size. Qed.
Print Assumptions C93_size.

(** Two frontends that meet the conditions: one that does nothing, and one that merges terms and folds constants. *)
Theorem C93_frontends : forall F : Field, faithful (plain (F:=F)) /\ never_folds (plain (F:=F)) /\ faithful (folding (F:=F)).
Proof. exact (fun F => conj (proj1 plain_faithful) (conj (proj2 plain_faithful) folding_faithful)). Qed.
Print Assumptions C93_frontends.

(** Folding saves the product with one at the end of a univariate evaluation, the doubling in each factor of eq, the product of the
    first factor with the initial one, and panics stay. *)
Definition built {A} (o : option (A * CS Fr)) : option (nat * nat) := option_map (fun p => (length (gates (snd p)), asserts (snd p))) o.
Example C93_ex : wires ten [1; 2; 3; 4] /\
  built (FUniEval plain (map wire [1; 2; 3]) (wire 4) ten) = Some (3, 0) /\ built (FUniEval folding (map wire [1; 2; 3]) (wire 4) ten) = Some (2, 0) /\
  built (FEqEval plain (map wire [1; 2]) (map wire [3; 4]) ten) = Some (6, 0) /\ built (FEqEval folding (map wire [1; 2]) (map wire [3; 4]) ten) = Some (3, 0) /\
  built (FEval folding (map wire [1; 2; 1; 2]) (map wire [3; 4]) ten) = Some (1, 0) /\
  built (FZeroAndOne folding [] ten) = None.
Proof.
  split; [|repeat split; vm_compute; reflexivity]. split.
  - intros v [<-|[<-|[<-|[<-|[]]]]]; cbn; lia.
  - intros [H|[H|[H|[H|[]]]]]; discriminate.
Qed.

(** A rewriting that changes values is not allowed: dropping the constant terms. *)
Example C93_unfaithful : ~ faithful (MkFrontend (fun l => filter (fun t : Fr * nat => negb (snd t =? 0)) l) (fun _ => None)).
Proof.
  intros (H & _). specialize (H (fun _ => 1%F) [(1%F, 0)] eq_refl). cbn in H. apply (f_equal frval) in H. vm_compute in H. discriminate.
Qed.

(** The variables of the test circuit, with the folding frontend, meet the hypotheses (a satisfying assignment: C93_complete). *)
Example C93_hypotheses : exists sc c fc cs p qP vIn vOut, SCreateMimcCircuit Arks = Some sc /\ CreateMimcCircuit Arks = Some c /\
  FCreateMimcCircuit folding Arks = Some fc /\ AllocateGKRMimcTestCircuit 1 sc = (cs, (p, qP, vIn, vOut)) /\
  cs_ok cs /\ proof_vars cs 1 sc p /\ vars cs (qP ++ vIn ++ vOut) /\
  proper (concat (concat (sSumchecks p)) ++ sLeft p ++ sRight p ++ qP ++ vIn ++ vOut) /\
  length qP = 1 /\ length vIn = 2 * 2 ^ 1 /\ length vOut = 2 ^ 1.
Proof.
  destruct (C50_description Fr Arks enough_arks) as (sc & c & H1 & H2 & _).
  pose proof (create_same folding folding_faithful Arks) as HF. rewrite H1 in HF. destruct (FCreateMimcCircuit folding Arks) as [fc|] eqn:EF; [|contradiction].
  destruct (AllocateGKRMimcTestCircuit 1 sc) as (cs & [[[p qP] vIn] vOut]) eqn:E.
  destruct (C52_test_circuit_variables _ _ _ _ _ _ _ _ E) as (A1 & A2 & A3 & A4 & A5 & A6).
  exists sc, c, fc, cs, p, qP, vIn, vOut. do 7 (split; [assumption || reflexivity|]).
  split; [exact (test_proper Arks enough_arks 1 sc cs p qP vIn vOut H1 E)|auto].
Qed.
