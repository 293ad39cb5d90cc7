(** C94: the messages whose hashes a run uses as challenges. *)
From Coq Require Import List Arith ZArith Lia Bool.
From Verif Require Import Field Fr Go MCommon Spec Trans MPoly MCircuit SpecCircuit MSumcheck SpecSumcheck MSumPar SpecSumPar MGkr SpecGkr SpecHonest
  MArk MHash SpecAsk LAsk SpecProof PPoly PCircuit PSumcheck PGkr PProof PHonest.
Import ListNotations.

(* ---------------------------------------------------------------- C94 *)
(** What sumcheck.Verify returns depends on the challenge function only at the polynomials of the proof. *)
Theorem C94_sumcheck_verifier : forall (F : Field) (ch ch' : list F -> F) claim proof bN bG, agree_on proof ch ch' ->
  Verify ch claim proof bN bG = Verify ch' claim proof bN bG.
Proof. exact @verify_local. Qed.
Print Assumptions C94_sumcheck_verifier.

(** It does depend on each of them: if the polynomial takes another value at another answer, the proof is then rejected,
    or, in the last round, ends in another claim. *)
Theorem C94_sumcheck_matters : forall (F : Field) (ch ch' : list F -> F) claim before c after bN bG qP qL qR e, agree_on before ch ch' ->
  Verify ch claim (before ++ c :: after) bN bG = Some (Accept qP qL qR e) ->
  EvaluatePolynomial c (ch' c) <> EvaluatePolynomial c (ch c) ->
  Verify ch' claim (before ++ c :: after) bN bG = Some Reject \/
  after = [] /\ exists qP' qL' qR' e', Verify ch' claim (before ++ c :: after) bN bG = Some (Accept qP' qL' qR' e') /\ e' <> e.
Proof. exact @verify_matters. Qed.
Print Assumptions C94_sumcheck_matters.

(** 1 + X with challenge 5, then the constant 3: accepted for the claim 3, but not if the first challenge is 7. *)
Definition five (_ : list Fr) : Fr := el 5.
Definition seven (_ : list Fr) : Fr := el 7.
Example C94_sumcheck_matters_ex :
  match Verify five (el 3) [frs [1; 1]%Z; frs [3]%Z] 1 0 with Some (Accept _ _ _ e) => Some (frval e) | _ => None end = Some 3%Z /\
  match Verify seven (el 3) [frs [1; 1]%Z; frs [3]%Z] 1 0 with Some Reject => true | _ => false end = true /\
  option_map frval (EvaluatePolynomial (frs [1; 1]%Z) (five [])) = Some 6%Z /\
  option_map frval (EvaluatePolynomial (frs [1; 1]%Z) (seven [])) = Some 8%Z.
Proof. vm_compute. repeat split. Qed.

(** What the sum-check prover returns depends on it only at the polynomials that it returns. *)
Theorem C94_sumcheck_prover : forall (F : Field) (ch ch' : list F -> F) (p : Prover F) proof qP qL qR fin,
  Prove ch p = Some (proof, qP, qL, qR, fin) -> agree_on proof ch ch' -> Prove ch' p = Some (proof, qP, qL, qR, fin).
Proof. exact @prove_local. Qed.
Print Assumptions C94_sumcheck_prover.

(** The same for every schedule of the multi-threaded prover. *)
Theorem C94_sumcheck_threads : forall (F : Field) (ch ch' : list F -> F) p n k bG nCore proof qP qL qR fin, mt_ok p n k bG -> 0 < nCore ->
  Prove ch (whole p k bG) = Some (proof, qP, qL, qR, fin) -> agree_on proof ch ch' ->
  must (mt_step ch' p nCore n bG (bG + bG + k) (log2ceil n)) (fun s => main s = MEnd (proof, qP, qL, qR, fin)) (mt_init nCore n).
Proof. exact @threads_local. Qed.
Print Assumptions C94_sumcheck_threads.

(** gkr.Verifier.Verify, with any answer at line 99: the verdict, or the panic, depends on the challenge function only at the
    polynomials and at the pairs of claims of the proof.  Neither circuit, inputs and outputs nor earlier messages are hashed. *)
Theorem C94_verifier : forall (F : Field) (ch ch' : list F -> F) line99 bN c pf inputs outputs, agree_on (asked (length c) pf) ch ch' ->
  GkrVerifyWith ch line99 bN c pf inputs outputs = GkrVerifyWith ch' line99 bN c pf inputs outputs.
Proof. exact @gkr_verify_local. Qed.
Print Assumptions C94_verifier.

(** gkr.Prover.Prove on any assignment of the right sizes: prover and verifier hash the same messages. *)
Theorem C94_prover : forall (ch ch' : list Fr -> Fr) nCore mtProve mtProve' m k b (c : list (Layer Fr)) a pf, 0 < nCore ->
  follows_machine ch nCore mtProve -> panics_with_machine ch nCore mtProve -> follows_machine ch' nCore mtProve' ->
  (forall l, In l c -> startable l) -> fits b c -> shaped k m c a -> c <> [] ->
  GkrProve ch mtProve c a nCore = Some pf -> agree_on (asked (length c) pf) ch ch' -> GkrProve ch' mtProve' c a nCore = Some pf.
Proof. exact gkr_prover_local. Qed.
Print Assumptions C94_prover.

(** How many messages, for proofs with one polynomial per variable. *)
Theorem C94_count : forall (F : Field) (c : list (Layer F)) bN pf, proof_shape c bN pf -> length (asked (length c) pf) = questions c bN.
Proof. exact @asked_length. Qed.
Print Assumptions C94_count.

Theorem C94_honest_count : forall (ch : list Fr -> Fr) nCore mtProve c b m k inputs a,
  0 < nCore -> follows_machine ch nCore mtProve -> c <> [] ->
  (forall l, In l c -> layer_ok l) -> fits b c -> chunked k m b inputs -> assignment_of c (2 ^ m) inputs a ->
  exists pf, GkrProve ch mtProve c a nCore = Some pf /\ length (asked (length c) pf) = questions c (m + k).
Proof. exact honest_questions. Qed.
Print Assumptions C94_honest_count.

(** The circuit that the repository runs on. *)
Theorem C94_mimc_count : forall (ch : list Fr -> Fr) nCore mtProve m k inputs,
  0 < nCore -> follows_machine ch nCore mtProve -> chunked k m 1 inputs ->
  exists c a pf, CreateMimcCircuit Arks = Some c /\ Assign c inputs = Some a /\ GkrProve ch mtProve c a nCore = Some pf /\
    length (asked (length c) pf) = 91 * (2 + (m + k)) + 90.
Proof. exact mimc_questions. Qed.
Print Assumptions C94_mimc_count.

(** The toy circuit: three polynomials for each of its two layers, one pair of claims.  No message has more than nine elements,
    so a challenge function that differs from [ex_hash] on longer ones gives the same proof and the same verdict. *)
Definition short_hash (x : list Fr) : Fr := if 10 <=? length x then el 42 else ex_hash x.
Lemma toy_short pf : (forall i l, nth_error toy_circuit i = Some l -> map (@length Fr) (nth i (SumcheckProofs pf) []) = coefficients l (0 + 1)) ->
  length (SumcheckProofs pf) = length toy_circuit -> agree_on (asked (length toy_circuit) pf) ex_hash short_hash.
Proof.
  intros HS HL x Hx. assert (H : length x <= 9).
  { unfold asked in Hx. rewrite <- HL, firstn_all in Hx. apply in_app_or in Hx. destruct Hx as [Hx|Hx].
    - apply in_concat in Hx. destruct Hx as (sp & Hsp & Hx). apply In_nth_error in Hsp. destruct Hsp as [i Hsp].
      assert (Hi : i < length toy_circuit) by (rewrite <- HL; apply nth_error_Some; congruence).
      apply (in_map (@length Fr)) in Hx. rewrite <- (nth_error_nth _ _ [] Hsp) in Hx.
      assert (HC : map (fun l => coefficients l (0 + 1)) toy_circuit = [[3; 9; 9]; [3; 9; 9]]) by (vm_compute; reflexivity).
      destruct (nth_error toy_circuit i) as [l|] eqn:El; [|apply nth_error_None in El; lia]. rewrite (HS i l El) in Hx.
      apply (map_nth_error (fun l => coefficients l (0 + 1))) in El. rewrite HC in El. set (C := coefficients l (0 + 1)) in *. clearbody C.
      destruct i as [|[|i]]; [| |destruct i; discriminate El]; injection El as <-; cbn [In] in Hx; lia.
    - apply in_map_iff in Hx. destruct Hx as (j & <- & _). cbn. lia. }
  unfold short_hash. destruct (Nat.leb_spec 10 (length x)); [lia|reflexivity].
Qed.

Example C94_ex : exists pf, frval (short_hash (repeat (el 0) 10)) <> frval (ex_hash (repeat (el 0) 10)) /\
  GkrProve ex_hash (mtWhole ex_hash) toy_circuit (assign toy_circuit toy_inputs) 3 = Some pf /\
  GkrProve short_hash (mtWhole short_hash) toy_circuit (assign toy_circuit toy_inputs) 3 = Some pf /\ length (asked (length toy_circuit) pf) = 7 /\
  GkrVerify short_hash 1 toy_circuit pf toy_inputs (nth 2 (assign toy_circuit toy_inputs) []) = Some true.
Proof.
  destruct (C77_size ex_hash 3 (mtWhole ex_hash) toy_circuit 1 0 1 toy_inputs (assign toy_circuit toy_inputs))
    as (pf & E & _ & _ & HL & HS & _);
    [lia|apply C36_follows|discriminate|exact toy_ok|repeat split|exact toy_chunked|apply toy_assignment; exact toy_chunked|].
  pose proof (toy_short pf HS HL) as HA.
  exists pf. split; [vm_compute; discriminate|]. split; [exact E|]. split; [|split].
  - apply (C94_prover ex_hash short_hash 3 (mtWhole ex_hash) (mtWhole short_hash) 0 1 1 toy_circuit).
    + lia.
    + apply C36_follows.
    + apply C84_follows. lia.
    + apply C36_follows.
    + intros l Hl. destruct (toy_ok l Hl) as (H1 & _ & H3 & H4 & _). split; [exact H1|]. split; [exact H3|]. intros g Hg. apply (H4 g Hg).
    + repeat split.
    + apply (true_shaped toy_circuit 1 0 1 toy_inputs); [repeat split|exact toy_chunked|apply toy_assignment; exact toy_chunked].
    + discriminate.
    + exact E.
    + exact HA.
  - destruct (C94_honest_count ex_hash 3 (mtWhole ex_hash) toy_circuit 1 0 1 toy_inputs (assign toy_circuit toy_inputs)) as (pf' & E' & HC);
      [lia|apply C36_follows|discriminate|exact toy_ok|repeat split|exact toy_chunked|apply toy_assignment; exact toy_chunked|].
    rewrite E in E'. injection E' as <-. rewrite HC. vm_compute. reflexivity.
  - unfold GkrVerify. rewrite <- (C94_verifier Fr ex_hash short_hash) by exact HA.
    destruct (C36_from_assignment_partial ex_hash 3 (mtWhole ex_hash) toy_circuit 1 0 1 toy_inputs (assign toy_circuit toy_inputs)) as (pf' & E' & HV & _);
      [lia|apply C36_follows|discriminate|lia|exact toy_ok|repeat split|exact toy_chunked|apply toy_assignment; exact toy_chunked|].
    rewrite E in E'. injection E' as <-. exact HV.
Qed.
