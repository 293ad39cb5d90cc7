(** Where the code was right the repaired program does the same. *)
From Coq Require Import List Arith ZArith Lia Bool.
From Verif Require Import Field FrPrime Fr Go MCommon Spec LSpec LCommon MPoly LPoly LPoly2 LPoly3 Trans MCircuit SpecCircuit LCircuit LCircuit2
  LCircuit3 MSumcheck LSumcheck SpecSumcheck LSumcheck4 LSumcheck5 MSumPar SpecSumPar LSumPar4 MGkr SpecGkr LGkr LGkr2 LGkr3 LGkr4
  SpecProof LProof MRepair SpecRepair LRepair LRepair2 LRepair3 LRepair4.
Import ListNotations.

Section L.
  Context {F : Field}.
  Open Scope F_scope.
  Variable ch : list F -> F.

  Lemma recombine_same bkts k L (qs : list F) : (0 < k)%nat -> LPoly2.tabs (2 ^ k) L bkts ->
    rchunkedEvalRecombine bkts qs = chunkedEvalRecombine bkts qs.
  Proof.
    intros Hk HT. unfold rchunkedEvalRecombine, chunkedEvalRecombine. destruct HT as [T1 T2] eqn:ET. rewrite T1, log2ceil_pow2.
    destruct (Nat.eqb_spec k (length qs)) as [E|E]; [|reflexivity]. cbn [negb].
    destruct (recombine_loop_ok qs bkts [] L) as (r & -> & _); [rewrite <- E; exact HT|destruct qs; [cbn in E; lia|discriminate]|]. reflexivity.
  Qed.

  Lemma chunked_same bkts k L (q : list F) : (0 < k)%nat -> LPoly2.tabs (2 ^ k) L bkts -> REvaluateChunked bkts q = EvaluateChunked bkts q.
  Proof.
    intros Hk HT. unfold REvaluateChunked, EvaluateChunked. destruct (gosub _ _); [|reflexivity]. rewrite (recombine_same bkts k L) by assumption. reflexivity.
  Qed.
  Lemma mixed_same bkts k L (qP hL hR : list F) : (0 < k)%nat -> LPoly2.tabs (2 ^ k) L bkts ->
    REvaluateMixedChunked bkts qP hL hR = EvaluateMixedChunked bkts qP hL hR.
  Proof.
    intros Hk HT. unfold REvaluateMixedChunked, EvaluateMixedChunked. destruct (Nat.ltb _ _); [reflexivity|].
    rewrite (recombine_same bkts k L) by assumption. reflexivity.
  Qed.

  Lemma gates_same (ws : list (Wire F)) : NoDup (map (fun w => gid (wGate w)) ws) -> RNewLayer ws = NewLayer ws.
  Proof.
    intros H. unfold RNewLayer, NewLayer. destruct (gates_exact ws) as [_ E]. rewrite (E H), RGates_first. reflexivity.
  Qed.
  Lemma circuit_same (wiring : list (list (Wire F))) : (forall ws, In ws wiring -> NoDup (map (fun w => gid (wGate w)) ws)) ->
    RNewCircuit wiring = NewCircuit wiring.
  Proof. intros H. unfold RNewCircuit, NewCircuit. apply map_ext_in. intros ws Hws. apply gates_same, H, Hws. Qed.

  Lemma assign_same (c : list (Layer F)) b N inputs : (forall l, In l c -> wf_layer l) -> fits b c -> right_ok N c ->
    (forall inp, In inp inputs -> length inp = (2 ^ b * N)%nat) -> RAssign c inputs = Assign c inputs.
  Proof.
    intros H1 H2 H3 H4. destruct (assign_ok c b N inputs H1 H2 H3 H4) as (a & E & Ha). destruct (rassign_ok c b N inputs H1 H2 H4) as (a' & E' & Ha').
    rewrite E, E'. f_equal. exact (assignment_unique _ _ _ _ _ Ha' Ha).
  Qed.

  Lemma proverBN_ok m k (c : list (Layer F)) b inputs a : fits b c -> chunked k m b inputs -> assignment_of c (2 ^ m) inputs a -> c <> [] ->
    proverBN c a = Some (m + k)%nat.
  Proof.
    intros Hf [I1 I2] (A1 & A2 & _) Hc. unfold proverBN. rewrite (get_nth a 0 []) by lia. rewrite A2.
    pose proof (Nat.pow_nonzero 2 k ltac:(lia)) as Hk.
    rewrite (get_nth inputs 0 []) by lia. destruct c as [|l0 c']; [congruence|]. cbn [get nth_error]. destruct Hf as [E0 _].
    rewrite I2 by (apply nth_In; lia). rewrite I1, E0, <- !Nat.pow_add_r, log2ceil_pow2.
    rewrite gosub_some by lia. f_equal. lia.
  Qed.

  Lemma prove_same mtProve (c : list (Layer F)) b m k inputs a l nCore : fits b c -> chunked k m b inputs -> assignment_of c (2 ^ m) inputs a ->
    nth_error c (length c - 1) = Some l ->
    RGkrProve ch mtProve (count (m + k)) (count (lBGOutputs l)) c a nCore = GkrProve ch mtProve c a nCore.
  Proof.
    intros Hf Hin Ha Hl. unfold GkrProve, RGkrProve.
    rewrite (proverBN_ok m k c b inputs a) by (try assumption; intros ->; discriminate).
    destruct (length c) as [|n] eqn:EL; [destruct c; discriminate|].
    rewrite gosub_some by lia. unfold get at 3. rewrite Hl. reflexivity.
  Qed.

  Lemma verify_same (c : list (Layer F)) b m k inputs outputs l pf : (0 < k)%nat -> fits b c -> chunked k m b inputs ->
    nth_error c (length c - 1) = Some l -> chunked k m (lBGOutputs l) outputs -> exact_shape c (m + k) pf ->
    RGkrVerify ch (count (m + k)) (count (lBGOutputs l)) (m + k) c pf inputs outputs = GkrVerifyWith ch false (m + k) c pf inputs outputs.
  Proof.
    intros Hk Hf Hin Hl Hout HS. apply shapeOK_iff in HS. unfold RGkrVerify, GkrVerifyWith. rewrite HS. cbn [negb].
    destruct (length c) as [|n] eqn:EL; [destruct c; discriminate|].
    rewrite gosub_some by lia. unfold get. rewrite Hl. unfold GetInitialQPrimeAndQ. fold (count (F:=F) (m + k)) (count (F:=F) (lBGOutputs l)).
    rewrite (chunked_same outputs k _ _ Hk (tabs_chunked _ _ _ _ Hout)).
    destruct (EvaluateChunked _ _); [|reflexivity]. destruct (nth_error (SumcheckProofs pf) _); [|reflexivity].
    destruct (Verify _ _ _ _ _) as [[|q1 q2 q3 tot]|]; [reflexivity| |reflexivity].
    destruct (EvalEq _ _); [|reflexivity]. destruct (nth_error (ClaimsLeft pf) _); [|reflexivity]. destruct (nth_error (ClaimsRight pf) _); [|reflexivity].
    destruct (evaluateStaticTables _ _ _ _); [|reflexivity]. destruct (EvaluateCombinator _ _ _ _ _); [|reflexivity]. destruct (feqb _ _); [|reflexivity].
    destruct (verifyLayers _ _ _ _ _ _ _ _ _) as [[v|[[x y] z]]|]; [reflexivity| |reflexivity].
    rewrite (mixed_same inputs k _ _ _ _ Hk (tabs_chunked _ _ _ _ Hin)). reflexivity.
  Qed.
End L.
