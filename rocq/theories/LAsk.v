(** A run depends on the challenge function only at the messages of [asked] (lemmas for PAsk.v). *)
From Coq Require Import List Arith Lia Bool.
From Verif Require Import Field Go MCommon Spec LSpec LCommon MPoly LPoly2 Trans MCircuit SpecCircuit MSumcheck LSumcheck SpecSumcheck LSumcheck5 MSumPar SpecSumPar LSumPar3 LSumPar4
  SpecEnds LEnds4 LEnds5 MGkr SpecGkr LGkr LGkr2 LGkr3 LGkr4 SpecHonest LHonest3 LGkrHeap SpecProof SpecRepair LRepair2 LProof LProof2 MArk MHash SpecHash LHash LHash3 LCircuit LCircuit3 LGkr5 SpecAsk Fr.
Import ListNotations.

Section S.
  Context {F : Field}.
  Open Scope F_scope.

  Lemma agree_app a b (ch ch' : list F -> F) : agree_on (a ++ b) ch ch' <-> agree_on a ch ch' /\ agree_on b ch ch'.
  Proof.
    unfold agree_on. split.
    - intros H. split; intros x Hx; apply H, in_or_app; auto.
    - intros [H1 H2] x Hx. apply in_app_or in Hx. destruct Hx; auto.
  Qed.

  (* ---------------------------------------------------------------- sum-check *)
  Lemma loop_local (ch ch' : list F -> F) proof : agree_on proof ch ch' -> forall e q, verify_loop ch e proof q = verify_loop ch' e proof q.
  Proof.
    induction proof as [|c proof IH]; intros H e q; [reflexivity|]. cbn [verify_loop].
    destruct (EvaluatePolynomial c 0); [|reflexivity]. destruct (EvaluatePolynomial c 1); [|reflexivity]. cbv zeta.
    destruct (e =? _); [|reflexivity]. rewrite (H c (or_introl eq_refl)).
    destruct (EvaluatePolynomial c _); [|reflexivity]. apply IH. intros x Hx. apply H. right. exact Hx.
  Qed.

  Lemma verify_local (ch ch' : list F -> F) claim proof bN bG : agree_on proof ch ch' -> Verify ch claim proof bN bG = Verify ch' claim proof bN bG.
  Proof. intros H. unfold Verify. rewrite (loop_local ch ch' proof H). reflexivity. Qed.

  (** Another answer to a polynomial asked about for the first time. *)
  Lemma loop_pre (ch : list F -> F) pre post : forall e q,
    verify_loop ch e (pre ++ post) q =
    match verify_loop ch e pre q with
    | Some (Some (q', e')) => verify_loop ch e' post q'
    | x => x
    end.
  Proof.
    induction pre as [|c pre IH]; intros e q; [reflexivity|]. cbn [app verify_loop].
    destruct (EvaluatePolynomial c 0); [|reflexivity]. destruct (EvaluatePolynomial c 1); [|reflexivity]. cbv zeta.
    destruct (e =? _); [|reflexivity]. destruct (EvaluatePolynomial c _); [|reflexivity]. apply IH.
  Qed.

  Lemma loop_matters (ch ch' : list F -> F) claim pre c post q' e : agree_on pre ch ch' ->
    verify_loop ch claim (pre ++ c :: post) [] = Some (Some (q', e)) ->
    EvaluatePolynomial c (ch' c) <> EvaluatePolynomial c (ch c) ->
    match post with
    | [] => exists q'' e', verify_loop ch' claim (pre ++ c :: post) [] = Some (Some (q'', e')) /\ e' <> e /\ length q'' = length q'
    | _ => verify_loop ch' claim (pre ++ c :: post) [] = Some None
    end.
  Proof.
    intros HA. rewrite !loop_pre, (loop_local ch ch' pre HA). destruct (verify_loop ch' claim pre []) as [[[q0 e0]|]|]; try discriminate.
    cbn [verify_loop]. destruct c as [|c0 c]; [intros H; discriminate H|].
    destruct (EvaluatePolynomial (c0 :: c) 0) as [v0|]; [|discriminate]. destruct (EvaluatePolynomial (c0 :: c) 1) as [v1|]; [|discriminate]. cbv zeta.
    destruct (e0 =? v0 + v1); [|discriminate]. set (cc := c0 :: c). destruct (EvaluatePolynomial cc (ch cc)) as [v|] eqn:E; [|discriminate].
    assert (exists v', EvaluatePolynomial cc (ch' cc) = Some v') as [v' E'].
    { eexists. apply EvaluatePolynomial_spec. discriminate. }
    rewrite E'. intros H HN. assert (Hv : v' <> v) by congruence. destruct post as [|d post].
    - cbn [verify_loop] in *. injection H as <- <-. exists (q0 ++ [ch' cc]), v'. rewrite !app_length. auto.
    - cbn [verify_loop] in *. destruct (EvaluatePolynomial d 0) as [d0|]; [|discriminate]. destruct (EvaluatePolynomial d 1) as [d1|]; [|discriminate]. cbv zeta in *.
      destruct (feqb_spec F v (d0 + d1)) as [->|]; [|discriminate]. destruct (feqb_spec F v' (d0 + d1)) as [->|]; [contradiction|reflexivity].
  Qed.

  Lemma verify_matters (ch ch' : list F -> F) claim pre c post bN bG qP qL qR e : agree_on pre ch ch' ->
    Verify ch claim (pre ++ c :: post) bN bG = Some (Accept qP qL qR e) ->
    EvaluatePolynomial c (ch' c) <> EvaluatePolynomial c (ch c) ->
    Verify ch' claim (pre ++ c :: post) bN bG = Some Reject \/
    post = [] /\ exists qP' qL' qR' e', Verify ch' claim (pre ++ c :: post) bN bG = Some (Accept qP' qL' qR' e') /\ e' <> e.
  Proof.
    intros HA. unfold Verify. destruct (verify_loop ch claim (pre ++ c :: post) []) as [[[q0 e0]|]|] eqn:E; try discriminate. intros H HN.
    pose proof (loop_matters ch ch' claim pre c post q0 e0 HA E HN) as HM. destruct post as [|d post].
    - right. split; [reflexivity|]. destruct HM as (q1 & e1 & E1 & Hne & HL). rewrite E1. unfold slice in *. rewrite HL.
      destruct (_ && _); [|discriminate]. destruct (_ && _); [|discriminate]. destruct (_ && _); [|discriminate].
      injection H as _ _ _ <-. eauto 8.
    - left. rewrite HM. reflexivity.
  Qed.

  Lemma rounds_local (ch ch' : list F -> F) ev fd n : forall i p proof q p' proof' q',
    foldM (fun st _ => round ch ev fd st) (seq i n) (p, proof, q) = Some (p', proof', q') ->
    exists more, proof' = proof ++ more /\
      (agree_on more ch ch' -> foldM (fun st _ => round ch' ev fd st) (seq i n) (p, proof, q) = Some (p', proof', q')).
  Proof.
    induction n as [|n IH]; intros i p proof q p' proof' q'; cbn [seq foldM].
    - intros [= <- <- <-]. exists []. rewrite app_nil_r. auto.
    - unfold round at 1 3. destruct (ev p) as [e|]; [|discriminate]. destruct (InterpolateOnRange e) as [c|]; [|discriminate]. cbv zeta.
      destruct (fd p (ch c)) as [p1|] eqn:E1; [|discriminate]. intros H.
      destruct (IH _ _ _ _ _ _ _ H) as (more & -> & HM). exists (c :: more). rewrite <- app_assoc. split; [reflexivity|].
      intros HA. rewrite <- (HA c (or_introl eq_refl)), E1. rewrite <- app_assoc in HM. apply HM. intros x Hx. apply HA. right. exact Hx.
  Qed.

  Lemma prove_local (ch ch' : list F -> F) (p : Prover F) proof qP qL qR fin : Prove ch p = Some (proof, qP, qL, qR, fin) ->
    agree_on proof ch ch' -> Prove ch' p = Some (proof, qP, qL, qR, fin).
  Proof.
    unfold Prove. destruct (godiv _ _) as [g|]; [|discriminate]. cbv zeta.
    destruct (rounds ch (log2ceil g) GetEvalsOnHL FoldHL (p, [], [])) as [[[p1 pr1] q1]|] eqn:E1; [|discriminate].
    destruct (rounds ch (log2ceil g) GetEvalsOnHR FoldHR (p1, pr1, [])) as [[[p2 pr2] q2]|] eqn:E2; [|discriminate].
    destruct (rounds ch (log2ceil (length (sEq p))) GetEvalsOnHPrime FoldHPrime (p2, pr2, [])) as [[[p3 pr3] q3]|] eqn:E3; [|discriminate].
    destruct (finalClaimsOf p3) eqn:E4; [|discriminate]. intros [= <- <- <- <- <-] HA.
    unfold rounds, forN in *.
    destruct (rounds_local ch ch' _ _ _ _ _ _ _ _ _ _ E1) as (m1 & -> & H1).
    destruct (rounds_local ch ch' _ _ _ _ _ _ _ _ _ _ E2) as (m2 & -> & H2).
    destruct (rounds_local ch ch' _ _ _ _ _ _ _ _ _ _ E3) as (m3 & -> & H3).
    apply agree_app in HA. destruct HA as [HA A3]. apply agree_app in HA. destruct HA as [A1 A2]. cbn [app] in A1.
    rewrite (H1 A1), (H2 A2), (H3 A3), E4. reflexivity.
  Qed.

  (* ---------------------------------------------------------------- the verifier *)
  Lemma asked_round n (pf : Proof F) j sp (ch ch' : list F -> F) : agree_on (asked n pf) ch ch' -> (j < n)%nat ->
    nth_error (SumcheckProofs pf) j = Some sp -> agree_on sp ch ch'.
  Proof.
    intros H Hj E x Hx. apply H. unfold asked. apply in_or_app. left. apply in_concat. exists sp. split; [|exact Hx].
    apply nth_error_split in E. destruct E as (l1 & l2 & -> & <-). rewrite firstn_app. apply in_or_app. right.
    replace (n - length l1)%nat with (S (n - length l1 - 1)) by lia. left. reflexivity.
  Qed.
  Lemma asked_claims n (pf : Proof F) j cl cr (ch ch' : list F -> F) : agree_on (asked n pf) ch ch' -> (S j < n)%nat ->
    nth_error (ClaimsLeft pf) (S j) = Some cl -> nth_error (ClaimsRight pf) (S j) = Some cr -> ch [cl; cr] = ch' [cl; cr].
  Proof.
    intros H Hj E1 E2. apply H. unfold asked. apply in_or_app. right. apply in_map_iff. exists j. split; [|apply in_seq; lia].
    rewrite (nth_error_nth _ _ 0 E1), (nth_error_nth _ _ 0 E2). reflexivity.
  Qed.

  Lemma layers_local (ch ch' : list F -> F) mm c bN pf n : agree_on (asked n pf) ch ch' -> forall j qP qL qR, (j < n)%nat ->
    verifyLayers ch mm c bN pf j qP qL qR = verifyLayers ch' mm c bN pf j qP qL qR.
  Proof.
    intros HA. induction j as [|j IH]; intros qP qL qR Hj; [reflexivity|]. cbn [verifyLayers].
    replace (j + 1)%nat with (S j) by lia.
    destruct (get (ClaimsLeft pf) (S j)) as [cl|] eqn:E1; [|reflexivity]. destruct (get (ClaimsRight pf) (S j)) as [cr|] eqn:E2; [|reflexivity].
    rewrite (asked_claims n pf j cl cr ch ch' HA Hj E1 E2). cbv zeta.
    destruct (get (SumcheckProofs pf) j) as [sp|] eqn:E3; [|reflexivity]. destruct (get c j) as [l|]; [|reflexivity].
    rewrite (verify_local ch ch') by (apply (asked_round n pf j sp); [exact HA|lia|exact E3]).
    destruct (Verify _ _ _ _ _) as [[|? ? ? ?]|]; try reflexivity.
    destruct (EvalEq _ _); [|reflexivity]. destruct (get (ClaimsLeft pf) j); [|reflexivity]. destruct (get (ClaimsRight pf) j); [|reflexivity].
    destruct (evaluateStaticTablesLinCombs _ _ _ _ _ _ _); [|reflexivity]. destruct (EvaluateCombinator _ _ _ _ _); [|reflexivity].
    destruct (_ =? _); [|reflexivity]. apply IH. lia.
  Qed.

  Lemma gkr_verify_local (ch ch' : list F -> F) mm bN c pf inputs outputs : agree_on (asked (length c) pf) ch ch' ->
    GkrVerifyWith ch mm bN c pf inputs outputs = GkrVerifyWith ch' mm bN c pf inputs outputs.
  Proof.
    intros HA. unfold GkrVerifyWith. destruct (gosub (length c) 1) as [last|] eqn:EL; [|reflexivity].
    assert (Hlast : S last = length c) by (unfold gosub in EL; destruct (Nat.leb_spec 1 (length c)); [injection EL as <-; lia|discriminate]).
    destruct (get c last) as [l|]; [|reflexivity]. destruct (GetInitialQPrimeAndQ bN (lBGOutputs l)) as [qP q].
    destruct (EvaluateChunked _ _); [|reflexivity]. destruct (get (SumcheckProofs pf) last) as [sp|] eqn:E3; [|reflexivity].
    rewrite (verify_local ch ch') by (apply (asked_round (length c) pf last sp); [exact HA|lia|exact E3]).
    destruct (Verify _ _ _ _ _) as [[|? ? ? ?]|]; try reflexivity.
    destruct (EvalEq _ _); [|reflexivity]. destruct (get (ClaimsLeft pf) last); [|reflexivity]. destruct (get (ClaimsRight pf) last); [|reflexivity].
    destruct (evaluateStaticTables _ _ _ _); [|reflexivity]. destruct (EvaluateCombinator _ _ _ _ _); [|reflexivity].
    destruct (_ =? _); [|reflexivity]. rewrite (layers_local ch ch' mm c bN pf (length c) HA) by lia. reflexivity.
  Qed.

  (* ---------------------------------------------------------------- the prover *)
  Section Pr.
    Variables ch ch' : list F -> F.
    Variables mt mt' : MTProver F -> option (list (list F) * list F * list F * list F * list F).
    Variable c : list (Layer F).
    Variable a : list (list (list F)).
    Variable nCore : nat.
    Hypothesis Hgates : forall l, In l c -> forall g, In g (lGates l) -> many_ok g.
    (** One call: the answers that were used determine the result. *)
    Hypothesis Hmt : forall p proof qP qL qR fin, (forall g, In g (tGates p) -> many_ok g) ->
      mt p = Some (proof, qP, qL, qR, fin) -> agree_on proof ch ch' -> mt' p = Some (proof, qP, qL, qR, fin).

    (** The loop writes to the entries below [j] only. *)
    Definition keeps (j : nat) (pf pf' : Proof F) : Prop := forall i, (j <= i)%nat ->
      nth_error (SumcheckProofs pf') i = nth_error (SumcheckProofs pf) i /\
      nth_error (ClaimsLeft pf') i = nth_error (ClaimsLeft pf) i /\ nth_error (ClaimsRight pf') i = nth_error (ClaimsRight pf) i.

    Lemma set_same {A} (l l' : list A) i x : set l i x = Some l' -> nth_error l' i = Some x.
    Proof.
      unfold set. destruct (Nat.ltb_spec i (length l)); [|discriminate]. intros [= <-].
      rewrite (nth_error_nth' _ x) by (rewrite upd_length; lia). rewrite nth_upd_same by lia. reflexivity.
    Qed.
    Lemma set_other {A} (l l' : list A) i j x : set l i x = Some l' -> i <> j -> nth_error l' j = nth_error l j.
    Proof.
      unfold set. destruct (Nat.ltb_spec i (length l)); [|discriminate]. intros [= <-] H1.
      destruct (Nat.lt_ge_cases j (length l)) as [Hj|Hj].
      - rewrite !(nth_error_nth' _ x) by (rewrite ?upd_length; lia). rewrite nth_upd_other by exact H1. reflexivity.
      - rewrite (proj2 (nth_error_None _ _)) by (rewrite upd_length; lia). symmetry. apply nth_error_None. lia.
    Qed.

    Lemma layer_keeps j pf qP qL qR pf' qP' qL' qR' : proveLayer ch mt c a nCore j (pf, qP, qL, qR) = Some (pf', qP', qL', qR') -> keeps (S j) pf pf'.
    Proof.
      unfold proveLayer. destruct (get _ _); [|discriminate]. destruct (get _ _); [|discriminate]. cbv beta zeta.
      destruct (IntermediateRoundsSumcheckProver _ _ _ _ _ _ _ _ _) as [p|]; [|discriminate].
      destruct (mt p) as [[[[[proof qP1] qL1] qR1] fin]|]; [|discriminate].
      destruct (set (SumcheckProofs pf) _ _) as [sps|] eqn:E1; [|discriminate]. destruct (get fin 0); [|discriminate]. destruct (get fin 1); [|discriminate].
      destruct (set (ClaimsLeft pf) _ _) as [cls|] eqn:E2; [|discriminate]. destruct (set (ClaimsRight pf) _ _) as [crs|] eqn:E3; [|discriminate].
      intros [= <- <- <- <-] i Hi. cbn [SumcheckProofs ClaimsLeft ClaimsRight].
      rewrite (set_other _ _ _ _ _ E1), (set_other _ _ _ _ _ E2), (set_other _ _ _ _ _ E3) by lia. auto.
    Qed.
    Lemma loop_keeps j : forall pf qP qL qR pf' qP' qL' qR',
      foldM (fun st layer => proveLayer ch mt c a nCore layer st) (rev (seq 0 j)) (pf, qP, qL, qR) = Some (pf', qP', qL', qR') -> keeps j pf pf'.
    Proof.
      induction j as [|j IH]; intros pf qP qL qR pf' qP' qL' qR'.
      - cbn. intros [= <- <- <- <-] i _. auto.
      - rewrite seq_S, rev_app_distr. cbn [rev app foldM Nat.add].
        destruct (proveLayer _ _ _ _ _ _ _) as [[[[pf1 qP1] qL1] qR1]|] eqn:E; [|discriminate]. intros H i Hi.
        destruct (IH _ _ _ _ _ _ _ _ H i ltac:(lia)) as (A1 & A2 & A3). destruct (layer_keeps _ _ _ _ _ _ _ _ _ E i Hi) as (B1 & B2 & B3).
        rewrite A1, A2, A3. auto.
    Qed.

    Lemma layer_local n j pf qP qL qR pf1 qP1 qL1 qR1 pf' : (S j < n)%nat ->
      proveLayer ch mt c a nCore j (pf, qP, qL, qR) = Some (pf1, qP1, qL1, qR1) -> keeps j pf1 pf' -> agree_on (asked n pf') ch ch' ->
      proveLayer ch' mt' c a nCore j (pf, qP, qL, qR) = Some (pf1, qP1, qL1, qR1).
    Proof.
      intros Hj E K HA. pose proof (layer_keeps _ _ _ _ _ _ _ _ _ E) as K1. revert E. unfold proveLayer. replace (j + 1)%nat with (S j) by lia.
      destruct (get (ClaimsLeft pf) (S j)) as [cl|] eqn:E1; [|discriminate]. destruct (get (ClaimsRight pf) (S j)) as [cr|] eqn:E2; [|discriminate]. cbv beta zeta.
      destruct (K (S j) ltac:(lia)) as (_ & KL & KR). destruct (K1 (S j) ltac:(lia)) as (_ & KL1 & KR1). unfold get in E1, E2.
      rewrite <- (asked_claims n pf' j cl cr ch ch' HA Hj) by congruence.
      destruct (IntermediateRoundsSumcheckProver _ _ _ _ _ _ _ _ _) as [p|] eqn:Ep; [|discriminate].
      destruct (mt p) as [[[[[proof qP2] qL2] qR2] fin]|] eqn:Em; [|discriminate].
      destruct (set (SumcheckProofs pf) _ _) as [sps|] eqn:F1; [|discriminate]. destruct (get fin 0) eqn:F2; [|discriminate]. destruct (get fin 1) eqn:F3; [|discriminate].
      destruct (set (ClaimsLeft pf) _ _) as [cls|] eqn:F4; [|discriminate]. destruct (set (ClaimsRight pf) _ _) as [crs|] eqn:F5; [|discriminate].
      intros [= <- <- <- <-]. destruct (K j ltac:(lia)) as (KS & _). cbn [SumcheckProofs] in KS. rewrite (set_same _ _ _ _ F1) in KS.
      rewrite (Hmt p _ _ _ _ _ (inter_gates nCore c Hgates _ _ _ _ _ _ _ _ Ep) Em (asked_round n pf' j proof ch ch' HA ltac:(lia) KS)), F1, F2, F3, F4, F5.
      reflexivity.
    Qed.

    Lemma layers_local' n pf' qP' qL' qR' : agree_on (asked n pf') ch ch' -> forall j pf qP qL qR, (j < n)%nat ->
      foldM (fun st layer => proveLayer ch mt c a nCore layer st) (rev (seq 0 j)) (pf, qP, qL, qR) = Some (pf', qP', qL', qR') ->
      foldM (fun st layer => proveLayer ch' mt' c a nCore layer st) (rev (seq 0 j)) (pf, qP, qL, qR) = Some (pf', qP', qL', qR').
    Proof.
      intros HA. induction j as [|j IH]; intros pf qP qL qR Hj; [auto|].
      rewrite seq_S, rev_app_distr. cbn [rev app foldM Nat.add].
      destruct (proveLayer ch _ _ _ _ _ _) as [[[[pf1 qP1] qL1] qR1]|] eqn:E; [|discriminate]. intros H.
      rewrite (layer_local n j pf qP qL qR pf1 qP1 qL1 qR1 pf' Hj E (loop_keeps _ _ _ _ _ _ _ _ _ H) HA). apply IH; [lia|exact H].
    Qed.

    Lemma gkr_prove_local pf : GkrProve ch mt c a nCore = Some pf -> agree_on (asked (length c) pf) ch ch' -> GkrProve ch' mt' c a nCore = Some pf.
    Proof.
      intros E HA. revert E. unfold GkrProve. destruct (proverBN c a) as [bN|]; [|discriminate]. destruct (gosub (length c) 1) as [last|] eqn:EL; [|discriminate].
      assert (Hlast : S last = length c) by (unfold gosub in EL; destruct (Nat.leb_spec 1 (length c)); [injection EL as <-; lia|discriminate]).
      destruct (get c last) as [l|]; [|discriminate]. destruct (GetInitialQPrimeAndQ bN (lBGOutputs l)) as [qP q].
      destruct (InitialRoundSumcheckProver _ _ _ _ _) as [p|] eqn:Ep; [|discriminate].
      destruct (mt p) as [[[[[proof qP2] qL2] qR2] fin]|] eqn:Em; [|discriminate].
      destruct (set (repeat [] _) _ _) as [sps|] eqn:F1; [|discriminate]. destruct (get fin 0) as [f0|] eqn:F2; [|discriminate]. destruct (get fin 1) as [f1|] eqn:F3; [|discriminate].
      destruct (set _ _ f0) as [cls|] eqn:F4; [|discriminate]. destruct (set _ _ f1) as [crs|] eqn:F5; [|discriminate].
      destruct (foldM _ _ _) as [[[[pf1 qP1] qL1] qR1]|] eqn:EF; [|discriminate]. intros [= ->].
      destruct (loop_keeps _ _ _ _ _ _ _ _ _ EF last (le_n _)) as (KS & _). cbn [SumcheckProofs] in KS. rewrite (set_same _ _ _ _ F1) in KS.
      rewrite (Hmt p _ _ _ _ _ (init_gates nCore c Hgates _ _ _ _ Ep) Em (asked_round (length c) pf last proof ch ch' HA ltac:(lia) KS)), F1, F2, F3, F4, F5.
      rewrite (layers_local' (length c) pf qP1 qL1 qR1 HA) by (lia || exact EF). reflexivity.
    Qed.
  End Pr.

  (** The multi-threaded prover. *)
  Lemma threads_local (ch ch' : list F -> F) p n k bG nCore proof qP qL qR fin : mt_ok p n k bG -> (0 < nCore)%nat ->
    Prove ch (whole p k bG) = Some (proof, qP, qL, qR, fin) -> agree_on proof ch ch' ->
    must (mt_step ch' p nCore n bG (bG + bG + k) (log2ceil n)) (fun s => main s = MEnd (proof, qP, qL, qR, fin)) (mt_init nCore n).
  Proof.
    intros Hok HC HP HA. eapply must_mono; cycle 1.
    - exact (proj2 (mt_same_result ch' p n k bG nCore _ Hok HC (prove_local ch ch' _ _ _ _ _ _ HP HA))).
    - intros s Hs. exact (proj1 Hs).
  Qed.

  Lemma checked_local (ch ch' : list F -> F) nCore mt' : (0 < nCore)%nat -> follows_machine ch' nCore mt' ->
    forall p proof qP qL qR fin, (forall g, In g (tGates p) -> many_ok g) ->
      mtChecked ch p = Some (proof, qP, qL, qR, fin) -> agree_on proof ch ch' -> mt' p = Some (proof, qP, qL, qR, fin).
  Proof.
    intros HC Hf p proof qP qL qR fin Hg E HA. unfold mtChecked in E. destruct (shape_b p) eqn:Eb; [|discriminate].
    pose proof (shape_b_ok p Eb Hg) as Hok. change (mtWhole ch p) with (Prove ch (whole p (fst (shape_of p)) (snd (shape_of p)))) in E.
    pose proof (prove_local ch ch' _ _ _ _ _ _ E HA) as E'.
    destruct (mt_same_result ch' p _ _ _ nCore _ Hok HC E') as [Hprep Hmust].
    eapply (Hf p _ _ _ _ _ _ Hok E' Hprep). eapply must_mono; cycle 1; [exact Hmust|]. intros s Hs. exact (proj1 Hs).
  Qed.

  (* ---------------------------------------------------------------- how many *)
  Lemma asked_length (c : list (Layer F)) bN pf : proof_shape c bN pf -> length (asked (length c) pf) = questions c bN.
  Proof.
    intros (_ & _ & HL & HS). unfold asked, questions. rewrite app_length, map_length, seq_length. f_equal.
    rewrite <- HL, firstn_all.
    assert (H : forall (c : list (Layer F)) (sps : list (list (list F))), length sps = length c ->
      (forall j l sp, nth_error c j = Some l -> nth_error sps j = Some sp -> length sp = (2 * lBGInputs l + bN)%nat) ->
      length (concat sps) = list_sum (map (fun l => (2 * lBGInputs l + bN)%nat) c)).
    { clear. induction c as [|l c IH]; intros [|sp sps] HL HS; try discriminate; [reflexivity|]. cbn [concat map]. rewrite app_length.
      change (list_sum (?x :: ?y)) with (x + list_sum y)%nat. rewrite (HS 0%nat l sp eq_refl eq_refl). f_equal.
      apply IH; [injection HL; auto|]. intros j l' sp' H1 H2. exact (HS (S j) l' sp' H1 H2). }
    apply H; [exact HL|]. intros j l sp H1 H2. apply (HS j l sp H1 H2).
  Qed.
End S.

Lemma checked_panics (ch : list Fr -> Fr) nCore : 0 < nCore -> panics_with_machine ch nCore (mtChecked ch).
Proof.
  intros HC p n k bG K c Hok Hp Hf. unfold mtChecked. destruct (shape_b p); [|reflexivity].
  exact (mtWhole_panics ch nCore HC p n k bG K c Hok Hp Hf).
Qed.

Lemma gkr_prover_local (ch ch' : list Fr -> Fr) nCore mtProve mtProve' m k b (c : list (Layer Fr)) a pf : 0 < nCore ->
  follows_machine ch nCore mtProve -> panics_with_machine ch nCore mtProve -> follows_machine ch' nCore mtProve' ->
  (forall l, In l c -> startable l) -> fits b c -> shaped k m c a -> c <> [] ->
  GkrProve ch mtProve c a nCore = Some pf -> agree_on (asked (length c) pf) ch ch' -> GkrProve ch' mtProve' c a nCore = Some pf.
Proof.
  intros HC Hf Hp Hf' Hl Hfit Hsh Hne E HA.
  assert (Hr : forall l, In l c -> in_range (m + k) l).
  { apply (prover_exact ch nCore mtProve HC Hf Hp m k c b a Hl Hfit Hsh Hne). rewrite E. discriminate. }
  assert (Hg : forall l, In l c -> forall g, In g (lGates l) -> many_ok g) by (intros l H; apply (Hl l H)).
  destruct (GkrProve ch (mtChecked ch) c a nCore) as [pf0|] eqn:E0.
  - assert (pf0 = pf) as ->.
    { rewrite (gkr_prove_local ch ch (mtChecked ch) mtProve c a nCore Hg (checked_local ch ch nCore mtProve HC Hf) pf0 E0) in E by (intros x _; reflexivity).
      injection E; auto. }
    exact (gkr_prove_local ch ch' (mtChecked ch) mtProve' c a nCore Hg (checked_local ch ch' nCore mtProve' HC Hf') pf E0 HA).
  - exfalso. apply (prover_exact ch nCore (mtChecked ch) HC (mtChecked_follows ch nCore) (checked_panics ch nCore HC) m k c b a Hl Hfit Hsh Hne); assumption.
Qed.

Lemma honest_questions (ch : list Fr -> Fr) nCore mtProve c b m k inputs a :
  0 < nCore -> follows_machine ch nCore mtProve -> c <> [] ->
  (forall l, In l c -> layer_ok l) -> fits b c -> chunked k m b inputs -> assignment_of c (2 ^ m) inputs a ->
  exists pf, GkrProve ch mtProve c a nCore = Some pf /\ length (asked (length c) pf) = questions c (m + k).
Proof.
  intros H1 H2 H3 H4 H5 H6 H7. destruct (proof_size ch nCore mtProve c b m k inputs a H1 H2 H3 H4 H5 H6 H7) as (pf & E & L1 & L2 & L3 & HS & _).
  exists pf. split; [exact E|]. apply asked_length, exact_shape_shape. unfold exact_shape. auto.
Qed.

Lemma mimc_questions_sum (cs : list Fr) (x : Fr) bN : questions (mimc_layers cs x) bN = S (length cs) * (2 + bN) + length cs.
Proof.
  unfold questions, mimc_layers. rewrite map_app, list_sum_app, map_map, app_length, map_length. cbn [length map list_sum fold_right].
  replace (map (fun x0 => 2 * lBGInputs (mimc_mid x0) + bN) cs) with (repeat (2 + bN) (length cs)).
  - rewrite sum_repeat. change (lBGInputs (mimc_last x)) with 1. lia.
  - induction cs as [|y cs IH]; [reflexivity|]. cbn [length repeat map]. rewrite IH. f_equal.
Qed.

Lemma mimc_questions (ch : list Fr -> Fr) nCore mtProve m k inputs :
  0 < nCore -> follows_machine ch nCore mtProve -> chunked k m 1 inputs ->
  exists c a pf, CreateMimcCircuit Arks = Some c /\ Assign c inputs = Some a /\ GkrProve ch mtProve c a nCore = Some pf /\
    length (asked (length c) pf) = 91 * (2 + (m + k)) + 90.
Proof.
  intros H1 H2 H4. set (c := mimc_layers (firstn 90 Arks) (nth 90 Arks 0%F)). exists c.
  assert (L90 : length (firstn 90 Arks) = 90%nat) by (rewrite firstn_length, Arks_length; reflexivity).
  assert (Hc : c <> []).
  { intros H. apply (f_equal (@length _)) in H. unfold c, mimc_layers in H. rewrite app_length in H. cbn [length] in H. lia. }
  destruct (assign_ok c 1 (2 ^ m) inputs) as (a & EA & Ha).
  { intros l Hl. apply (mimc_layer_ok _ _ l Hl). } { apply mimc_fits. } { apply mimc_right. } { apply H4. }
  destruct (honest_questions ch nCore mtProve c 1 m k inputs a H1 H2 Hc (mimc_layer_ok _ _) (mimc_fits _ _) H4 Ha) as (pf & E & HE).
  exists a, pf. split; [apply CreateMimcCircuit_ok; rewrite Arks_length; lia|]. split; [exact EA|]. split; [exact E|].
  rewrite HE. unfold c. rewrite mimc_questions_sum, L90. reflexivity.
Qed.

Lemma true_shaped {F : Field} (c : list (Layer F)) b m k inputs a : fits b c -> chunked k m b inputs -> assignment_of c (2 ^ m) inputs a -> shaped k m c a.
Proof.
  intros Hf [L1 L2] Ha j l Hl. destruct (a_chunks 1 (le_n 1) m k c b inputs a Hf L2 L1 Ha j l Hl) as [A1 A2].
  split; [exact A1|]. intros t Ht. rewrite (A2 t Ht), Nat.pow_add_r. reflexivity.
Qed.
