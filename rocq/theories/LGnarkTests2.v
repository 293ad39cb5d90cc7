(** Lemmas about the test circuits of MGnarkTests.v: multilinear, univariate and sumcheck. *)
From Coq Require Import List Arith NArith ZArith Lia Bool Ring Field.
From Verif Require Import Field FrPrime Fr Go MCommon MPoly Spec LSpec LPoly MCircuit MSumcheck SpecSumcheck LSumcheck LSumcheck4 MHash SpecHash LCircuit MAux LAux MSnark SpecSnark
  LSnark LSnark2 LSnark3 LSnark7 LSnark9 LSnark10 LHash MTesting LTesting MGnarkTests SpecGnarkTests LGnarkTests.
Import ListNotations.

Section L.
  Context {F : Field}.
  Add Field FfieldGT2 : (f_theory F).
  Open Scope F_scope.

  Lemma solves_at {V} (shape : list (list V)) (cs cs' : CS F) P vs (vals : list (list F)) :
    imposes cs cs' P -> cs = MkCS (1 + length (concat shape)) [] [] -> wires2 1 shape = vs ->
    (forall w w', agree_below (1 + length (concat shape)) w w' -> P w -> P w') ->
    map (@length _) vals = map (@length _) shape ->
    exists w, map (map w) vs = vals /\ (solves cs' vs (map (map Some) vals) <-> P w).
  Proof.
    intros HI -> <- HE HL. exists (fun v => nth v (1 :: concat vals) 0). split.
    - apply (wires2_val _ [] shape vals [1] HL). rewrite app_nil_r. reflexivity.
    - apply (solves_rows shape cs' P vals HI HE HL).
  Qed.
  Lemma map_below n (w w' : nat -> F) l : agree_below n w w' -> (forall v, In v l -> (v < n)%nat) -> map w' l = map w l.
  Proof. intros H Hl. apply map_ext_in. intros v Hv. symmetry. apply H, Hl, Hv. Qed.

  (** ** multilinear_test.go *)
  Lemma MultilinearDefine_ok nVars cs vP vX vY : MultilinearCompile (F:=F) nVars = (cs, (vP, vX, vY)) ->
    exists cs', MultilinearDefine vP vX vY cs = Some (tt, cs') /\
      forall p x y, length p = (2 ^ nVars)%nat -> length x = nVars ->
        (solves cs' [vP; vX; [vY]] (map (map Some) [p; x; [y]]) <-> Evaluate p x = Some y).
  Proof.
    intros EC. unfold MultilinearCompile, SAllocateMultilinear in EC. rewrite repeat_length in EC. injection EC as Ecs EP EX EY.
    unfold wires1 in EP. rewrite repeat_length in EP. set (N := (2 ^ nVars)%nat) in *.
    set (shape := [repeat (None : option F) N; repeat None nVars; [None]]).
    assert (LS : (1 + length (concat shape))%nat = (S N + nVars + 1)%nat).
    { unfold shape. cbn [concat]. rewrite !app_length, !repeat_length. cbn [length]. lia. }
    assert (WS : wires2 1 shape = [vP; vX; [vY]]).
    { rewrite <- EP, <- EX, <- EY. unfold shape. cbn [wires2]. unfold wires1. rewrite !repeat_length. reflexivity. }
    assert (NB : nbWires cs = (S N + nVars + 1)%nat) by (rewrite <- Ecs; reflexivity).
    assert (HO : cs_ok cs) by (rewrite <- Ecs; apply free_cs_ok; lia).
    assert (VP : vars cs vP). { intros v Hv. rewrite <- EP in Hv. apply in_seq in Hv. lia. }
    assert (VX : vars cs vX). { intros v Hv. rewrite <- EX in Hv. apply in_seq in Hv. lia. }
    assert (VY : (vY < nbWires cs)%nat) by lia.
    assert (LX : length vX = nVars) by (rewrite <- EX; apply seq_length).
    assert (LP : length vP = N) by (rewrite <- EP; apply seq_length).
    pose proof (computes_refl _ HO) as HC. unfold MultilinearDefine.
    destruct (SEval_ok cs vP vX _ _ HO (vals_id _ _ VP) (vals_id _ _ VX)) as (r & c1 & E1 & C1 & V1); [rewrite LX, LP; unfold N; lia|].
    rewrite (bind_eq _ _ _ _ _ E1). pose proof (val1_id _ _ VY) as V2. adv C1.
    destruct (cAssert_ok c1 r vY _ _ HO V1 V2) as (c2 & E2 & I2). advI I2.
    exists c2. split; [exact E2|]. intros p x y Hp Hx.
    destruct (solves_at shape cs c2 _ [vP; vX; [vY]] [p; x; [y]] HC) as (w & W & HS).
    - rewrite LS, <- Ecs. reflexivity.
    - exact WS.
    - rewrite LS, <- NB. intros w w' Hag [_ H]. split; [trivial|].
      rewrite (map_below _ w w' vP Hag VP), (map_below _ w w' vX Hag VX), H. apply Hag, VY.
    - unfold shape. cbn [map length]. rewrite !repeat_length, Hp, Hx. reflexivity.
    - rewrite HS. cbn [map] in W. injection W as W1 W2 W3. rewrite W1, W2, W3. rewrite Evaluate_first.
      rewrite (get_nth (foldsv p x) 0 0) by (rewrite foldsv_full by (rewrite Hx; exact Hp); cbn; lia). split; [intros [_ ->]; reflexivity|].
      intros H. split; [trivial|]. injection H. auto.
  Qed.

  Lemma MultilinearTest_ok nVars cs vP vX vY p x : MultilinearCompile (F:=F) nVars = (cs, (vP, vX, vY)) ->
    length p = (2 ^ nVars)%nat -> length x = nVars ->
    exists cs' wP wX wY, MultilinearDefine vP vX vY cs = Some (tt, cs') /\ MultilinearWitness nVars p x = Some (wP, wX, wY) /\
      solves cs' [vP; vX; [vY]] [wP; wX; [wY]].
  Proof.
    intros EC Hp Hx. destruct (MultilinearDefine_ok _ _ _ _ _ EC) as (cs' & E1 & HS).
    exists cs', (map Some p), (map Some x), (Some (mle p x)). split; [exact E1|]. unfold MultilinearWitness. rewrite Evaluate_mle by congruence.
    unfold FrToGenericArray. rewrite map_id || idtac.
    rewrite SMultiAssign_ok, Hp, Nat.eqb_refl.
    match goal with |- match ?X with _ => _ end = _ /\ _ => assert (EX : X = Some (map Some x)) end.
    { rewrite <- (prow_full x nVars Hx), <- (assign1_fill nVars nVars (fun i => nth i x 0)) by lia. unfold forN. apply foldM_ext. intros l i Hi.
      apply in_seq in Hi. rewrite (get_nth x i 0) by lia. reflexivity. }
    rewrite EX. split; [reflexivity|].
    apply (HS p x (mle p x) Hp Hx). apply Evaluate_mle. congruence.
  Qed.

  (** ** univariate_test.go *)
  Lemma UnivariateDefine_ok degree cs vC vZ vE : UnivariateCompile (F:=F) degree = (cs, (vC, vZ, vE)) ->
    exists cs', UnivariateDefine vC vZ vE cs = Some (tt, cs') /\
      forall c zno e, length c = S degree ->
        (solves cs' [vC; [vZ; vE]] (map (map Some) [c; [zno; e]]) <-> zno = peval c 0 + peval c 1 /\ e = peval c (fnat 5)).
  Proof.
    intros EC. unfold UnivariateCompile in EC. injection EC as Ecs EV EZ EE.
    set (shape := [repeat (None : option F) (S degree); [None; None]]).
    assert (LS : (1 + length (concat shape))%nat = nbWires cs).
    { rewrite <- Ecs. unfold shape. cbn [concat nbWires]. rewrite !app_length, !repeat_length. cbn [length]. lia. }
    assert (WS : wires2 1 shape = [vC; [vZ; vE]]).
    { rewrite <- EV, <- EZ, <- EE. unfold shape. cbn [wires2]. unfold wires1. rewrite !repeat_length. cbn [length].
      replace (degree + 1)%nat with (S degree) by lia. cbn [seq]. rewrite (Nat.add_comm (S degree) 1). reflexivity. }
    assert (NB : nbWires cs = (degree + 4)%nat) by (rewrite <- Ecs; cbn [nbWires]; lia).
    assert (HO : cs_ok cs) by (rewrite <- Ecs; apply free_cs_ok; lia).
    assert (VC : vars cs vC). { intros v Hv. rewrite <- EV in Hv. apply in_seq in Hv. lia. }
    assert (VZ : (vZ < nbWires cs)%nat) by lia. assert (VE : (vE < nbWires cs)%nat) by lia.
    assert (NN : vC <> []). { intros E. rewrite E in EV. apply (f_equal (@length _)) in EV. rewrite seq_length in EV. cbn in EV. lia. }
    pose proof (computes_refl _ HO) as HC. unfold UnivariateDefine.
    pose proof (vals_id _ _ VC) as V0. pose proof (val1_id _ _ VZ) as V1. pose proof (val1_id _ _ VE) as V2.
    destruct (SZeroAndOne_ok cs vC _ HO V0 NN) as (z & c1 & E1 & C1 & V3). rewrite (bind_eq _ _ _ _ _ E1). adv C1.
    destruct (cConstant_ok c1 (fnat 5) HO) as (x & c2 & E2 & C2 & V4). rewrite (bind_eq _ _ _ _ _ E2). adv C2.
    destruct (SUniEval_ok c2 vC x _ _ HO V0 V4) as (e & c3 & E3 & C3 & V5). rewrite (bind_eq _ _ _ _ _ E3). adv C3.
    destruct (cAssert_ok c3 z vZ _ _ HO V3 V1) as (c4 & E4 & I4). rewrite (bind_eq _ _ _ _ _ E4). advI I4.
    destruct (cAssert_ok c4 e vE _ _ HO V5 V2) as (c5 & E5 & I5). advI I5.
    exists c5. split; [exact E5|]. intros c zno ex Hc.
    destruct (solves_at shape cs c5 _ [vC; [vZ; vE]] [c; [zno; ex]] HC) as (w & W & HS).
    - rewrite LS, <- Ecs. reflexivity.
    - exact WS.
    - rewrite LS. intros w w' Hag [[_ H1] H2]. rewrite (map_below _ w w' vC Hag VC), <- (Hag vZ VZ), <- (Hag vE VE). auto.
    - unfold shape. cbn [map length]. rewrite !repeat_length, Hc. reflexivity.
    - rewrite HS. cbn [map] in W. injection W as W1 W2 W3. rewrite W1, W2, W3. split; [intros [[_ H1] H2]; auto|intros [H1 H2]; auto].
  Qed.

  (** ** sumcheck_test.go *)
  Lemma pointwise (w : nat -> F) a b n : length a = n -> length b = n ->
    ((forall i, In i (seq 0 n) -> w (nth i a 0%nat) = w (nth i b 0%nat)) <-> map w a = map w b).
  Proof.
    intros HA HB. split.
    - intros H. apply (list_ext (w 0%nat)); [rewrite !map_length; congruence|]. intros i Hi. rewrite map_length in Hi. rewrite !map_nth. apply H, in_seq. lia.
    - intros H i _. rewrite <- !(map_nth w), H. reflexivity.
  Qed.
  Lemma SumcheckDefine_ok Arks bN dL dR dP cs vC vPr vL vR vP : (91 <= length Arks)%nat ->
    SumcheckCompile (F:=F) bN 1 dL dR dP = (cs, (vC, vPr, vL, vR, vP)) ->
    exists cs', SumcheckDefine Arks vC vPr vL vR vP cs = Some (tt, cs') /\
      forall claim proof eL eR eP, map (@length _) proof = (dL + 1 :: dR + 1 :: repeat (dP + 1) bN)%nat -> length eL = 1%nat -> length eR = 1%nat -> length eP = bN ->
        (solves cs' ([vC] :: vPr ++ [vL; vR; vP]) (map (map Some) ([claim] :: proof ++ [eL; eR; eP])) <->
         exists last, Verify (challenge Arks) claim proof bN 1 = Some (Accept eP eR eL last)).
  Proof.
    intros HA EC. unfold SumcheckCompile in EC. remember (SAllocateSumcheck bN 1 dL dR dP) as pr eqn:EPR. injection EC as Ecs EVC EVP EVL EVR EVQ.
    set (s := S (S (length (concat pr)))) in *.
    set (shape := [None] :: pr ++ [[None]; [None]; repeat (None : option F) bN]).
    assert (LPr : map (@length _) pr = (dL + 1 :: dR + 1 :: repeat (dP + 1) bN)%nat).
    { rewrite EPR. unfold SAllocateSumcheck. cbn [repeat app map]. rewrite !repeat_length. do 2 f_equal. clear. induction bN as [|k IH]; [reflexivity|].
      cbn [repeat map]. rewrite repeat_length, IH. reflexivity. }
    assert (NB : nbWires cs = (s + 1 + 1 + bN)%nat) by (rewrite <- Ecs; reflexivity).
    assert (LS : (1 + length (concat shape))%nat = nbWires cs).
    { rewrite NB. unfold shape. cbn [concat]. rewrite !concat_app. cbn [concat]. rewrite !app_length, repeat_length. cbn [length]. unfold s. lia. }
    assert (WS : wires2 1 shape = [vC] :: vPr ++ [vL; vR; vP]).
    { rewrite <- EVC, <- EVP, <- EVL, <- EVR, <- EVQ. unfold shape. cbn [wires2]. rewrite wires2_app. unfold wires1. cbn [length seq].
      change (1 + 1)%nat with 2%nat. cbn [wires2]. unfold wires1. rewrite repeat_length. cbn [length seq]. reflexivity. }
    assert (HO : cs_ok cs) by (rewrite <- Ecs; apply free_cs_ok; lia).
    assert (VC : vars cs [vC]). { intros v [<-|[]]. rewrite NB, <- EVC. unfold s. lia. }
    assert (VPr : Forall (vars cs) vPr).
    { apply Forall_forall. intros r Hr v Hv. assert (X : In v (concat vPr)) by (apply in_concat; exists r; auto). rewrite <- EVP in X. apply wires2_in in X. rewrite NB. unfold s. lia. }
    assert (LVP : map (@length _) vPr = map (@length _) pr) by (rewrite <- EVP; apply wires2_len).
    assert (NN : ~ In [] vPr).
    { intros H. apply (in_map (@length _)) in H. rewrite LVP, LPr in H. cbn [length] in H. destruct H as [H|[H|H]]; try lia. apply repeat_spec in H. lia. }
    assert (LvPr : length vPr = (2 + bN)%nat). { rewrite <- (map_length (@length _)), LVP, LPr. cbn [length]. rewrite repeat_length. reflexivity. }
    destruct (SSumcheck_ok Arks HA cs vPr vC 1 (fun w => w vC) HO (val1_id _ _ (VC vC (or_introl eq_refl))) VPr NN ltac:(lia))
      as (hL & hR & hP & last & c1 & E1 & I1 & (L1 & L2 & L3) & V1 & V2 & V3 & V4).
    unfold SumcheckDefine. rewrite (bind_eq _ _ _ _ _ E1). rewrite L1, L3.
    assert (LVL : length vL = 1%nat) by (rewrite <- EVL; reflexivity). assert (LVR : length vR = 1%nat) by (rewrite <- EVR; reflexivity).
    assert (LVQ : length vP = bN) by (rewrite <- EVQ; apply seq_length).
    assert (XL : forall v, In v vL -> (v < nbWires cs)%nat). { intros v Hv. rewrite <- EVL in Hv. destruct Hv as [<-|[]]. lia. }
    assert (XR : forall v, In v vR -> (v < nbWires cs)%nat). { intros v Hv. rewrite <- EVR in Hv. destruct Hv as [<-|[]]. lia. }
    assert (XQ : forall v, In v vP -> (v < nbWires cs)%nat). { intros v Hv. rewrite <- EVQ in Hv. apply in_seq in Hv. lia. }
    assert (N1 : (nbWires cs <= nbWires c1)%nat) by apply (imposes_grows _ _ _ I1).
    assert (HO1 : cs_ok c1) by apply (imposes_ok _ _ _ I1).
    destruct (assert_loop (fun i => mbind (lift (get hR i)) (fun l => mbind (lift (get vL i)) (fun el => mbind (cAssertIsEqual l el) (fun _ =>
        mbind (lift (get hL i)) (fun r => mbind (lift (get vR i)) (fun er => cAssertIsEqual r er))))))
      (fun i w => w (nth i hR 0%nat) = w (nth i vL 0%nat) /\ w (nth i hL 0%nat) = w (nth i vR 0%nat)) (seq 0 1) c1 HO1) as (c2 & E2 & I2).
    { intros i c Hi HOc HG. apply in_seq in Hi. assert (Nc : (nbWires c1 <= nbWires c)%nat) by apply HG.
      rewrite (bind_lift _ _ _ _ (get_nth hR i 0%nat ltac:(lia))), (bind_lift _ _ _ _ (get_nth vL i 0%nat ltac:(lia))).
      assert (B1 : (nth i hR 0 < nbWires c)%nat) by (eapply Nat.lt_le_trans; [apply V2, nth_In; lia|exact Nc]).
      assert (B2 : (nth i vL 0 < nbWires c)%nat) by (eapply Nat.lt_le_trans; [apply XL, nth_In; lia|lia]).
      assert (B3 : (nth i hL 0 < nbWires c)%nat) by (eapply Nat.lt_le_trans; [apply V1, nth_In; lia|exact Nc]).
      assert (B4 : (nth i vR 0 < nbWires c)%nat) by (eapply Nat.lt_le_trans; [apply XR, nth_In; lia|lia]).
      destruct (cAssert_ok c _ _ _ _ HOc (val1_id _ _ B1) (val1_id _ _ B2)) as (c' & Ec & Ic). rewrite (bind_eq _ _ _ _ _ Ec).
      rewrite (bind_lift _ _ _ _ (get_nth hL i 0%nat ltac:(lia))), (bind_lift _ _ _ _ (get_nth vR i 0%nat ltac:(lia))).
      assert (Nc' : (nbWires c <= nbWires c')%nat) by apply (imposes_grows _ _ _ Ic).
      destruct (cAssert_ok c' (nth i hL 0%nat) (nth i vR 0%nat) (fun w => w (nth i hL 0%nat)) (fun w => w (nth i vR 0%nat)) (imposes_ok _ _ _ Ic)
        (val1_id _ _ (Nat.lt_le_trans _ _ _ B3 Nc')) (val1_id _ _ (Nat.lt_le_trans _ _ _ B4 Nc'))) as (c'' & Ec' & Ic').
      exists c''. split; [exact Ec'|]. exact (imposes_trans _ _ _ _ _ Ic Ic'). }
    rewrite (bind_eq _ _ _ _ _ E2). assert (HO2 : cs_ok c2) by apply (imposes_ok _ _ _ I2).
    assert (N2 : (nbWires c1 <= nbWires c2)%nat) by apply (imposes_grows _ _ _ I2).
    destruct (assert_loop (fun i => mbind (lift (get hP i)) (fun p => mbind (lift (get vP i)) (fun ep => cAssertIsEqual p ep)))
      (fun i w => w (nth i hP 0%nat) = w (nth i vP 0%nat)) (seq 0 (length vPr - 2 * 1)) c2 HO2) as (c3 & E3 & I3).
    { intros i c Hi HOc HG. apply in_seq in Hi. assert (Nc : (nbWires c2 <= nbWires c)%nat) by apply HG.
      rewrite (bind_lift _ _ _ _ (get_nth hP i 0%nat ltac:(lia))), (bind_lift _ _ _ _ (get_nth vP i 0%nat ltac:(lia))).
      assert (B1 : (nth i hP 0 < nbWires c)%nat) by (eapply Nat.lt_le_trans; [apply V3, nth_In; lia|lia]).
      assert (B2 : (nth i vP 0 < nbWires c)%nat) by (eapply Nat.lt_le_trans; [apply XQ, nth_In; lia|lia]).
      apply (cAssert_ok c _ _ _ _ HOc (val1_id _ _ B1) (val1_id _ _ B2)). }
    exists c3. split; [exact E3|]. intros claim proof eL eR eP Hpr HeL HeR HeP.
    pose proof (imposes_trans _ _ _ _ _ (imposes_trans _ _ _ _ _ I1 I2) I3) as I.
    set (P := fun w : nat -> F => chain (mch Arks) (w vC) (map (map w) vPr) /\
      firstn 1 (skipn 1 (map (mch Arks) (map (map w) vPr))) = map w vL /\ firstn 1 (map (mch Arks) (map (map w) vPr)) = map w vR /\
      skipn 2 (map (mch Arks) (map (map w) vPr)) = map w vP).
    assert (IP : imposes cs c3 P).
    { apply (imposes_iff _ _ _ _ I). intros w Hw.
      assert (Hw1 : gates_ok w c1) by (apply (grows_gates _ _ _ (imposes_grows _ _ _ I2)), (grows_gates _ _ _ (imposes_grows _ _ _ I3)); exact Hw).
      unfold P. rewrite <- (proj2 V1 w Hw1), <- (proj2 V2 w Hw1). change (skipn 2 (map (mch Arks) (map (map w) vPr))) with (skipn (1 + 1) (map (mch Arks) (map (map w) vPr))).
      rewrite <- (proj2 V3 w Hw1).
      rewrite <- (pointwise w hR vL 1 L2 LVL), <- (pointwise w hL vR 1 L1 LVR), <- (pointwise w hP vP (length vPr - 2 * 1) L3 ltac:(lia)).
      split; [intros [[H1 H2] H3]; repeat split; auto; intros i Hi; apply H2; exact Hi|intros (H1 & H2 & H3 & H4); repeat split; auto]. }
    destruct (solves_at shape cs c3 P ([vC] :: vPr ++ [vL; vR; vP]) ([claim] :: proof ++ [eL; eR; eP]) IP) as (w & W & HS).
    - rewrite LS, <- Ecs. reflexivity.
    - exact WS.
    - rewrite LS. intros w w' Hag (H1 & H2 & H3 & H4). unfold P.
      assert (EPr : map (map w') vPr = map (map w) vPr). { apply map_ext_in. intros r Hr. apply (map_below _ w w' r Hag). apply (proj1 (Forall_forall _ _) VPr r Hr). }
      rewrite EPr, (map_below _ w w' vL Hag XL), (map_below _ w w' vR Hag XR), (map_below _ w w' vP Hag XQ), <- (Hag vC (VC vC (or_introl eq_refl))). auto.
    - unfold shape. cbn [map]. rewrite !map_app, LPr, Hpr. cbn [map length]. rewrite HeL, HeR, HeP, repeat_length. reflexivity.
    - rewrite HS. cbn [map] in W. rewrite map_app in W. injection W as W1 W2.
      apply app_inj_len in W2; [|rewrite map_length, LvPr, <- (map_length (@length _) proof), Hpr; cbn [length]; rewrite repeat_length; reflexivity].
      destruct W2 as [W2 W3]. cbn [map] in W3. injection W3 as W3 W4 W5. unfold P. rewrite W1, W2, W3, W4, W5.
      assert (NP : ~ In [] proof).
      { intros H. apply (in_map (@length _)) in H. rewrite Hpr in H. cbn [length] in H. destruct H as [H|[H|H]]; try lia. apply repeat_spec in H. lia. }
      change (challenge Arks) with (mch Arks).
      split.
      + intros (H1 & H2 & H3 & H4). exists (final (mch Arks) claim proof). apply Verify_accept. rewrite (answers_chain Arks).
        split; [split; [exact NP|split; [exact H1|reflexivity]]|]. split; [exact HeR|]. split; [exact HeL|]. rewrite <- H2, <- H3, <- H4.
        destruct (map (mch Arks) proof) as [|a [|b l]]; reflexivity.
      + intros (last' & EV). apply Verify_accept in EV. rewrite (answers_chain Arks) in EV. destruct EV as ((_ & H1 & _) & H2 & H3 & H4).
        split; [exact H1|]. rewrite H4. destruct eR as [|a [|]]; try discriminate. destruct eL as [|b [|]]; try discriminate. repeat split.
  Qed.
End L.

(** TestSumcheckCircuit for every bN: the witness of the test prover solves the circuit. *)
Lemma SumcheckTest_ok (Arks : list Fr) bN cs vC vPr vL vR vP : 91 <= length Arks ->
  SumcheckCompile bN 1 2 8 8 = (cs, (vC, vPr, vL, vR, vP)) ->
  exists cs' s firstClaim proof qPrime qL qR fc fin w c p l r q,
    SumcheckDefine Arks vC vPr vL vR vP cs = Some (tt, cs') /\
    InitializeProverForTests bN = Some s /\ GetClaim s = Some firstClaim /\ Prove (challenge Arks) s = Some (proof, qPrime, qL, qR, fc) /\
    Verify (challenge Arks) firstClaim proof bN 1 = Some (Accept qPrime qL qR fin) /\
    SumcheckWitness bN 1 2 8 8 firstClaim proof qR qL qPrime = Some w /\ w = (c, p, l, r, q) /\
    solves cs' ([vC] :: vPr ++ [vL; vR; vP]) ([c] :: p ++ [l; r; q]).
Proof.
  intros HA EC. destruct (SumcheckDefine_ok Arks bN 2 8 8 cs vC vPr vL vR vP HA EC) as (cs' & E1 & HS).
  destruct (test_multi_threaded (challenge Arks) bN 0 1 1 bN ltac:(lia) ltac:(lia) ltac:(lia))
    as (pp & s & claim & proof & qP & qL & qR & fc & fin & _ & Es & Ec & _ & Ep & _ & _ & EV & HL & HD).
  pose proof EV as EV'. apply Verify_accept in EV'. destruct EV' as (_ & LL & LR & LQ).
  assert (LP : length qP = bN).
  { apply (f_equal (@length _)) in LQ. rewrite !app_length, map_length in LQ. lia. }
  exists cs', s, claim, proof, qP, qL, qR, fc, fin. do 6 eexists.
  split; [exact E1|]. split; [exact Es|]. split; [exact Ec|]. split; [exact Ep|]. split; [exact EV|].
  split; [|split; [reflexivity|]].
  - unfold SumcheckWitness. cbn [assignVar].
    assert (FR : fresh (SAllocateSumcheck (F:=Fr) bN 1 2 8 8)).
    { intros u Hu. unfold SAllocateSumcheck in Hu. apply in_app_or in Hu. destruct Hu as [Hu|Hu]; [|apply in_app_or in Hu; destruct Hu as [Hu|Hu]];
        apply repeat_spec in Hu; eexists; exact Hu. }
    rewrite (SSumcheckAssign_ok _ proof FR).
    2:{ rewrite HD. unfold SAllocateSumcheck. cbn [repeat app map]. do 2 f_equal. clear. induction bN as [|k IH]; [reflexivity|]. cbn [repeat map]. rewrite IH. reflexivity. }
    rewrite LR, LP.
    match goal with |- match ?X with _ => _ end = _ => assert (EX : X = Some (map Some qR, map Some qL)) end.
    { destruct qR as [|a [|]]; try discriminate. destruct qL as [|b [|]]; try discriminate. reflexivity. }
    rewrite EX.
    match goal with |- match ?X with _ => _ end = _ => assert (EY : X = Some (map Some qP)) end.
    { rewrite <- (prow_full qP bN LP), <- (assign1_fill bN bN (fun i => nth i qP 0%F)) by lia. unfold forN. apply foldM_ext. intros l i Hi.
      apply in_seq in Hi. rewrite (get_nth qP i 0%F) by lia. reflexivity. }
    rewrite EY. reflexivity.
  - pose proof (HS claim proof qR qL qP) as H. cbn [map] in H. rewrite map_app in H. cbn [map] in H. apply H; auto.
    exists fin. exact EV.
Qed.
