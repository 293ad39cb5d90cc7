(** The GKR verifier in a circuit against the native one. *)
From Coq Require Import List Arith Lia Bool Ring Field.
From Verif Require Import Field Go MCommon Spec LSpec LCommon MPoly LPoly LPoly2 MHash SpecHash LHash MCircuit SpecCircuit LCircuit LCircuit2 LCircuit3
  MSumcheck LSumcheck SpecSumcheck LSumcheck4 MSumPar MGkr SpecGkr LGkr LGkr2 LGkr3 MSnark SpecSnark LSnark LSnark2 LSnark3 LSnark4.
Import ListNotations.

Section L.
  Context {F : Field}.
  Add Field FfieldSnark5 : (f_theory F).
  Open Scope F_scope.

  Lemma Verify_chain ch (v : F) sp bN b : ~ In [] sp -> (2 * b <= length sp)%nat ->
    (Verify ch v sp bN b = Some Reject /\ ~ chain ch v sp) \/
    (Verify ch v sp bN b = Some (Accept (skipn (b + b) (map ch sp)) (firstn b (map ch sp)) (firstn b (skipn b (map ch sp))) (final ch v sp)) /\ chain ch v sp).
  Proof.
    intros HN HL. assert (HV : forall qP qL qR fin, Verify ch v sp bN b = Some (Accept qP qL qR fin) -> chain ch v sp).
    { intros qP qL qR fin H. apply Verify_accept in H. destruct H as (HA & _). apply (answers_chain []) in HA. tauto. }
    assert (HC : chain ch v sp -> Verify ch v sp bN b = Some (Accept (skipn (b + b) (map ch sp)) (firstn b (map ch sp)) (firstn b (skipn b (map ch sp))) (final ch v sp))).
    { intros H. apply Verify_accept. split; [apply (answers_chain []); auto|].
      rewrite !firstn_length, skipn_length, map_length. split; [lia|]. split; [lia|].
      rewrite <- skipn_add, (firstn_skipn b (skipn b _)), firstn_skipn. reflexivity. }
    destruct (Verify ch v sp bN b) as [[|qP qL qR fin]|] eqn:E.
    - left. split; [reflexivity|]. intros H. apply HC in H. discriminate.
    - right. pose proof (HV _ _ _ _ eq_refl) as H. split; [|exact H]. apply HC. exact H.
    - exfalso. apply Verify_panic in E. destruct E as [(pre & post & e & EQ & _)|[EL _]].
      + apply HN. rewrite EQ. apply in_or_app. right. left. reflexivity.
      + lia.
  Qed.

  (** One layer of the native verifier. *)
  Lemma verify_step ch (c : list (Layer F)) bN pf j l qP qL qR z cl cr vl vr sp : nth_error c j = Some l -> wf_layer l ->
    nth_error (ClaimsLeft pf) (S j) = Some cl -> nth_error (ClaimsRight pf) (S j) = Some cr ->
    nth_error (ClaimsLeft pf) j = Some vl -> nth_error (ClaimsRight pf) j = Some vr ->
    nth_error (SumcheckProofs pf) j = Some sp -> ~ In [] sp -> length sp = (2 * lBGInputs l + bN)%nat ->
    length qP = bN -> length qL = lBGOutputs l -> length qR = lBGOutputs l ->
    let b := lBGInputs l in
    let lam := ch [cl; cr] in
    let claim := cr * lam + cl in
    let hL := firstn b (map ch sp) in
    let hR := firstn b (skipn b (map ch sp)) in
    let hP := skipn (b + b) (map ch sp) in
    verifyLayers ch false c bN pf (S j) qP qL qR = Some (inr z) <->
    chain ch claim sp /\
    final ch claim sp = sumn (length (lGates l)) (fun i => (1 * mle (nth i (stab l qL) []) (hL ++ hR) + lam * mle (nth i (stab l qR) []) (hL ++ hR))
      * geval (nth i (lGates l) agate) vl vr) * eqprod qP hP /\
    verifyLayers ch false c bN pf j hP hL hR = Some (inr z).
  Proof.
    intros El Hwf E1 E2 E3 E4 E5 HN HL HP HqL HqR b lam claim hL hR hP.
    cbn [verifyLayers]. replace (j + 1)%nat with (S j) by lia. unfold get. rewrite E1, E2, E3, E4, E5, El. cbv zeta.
    fold lam. fold claim.
    destruct (Verify_chain ch claim sp bN b HN) as [[EV HC]|[EV HC]]; [unfold b; lia| |].
    - fold b. rewrite EV. split; [discriminate|tauto].
    - fold b. rewrite EV. fold hL hR hP.
      assert (LhP : length hP = bN) by (unfold hP; rewrite skipn_length, map_length; unfold b; lia).
      assert (LhL : length hL = b) by (unfold hL; rewrite firstn_length, map_length; unfold b; lia).
      assert (LhR : length hR = b) by (unfold hR; rewrite firstn_length, skipn_length, map_length; unfold b; lia).
      rewrite EvalEq_spec by lia.
      destruct (native_combineLC l Hwf qL qR hL hR lam vl vr (eqprod qP hP) HqL HqR LhL LhR) as (sts & Es & Ec).
      rewrite Es, Ec.
      match goal with |- context [feqb ?x ?y] => destruct (feqb_spec F x y) as [Eq|Ne] end.
      + split; [intros H; auto|tauto].
      + split; [discriminate|tauto].
  Qed.

  Section Gkr.
    Variable Arks : list F.
    Hypothesis Hlen : (91 <= length Arks)%nat.
    Variable sc : list (SLayer F).
    Variable c : list (Layer F).
    Variable bN : nat.
    Variable p : SProof nat.
    Hypothesis Hdesc : Forall2 describes sc c.
    Hypothesis Hwf : forall l, In l c -> wf_layer l.
    Variable b0 : nat.
    Hypothesis Hfits : fits b0 c.
    (** shape of the variables of the proof *)
    Hypothesis HpL : length (sLeft p) = length c.
    Hypothesis HpR : length (sRight p) = length c.
    Hypothesis HpS : length (sSumchecks p) = length c.
    Hypothesis HpP : forall j l sp, nth_error c j = Some l -> nth_error (sSumchecks p) j = Some sp ->
      length sp = (2 * lBGInputs l + bN)%nat /\ ~ In [] sp.
    Definition pvars (cs : CS F) : Prop :=
      vars cs (sLeft p) /\ vars cs (sRight p) /\ forall sp, In sp (sSumchecks p) -> Forall (vars cs) sp.
    Notation ch := (mch Arks).

    Lemma vars_grows (cs cs' : CS F) l : grows cs cs' -> vars cs l -> vars cs' l.
    Proof. intros (H & _) Hv v Hi. specialize (Hv v Hi). lia. Qed.
    Lemma pvars_grows (cs cs' : CS F) : grows cs cs' -> pvars cs -> pvars cs'.
    Proof.
      intros HG (H1 & H2 & H3). split; [|split]; try (eapply vars_grows; eauto).
      intros sp Hs. eapply Forall_impl; [|exact (H3 sp Hs)]. intros l. apply vars_grows. exact HG.
    Qed.
    Lemma read_left (w : nat -> F) j : nth_error (ClaimsLeft (read_proof w p)) j = option_map w (nth_error (sLeft p) j).
    Proof. unfold read_proof. cbn [ClaimsLeft]. apply nth_error_map. Qed.
    Lemma read_right (w : nat -> F) j : nth_error (ClaimsRight (read_proof w p)) j = option_map w (nth_error (sRight p) j).
    Proof. unfold read_proof. cbn [ClaimsRight]. apply nth_error_map. Qed.
    Lemma read_sumchecks (w : nat -> F) j : nth_error (SumcheckProofs (read_proof w p)) j = option_map (map (map w)) (nth_error (sSumchecks p) j).
    Proof. unfold read_proof. cbn [SumcheckProofs]. apply nth_error_map. Qed.
    Lemma nth_some {A} (l : list A) j d : (j < length l)%nat -> nth_error l j = Some (nth j l d).
    Proof. apply nth_error_nth'. Qed.
    Lemma map_no_nil (w : nat -> F) sp : ~ In [] sp -> ~ In [] (map (map w) sp).
    Proof. intros HN H. apply in_map_iff in H. destruct H as (l & H & Hl). destruct l; [tauto|discriminate]. Qed.

    Lemma layers_gadget l0 : nth_error c 0 = Some l0 -> forall todo (cs : CS F) l hL hR hP fL fR fP,
      nth_error c todo = Some l -> cs_ok cs -> pvars cs -> vals cs hL fL -> vals cs hR fR -> vals cs hP fP ->
      length hL = lBGInputs l -> length hR = lBGInputs l -> length hP = bN ->
      exists hL' hR' hP' gL gR gP cs', mfold (SAssertLayer Arks sc p) (rev (seq 0 todo)) (hL, hR, hP) cs = Some ((hL', hR', hP'), cs') /\
        imposes cs cs' (fun w => verifyLayers ch false c bN (read_proof w p) todo (fP w) (fL w) (fR w) = Some (inr (gP w, gL w, gR w))) /\
        vals cs' hL' gL /\ vals cs' hR' gR /\ vals cs' hP' gP /\
        length hL' = lBGInputs l0 /\ length hR' = lBGInputs l0 /\ length hP' = bN /\
        forall w z, gates_ok w cs' -> verifyLayers ch false c bN (read_proof w p) todo (fP w) (fL w) (fR w) = Some (inr z) -> z = (gP w, gL w, gR w).
    Proof.
      intros Hl0. induction todo as [|j IH]; intros cs l hL hR hP fL fR fP El HO HV VL VR VP LL LR LP.
      - rewrite Hl0 in El. injection El as <-. exists hL, hR, hP, fL, fR, fP, cs. split; [reflexivity|].
        split; [apply (imposes_iff _ _ _ _ (computes_imposes _ _ (computes_refl _ HO))); intros w _; cbn [verifyLayers]; tauto|].
        do 6 (split; [assumption|]). intros w z _ H. cbn [verifyLayers] in H. injection H as <-. reflexivity.
      - rewrite seq_S, rev_app_distr. cbn [rev app Nat.add mfold].
        assert (Hj : (S j < length c)%nat) by (apply nth_error_Some; congruence).
        destruct (nth_error c j) as [l'|] eqn:El'; [|apply nth_error_None in El'; lia].
        pose proof (fits_next c b0 j l' l Hfits El' El) as HB.
        pose proof (Hwf l' (nth_error_In _ _ El')) as Hw'.
        destruct (nth_error sc j) as [sl|] eqn:Esl.
        2:{ apply nth_error_None in Esl. rewrite (Forall2_len _ _ _ Hdesc) in Esl. lia. }
        destruct (Forall2_nth _ _ _ _ _ Hdesc Esl) as (l2 & El2 & Hd). rewrite El' in El2. injection El2 as <-.
        pose proof HV as (W1 & W2 & W3).
        pose proof (vals_nth _ _ _ (S j) (vals_map _ _ W1) ltac:(lia)) as Vcl.
        pose proof (vals_nth _ _ _ (S j) (vals_map _ _ W2) ltac:(lia)) as Vcr.
        pose proof (vals_nth _ _ _ j (vals_map _ _ W1) ltac:(lia)) as Vvl.
        pose proof (vals_nth _ _ _ j (vals_map _ _ W2) ltac:(lia)) as Vvr.
        destruct (nth_error (sSumchecks p) j) as [sp|] eqn:Esp; [|apply nth_error_None in Esp; lia].
        destruct (HpP j l' sp El' Esp) as [Lsp Nsp].
        pose proof (computes_refl _ HO) as HC. pose proof HV as HV0.
        destruct (cConstant_ok cs 1 HO) as (lamL & s1 & X1 & C1 & VlamL). adv C1.
        destruct (SMimcHash_ok Arks Hlen _ _ _ HO (vals_cons _ _ _ _ _ Vcl (vals_cons _ _ _ _ _ Vcr (vals_nil _)))) as (lamR & s2 & X2 & C2 & VlamR). adv C2.
        destruct (cMul_ok _ _ _ _ _ HO VlamR Vcr) as (t & s3 & X3 & C3 & Vt). adv C3.
        destruct (cAdd2_ok _ _ _ _ _ HO Vcl Vt) as (claim & s4 & X4 & C4 & Vclaim). adv C4.
        destruct (SSumcheck_ok Arks Hlen s4 sp claim (sBG sl) _ HO Vclaim) as (hL' & hR' & hP' & last & s5 & X5 & I5 & (L1 & L2 & L3) & VL' & VR' & VP' & Vlast).
        { destruct (pvars_grows cs s4 (computes_grows _ _ HC) HV) as (_ & _ & W3'). apply W3'. exact (nth_error_In _ _ Esp). }
        { exact Nsp. } { rewrite (proj1 Hd). lia. }
        rewrite (proj1 Hd) in L1, L2, L3, VL', VR', VP'. advI I5.
        destruct (SCombineLC_ok sl l' Hd s5 hL hR hP hL' hR' hP' lamL lamR (nth j (sLeft p) 0%nat) (nth j (sRight p) 0%nat) _ _ _ _ _ _ _ _ _ _ HO
          VL VR VP VL' VR' VP' VlamL VlamR Vvl Vvr) as (act & s6 & X6 & C6 & Vact); try lia. adv C6.
        destruct (cAssert_ok _ _ _ _ _ HO Vlast Vact) as (s7 & X7 & I7). advI I7.
        destruct (IH s7 l' hL' hR' hP' _ _ _ eq_refl HO (pvars_grows cs s7 (imposes_grows _ _ _ HC) HV) VL' VR' VP') as (zL & zR & zP & gL & gR & gP & s8 & X8 & I8 & VzL & VzR & VzP & LzL & LzR & LzP & Huniq); try lia.
        exists zL, zR, zP, gL, gR, gP, s8. split.
        { erewrite bind_eq; [exact X8|]. unfold SAssertLayer. rewrite (bind_eq _ _ _ _ _ X1).
          rewrite Nat.add_1_r.
          rewrite (bind_lift _ _ _ _ (nth_some (sLeft p) (S j) 0%nat ltac:(lia))), (bind_lift _ _ _ _ (nth_some (sRight p) (S j) 0%nat ltac:(lia))).
          rewrite (bind_eq _ _ _ _ _ X2), (bind_eq _ _ _ _ _ X3), (bind_eq _ _ _ _ _ X4).
          rewrite (bind_lift _ _ _ _ Esp), (bind_lift _ _ _ _ Esl), (bind_eq _ _ _ _ _ X5).
          rewrite (bind_lift _ _ _ _ (nth_some (sLeft p) j 0%nat ltac:(lia))), (bind_lift _ _ _ _ (nth_some (sRight p) j 0%nat ltac:(lia))).
          rewrite (bind_eq _ _ _ _ _ X6), (bind_eq _ _ _ _ _ X7). reflexivity. }
        pose proof (imposes_trans _ _ _ _ _ HC I8) as HI. advI I8. clear HC.
        assert (Hstep : forall w z, gates_ok w s8 -> verifyLayers ch false c bN (read_proof w p) (S j) (fP w) (fL w) (fR w) = Some (inr z) <->
          ((True /\ chain ch (w (nth (S j) (sLeft p) 0%nat) + mch Arks [w (nth (S j) (sLeft p) 0%nat); w (nth (S j) (sRight p) 0%nat)] * w (nth (S j) (sRight p) 0%nat)) (map (map w) sp)) /\
           final ch (w (nth (S j) (sLeft p) 0%nat) + mch Arks [w (nth (S j) (sLeft p) 0%nat); w (nth (S j) (sRight p) 0%nat)] * w (nth (S j) (sRight p) 0%nat)) (map (map w) sp) =
           sumn (length (lGates l')) (fun i => (1 * mle (nth i (stab l' (fL w)) []) (firstn (lBGInputs l') (map ch (map (map w) sp)) ++ firstn (lBGInputs l') (skipn (lBGInputs l') (map ch (map (map w) sp)))) +
             mch Arks [w (nth (S j) (sLeft p) 0%nat); w (nth (S j) (sRight p) 0%nat)] * mle (nth i (stab l' (fR w)) []) (firstn (lBGInputs l') (map ch (map (map w) sp)) ++ firstn (lBGInputs l') (skipn (lBGInputs l') (map ch (map (map w) sp))))) *
             geval (nth i (lGates l') agate) (w (nth j (sLeft p) 0%nat)) (w (nth j (sRight p) 0%nat))) * eqprod (fP w) (skipn (lBGInputs l' + lBGInputs l') (map ch (map (map w) sp)))) /\
          verifyLayers ch false c bN (read_proof w p) j (skipn (lBGInputs l' + lBGInputs l') (map ch (map (map w) sp)))
            (firstn (lBGInputs l') (map ch (map (map w) sp))) (firstn (lBGInputs l') (skipn (lBGInputs l') (map ch (map (map w) sp)))) = Some (inr z)).
        { intros w z Hw.
        assert (QL : length (fL w) = lBGOutputs l') by (rewrite (vals_length _ _ _ _ VL Hw); lia).
        assert (QR : length (fR w) = lBGOutputs l') by (rewrite (vals_length _ _ _ _ VR Hw); lia).
        assert (QP : length (fP w) = bN) by (rewrite (vals_length _ _ _ _ VP Hw); lia).
        rewrite (verify_step ch c bN (read_proof w p) j l' (fP w) (fL w) (fR w) _ (w (nth (S j) (sLeft p) 0%nat)) (w (nth (S j) (sRight p) 0%nat))
          (w (nth j (sLeft p) 0%nat)) (w (nth j (sRight p) 0%nat)) (map (map w) sp)); auto.
        2,3,4,5: rewrite ?read_left, ?read_right; erewrite nth_some by lia; reflexivity.
        2: rewrite read_sumchecks, Esp; reflexivity.
        2: apply map_no_nil; exact Nsp.
        2: rewrite map_length; exact Lsp.
        cbv zeta.
        set (cl := w (nth (S j) (sLeft p) 0%nat)). set (cr := w (nth (S j) (sRight p) 0%nat)).
        replace (cl + mch Arks [cl; cr] * cr) with (cr * mch Arks [cl; cr] + cl) by ring.
        tauto. }
        split; [|do 6 (split; [assumption|]); intros w z Hw H; apply (Huniq w z Hw); apply (Hstep w z Hw); exact H].
        apply (imposes_iff _ _ _ _ HI). intros w Hw. rewrite (Hstep w _ Hw).
        assert (N1 : forall i, (i < length c)%nat -> nth i (map w (sLeft p)) 0 = w (nth i (sLeft p) 0%nat)) by (intros i Hi; apply nth_map_lt; lia).
        assert (N2 : forall i, (i < length c)%nat -> nth i (map w (sRight p)) 0 = w (nth i (sRight p) 0%nat)) by (intros i Hi; apply nth_map_lt; lia).
        rewrite !N1, !N2 by lia. tauto.
    Qed.

    Lemma SGkr_ok (cs : CS F) l qI qPI vIn vOut : length c = 91%nat -> nth_error c 90 = Some l -> cs_ok cs -> pvars cs ->
      vars cs qI -> vars cs qPI -> vars cs vIn -> vars cs vOut -> length qI = lBGOutputs l -> length qPI = bN ->
      length vOut = (2 ^ (lBGOutputs l + bN))%nat -> length vIn = (2 ^ (b0 + bN))%nat ->
      exists cs', SGkrAssertValid Arks p sc qI qPI vIn vOut cs = Some (tt, cs') /\
        imposes cs cs' (fun w => accepted ch false c bN (read_proof w p) (map w qI) (map w qPI) (map w vOut) (map w vIn)).
    Proof.
      intros Hc El HO HV HqI HqPI HvI HvO LqI LqPI LvO LvI.
      destruct (nth_error c 0) as [l0|] eqn:El0; [|apply nth_error_None in El0; lia].
      assert (Hb0 : lBGInputs l0 = b0) by (clear - El0 Hfits; destruct c; [discriminate|]; injection El0 as ->; exact (proj1 Hfits)).
      pose proof (Hwf l (nth_error_In _ _ El)) as Hw'.
      destruct (nth_error sc 90) as [sl|] eqn:Esl.
      2:{ apply nth_error_None in Esl. rewrite (Forall2_len _ _ _ Hdesc) in Esl. lia. }
      destruct (Forall2_nth _ _ _ _ _ Hdesc Esl) as (l2 & El2 & Hd). rewrite El in El2. injection El2 as <-.
      pose proof HV as (W1 & W2 & W3).
      pose proof (vals_nth _ _ _ 90 (vals_map _ _ W1) ltac:(lia)) as Vvl.
      pose proof (vals_nth _ _ _ 90 (vals_map _ _ W2) ltac:(lia)) as Vvr.
      pose proof (vals_nth _ _ _ 0 (vals_map _ _ W1) ltac:(lia)) as Vvl0.
      pose proof (vals_nth _ _ _ 0 (vals_map _ _ W2) ltac:(lia)) as Vvr0.
      destruct (nth_error (sSumchecks p) 90) as [sp|] eqn:Esp; [|apply nth_error_None in Esp; lia].
      destruct (HpP 90 l sp El Esp) as [Lsp Nsp].
      apply vals_map in HqI. apply vals_map in HqPI. apply vals_map in HvI. apply vals_map in HvO.
      pose proof (computes_refl _ HO) as HC.
      destruct (SEval_mle cs vOut (qI ++ qPI) _ _ HO HvO (vals_app _ _ _ _ _ HqI HqPI)) as (claim & s1 & X1 & C1 & Vclaim).
      { rewrite app_length, LqI, LqPI. exact LvO. }
      adv C1.
      destruct (SSumcheck_ok Arks Hlen s1 sp claim (sBG sl) _ HO Vclaim) as (hL' & hR' & hP' & last & s5 & X5 & I5 & (L1 & L2 & L3) & VL' & VR' & VP' & Vlast).
      { destruct (pvars_grows cs s1 (computes_grows _ _ HC) HV) as (_ & _ & W3'). apply W3'. exact (nth_error_In _ _ Esp). }
      { exact Nsp. } { rewrite (proj1 Hd). lia. }
      rewrite (proj1 Hd) in L1, L2, L3, VL', VR', VP'. advI I5.
      destruct (SCombine_ok sl l Hd s5 qI qPI hL' hR' hP' (nth 90 (sLeft p) 0%nat) (nth 90 (sRight p) 0%nat) _ _ _ _ _ _ _ HO
        HqI HqPI VL' VR' VP' Vvl Vvr) as (act & s6 & X6 & C6 & Vact); try lia. adv C6.
      destruct (cAssert_ok _ _ _ _ _ HO Vlast Vact) as (s7 & X7 & I7). advI I7.
      destruct (layers_gadget l0 El0 90 s7 l hL' hR' hP' _ _ _ El HO (pvars_grows cs s7 (imposes_grows _ _ _ HC) HV) VL' VR' VP') as (zL & zR & zP & gL & gR & gP & s8 & X8 & I8 & VzL & VzR & VzP & LzL & LzR & LzP & Huniq); try lia.
      advI I8. pose proof (computes_refl _ HO) as HC8.
      destruct (SEvalMixed_ok s8 vIn zL zR zP _ _ _ _ HO HvI VzL VzR VzP) as (eL & eR & s9 & X9 & C9 & VeL & VeR); [lia|rewrite LzL, LzP, Hb0; exact LvI|].
      adv C9.
      destruct (cAssert_ok _ _ _ _ _ HO VeL Vvl0) as (s10 & X10 & I10). advI I10.
      destruct (cAssert_ok _ _ _ _ _ HO VeR Vvr0) as (s11 & X11 & I11). advI I11.
      exists s11. split.
      { unfold SGkrAssertValid. change (MimcRounds - 1)%nat with 90%nat. cbv zeta.
        rewrite (bind_eq _ _ _ _ _ X1), (bind_lift _ _ _ _ Esp), (bind_lift _ _ _ _ Esl), (bind_eq _ _ _ _ _ X5).
        rewrite (bind_lift _ _ _ _ (nth_some (sLeft p) 90 0%nat ltac:(lia))), (bind_lift _ _ _ _ (nth_some (sRight p) 90 0%nat ltac:(lia))).
        rewrite (bind_eq _ _ _ _ _ X6), (bind_eq _ _ _ _ _ X7), (bind_eq _ _ _ _ _ X8).
        rewrite (bind_lift _ _ _ _ (nth_some (sLeft p) 0 0%nat ltac:(lia))), (bind_lift _ _ _ _ (nth_some (sRight p) 0 0%nat ltac:(lia))).
        rewrite (bind_eq _ _ _ _ _ X9), (bind_eq _ _ _ _ _ X10). exact X11. }
      apply (imposes_iff _ _ _ _ HC). intros w Hw.
      assert (N1 : forall i, (i < length c)%nat -> nth i (map w (sLeft p)) 0 = w (nth i (sLeft p) 0%nat)) by (intros i Hi; apply nth_map_lt; lia).
      assert (N2 : forall i, (i < length c)%nat -> nth i (map w (sRight p)) 0 = w (nth i (sRight p) 0%nat)) by (intros i Hi; apply nth_map_lt; lia).
      rewrite !N1, !N2 by lia.
      assert (QI : length (map w qI) = lBGOutputs l) by (rewrite map_length; exact LqI).
      assert (QL : length (firstn (lBGInputs l) (map ch (map (map w) sp))) = lBGInputs l) by (rewrite firstn_length, !map_length; lia).
      assert (QR : length (firstn (lBGInputs l) (skipn (lBGInputs l) (map ch (map (map w) sp)))) = lBGInputs l) by (rewrite firstn_length, skipn_length, !map_length; lia).
      destruct (native_combine l Hw' (map w qI) _ _ (w (nth 90 (sLeft p) 0%nat)) (w (nth 90 (sRight p) 0%nat))
        (eqprod (map w qPI) (skipn (lBGInputs l + lBGInputs l) (map ch (map (map w) sp)))) QI QL QR) as (sts & Es & Ec).
      assert (GL : length (gL w) = b0) by (rewrite (vals_length _ _ _ _ VzL Hw); lia).
      assert (GR : length (gR w) = b0) by (rewrite (vals_length _ _ _ _ VzR Hw); lia).
      assert (GP : length (gP w) = bN) by (rewrite (vals_length _ _ _ _ VzP Hw); lia).
      assert (E1 : nth_error (SumcheckProofs (read_proof w p)) 90 = Some (map (map w) sp)) by (rewrite read_sumchecks, Esp; reflexivity).
      assert (E2 : nth_error (ClaimsLeft (read_proof w p)) 90 = Some (w (nth 90 (sLeft p) 0%nat))) by (rewrite read_left; erewrite nth_some by lia; reflexivity).
      assert (E3 : nth_error (ClaimsRight (read_proof w p)) 90 = Some (w (nth 90 (sRight p) 0%nat))) by (rewrite read_right; erewrite nth_some by lia; reflexivity).
      assert (E4 : nth_error (ClaimsLeft (read_proof w p)) 0 = Some (w (nth 0 (sLeft p) 0%nat))) by (rewrite read_left; erewrite nth_some by lia; reflexivity).
      assert (E5 : nth_error (ClaimsRight (read_proof w p)) 0 = Some (w (nth 0 (sRight p) 0%nat))) by (rewrite read_right; erewrite nth_some by lia; reflexivity).
      pose proof (Verify_chain ch (mle (map w vOut) (map w qI ++ map w qPI)) (map (map w) sp) bN (lBGInputs l)) as HVC.
      specialize (HVC ltac:(apply map_no_nil; exact Nsp) ltac:(rewrite map_length; lia)).
      assert (H90 : (length c - 1 = 90)%nat) by lia.
      split.
      - intros H. destruct HVC as [[_ NC]|[EV CC]]; [tauto|].
        unfold accepted. rewrite H90.
        exists l, (map (map w) sp). eexists. eexists. eexists. eexists. eexists. eexists. exists sts, (gP w), (gL w), (gR w).
        split; [exact El|]. split; [exact E1|]. split; [exact EV|].
        split; [rewrite skipn_length, !map_length; lia|]. split; [exact E2|]. split; [exact E3|]. split; [exact Es|].
        split; [rewrite Ec; f_equal; symmetry; tauto|]. split; [tauto|]. split; [exact GP|]. split; [lia|].
        split; [rewrite GL, map_length; lia|]. rewrite E4, E5. split; f_equal; symmetry; tauto.
      - unfold accepted. rewrite H90.
        intros (l' & sp' & qP' & qL' & qR' & tot & vl & vr & sts' & zP' & zL' & zR' & A1 & A2 & A3 & A4 & A5 & A6 & A7 & A8 & A9 & A10 & A11 & A12 & A13 & A14).
        rewrite El in A1. injection A1 as <-. rewrite E1 in A2. injection A2 as <-. rewrite E2 in A5. injection A5 as <-.
        rewrite E3 in A6. injection A6 as <-.
        destruct HVC as [[EV NC]|[EV CC]]; rewrite EV in A3; [discriminate|]. injection A3 as <- <- <- <-.
        rewrite Es in A7. injection A7 as <-. rewrite Ec in A8. injection A8 as A8.
        rewrite E4 in A13. injection A13 as A13. rewrite E5 in A14. injection A14 as A14.
        pose proof (Huniq w _ (grows_gates _ _ _ (imposes_grows _ _ _ HC8) Hw) A9) as Hz.
        injection Hz as -> -> ->. auto 20.
    Qed.
  End Gkr.
End L.
