(** Lemmas about the repaired program: the verifier. *)
From Coq Require Import List Arith Lia Bool.
From Verif Require Import Field Go MCommon Spec LSpec LCommon MPoly LPoly LPoly2 LPoly3 Trans MCircuit SpecCircuit LCircuit LCircuit2
  LCircuit3 MSumcheck LSumcheck SpecSumcheck LSumcheck4 LSumcheck5 MSumPar SpecSumPar LSumPar4 MGkr SpecGkr LGkr LGkr2 LGkr3 LGkr4
  SpecProof MRepair SpecRepair LRepair.
Import ListNotations.

Section L.
  Context {F : Field}.
  Add Field FfieldRepair2 : (f_theory F).
  Open Scope F_scope.
  Variable ch : list F -> F.

  Lemma roundLengths_eq (l : Layer F) bN : roundLengths l bN = coefficients l bN.
  Proof.
    unfold roundLengths. rewrite degs_fold. unfold coefficients. rewrite !Nat.max_0_l.
    replace (maxHL (lGates l) + 2)%nat with (maxHL (lGates l) + 1 + 1)%nat by lia.
    replace (maxHR (lGates l) + 2)%nat with (maxHR (lGates l) + 1 + 1)%nat by lia.
    replace (maxHP (lGates l) + 2)%nat with (maxHP (lGates l) + 1 + 1)%nat by lia. reflexivity.
  Qed.

  Lemma shapeOK_iff bN (c : list (Layer F)) pf : shapeOK bN c pf = true <-> exact_shape c bN pf.
  Proof.
    unfold shapeOK, exact_shape. rewrite !andb_true_iff, !Nat.eqb_eq, forallb_forall. split.
    - intros (((H1 & H2) & H3) & H4). repeat (split; [assumption|]). intros j l Hl.
      assert (Hj : (j < length c)%nat) by (apply nth_error_Some; congruence).
      specialize (H4 (l, nth j (SumcheckProofs pf) [])).
      cbv beta iota in H4. destruct (list_eq_dec Nat.eq_dec (map (@length F) (nth j (SumcheckProofs pf) [])) (roundLengths l bN)) as [E|E]; [rewrite E; apply roundLengths_eq|].
      exfalso. enough (false = true) by discriminate. apply H4.
      apply (nth_error_In _ j). rewrite <- (nth_error_nth c j l Hl) at 1. rewrite <- combine_nth by congruence.
      apply nth_error_nth'. rewrite combine_length. lia.
    - intros (H1 & H2 & H3 & H4). repeat (split; [assumption|]). repeat split; auto.
      intros [l sp] Hin. destruct (list_eq_dec Nat.eq_dec (map (@length F) sp) (roundLengths l bN)) as [E|E]; [reflexivity|]. exfalso. apply E. rewrite roundLengths_eq.
      apply (In_nth _ _ (l, sp)) in Hin. destruct Hin as (j & Hj & Ej). rewrite combine_nth in Ej by congruence. injection Ej as Ej1 Ej2.
      rewrite combine_length in Hj. assert (Hc : (j < length c)%nat) by lia.
      specialize (H4 j l). rewrite (nth_error_nth' c l Hc), Ej1 in H4. rewrite <- (H4 eq_refl). rewrite <- Ej2. f_equal. apply nth_indep. lia.
  Qed.

  Lemma exact_shape_shape (c : list (Layer F)) bN pf : exact_shape c bN pf -> proof_shape c bN pf.
  Proof.
    intros (H1 & H2 & H3 & H4). repeat (split; [assumption|]). intros j l sp Hl Hsp. specialize (H4 j l Hl).
    rewrite (nth_error_nth _ _ [] Hsp) in H4. split.
    - apply (f_equal (@length nat)) in H4. unfold coefficients in H4. rewrite map_length, !app_length, !repeat_length in H4. lia.
    - intros Hn. apply (in_map (@length F)) in Hn. rewrite H4 in Hn. unfold coefficients in Hn. rewrite !in_app_iff in Hn.
      cbn [length] in Hn. destruct Hn as [Hn|[Hn|Hn]]; apply repeat_spec in Hn; lia.
  Qed.

  Lemma tabs_chunked k m b (t : list (list F)) : chunked k m b t -> LPoly2.tabs (2 ^ k) (2 ^ (b + m)) t.
  Proof.
    intros [H1 H2]. split; [exact H1|]. intros i Hi. rewrite Nat.pow_add_r. apply H2. apply nth_In. lia.
  Qed.

  Lemma no_early_true (c : list (Layer F)) bN pf j : forall qP qL qR, verifyLayers ch false c bN pf j qP qL qR <> Some (inl true).
  Proof.
    induction j as [|j IH]; intros qP qL qR; cbn [verifyLayers]; [discriminate|].
    destruct (get _ _); [|discriminate]. destruct (get _ _); [|discriminate]. destruct (get _ _); [|discriminate]. destruct (get _ _); [|discriminate].
    cbv zeta. destruct (Verify _ _ _ _ _) as [[|]|]; try discriminate.
    destruct (EvalEq _ _); [|discriminate]. destruct (get _ _); [|discriminate]. destruct (get _ _); [|discriminate].
    destruct (evaluateStaticTablesLinCombs _ _ _ _ _ _ _); [|discriminate]. destruct (EvaluateCombinator _ _ _ _ _); [|discriminate].
    destruct (_ =? _); [apply IH|discriminate].
  Qed.

  (** The repaired verifier accepts exactly the proofs of the right shape that pass its checks, and never panics. *)
  Lemma rverify_iff m k b (c : list (Layer F)) l pf inputs outputs q qP :
    (forall l, In l c -> wf_layer l) -> fits b c -> nth_error c (length c - 1) = Some l ->
    chunked k m b inputs -> chunked k m (lBGOutputs l) outputs -> length q = lBGOutputs l -> length qP = (m + k)%nat ->
    exists verdict, RGkrVerify ch qP q (m + k) c pf inputs outputs = Some verdict /\
      (verdict = true <-> exact_shape c (m + k) pf /\
         accepted ch false c (m + k) pf q qP (glued (lBGOutputs l) m outputs) (glued b m inputs)).
  Proof.
    intros Hwf Hfits Hl Hin Hout Lq LqP. unfold RGkrVerify.
    destruct (shapeOK (m + k) c pf) eqn:ES; cbn [negb].
    2: { exists false. split; [reflexivity|]. split; [discriminate|]. intros [H _]. apply shapeOK_iff in H. congruence. }
    apply shapeOK_iff in ES. pose proof (exact_shape_shape c (m + k) pf ES) as HS. pose proof HS as (S1 & S2 & S3 & S4).
    assert (Hc : (length c - 1 < length c)%nat) by (apply nth_error_Some; congruence).
    unfold gosub. destruct (Nat.leb_spec 1 (length c)); [|lia].
    unfold get at 1. rewrite Hl.
    rewrite (REvaluateChunked_ok outputs (q ++ qP) k (lBGOutputs l + m) (tabs_chunked k m _ _ Hout)) by (rewrite app_length; lia).
    fold (glued (lBGOutputs l) m outputs). set (out := glued (lBGOutputs l) m outputs).
    destruct (get_total (SumcheckProofs pf) (length c - 1) ltac:(lia)) as (sp & Esp). rewrite Esp.
    destruct (S4 _ l sp Hl Esp) as [Q1 Q2].
    destruct (Verify_total ch (mle out (q ++ qP)) sp (m + k) (lBGInputs l) Q1 Q2) as (r & EV & Hr). rewrite EV.
    destruct r as [|qP' qL' qR' tot].
    { exists false. split; [reflexivity|]. split; [discriminate|]. intros [_ HA]. exfalso.
      destruct HA as (l' & sp' & qP' & qL' & qR' & tot & vl & vr & sts & zP & zL & zR & H1 & H2 & H3 & _).
      rewrite Hl in H1. injection H1 as <-. unfold get in Esp. rewrite Esp in H2. injection H2 as <-. rewrite EV in H3. discriminate. }
    destruct Hr as (R1 & R2 & R3).
    rewrite EvalEq_spec by lia.
    destruct (get_total (ClaimsLeft pf) (length c - 1) ltac:(lia)) as (vl & Evl). rewrite Evl.
    destruct (get_total (ClaimsRight pf) (length c - 1) ltac:(lia)) as (vr & Evr). rewrite Evr.
    pose proof (Hwf l (nth_error_In _ _ Hl)) as Hwf'.
    destruct (statics_ok l q Hwf' Lq) as (t & Et & Lt & _).
    pose proof (evaluateStaticTables_ok l _ t qL' qR' Hwf' Lq Et R2 R3) as ET. rewrite ET.
    set (sts := map (fun t => mle t (qL' ++ qR')) t) in *.
    destruct (combinator_total (lGates l) sts vl vr (eqprod qP qP')) as (ev & EE).
    { unfold sts. rewrite map_length. exact Lt. }
    rewrite EE.
    assert (HA : accepted ch false c (m + k) pf q qP out (glued b m inputs) -> tot = ev /\ exists zP zL zR,
      verifyLayers ch false c (m + k) pf (length c - 1) qP' qL' qR' = Some (inr (zP, zL, zR)) /\
      nth_error (ClaimsLeft pf) 0 = Some (mle (glued b m inputs) (zL ++ zP)) /\ nth_error (ClaimsRight pf) 0 = Some (mle (glued b m inputs) (zR ++ zP))).
    { intros (l' & sp' & qP2 & qL2 & qR2 & tot2 & vl2 & vr2 & sts2 & zP & zL & zR & H1 & H2 & H3 & H4 & H5 & H6 & H7 & H8 & H9 & H10 & H11 & H12 & H13 & H14).
      rewrite Hl in H1. injection H1 as <-. unfold get in Esp, Evl, Evr. rewrite Esp in H2. injection H2 as <-. rewrite EV in H3. injection H3 as <- <- <- <-.
      rewrite Evl in H5. injection H5 as <-. rewrite Evr in H6. injection H6 as <-. rewrite ET in H7. injection H7 as <-.
      rewrite EE in H8. injection H8 as <-. split; [reflexivity|]. exists zP, zL, zR. auto. }
    destruct (tot =? ev) eqn:ETE.
    2: { exists false. split; [reflexivity|]. split; [discriminate|]. intros [_ H']. apply HA in H'. destruct H' as [-> _]. rewrite feqb_refl in ETE. discriminate. }
    apply feqb_eq in ETE. subst ev.
    destruct (layers_total ch false (m + k) b c pf Hwf Hfits HS (length c - 1) l qP' qL' qR' Hl R1 R2 R3) as (r & ER & Hr). rewrite ER.
    destruct r as [bb|[[zP zL] zR]].
    { exists bb. split; [reflexivity|]. split.
      - intros ->. exfalso. exact (no_early_true c (m + k) pf _ _ _ _ ER).
      - intros [_ H']. apply HA in H'. destruct H' as (_ & zP & zL & zR & H' & _). congruence. }
    destruct Hr as (Z1 & Z2 & Z3).
    rewrite (REvaluateMixedChunked_ok inputs zP zL zR k m b (tabs_chunked k m b _ Hin) Z1 Z2 Z3).
    fold (glued b m inputs). destruct (get_total (ClaimsLeft pf) 0 ltac:(lia)) as (v0 & E0). rewrite E0.
    destruct (get_total (ClaimsRight pf) 0 ltac:(lia)) as (w0 & E0'). rewrite E0'.
    eexists. split; [reflexivity|]. rewrite andb_true_iff. unfold get in E0, E0', Esp, Evl, Evr. split.
    - intros [H1 H2]. apply feqb_eq in H1. apply feqb_eq in H2. split; [exact ES|].
      exists l, sp, qP', qL', qR', tot, vl, vr, sts, zP, zL, zR. destruct Hin as [I1 I2].
      assert (LI : length (glued b m inputs) = (2 ^ (b + m + k))%nat) by (unfold glued; rewrite interleave_length, I1, <- Nat.pow_add_r; reflexivity).
      rewrite LI.
      repeat (split; [first [assumption|congruence|lia|f_equal; lia]|]). congruence.
    - intros [_ H']. apply HA in H'. destruct H' as (_ & zP2 & zL2 & zR2 & X1 & X2 & X3). rewrite ER in X1. injection X1 as <- <- <-.
      rewrite E0 in X2. injection X2 as ->. rewrite E0' in X3. injection X3 as ->. rewrite !feqb_refl. auto.
  Qed.
End L.
