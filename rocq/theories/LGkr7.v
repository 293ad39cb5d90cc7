(** The claims that the sum-check provers of the layers prove. *)
From Coq Require Import List Arith Lia Bool.
From Verif Require Import Field Go MCommon Spec LSpec LCommon MPoly LPoly LPoly2 LPoly3 Trans MCircuit SpecCircuit LCircuit LCircuit2
  LCircuit3 MSumcheck LSumcheck SpecSumcheck LSumcheck4 LSumcheck5 MSumPar SpecSumPar LSumPar4 MGkr SpecGkr LGkr LGkr2.
Import ListNotations.

Section L.
  Context {F : Field}.
  Add Field FfieldGkr7 : (f_theory F).
  Open Scope F_scope.

  (** Both provers of a layer, on tables of the right shape. *)
  Lemma layer_claim (l : Layer F) st chunks qP m k nCore : (0 < nCore)%nat ->
    (lBGInputs l = 0%nat \/ lGates l <> []) -> (forall g, In g (lGates l) -> many_ok g) ->
    length st = length (lGates l) ->
    (forall tab, In tab st -> length tab = (2 ^ lBGInputs l * 2 ^ lBGInputs l)%nat) ->
    length chunks = (2 ^ k)%nat -> (forall c, In c chunks -> length c = (2 ^ (lBGInputs l + m))%nat) ->
    length qP = (m + k)%nat ->
    exists eqc,
      let p := MkMT chunks chunks eqc (lGates l) st in
      let V := glued (lBGInputs l) m chunks in
      let claim := table_sum (2 ^ (m + k)) (2 ^ lBGInputs l) (lGates l) st (eqtab qP) V V in
      GetChunkedEqTable qP (2 ^ k) nCore = Some eqc /\ mt_ok p (2 ^ k) m (lBGInputs l) /\
      GetClaim (whole p m (lBGInputs l)) = Some claim /\
      must (claim_step p nCore) (fun s => cmn s = CRet claim) (claim_init p nCore).
  Proof.
    intros Hcore Hne Hmany Lst Sst LC SC HqP.
    destruct (eq_chunks qP k m nCore Hcore HqP) as (eqc & Eeq & Leq & Seq & Ieq).
    exists eqc. cbn zeta. split; [exact Eeq|].
    set (p := MkMT chunks chunks eqc (lGates l) st). set (bG := lBGInputs l) in *.
    assert (HMT : mt_ok p (2 ^ k) m bG).
    { unfold mt_ok, p. cbn [tEq tVL tVR tStatic tGates]. pose proof (pow_pos k). auto 12. }
    split; [exact HMT|].
    assert (EG : GetClaim (whole p m bG) = Some (table_sum (2 ^ (m + k)) (2 ^ bG) (lGates l) st (eqtab qP)
      (glued bG m chunks) (glued bG m chunks))).
    { unfold whole, p, glued. cbn [tEq tVL tVR tStatic tGates]. rewrite Ieq.
      apply getclaim_ok; rewrite ?eqtab_length, ?interleave_length; auto using pow_pos; try congruence;
        rewrite LC, !Nat.pow_add_r; lia. }
    split; [exact EG|].
    destruct (mt_claim p (2 ^ k) m bG nCore HMT Hcore) as (claim & E & H).
    rewrite EG in E. injection E as <-. eapply must_mono; [|exact H]. intros s Hs. apply Hs.
  Qed.

  Definition lincomb2 (a0 a1 : F) (t0 t1 : list F) : list F :=
    map (fun i => a0 * nth i t0 0 + a1 * nth i t1 0) (seq 0 (length t1)).

  Lemma combineStatics_ok2 (tL tR : list (list F)) a0 a1 n g : length tL = n -> length tR = n ->
    (forall i, (i < n)%nat -> length (nth i tL []) = g) -> (forall i, (i < n)%nat -> length (nth i tR []) = g) ->
    combineStatics tL tR a0 a1 = Some (map (fun i => lincomb2 a0 a1 (nth i tL []) (nth i tR [])) (seq 0 n)).
  Proof.
    intros L1 L2 H1 H2. unfold combineStatics. rewrite L1. apply mapM_some. intros i Hi. apply in_seq in Hi.
    rewrite (get_nth tL i []), (get_nth tR i []) by lia.
    rewrite LinearCombination_spec by (rewrite H1, H2 by lia; reflexivity). reflexivity.
  Qed.

  Lemma table_sum_scale n g gates (tL t : list (list F)) eq V W lam :
    length tL = length gates -> length t = length gates ->
    (forall i j, (i < length gates)%nat -> (j < g * g)%nat -> nth j (nth i t []) 0 = lam * nth j (nth i tL []) 0) ->
    table_sum n g gates t eq V W = lam * table_sum n g gates tL eq V W.
  Proof.
    intros L1 L3 H.
    transitivity (table_sum n g gates tL eq V W + (lam - 1) * table_sum n g gates tL eq V W); [|ring].
    apply table_sum_linear; auto. intros i j Hi Hj. rewrite H by assumption. ring.
  Qed.

  Lemma layer_sum3 (l : Layer F) qL qR x tL tR V W a0 a1 : wf_layer l -> gates_once l ->
    length qL = lBGOutputs l -> length qR = lBGOutputs l ->
    GetStaticTable l qL = Some tL -> GetStaticTable l qR = Some tR -> layer_table l (2 ^ length x) V W ->
    table_sum (2 ^ length x) (2 ^ lBGInputs l) (lGates l)
      (map (fun i => lincomb2 a0 a1 (nth i tL []) (nth i tR [])) (seq 0 (length (lGates l)))) (eqtab x) V V
    = a0 * mle W (qL ++ x) + a1 * mle W (qR ++ x).
  Proof.
    intros Hwf Hg HqL HqR EL ER HW.
    destruct (statics_ok l qL Hwf HqL) as (tL' & EL' & LL & SL). rewrite EL in EL'. injection EL' as <-.
    destruct (statics_ok l qR Hwf HqR) as (tR' & ER' & LR & SR). rewrite ER in ER'. injection ER' as <-.
    set (g2 := (2 ^ lBGInputs l * 2 ^ lBGInputs l)%nat) in *.
    set (sL := map (fun i => map (fun j => a0 * nth j (nth i tL []) 0) (seq 0 g2)) (seq 0 (length (lGates l)))).
    assert (LsL : length sL = length (lGates l)) by (unfold sL; rewrite map_length, seq_length; reflexivity).
    rewrite (table_sum_linear _ _ _ sL tR _ _ _ _ a1 LsL LR).
    - rewrite (table_sum_scale _ _ _ tL sL _ _ _ a0 LL LsL).
      + rewrite (layer_sum l qL x tL V W), (layer_sum l qR x tR V W) by assumption. ring.
      + intros i j Hi Hj. unfold sL. rewrite (nth_map_seq _ _ _ []) by exact Hi. rewrite nth_map_seq by exact Hj. reflexivity.
    - rewrite map_length, seq_length. reflexivity.
    - intros i j Hi Hj. unfold sL. rewrite !(nth_map_seq _ _ _ []) by exact Hi. unfold lincomb2.
      rewrite nth_map_seq by (rewrite SR by exact Hi; exact Hj). rewrite nth_map_seq by exact Hj. ring.
  Qed.

  Section Circ.
    Variables (c : list (Layer F)) (b m k nCore : nat) (inputs : list (list F)) (a : list (list (list F))).
    Hypothesis Hcore : (0 < nCore)%nat.
    Hypothesis Hlayers : forall l, In l c -> claimable l.
    Hypothesis Hfits : fits b c.
    Hypothesis Hinp : chunked k m b inputs.
    Hypothesis Ha : assignment_of c (2 ^ m) inputs a.

    Lemma ac_layer j l : nth_error c j = Some l ->
      length (nth j a []) = (2 ^ k)%nat /\ (forall t, In t (nth j a []) -> length t = (2 ^ (lBGInputs l + m))%nat) /\
      layer_table l (2 ^ (m + k)) (glued (lBGInputs l) m (nth j a [])) (glued (lBGOutputs l) m (nth (S j) a [])).
    Proof.
      intros Hj. destruct Hinp as [Hlen Hsz].
      destruct (a_chunks nCore Hcore m k c b inputs a Hfits Hsz Hlen Ha j l Hj) as [L1 L2].
      split; [exact L1|]. split; [exact L2|].
      pose proof (Hlayers l (nth_error_In _ _ Hj)) as (Hwf & _).
      destruct Ha as (A1 & A2 & A3). destruct (A3 j l Hj) as [A4 A5].
      unfold glued. rewrite !Nat.pow_add_r, <- L1.
      apply glue_layer; auto; rewrite ?L1, ?A4; auto using pow_pos. rewrite <- Hlen. exact A5.
    Qed.

    Lemma initial_claim l qP q : nth_error c (length c - 1) = Some l ->
      length qP = (m + k)%nat -> length q = lBGOutputs l ->
      exists p, InitialRoundSumcheckProver c a qP q nCore = Some p /\ mt_ok p (2 ^ k) m (lBGInputs l) /\
        let claim := mle (glued (lBGOutputs l) m (nth (length c) a [])) (q ++ qP) in
        GetClaim (whole p m (lBGInputs l)) = Some claim /\
        must (claim_step p nCore) (fun s => cmn s = CRet claim) (claim_init p nCore).
    Proof.
      intros Hl LqP Lq. assert (Hc : (0 < length c)%nat).
      { destruct c; [discriminate|simpl; lia]. }
      pose proof (Hlayers l (nth_error_In _ _ Hl)) as (Hwf & Hg & Hne & Hmany).
      destruct (ac_layer _ _ Hl) as (LC & SC & HT). replace (S (length c - 1)) with (length c) in HT by lia.
      destruct (statics_ok l q Hwf Lq) as (t & E & Lt & St).
      destruct (layer_claim l t (nth (length c - 1) a []) qP m k nCore Hcore Hne Hmany Lt) as (eqc & H); auto.
      { intros tab Ht. apply (In_nth _ _ []) in Ht. destruct Ht as (i & Hi & <-). apply St. lia. }
      cbn zeta in H. destruct H as (Eeq & HM & H1 & H2).
      rewrite <- LqP in H1, H2, HT.
      rewrite (layer_sum l q qP t _ _ Hwf Hg Lq E HT) in H1, H2.
      eexists. split; [|split; [exact HM|split; [exact H1|exact H2]]].
      unfold InitialRoundSumcheckProver. replace (gosub (length c) 1) with (Some (length c - 1)%nat).
      2: { unfold gosub. replace (1 <=? length c)%nat with true by (symmetry; apply Nat.leb_le; lia). reflexivity. }
      unfold get at 1. rewrite Hl, E. unfold LayerAsBKTWithCopy.
      destruct Ha as (A1 & _). rewrite (get_nth a (length c - 1) []) by lia. cbv beta iota zeta.
      replace (map DeepCopy (nth (length c - 1) a [])) with (nth (length c - 1) a []) by (symmetry; apply map_id).
      rewrite LC, Eeq. reflexivity.
    Qed.

    Lemma intermediate_claim j l qP qL qR lamL lamR : nth_error c j = Some l ->
      length qP = (m + k)%nat -> length qL = lBGOutputs l -> length qR = lBGOutputs l ->
      exists p, IntermediateRoundsSumcheckProver c a j qP qL qR lamL lamR nCore = Some p /\ mt_ok p (2 ^ k) m (lBGInputs l) /\
        let W := glued (lBGOutputs l) m (nth (S j) a []) in
        let claim := lamL * mle W (qL ++ qP) + lamR * mle W (qR ++ qP) in
        GetClaim (whole p m (lBGInputs l)) = Some claim /\
        must (claim_step p nCore) (fun s => cmn s = CRet claim) (claim_init p nCore).
    Proof.
      intros Hl LqP LqL LqR.
      pose proof (Hlayers l (nth_error_In _ _ Hl)) as (Hwf & Hg & Hne & Hmany).
      assert (Hj : (j < length c)%nat) by (apply nth_error_Some; congruence).
      destruct (ac_layer _ _ Hl) as (LC & SC & HT).
      destruct (statics_ok l qL Hwf LqL) as (tL & EL & LtL & StL).
      destruct (statics_ok l qR Hwf LqR) as (tR & ER & LtR & StR).
      set (st := map (fun i => lincomb2 lamL lamR (nth i tL []) (nth i tR [])) (seq 0 (length (lGates l)))).
      destruct (layer_claim l st (nth j a []) qP m k nCore Hcore Hne Hmany) as (eqc & H); auto.
      { unfold st. rewrite map_length, seq_length. reflexivity. }
      { intros tab Ht. apply in_map_iff in Ht. destruct Ht as (i & <- & Hi). apply in_seq in Hi.
        unfold lincomb2. rewrite map_length, seq_length. apply StR. lia. }
      cbn zeta in H. destruct H as (Eeq & HM & H1 & H2).
      rewrite <- LqP in H1, H2, HT. unfold st in H1 at 2, H2 at 2.
      rewrite (layer_sum3 l qL qR qP tL tR _ _ lamL lamR Hwf Hg LqL LqR EL ER HT) in H1, H2.
      eexists. split; [|split; [exact HM|split; [exact H1|exact H2]]].
      unfold IntermediateRoundsSumcheckProver, LayerAsBKTWithCopy.
      destruct Ha as (A1 & _). rewrite (get_nth a j []) by lia. cbv beta iota zeta.
      replace (map DeepCopy (nth j a [])) with (nth j a []) by (symmetry; apply map_id).
      rewrite LC, Eeq. unfold get. rewrite Hl, EL, ER.
      rewrite (combineStatics_ok2 tL tR lamL lamR _ _ LtL LtR StL StR). reflexivity.
    Qed.
  End Circ.
End L.
