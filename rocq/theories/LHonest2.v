(** The verdict on what the prover makes of any assignment (lemmas for PHonest.v). *)
From Coq Require Import List Arith Lia Bool.
From Verif Require Import Field Go MCommon Spec LSpec LCommon MPoly LPoly LPoly2 LPoly3 Trans MCircuit SpecCircuit LCircuit LCircuit2
  LCircuit3 MSumcheck LSumcheck SpecSumcheck LSumcheck4 LSumcheck5 MSumPar SpecSumPar LSumPar4 SpecEnds MGkr SpecGkr LGkr LGkr2 LGkr3 LGkr4 SpecHonest LHonest.
Import ListNotations.

Section L.
  Context {F : Field}.
  Add Field FfieldHonest2 : (f_theory F).
  Open Scope F_scope.

  Lemma upd_else {A} (l : list A) i j v : i <> j -> nth_error (upd l i v) j = nth_error l j.
  Proof. revert i j. induction l as [|x l IH]; intros i j H; destruct i, j; simpl; auto; try congruence. Qed.
  Lemma upd_here {A} (l : list A) i v : (i < length l)%nat -> nth_error (upd l i v) i = Some v.
  Proof. revert i. induction l as [|x l IH]; intros i H; destruct i; simpl in *; auto; try lia. apply IH. lia. Qed.

  Section Run.
    Variable ch : list F -> F.
    Variable nCore : nat.
    Variable mtProve : MTProver F -> option (list (list F) * list F * list F * list F * list F).
    Hypothesis Hdist : distinct_upto (F:=F) 12.
    Hypothesis Hcore : (0 < nCore)%nat.
    Hypothesis Hmt : follows_machine ch nCore mtProve.
    Variables m k : nat.
    Hypothesis Hk : (0 < k)%nat.

    Definition ready (l : Layer F) : Prop :=
      startable l /\ (forall g, In g (lGates l) -> gate_ok g) /\ in_range (m + k) l.

    (** One call of the multi-threaded sum-check prover. *)
    Lemma layer_prove_any (l : Layer F) st chunks qP : ready l -> length st = length (lGates l) ->
      (forall tab, In tab st -> length tab = (2 ^ lBGInputs l * 2 ^ lBGInputs l)%nat) ->
      length chunks = (2 ^ k)%nat -> (forall c, In c chunks -> length c = (2 ^ lBGInputs l * 2 ^ m)%nat) ->
      length qP = (m + k)%nat ->
      exists eqc proof qP' qL' qR' fin,
        let V := glued (lBGInputs l) m chunks in
        let vl := mle V (qL' ++ qP') in
        let vr := mle V (qR' ++ qP') in
        let sts := map (fun t => mle t (qL' ++ qR')) st in
        GetChunkedEqTable qP (2 ^ k) nCore = Some eqc /\
        mtProve (MkMT chunks chunks eqc (lGates l) st) = Some (proof, qP', qL', qR', vl :: vr :: eqprod qP qP' :: sts) /\
        Verify ch (table_sum (2 ^ (m + k)) (2 ^ lBGInputs l) (lGates l) st (eqtab qP) V V) proof (m + k) (lBGInputs l)
          = Some (Accept qP' qL' qR' fin) /\
        EvaluateCombinator vl vr (eqprod qP qP') (lGates l) sts = Some fin /\
        length proof = (2 * lBGInputs l + (m + k))%nat /\
        length qL' = lBGInputs l /\ length qR' = lBGInputs l /\ length qP' = (m + k)%nat.
    Proof.
      intros ((Hwf & Hne & _) & Hok & (D1 & D2)) Lst Sst LC SC HqP.
      destruct (eq_chunks qP k m nCore Hcore HqP) as (eqc & Eeq & Leq & Seq & Ieq).
      set (p := MkMT chunks chunks eqc (lGates l) st).
      set (bG := lBGInputs l) in *. rewrite <- Nat.pow_add_r in SC.
      assert (HMT : mt_ok p (2 ^ k) m bG).
      { unfold mt_ok, p. cbn [tEq tVL tVR tStatic tGates].
        assert (Hmany : forall g, In g (lGates l) -> many_ok g) by (intros g Hgi; apply (Hok g Hgi)).
        pose proof (pow_pos k). auto 12. }
      set (V := interleave (2 ^ (bG + m)) chunks).
      assert (HT : tables_ok bG bG (m + k) (lGates l) st (eqtab qP) V V).
      { unfold tables_ok. rewrite eqtab_length, HqP. unfold V. rewrite interleave_length, LC, <- Nat.pow_add_r.
        replace (bG + m + k)%nat with (bG + (m + k))%nat by lia. repeat split; auto.
        intros tab Ht. rewrite Sst, <- Nat.pow_add_r by exact Ht. reflexivity. }
      destruct (complete_fit ch (m + k) bG (lGates l) st (eqtab qP) V V Hdist HT Hne Hok D1 D2) as (proof & qP' & qL' & qR' & H).
      cbn zeta in H. destruct H as (HP & _ & HV & HC & Lp & LL & LR & LP & _).
      assert (HPw : Prove ch (whole p m bG) = Some (proof, qP', qL', qR', mle V (qL' ++ qP') :: mle V (qR' ++ qP') ::
         mle (eqtab qP) qP' :: map (fun t => mle t (qL' ++ qR')) st)).
      { unfold whole, p. cbn [tEq tVL tVR tStatic tGates]. rewrite Ieq. exact HP. }
      destruct (mt_same_result ch p (2 ^ k) m bG nCore _ HMT Hcore HPw) as [Hprep Hmust].
      exists eqc, proof, qP', qL', qR'. eexists. cbn zeta. unfold glued. fold bG V. split; [exact Eeq|].
      rewrite mle_eqtab in * by congruence.
      split.
      - eapply (Hmt p (2 ^ k)%nat m bG _ _ _ HMT HPw Hprep). eapply must_mono; [|exact Hmust]. intros s Hs. apply Hs.
      - split; [exact HV|]. split; [exact HC|]. auto.
    Qed.

    Section Circ.
      Variable c : list (Layer F).
      Variable b : nat.
      Variable a : list (list (list F)).
      Variable outputs : list (list F).
      Hypothesis Hlayers : forall l, In l c -> ready l.
      Hypothesis Hfits : fits b c.
      Hypothesis Hsh : shaped k m c a.

      Let LVj (l : Layer F) (j : nat) : list F := glued (lBGInputs l) m (nth j a []).
      Let OUT (l : Layer F) (j : nat) : list F := glued (lBGOutputs l) m (if (S j =? length c)%nat then outputs else nth (S j) a []).
      Let line (pf : Proof F) (j : nat) : Prop := forall l, nth_error c j = Some l -> in_line ch c (m + k) pf j l (LVj l j) (OUT l j).

      Lemma in_a j l : nth_error c j = Some l -> (j < length a)%nat.
      Proof.
        intros H. destruct (Hsh j l H) as [E _]. destruct (Nat.lt_ge_cases j (length a)) as [Hj|Hj]; [exact Hj|].
        rewrite nth_overflow in E by exact Hj. pose proof (pow_pos k). cbn in E. lia.
      Qed.

      (** The claims of layer [j] are those of the assignment, at the points of the proof. *)
      Definition claims_pt (j : nat) (pf : Proof F) (qP qL qR : list F) : Prop :=
        exists l, nth_error c j = Some l /\ length qP = (m + k)%nat /\ length qL = lBGInputs l /\ length qR = lBGInputs l /\
          nth_error (ClaimsLeft pf) j = Some (mle (LVj l j) (qL ++ qP)) /\
          nth_error (ClaimsRight pf) j = Some (mle (LVj l j) (qR ++ qP)) /\
          ptL ch pf (lBGInputs l) j = qL /\ ptR ch pf (lBGInputs l) j = qR /\ ptP ch pf (lBGInputs l) j = qP.

      Lemma pt_agree (pf pf2 : Proof F) j i bb : agree j pf pf2 -> (j <= i)%nat ->
        ptL ch pf2 bb i = ptL ch pf bb i /\ ptR ch pf2 bb i = ptR ch pf bb i /\ ptP ch pf2 bb i = ptP ch pf bb i.
      Proof.
        intros Hag Hi. destruct (Hag i Hi) as (E & _).
        assert (En : nth i (SumcheckProofs pf2) [] = nth i (SumcheckProofs pf) []).
        { destruct (nth_error (SumcheckProofs pf) i) as [x|] eqn:Ex.
          - rewrite (nth_error_nth _ _ [] E), (nth_error_nth _ _ [] Ex). reflexivity.
          - apply nth_error_None in E, Ex. rewrite !nth_overflow by assumption. reflexivity. }
        unfold ptL, ptR, ptP, chal. rewrite En. auto.
      Qed.

      Lemma any_step j pf qP qL qR : plen c pf -> claims_pt (S j) pf qP qL qR ->
        exists pf' qP' qL' qR',
          proveLayer ch mtProve c a nCore j (pf, qP, qL, qR) = Some (pf', qP', qL', qR') /\ plen c pf' /\
          claims_pt j pf' qP' qL' qR' /\ agree (S j) pf pf' /\
          forall mm pf2, agree j pf' pf2 ->
            (line pf2 j -> verifyLayers ch mm c (m + k) pf2 (S j) qP qL qR = verifyLayers ch mm c (m + k) pf2 j qP' qL' qR') /\
            (~ line pf2 j -> verifyLayers ch mm c (m + k) pf2 (S j) qP qL qR = Some (inl false)).
      Proof.
        intros (P1 & P2 & P3) (l' & Hl' & LqP & LqL & LqR & CL & CR & PL & PR & PP).
        assert (Hj : (S j < length c)%nat) by (apply nth_error_Some; congruence).
        destruct (nth_error c j) as [l|] eqn:Hl; [|apply nth_error_None in Hl; lia].
        pose proof (fits_next c b j l l' Hfits Hl Hl') as Hbb. rewrite Hbb in LqL, LqR, PL, PR, PP.
        pose proof (Hlayers l (nth_error_In _ _ Hl)) as Hok. pose proof Hok as ((Hwf & _) & _).
        destruct (Hsh j l Hl) as [LC SC].
        destruct (statics_ok l qL Hwf LqL) as (tL & EL & LtL & StL).
        destruct (statics_ok l qR Hwf LqR) as (tR & ER & LtR & StR).
        set (cl := mle (LVj l' (S j)) (qL ++ qP)) in *. set (cr := mle (LVj l' (S j)) (qR ++ qP)) in *.
        set (lam := ch [cl; cr]).
        set (st := map (fun i => lincomb lam (nth i tL []) (nth i tR [])) (seq 0 (length (lGates l)))).
        assert (Lst : length st = length (lGates l)) by (unfold st; rewrite map_length, seq_length; reflexivity).
        assert (Sst : forall tab, In tab st -> length tab = (2 ^ lBGInputs l * 2 ^ lBGInputs l)%nat).
        { intros tab Ht. apply in_map_iff in Ht. destruct Ht as (i & <- & Hi). apply in_seq in Hi.
          unfold lincomb. rewrite map_length, seq_length. apply StR. lia. }
        destruct (layer_prove_any l st (nth j a []) qP Hok Lst Sst LC SC LqP)
          as (eqc & proof & qP' & qL' & qR' & fin & H). cbn zeta in H.
        destruct H as (Heq & Hmtp & HV & HC & Lp & LL & LR & LP).
        fold (LVj l j) in *.
        set (pf' := MkProof (upd (SumcheckProofs pf) j proof) (upd (ClaimsLeft pf) j (mle (LVj l j) (qL' ++ qP')))
                  (upd (ClaimsRight pf) j (mle (LVj l j) (qR' ++ qP')))).
        assert (Hsp : nth_error (SumcheckProofs pf') j = Some proof) by (cbn [pf' SumcheckProofs]; apply upd_here; lia).
        pose proof HV as HV0. apply Verify_accept in HV0. destruct HV0 as (_ & _ & _ & Emap).
        assert (Hpts : ptL ch pf' (lBGInputs l) j = qL' /\ ptR ch pf' (lBGInputs l) j = qR' /\ ptP ch pf' (lBGInputs l) j = qP').
        { destruct (chal_parts ch pf' j proof (lBGInputs l) qL' qR' qP' Hsp LL LR Emap) as (X1 & X2 & X3). auto. }
        assert (Hag0 : agree (S j) pf pf').
        { intros i Hi. cbn [pf' SumcheckProofs ClaimsLeft ClaimsRight]. rewrite !upd_else by lia. auto. }
        exists pf', qP', qL', qR'.
        split; [|split; [|split; [|split]]].
        - unfold proveLayer. replace (j + 1)%nat with (S j) by lia. unfold get at 1 2. rewrite CL, CR. cbv beta iota zeta.
          fold lam. unfold IntermediateRoundsSumcheckProver, LayerAsBKTWithCopy.
          rewrite (get_nth a j []) by exact (in_a j l Hl). cbv beta iota zeta.
          replace (map DeepCopy (nth j a [])) with (nth j a []) by (symmetry; apply map_id).
          rewrite LC, Heq. unfold get at 1. rewrite Hl, EL, ER.
          rewrite (combineStatics_ok tL tR lam _ _ LtL LtR StL StR). fold st. rewrite Hmtp.
          rewrite set_some by lia. unfold get. cbn [nth_error]. rewrite !set_some by lia. reflexivity.
        - unfold plen. cbn [pf' SumcheckProofs ClaimsLeft ClaimsRight]. rewrite !upd_length. auto.
        - exists l. cbn [pf' ClaimsLeft ClaimsRight]. fold pf'. rewrite !upd_here by lia. destruct Hpts as (X1 & X2 & X3). auto 12.
        - exact Hag0.
        - intros mm pf2 Hag. destruct (Hag j ltac:(lia)) as (G1 & G2 & G3). destruct (Hag (S j) ltac:(lia)) as (_ & G5 & G6).
          destruct (pt_agree pf' pf2 j (S j) (lBGOutputs l) Hag ltac:(lia)) as (Q1 & Q2 & Q3).
          destruct (pt_agree pf pf' (S j) (S j) (lBGOutputs l) Hag0 ltac:(lia)) as (R1 & R2 & R3).
          rewrite R1, PL in Q1. rewrite R2, PR in Q2. rewrite R3, PP in Q3.
          cbn [pf' SumcheckProofs ClaimsLeft ClaimsRight] in G1, G2, G3, G5, G6.
          rewrite upd_here in G1 by lia. rewrite upd_here in G2 by lia. rewrite upd_here in G3 by lia.
          rewrite upd_else in G5 by lia. rewrite upd_else in G6 by lia.
          assert (Eout : OUT l j = LVj l' (S j)).
          { unfold OUT, LVj. rewrite Hbb. destruct (Nat.eqb_spec (S j) (length c)); [lia|reflexivity]. }
          assert (EL0 : line pf2 j <-> cr * lam + cl = table_sum (2 ^ (m + k)) (2 ^ lBGInputs l) (lGates l) st (eqtab qP) (LVj l j) (LVj l j)).
          { assert (ES : table_sum (2 ^ (m + k)) (2 ^ lBGInputs l) (lGates l) st (eqtab qP) (LVj l j) (LVj l j) =
              mle (listed_table l (2 ^ (m + k)) (LVj l j)) (qL ++ qP) + lam * mle (listed_table l (2 ^ (m + k)) (LVj l j)) (qR ++ qP)).
            { rewrite <- LqP. unfold st. apply any_sum2; assumption. }
            rewrite ES. unfold line, in_line, claim_about. split.
            - intros H. specialize (H l Hl). cbv zeta in H. rewrite Q1, Q2, Q3 in H. destruct (Nat.eqb_spec (S j) (length c)); [lia|]. rewrite Eout in H. fold cl cr lam in H.
              rewrite <- H. ring.
            - intros H l2 Hl2. assert (l2 = l) by congruence. subst l2. cbv zeta. rewrite Q1, Q2, Q3. destruct (Nat.eqb_spec (S j) (length c)); [lia|]. rewrite Eout. fold cl cr lam.
              rewrite <- H. ring. }
          cbn [verifyLayers]. replace (j + 1)%nat with (S j) by lia. unfold get. rewrite G5, G6, CL, CR. cbv beta iota zeta.
          fold lam. rewrite G1, Hl. split; intros Hline.
          + apply EL0 in Hline. rewrite Hline, HV. cbv beta iota zeta. rewrite EvalEq_spec by lia. cbv beta iota zeta.
            rewrite G2, G3. rewrite (evaluateStaticTablesLinCombs_ok l qL qR tL tR qL' qR' lam) by assumption.
            fold st. rewrite HC, feqb_refl. reflexivity.
          + rewrite (other_claim ch _ (cr * lam + cl) proof _ _ _ _ _ _ ltac:(lia) HV) by (intros E; apply Hline, EL0, E). reflexivity.
      Qed.

      Lemma line_dec pf j : line pf j \/ ~ line pf j.
      Proof.
        unfold line. destruct (nth_error c j) as [l|] eqn:Hl; [|left; intros l E; discriminate].
        unfold in_line. destruct (f_eq_dec (claim_about ch c (m + k) pf j l
          (ch [mle (OUT l j) (ptL ch pf (lBGOutputs l) (S j) ++ ptP ch pf (lBGOutputs l) (S j)); mle (OUT l j) (ptR ch pf (lBGOutputs l) (S j) ++ ptP ch pf (lBGOutputs l) (S j))]) (OUT l j))
          (claim_about ch c (m + k) pf j l
          (ch [mle (OUT l j) (ptL ch pf (lBGOutputs l) (S j) ++ ptP ch pf (lBGOutputs l) (S j)); mle (OUT l j) (ptR ch pf (lBGOutputs l) (S j) ++ ptP ch pf (lBGOutputs l) (S j))])
          (listed_table l (2 ^ (m + k)) (LVj l j)))) as [E|E].
        - left. intros l2 E2. injection E2 as <-. exact E.
        - right. intros H. apply E. exact (H l eq_refl).
      Qed.

      Lemma any_loop j : forall pf qP qL qR, plen c pf -> claims_pt j pf qP qL qR ->
        exists pf' qP' qL' qR',
          foldM (fun st layer => proveLayer ch mtProve c a nCore layer st) (rev (seq 0 j)) (pf, qP, qL, qR)
            = Some (pf', qP', qL', qR') /\ plen c pf' /\ claims_pt 0 pf' qP' qL' qR' /\ agree j pf pf' /\
          forall mm, ((forall i, (i < j)%nat -> line pf' i) -> verifyLayers ch mm c (m + k) pf' j qP qL qR = Some (inr (qP', qL', qR'))) /\
            (~ (forall i, (i < j)%nat -> line pf' i) -> verifyLayers ch mm c (m + k) pf' j qP qL qR = Some (inl false)).
      Proof.
        induction j as [|j IH]; intros pf qP qL qR HL HC.
        - exists pf, qP, qL, qR. split; [reflexivity|]. split; [exact HL|]. split; [exact HC|]. split; [intros i _; auto|].
          intros mm. split; [reflexivity|]. intros H. exfalso. apply H. intros i Hi. lia.
        - destruct (any_step j pf qP qL qR HL HC) as (pf1 & qP1 & qL1 & qR1 & E1 & L1 & C1 & G1 & V1).
          destruct (IH pf1 qP1 qL1 qR1 L1 C1) as (pf' & qP' & qL' & qR' & E2 & L2 & C2 & G2 & V2).
          exists pf', qP', qL', qR'. rewrite seq_S, rev_app_distr. cbn [rev app foldM Nat.add]. rewrite E1.
          split; [exact E2|]. split; [exact L2|]. split; [exact C2|]. split.
          + intros i Hi. destruct (G1 i Hi) as (X1 & X2 & X3). destruct (G2 i ltac:(lia)) as (Y1 & Y2 & Y3).
            rewrite Y1, Y2, Y3. auto.
          + intros mm. destruct (V1 mm pf' G2) as [VA VB]. destruct (V2 mm) as [WA WB]. split; intros H.
            * rewrite VA by (apply H; lia). apply WA. intros i Hi. apply H. lia.
            * destruct (line_dec pf' j) as [Hd|Hd]; [|exact (VB Hd)]. rewrite (VA Hd). apply WB. intros H'. apply H.
              intros i Hi. destruct (Nat.eq_dec i j) as [->|Hne]; [exact Hd|]. apply H'. lia.
      Qed.

      Lemma any_verdict : c <> [] -> (forall l, nth_error c (length c - 1) = Some l -> chunked k m (lBGOutputs l) outputs) ->
        exists pf, GkrProve ch mtProve c a nCore = Some pf /\ plen c pf /\
          forall mm, (all_in_line ch c m k pf a outputs -> GkrVerifyWith ch mm (m + k) c pf (nth 0 a []) outputs = Some true) /\
            (~ all_in_line ch c m k pf a outputs -> GkrVerifyWith ch mm (m + k) c pf (nth 0 a []) outputs = Some false).
      Proof.
        intros Hc Hout. assert (ELc : exists last, length c = S last).
        { destruct (Nat.eq_dec (length c) 0) as [E|E]; [apply length_zero_iff_nil in E; contradiction|]. exists (length c - 1)%nat. lia. }
        destruct ELc as [last ELc].
        replace (length c - 1)%nat with last in Hout by lia.
        destruct (nth_error c last) as [l|] eqn:Hl; [|apply nth_error_None in Hl; lia]. specialize (Hout l eq_refl). destruct Hout as [O1 O2].
        pose proof (Hlayers l (nth_error_In _ _ Hl)) as Hok. pose proof Hok as ((Hwf & _) & _).
        destruct (nth_error c 0) as [l0|] eqn:Hl0; [|apply nth_error_None in Hl0; lia].
        destruct (Hsh last l Hl) as [LC SC]. destruct (Hsh 0%nat l0 Hl0) as [LC0 SC0].
        set (q := snd (GetInitialQPrimeAndQ (F:=F) (m + k) (lBGOutputs l))).
        set (qP := fst (GetInitialQPrimeAndQ (F:=F) (m + k) (lBGOutputs l))).
        assert (Lq : length q = lBGOutputs l) by (unfold q; cbn; rewrite map_length, seq_length; reflexivity).
        assert (LqP : length qP = (m + k)%nat) by (unfold qP; cbn; rewrite map_length, seq_length; reflexivity).
        destruct (statics_ok l q Hwf Lq) as (st & Est & Lst & Sst).
        assert (Sst' : forall tab, In tab st -> length tab = (2 ^ lBGInputs l * 2 ^ lBGInputs l)%nat).
        { intros tab Ht. apply (In_nth _ _ []) in Ht. destruct Ht as (i & Hi & <-). apply Sst. lia. }
        destruct (layer_prove_any l st (nth last a []) qP Hok Lst Sst' LC SC LqP)
          as (eqc & proof & qP' & qL' & qR' & fin & H). cbn zeta in H.
        destruct H as (Heq & Hmtp & HV & HC & Lp & LL & LR & LP). fold (LVj l last) in *.
        set (pf0 := MkProof (upd (repeat [] (S last)) last proof) (upd (repeat 0 (S last)) last (mle (LVj l last) (qL' ++ qP')))
                     (upd (repeat 0 (S last)) last (mle (LVj l last) (qR' ++ qP')))).
        assert (HL0 : plen c pf0) by (unfold plen, pf0; cbn [SumcheckProofs ClaimsLeft ClaimsRight]; rewrite !upd_length, !repeat_length; auto).
        assert (Hsp : nth_error (SumcheckProofs pf0) last = Some proof)
          by (cbn [pf0 SumcheckProofs]; apply upd_here; rewrite repeat_length; lia).
        pose proof HV as HV0. apply Verify_accept in HV0. destruct HV0 as (_ & _ & _ & Emap).
        assert (HC0 : claims_pt last pf0 qP' qL' qR').
        { destruct (chal_parts ch pf0 last proof (lBGInputs l) qL' qR' qP' Hsp LL LR Emap) as (X1 & X2 & X3).
          exists l. cbn [pf0 ClaimsLeft ClaimsRight]. fold pf0. rewrite !upd_here by (rewrite repeat_length; lia). auto 12. }
        destruct (any_loop last pf0 qP' qL' qR' HL0 HC0) as (pf & qP2 & qL2 & qR2 & EL & HL2 & HC2 & HG & HVL).
        assert (Hlast : gosub (S last) 1 = Some last) by (unfold gosub; cbn; rewrite Nat.sub_0_r; reflexivity).
        exists pf. split; [|split; [exact HL2|]].
        - unfold GkrProve, proverBN. rewrite (get_nth a 0 []) by exact (in_a 0 l0 Hl0).
          assert (H0 : (0 < length (nth 0 a []))%nat) by (rewrite LC0; apply pow_pos).
          rewrite (get_nth (nth 0 a []) 0 []) by exact H0. unfold get at 1. rewrite Hl0.
          rewrite LC0, SC0 by (apply nth_In; exact H0). rewrite <- !Nat.pow_add_r, log2ceil_pow2.
          assert (Hbn : gosub (k + (lBGInputs l0 + m)) (lBGInputs l0) = Some (m + k)%nat).
          { unfold gosub. destruct (Nat.leb_spec (lBGInputs l0) (k + (lBGInputs l0 + m))); [f_equal; lia|lia]. }
          rewrite Hbn, ELc, Hlast. unfold get at 1. rewrite Hl.
          change (GetInitialQPrimeAndQ (m + k) (lBGOutputs l)) with (qP, q). cbv beta iota zeta.
          unfold InitialRoundSumcheckProver, LayerAsBKTWithCopy. rewrite ELc, Hlast. unfold get at 1. rewrite Hl, Est.
          rewrite (get_nth a last []) by exact (in_a last l Hl). cbv beta iota zeta.
          replace (map DeepCopy (nth last a [])) with (nth last a []) by (symmetry; apply map_id).
          rewrite LC, Heq, Hmtp. rewrite set_some by (rewrite repeat_length; lia).
          unfold get at 1 2. cbn [nth_error]. rewrite !set_some by (rewrite repeat_length; lia).
          fold pf0. rewrite EL. reflexivity.
        - intros mm. destruct (HG last ltac:(lia)) as (G1 & G2 & G3). unfold pf0 in G1, G2, G3.
          cbn [SumcheckProofs ClaimsLeft ClaimsRight] in G1, G2, G3.
          rewrite upd_here in G1 by (rewrite repeat_length; lia). rewrite upd_here in G2 by (rewrite repeat_length; lia). rewrite upd_here in G3 by (rewrite repeat_length; lia).
          pose proof (any_sum l q qP st (LVj l last) Hwf Lq Est) as ES. rewrite LqP in ES.
          destruct HC2 as (l0' & Hl0' & LqP2 & LqL2 & LqR2 & CL & CR & _). rewrite Hl0 in Hl0'. injection Hl0' as <-.
          assert (EO : OUT l last = interleave (2 ^ (lBGOutputs l + m)) outputs) by (unfold OUT, glued; rewrite ELc, Nat.eqb_refl; reflexivity).
          assert (Htop : line pf last <-> mle (OUT l last) (q ++ qP) = table_sum (2 ^ (m + k)) (2 ^ lBGInputs l) (lGates l) st (eqtab qP) (LVj l last) (LVj l last)).
          { rewrite ES. unfold line, in_line, claim_about. rewrite ELc, Nat.eqb_refl. split.
            - intros H. exact (H l Hl).
            - intros H l2 Hl2. assert (l2 = l) by congruence. subst l2. exact H. }
          assert (Hall : all_in_line ch c m k pf a outputs <-> line pf last /\ (forall i, (i < last)%nat -> line pf i)).
          { unfold all_in_line, line, OUT, LVj. split.
            - intros H. split; [|intros i _]; intros l2 Hl2; apply H; exact Hl2.
            - intros [H1 H2] i l2 Hl2. assert (i < length c)%nat by (apply nth_error_Some; congruence).
              destruct (Nat.eq_dec i last) as [->|Hne]; [exact (H1 l2 Hl2)|exact (H2 i ltac:(lia) l2 Hl2)]. }
          assert (EVC : EvaluateChunked outputs (q ++ qP) = Some (mle (OUT l last) (q ++ qP))).
          { destruct (evaluate_chunked_spec F outputs (q ++ qP) k (lBGOutputs l + m) Hk O1) as [_ EC].
            { intros t Ht. rewrite Nat.pow_add_r. auto. } { rewrite app_length, Lq, LqP. lia. }
            rewrite EC, EO. reflexivity. }
          destruct (HVL mm) as [VA VB]. split; intros H;
            (unfold GkrVerifyWith; rewrite ELc, Hlast; unfold get at 1; rewrite Hl;
             change (GetInitialQPrimeAndQ (m + k) (lBGOutputs l)) with (qP, q); cbv beta iota zeta; rewrite EVC; unfold get at 1; rewrite G1).
          + apply Hall in H. destruct H as [Ht Hr]. rewrite (proj1 Htop Ht), HV. cbv beta iota zeta.
            rewrite EvalEq_spec by lia. unfold get at 1 2. rewrite G2, G3, (evaluateStaticTables_ok l q st qL' qR' Hwf Lq Est LL LR), HC, feqb_refl, (VA Hr).
            cbv beta iota zeta.
            destruct (evaluate_mixed_chunked_spec F (nth 0 a []) qP2 qL2 qR2 k m (lBGInputs l0) Hk LC0) as [_ EM]; auto; try congruence.
            { intros t Ht'. rewrite Nat.pow_add_r. auto. }
            rewrite EM. unfold get. rewrite CL, CR. unfold LVj, glued. rewrite !feqb_refl. reflexivity.
          + destruct (line_dec pf last) as [Ht|Ht].
            * rewrite (proj1 Htop Ht), HV. cbv beta iota zeta.
              rewrite EvalEq_spec by lia. unfold get at 1 2. rewrite G2, G3, (evaluateStaticTables_ok l q st qL' qR' Hwf Lq Est LL LR), HC, feqb_refl, VB; [reflexivity|].
              intros Hr. apply H, Hall. auto.
            * rewrite (other_claim ch _ (mle (OUT l last) (q ++ qP)) proof _ _ _ _ _ _ ltac:(lia) HV) by (intros E; apply Ht, Htop, E). reflexivity.
      Qed.
    End Circ.
  End Run.
End L.
