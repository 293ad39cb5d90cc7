(** Lemmas about the repaired program: the prover. *)
From Coq Require Import List Arith Lia Bool.
From Verif Require Import Field Go MCommon Spec LSpec LCommon MPoly LPoly LPoly2 LPoly3 Trans MCircuit SpecCircuit LCircuit LCircuit2
  LCircuit3 MSumcheck LSumcheck SpecSumcheck LSumcheck4 LSumcheck5 MSumPar SpecSumPar LSumPar4 MGkr SpecGkr LGkr LGkr2 LGkr3 LGkr4
  SpecProof LProof SpecUnique LUnique LUnique2 LUnique3 MRepair SpecRepair LRepair LRepair2.
Import ListNotations.

Section L.
  Context {F : Field}.
  Add Field FfieldRepair3 : (f_theory F).
  Open Scope F_scope.
  Variable ch : list F -> F.
  Hypothesis Hdist : distinct_upto (F:=F) 12.

  (** The repaired prover on whole tables. *)
  Definition rplain_prove (qPrime q : list F) (c : Circuit F) (V : nat -> list F) : option (Proof F) :=
    let nLayers := length c in
    last <- gosub nLayers 1 ;;
    l <- get c last ;;
    statics <- GetStaticTable l q ;;
    '(proof, qPrime, qL, qR, finalClaims) <- plain_sc ch l (V last) qPrime statics ;;
    sps <- set (repeat [] nLayers) last proof ;;
    f0 <- get finalClaims 0 ;;
    f1 <- get finalClaims 1 ;;
    cls <- set (repeat 0 nLayers) last f0 ;;
    crs <- set (repeat 0 nLayers) last f1 ;;
    '(pf, _, _, _) <- foldM (fun st layer => plain_layer ch c (V layer) layer st)
      (rev (seq 0 last)) (MkProof sps cls crs, qPrime, qL, qR) ;;
    Some pf.

  Section Circ.
    Variable nCore : nat.
    Variable mtProve : MTProver F -> option (list (list F) * list F * list F * list F * list F).
    Hypothesis Hcore : (0 < nCore)%nat.
    Hypothesis Hmt : follows_machine ch nCore mtProve.
    Variables m k : nat.
    Variable c : list (Layer F).
    Variable b : nat.
    Variable inputs : list (list F).
    Variable a : list (list (list F)).
    Hypothesis Hlayers : forall l, In l c -> layer_ok l.
    Hypothesis Hfits : fits b c.
    Hypothesis Hin : chunked k m b inputs.
    Hypothesis Ha : assignment_of c (2 ^ m) inputs a.
    Variable l : Layer F.
    Hypothesis Hl' : nth_error c (length c - 1) = Some l.
    Variables q qP : list F.
    Hypothesis Lq : length q = lBGOutputs l.
    Hypothesis LqP : length qP = (m + k)%nat.

    Lemma rprove_plain : RGkrProve ch mtProve qP q c a nCore = rplain_prove qP q c (tabs m c a).
    Proof.
      destruct Hin as [Hlen Hinp].
      destruct (length c) as [|last] eqn:ELc; [destruct c; [discriminate|discriminate]|].
      assert (Hl : nth_error c last = Some l) by (rewrite <- Hl'; f_equal; lia).
      pose proof (Hlayers l (nth_error_In _ _ Hl)) as Hok. pose proof Hok as (Hwf & Hg & _).
      destruct (a_chunks nCore Hcore m k c b inputs a Hfits Hinp Hlen Ha last l Hl) as [LC SC].
      pose proof Ha as (A1 & A2 & A3).
      destruct (statics_ok l q Hwf Lq) as (st & Est & Lst & Sst).
      assert (Sst' : forall tab, In tab st -> length tab = (2 ^ lBGInputs l * 2 ^ lBGInputs l)%nat).
      { intros tab Ht. apply (In_nth _ _ []) in Ht. destruct Ht as (i & Hi & <-). apply Sst. lia. }
      destruct (layer_plain ch Hdist nCore mtProve Hcore Hmt m k l st (nth last a []) qP Hok Lst Sst' LC SC LqP) as (eqc & Heq & Hp).
      destruct (layer_prove ch nCore mtProve Hdist Hcore Hmt m k l st (nth last a []) qP Hok Lst Sst' LC SC LqP)
        as (eqc' & proof & qP' & qL' & qR' & fin & H). cbn zeta in H.
      destruct H as (Heq' & Hmtp & _ & _ & _ & LL & LR & LP & LM). rewrite Heq in Heq'. injection Heq' as <-.
      assert (Hlast : gosub (S last) 1 = Some last) by (unfold gosub; cbn; rewrite Nat.sub_0_r; reflexivity).
      assert (Et : tabs m c a last = glued (lBGInputs l) m (nth last a [])) by (unfold tabs; rewrite Hl; reflexivity).
      unfold RGkrProve, rplain_prove, InitialRoundSumcheckProver, LayerAsBKTWithCopy.
      assert (Hgl : get c last = Some l) by exact Hl. rewrite ELc, Hlast, Hgl, Est.
      rewrite (get_nth a last []) by lia. cbv beta iota zeta.
      replace (map DeepCopy (nth last a [])) with (nth last a []) by (symmetry; apply map_id).
      rewrite LC, Heq. rewrite Et, <- Hp, Hmtp. rewrite set_some by (rewrite repeat_length; lia).
      cbn [get nth_error]. rewrite !set_some by (rewrite repeat_length; lia).
      rewrite (loop_plain ch Hdist nCore mtProve Hcore Hmt m k c b inputs a Hlayers Hfits Hinp Hlen Ha); [reflexivity| | |].
      - unfold plen; cbn [SumcheckProofs ClaimsLeft ClaimsRight]; rewrite !upd_length, !repeat_length; auto.
      - intros i li Hi Hli. assert (i < length c)%nat by (apply nth_error_Some; congruence). assert (i = last) by lia. subst i.
        rewrite Hl in Hli. injection Hli as <-. cbn [SumcheckProofs]. rewrite nth_upd_same by (rewrite repeat_length; lia). exact LM.
      - exists l. cbn [ClaimsLeft ClaimsRight]. rewrite !nth_error_upd_eq by (rewrite repeat_length; lia). auto 10.
    Qed.

    (** The prover returns a proof that passes the checks. *)
    Lemma rcomplete_from : exists pf, RGkrProve ch mtProve qP q c a nCore = Some pf /\ exact_shape c (m + k) pf /\
      accepted ch false c (m + k) pf q qP (glued (lBGOutputs l) m (nth (length c) a [])) (glued b m inputs).
    Proof.
      destruct Hin as [Hlen Hinp].
      destruct (length c) as [|last] eqn:ELc; [destruct c; [discriminate|discriminate]|].
      assert (Hl : nth_error c last = Some l) by (rewrite <- Hl'; f_equal; lia).
      pose proof (Hlayers l (nth_error_In _ _ Hl)) as Hok. pose proof Hok as (Hwf & Hg & _).
      destruct (nth_error c 0) as [l0|] eqn:Hl0; [|apply nth_error_None in Hl0; lia].
      destruct (a_chunks nCore Hcore m k c b inputs a Hfits Hinp Hlen Ha last l Hl) as [LC SC].
      pose proof Ha as (A1 & A2 & A3).
      destruct (statics_ok l q Hwf Lq) as (st & Est & Lst & Sst).
      assert (Sst' : forall tab, In tab st -> length tab = (2 ^ lBGInputs l * 2 ^ lBGInputs l)%nat).
      { intros tab Ht. apply (In_nth _ _ []) in Ht. destruct Ht as (i & Hi & <-). apply Sst. lia. }
      destruct (layer_prove ch nCore mtProve Hdist Hcore Hmt m k l st (nth last a []) qP Hok Lst Sst' LC SC LqP)
        as (eqc & proof & qP' & qL' & qR' & fin & H). cbn zeta in H.
      destruct H as (Heq & Hmtp & HV & HC & Lp & LL & LR & LP & LM). fold (LV m a l last) in *.
      set (pf0 := MkProof (upd (repeat [] (S last)) last proof) (upd (repeat 0 (S last)) last (mle (LV m a l last) (qL' ++ qP')))
                   (upd (repeat 0 (S last)) last (mle (LV m a l last) (qR' ++ qP')))).
      assert (HL0 : plen c pf0) by (unfold plen, pf0; cbn [SumcheckProofs ClaimsLeft ClaimsRight]; rewrite !upd_length, !repeat_length; auto).
      assert (HC0 : claims_at m k c a last pf0 qP' qL' qR').
      { exists l. unfold pf0. cbn [ClaimsLeft ClaimsRight]. rewrite !nth_error_upd_eq by (rewrite repeat_length; lia). auto 10. }
      assert (HS0 : pshape m k c last pf0).
      { intros i li Hi Hli. assert (i < length c)%nat by (apply nth_error_Some; congruence). assert (i = last) by lia. subst i.
        rewrite Hl in Hli. injection Hli as <-. unfold pf0. cbn [SumcheckProofs]. rewrite nth_upd_same by (rewrite repeat_length; lia). exact LM. }
      destruct (prove_loop ch nCore mtProve Hdist Hcore Hmt m k c b inputs a Hlayers Hfits Hinp Hlen Ha last pf0 qP' qL' qR' HL0 HS0 HC0)
        as (pf & qP2 & qL2 & qR2 & EL & HL2 & HS2 & HC2 & HG & HVL).
      assert (Hlast : gosub (S last) 1 = Some last) by (unfold gosub; cbn; rewrite Nat.sub_0_r; reflexivity).
      exists pf. split; [|split].
      - unfold RGkrProve, InitialRoundSumcheckProver, LayerAsBKTWithCopy. rewrite ELc, Hlast. unfold get at 1. rewrite Hl, Est.
        rewrite (get_nth a last []) by lia. cbv beta iota zeta.
        replace (map DeepCopy (nth last a [])) with (nth last a []) by (symmetry; apply map_id).
        rewrite LC, Heq, Hmtp. rewrite set_some by (rewrite repeat_length; lia).
        unfold get at 1 2. cbn [nth_error]. rewrite !set_some by (rewrite repeat_length; lia).
        fold pf0. rewrite EL. reflexivity.
      - destruct HL2 as (X1 & X2 & X3). unfold exact_shape. repeat (split; [assumption|]). intros j lj Hj.
        exact (HS2 j lj ltac:(lia) Hj).
      - destruct (HG last ltac:(lia)) as (G1 & G2 & G3). unfold pf0 in G1, G2, G3.
        cbn [SumcheckProofs ClaimsLeft ClaimsRight] in G1, G2, G3.
        rewrite nth_error_upd_eq in G1 by (rewrite repeat_length; lia). rewrite nth_error_upd_eq in G2 by (rewrite repeat_length; lia).
        rewrite nth_error_upd_eq in G3 by (rewrite repeat_length; lia).
        pose proof (layer_sum l q qP st (LV m a l last) (glued (lBGOutputs l) m (nth (S last) a [])) Hwf Hg Lq Est) as ES.
        rewrite LqP in ES. specialize (ES (a_layer nCore Hcore m k c b inputs a Hlayers Hfits Hinp Hlen Ha last l Hl)).
        destruct HC2 as (l0' & Hl0' & LqP2 & LqL2 & LqR2 & CL & CR). rewrite Hl0 in Hl0'. injection Hl0' as <-.
        assert (Hb0 : lBGInputs l0 = b) by (destruct c; [discriminate|]; injection Hl0 as ->; exact (proj1 Hfits)).
        unfold LV in CL, CR. rewrite A2, Hb0 in CL, CR.
        exists l, proof, qP', qL', qR', fin, (mle (LV m a l last) (qL' ++ qP')), (mle (LV m a l last) (qR' ++ qP')),
          (map (fun t => mle t (qL' ++ qR')) st), qP2, qL2, qR2.
        rewrite ELc. replace (S last - 1)%nat with last by lia.
        split; [exact Hl|]. split; [exact G1|]. split; [rewrite <- ES; exact HV|]. split; [lia|]. split; [exact G2|]. split; [exact G3|].
        split; [exact (evaluateStaticTables_ok l q st qL' qR' Hwf Lq Est LL LR)|]. split; [exact HC|]. split; [apply HVL|].
        split; [exact LqP2|]. split; [congruence|]. split; [|split; [exact CL|exact CR]].
        rewrite LqL2, Hb0. unfold glued. rewrite interleave_length, Hlen, <- Nat.pow_add_r. f_equal. lia.
    Qed.

    (** Its proof is right in every layer. *)
    Lemma rhonest_right : exists pf, RGkrProve ch mtProve qP q c a nCore = Some pf /\
      forall j, (j < length c)%nat -> right_layer ch pf c m k a q qP j.
    Proof.
      rewrite rprove_plain.
      assert (Hc : (0 < length c)%nat) by (destruct c; [discriminate|cbn; lia]).
      set (last := (length c - 1)%nat) in *.
      pose proof (Hlayers l (nth_error_In _ _ Hl')) as Hok. pose proof Hok as (Hwf & Hg & _).
      assert (Hweak : forall l, In l c -> wf_layer l /\ gates_once l) by (intros l1 H1; destruct (Hlayers l1 H1) as (X & Y & _); auto).
      destruct (statics_ok l q Hwf Lq) as (st & Est & Lst & Sst).
      destruct (tv_layer m k b c inputs a Hweak Hfits Hin Ha last l Hl') as [_ LT].
      set (V := glued (lBGInputs l) m (nth last a [])) in *.
      destruct (plain_sc_right ch Hdist l st (fun o => chi (to_bits (lBGOutputs l) o) q) qP V (m + k) Hok)
        as (proof & qP' & qL' & qR' & rest & EP & LL & LR & LP & Em & Lp & Hright); auto using weights_static.
      { intros tab Ht. apply (In_nth _ _ []) in Ht. destruct Ht as (i & Hi & <-). apply Sst. lia. }
      set (pf0 := MkProof (upd (repeat [] (length c)) last proof) (upd (repeat 0 (length c)) last (mle V (qL' ++ qP')))
        (upd (repeat 0 (length c)) last (mle V (qR' ++ qP')))).
      assert (Esp : nth_error (SumcheckProofs pf0) last = Some proof)
        by (unfold pf0; cbn [SumcheckProofs]; apply nth_error_upd_eq; rewrite repeat_length; lia).
      destruct (chal_parts ch pf0 last proof (lBGInputs l) qL' qR' qP' Esp LL LR Em) as (PL' & PR' & PP').
      destruct (LUnique3.loop_right ch Hdist m k b c inputs a Hlayers Hfits Hin Ha q qP last (pf0, qP', qL', qR')) as ([[[pf x] y] z] & E & H).
      - unfold hon. unfold pf0 at 1 2 3. cbn [SumcheckProofs ClaimsLeft ClaimsRight]. rewrite !upd_length, !repeat_length.
        repeat (split; [reflexivity|]). split.
        + exists l. rewrite PL', PR', PP'. auto 10.
        + intros i Hi. assert (i = last) by lia. subst i. exists l. split; [exact Hl'|]. cbv zeta. exists proof.
          split; [exact Esp|]. split; [exact Lp|]. rewrite PL', PR', PP'. split.
          * unfold run_poly_from. replace (S last) with (length c) by lia. rewrite Nat.eqb_refl. exact Hright.
          * unfold pf0. cbn [ClaimsLeft ClaimsRight]. rewrite !nth_error_upd_eq by (rewrite repeat_length; lia). auto.
      - exists pf. split.
        + unfold rplain_prove. assert (Hg1 : gosub (length c) 1 = Some last) by (unfold gosub; destruct (Nat.leb_spec 1 (length c)); [reflexivity|lia]).
          rewrite Hg1. unfold get at 1. rewrite Hl', Est. unfold tabs at 1. rewrite Hl'. fold V. rewrite EP.
          rewrite set_some by (rewrite repeat_length; lia). unfold get. cbn [nth_error].
          rewrite !set_some by (rewrite repeat_length; lia). fold pf0. rewrite E. reflexivity.
        + intros j Hj. apply H. lia.
    Qed.
  End Circ.
End L.
