(** Lemmas about the proofs of package gkr: their size, and that chunks and threads leave no trace in them. *)
From Coq Require Import List Arith Lia Bool.
From Verif Require Import Field Go MCommon Spec LSpec LCommon MPoly LPoly LPoly2 LPoly3 Trans MCircuit SpecCircuit LCircuit LCircuit2
  LCircuit3 MSumcheck LSumcheck SpecSumcheck LSumcheck4 LSumcheck5 MSumPar SpecSumPar LSumPar4 MGkr SpecGkr LGkr LGkr2 SpecProof.
Import ListNotations.

Section L.
  Context {F : Field}.
  Add Field FfieldProof : (f_theory F).
  Open Scope F_scope.

  Lemma sum_repeat x n : list_sum (repeat x n) = (n * x)%nat.
  Proof. induction n as [|n IH]; cbn; [reflexivity|]. unfold list_sum in IH. rewrite IH. reflexivity. Qed.

  Lemma concat_sum {A} (l : list (list A)) : length (concat l) = list_sum (map (@length A) l).
  Proof. induction l as [|x l IH]; [reflexivity|]. cbn. rewrite app_length, IH. reflexivity. Qed.

  Lemma concat_map_sum {A} (ll : list (list (list A))) : length (concat (concat ll)) = list_sum (map (fun l => length (concat l)) ll).
  Proof. induction ll as [|x ll IH]; [reflexivity|]. cbn. rewrite concat_app, app_length, IH. reflexivity. Qed.

  Lemma nth_error_upd_eq {A} (l : list A) i v : (i < length l)%nat -> nth_error (upd l i v) i = Some v.
  Proof. revert i. induction l as [|x l IH]; intros i H; destruct i; simpl in *; auto; try lia. apply IH. lia. Qed.

  Lemma size_of (c : list (Layer F)) bN (pf : Proof F) :
    length (SumcheckProofs pf) = length c -> length (ClaimsLeft pf) = length c -> length (ClaimsRight pf) = length c ->
    (forall i l, nth_error c i = Some l -> map (@length F) (nth i (SumcheckProofs pf) []) = coefficients l bN) ->
    elements pf = list_sum (map (fun l => layer_elements l bN) c).
  Proof.
    intros H1 H2 H3 H4. unfold elements. rewrite H2, H3, concat_map_sum.
    revert H1 H4. clear H2 H3. generalize (SumcheckProofs pf). induction c as [|l c IH]; intros sps H1 H4; destruct sps as [|sp sps]; try discriminate; [reflexivity|].
    cbn [length map list_sum fold_right]. cbn [length] in H1. specialize (IH sps ltac:(lia) (fun i l' Hi => H4 (S i) l' Hi)).
    specialize (H4 0%nat l eq_refl). cbn [nth] in H4. rewrite concat_sum, H4. unfold coefficients. rewrite !list_sum_app, !sum_repeat.
    unfold list_sum in *. unfold layer_elements at 1. lia.
  Qed.

  Section Two.
    Variable ch : list F -> F.
    Hypothesis Hdist : distinct_upto (F:=F) 12.

    (** The sum-check of one layer, without chunks. *)
    Definition plain_sc (l : Layer F) (V qP : list F) (st : list (list F)) :=
      Prove ch (NewSingleThreadedProver V V (eqtab qP) (lGates l) st).

    Definition plain_layer (c : Circuit F) (V : list F) (layer : nat)
        (st : Proof F * list F * list F * list F) : option (Proof F * list F * list F * list F) :=
      let '(pf, qPrime, qL, qR) := st in
      cl <- get (ClaimsLeft pf) (layer + 1) ;;
      cr <- get (ClaimsRight pf) (layer + 1) ;;
      l <- get c layer ;;
      staticsL <- GetStaticTable l qL ;;
      staticsR <- GetStaticTable l qR ;;
      statics <- combineStatics staticsL staticsR 1 (ch [cl; cr]) ;;
      '(proof, qPrime, qL, qR, finalClaims) <- plain_sc l V qPrime statics ;;
      sps <- set (SumcheckProofs pf) layer proof ;;
      f0 <- get finalClaims 0 ;;
      f1 <- get finalClaims 1 ;;
      cls <- set (ClaimsLeft pf) layer f0 ;;
      crs <- set (ClaimsRight pf) layer f1 ;;
      Some (MkProof sps cls crs, qPrime, qL, qR).

    Definition plain_prove (bN : nat) (c : Circuit F) (V : nat -> list F) : option (Proof F) :=
      let nLayers := length c in
      last <- gosub nLayers 1 ;;
      l <- get c last ;;
      statics <- GetStaticTable l (count (lBGOutputs l)) ;;
      '(proof, qPrime, qL, qR, finalClaims) <- plain_sc l (V last) (count bN) statics ;;
      sps <- set (repeat [] nLayers) last proof ;;
      f0 <- get finalClaims 0 ;;
      f1 <- get finalClaims 1 ;;
      cls <- set (repeat 0 nLayers) last f0 ;;
      crs <- set (repeat 0 nLayers) last f1 ;;
      '(pf, _, _, _) <- foldM (fun st layer => plain_layer c (V layer) layer st)
        (rev (seq 0 last)) (MkProof sps cls crs, qPrime, qL, qR) ;;
      Some pf.

    Variable nCore : nat.
    Variable mtProve : MTProver F -> option (list (list F) * list F * list F * list F * list F).
    Hypothesis Hcore : (0 < nCore)%nat.
    Hypothesis Hmt : follows_machine ch nCore mtProve.
    Variables m k : nat.

    Lemma layer_plain (l : Layer F) st chunks qP : layer_ok l -> length st = length (lGates l) ->
      (forall tab, In tab st -> length tab = (2 ^ lBGInputs l * 2 ^ lBGInputs l)%nat) ->
      length chunks = (2 ^ k)%nat -> (forall c, In c chunks -> length c = (2 ^ (lBGInputs l + m))%nat) ->
      length qP = (m + k)%nat ->
      exists eqc, GetChunkedEqTable qP (2 ^ k) nCore = Some eqc /\
        mtProve (MkMT chunks chunks eqc (lGates l) st) = plain_sc l (glued (lBGInputs l) m chunks) qP st.
    Proof.
      intros (Hwf & Hg & Hne & Hok & Hmax) Lst Sst LC SC HqP.
      destruct (eq_chunks qP k m nCore Hcore HqP) as (eqc & Eeq & Leq & Seq & Ieq).
      set (p := MkMT chunks chunks eqc (lGates l) st).
      set (bG := lBGInputs l) in *.
      assert (HMT : mt_ok p (2 ^ k) m bG).
      { unfold mt_ok, p. cbn [tEq tVL tVR tStatic tGates].
        assert (Hmany : forall g, In g (lGates l) -> many_ok g) by (intros g Hgi; apply (Hok g Hgi)).
        pose proof (pow_pos k). auto 12. }
      set (V := interleave (2 ^ (bG + m)) chunks).
      assert (HT : tables_ok bG bG (m + k) (lGates l) st (eqtab qP) V V).
      { unfold tables_ok. rewrite eqtab_length, HqP. unfold V. rewrite interleave_length, LC, <- Nat.pow_add_r.
        replace (bG + m + k)%nat with (bG + (m + k))%nat by lia. repeat split; auto.
        intros tab Ht. rewrite Sst, <- Nat.pow_add_r by exact Ht. reflexivity. }
      destruct (complete ch (m + k) bG (lGates l) st (eqtab qP) V V Hdist HT Hne Hok Hmax) as (proof & qP' & qL' & qR' & H).
      cbn zeta in H. destruct H as (HP & _).
      assert (HPw : Prove ch (whole p m bG) = Prove ch (NewSingleThreadedProver V V (eqtab qP) (lGates l) st)).
      { unfold whole, p. cbn [tEq tVL tVR tStatic tGates]. rewrite Ieq. reflexivity. }
      exists eqc. split; [exact Eeq|]. unfold plain_sc, glued. fold bG V. rewrite HP. rewrite HP in HPw.
      destruct (mt_same_result ch p (2 ^ k) m bG nCore _ HMT Hcore HPw) as [Hprep Hmust].
      eapply (Hmt p (2 ^ k)%nat m bG _ _ _ HMT HPw Hprep). eapply must_mono; [|exact Hmust]. intros s Hs. apply Hs.
    Qed.

    Section Circ.
      Variable c : list (Layer F).
      Variable b : nat.
      Variable inputs : list (list F).
      Variable a : list (list (list F)).
      Hypothesis Hlayers : forall l, In l c -> layer_ok l.
      Hypothesis Hfits : fits b c.
      Hypothesis Hinp : forall inp, In inp inputs -> length inp = (2 ^ b * 2 ^ m)%nat.
      Hypothesis Hlen : length inputs = (2 ^ k)%nat.
      Hypothesis Ha : assignment_of c (2 ^ m) inputs a.

      Definition tabs (j : nat) : list F :=
        match nth_error c j with Some l => glued (lBGInputs l) m (nth j a []) | None => [] end.

      Lemma step_plain j pf qP qL qR : claims_at m k c a (S j) pf qP qL qR ->
        proveLayer ch mtProve c a nCore j (pf, qP, qL, qR) = plain_layer c (tabs j) j (pf, qP, qL, qR).
      Proof.
        intros (l' & Hl' & LqP & LqL & LqR & CL & CR).
        assert (Hj : (S j < length c)%nat) by (apply nth_error_Some; congruence).
        destruct (nth_error c j) as [l|] eqn:Hl; [|apply nth_error_None in Hl; lia].
        pose proof (fits_next c b j l l' Hfits Hl Hl') as Hbb. rewrite Hbb in LqL, LqR.
        pose proof (Hlayers l (nth_error_In _ _ Hl)) as Hok. pose proof Hok as (Hwf & Hg & _).
        destruct (a_chunks nCore Hcore m k c b inputs a Hfits Hinp Hlen Ha j l Hl) as [LC SC].
        destruct (statics_ok l qL Hwf LqL) as (tL & EL & LtL & StL).
        destruct (statics_ok l qR Hwf LqR) as (tR & ER & LtR & StR).
        unfold proveLayer, plain_layer. replace (j + 1)%nat with (S j) by lia. 
        change (nth_error (ClaimsLeft pf) (S j)) with (get (ClaimsLeft pf) (S j)) in CL.
        change (nth_error (ClaimsRight pf) (S j)) with (get (ClaimsRight pf) (S j)) in CR. rewrite CL, CR. cbv beta iota zeta.
        match goal with |- context [ch ?x] => set (lam := ch x) end.
        set (st := map (fun i => lincomb lam (nth i tL []) (nth i tR [])) (seq 0 (length (lGates l)))).
        assert (Lst : length st = length (lGates l)) by (unfold st; rewrite map_length, seq_length; reflexivity).
        assert (Sst : forall tab, In tab st -> length tab = (2 ^ lBGInputs l * 2 ^ lBGInputs l)%nat).
        { intros tab Ht. apply in_map_iff in Ht. destruct Ht as (i & <- & Hi). apply in_seq in Hi.
          unfold lincomb. rewrite map_length, seq_length. apply StR. lia. }
        destruct (layer_plain l st (nth j a []) qP Hok Lst Sst LC SC LqP) as (eqc & Heq & Hp).
        unfold IntermediateRoundsSumcheckProver, LayerAsBKTWithCopy.
        destruct Ha as (A1 & _). rewrite (get_nth a j []) by lia. cbv beta iota zeta.
        replace (map DeepCopy (nth j a [])) with (nth j a []) by (symmetry; apply map_id).
        rewrite LC, Heq. change (nth_error c j) with (get c j) in Hl. rewrite Hl, EL, ER.
        rewrite (combineStatics_ok tL tR lam _ _ LtL LtR StL StR). fold st. rewrite Hp. unfold tabs. change (nth_error c j) with (get c j). rewrite Hl. reflexivity.
      Qed.

      Lemma loop_plain j : forall pf qP qL qR, plen c pf -> pshape m k c j pf -> claims_at m k c a j pf qP qL qR ->
        foldM (fun st layer => proveLayer ch mtProve c a nCore layer st) (rev (seq 0 j)) (pf, qP, qL, qR) =
        foldM (fun st layer => plain_layer c (tabs layer) layer st) (rev (seq 0 j)) (pf, qP, qL, qR).
      Proof.
        induction j as [|j IH]; intros pf qP qL qR HL HSh HC; [reflexivity|].
        destruct (prove_step ch nCore mtProve Hdist Hcore Hmt m k c b inputs a Hlayers Hfits Hinp Hlen Ha j pf qP qL qR HL HSh HC)
          as (pf1 & qP1 & qL1 & qR1 & E1 & L1 & S1 & C1 & _).
        rewrite seq_S, rev_app_distr. cbn [rev app foldM Nat.add]. rewrite <- (step_plain j pf qP qL qR HC), E1.
        apply IH; assumption.
      Qed.

      Lemma prove_plain : c <> [] -> GkrProve ch mtProve c a nCore = plain_prove (m + k) c (tabs).
      Proof.
        intros Hc. destruct (length c) as [|last] eqn:ELc; [destruct c; [congruence|discriminate]|].
        destruct (nth_error c last) as [l|] eqn:Hl; [|apply nth_error_None in Hl; lia].
        pose proof (Hlayers l (nth_error_In _ _ Hl)) as Hok. pose proof Hok as (Hwf & Hg & _).
        destruct (nth_error c 0) as [l0|] eqn:Hl0; [|apply nth_error_None in Hl0; lia].
        destruct (a_chunks nCore Hcore m k c b inputs a Hfits Hinp Hlen Ha last l Hl) as [LC SC].
        destruct (a_chunks nCore Hcore m k c b inputs a Hfits Hinp Hlen Ha 0 l0 Hl0) as [LC0 SC0].
        pose proof Ha as (A1 & A2 & A3). rewrite A2 in LC0, SC0.
        set (q := count (F:=F) (lBGOutputs l)). set (qP := count (F:=F) (m + k)).
        assert (Lq : length q = lBGOutputs l) by (unfold q, count; rewrite map_length, seq_length; reflexivity).
        assert (LqP : length qP = (m + k)%nat) by (unfold qP, count; rewrite map_length, seq_length; reflexivity).
        destruct (statics_ok l q Hwf Lq) as (st & Est & Lst & Sst).
        assert (Sst' : forall tab, In tab st -> length tab = (2 ^ lBGInputs l * 2 ^ lBGInputs l)%nat).
        { intros tab Ht. apply (In_nth _ _ []) in Ht. destruct Ht as (i & Hi & <-). apply Sst. lia. }
        destruct (layer_plain l st (nth last a []) qP Hok Lst Sst' LC SC LqP) as (eqc & Heq & Hp).
        destruct (layer_prove ch nCore mtProve Hdist Hcore Hmt m k l st (nth last a []) qP Hok Lst Sst' LC SC LqP)
          as (eqc' & proof & qP' & qL' & qR' & fin & H). cbn zeta in H.
        destruct H as (Heq' & Hmtp & _ & _ & _ & LL & LR & LP & LM). rewrite Heq in Heq'. injection Heq' as <-.
        assert (Hlast : gosub (S last) 1 = Some last) by (unfold gosub; cbn; rewrite Nat.sub_0_r; reflexivity).
        unfold GkrProve, plain_prove, proverBN. rewrite (get_nth a 0 []) by lia. rewrite A2.
        assert (H0 : (0 < length inputs)%nat) by (rewrite Hlen; apply pow_pos).
        rewrite (get_nth inputs 0 []) by exact H0. change (nth_error c 0) with (get c 0) in Hl0. rewrite Hl0.
        rewrite LC0, SC0 by (apply nth_In; exact H0). rewrite <- Nat.pow_add_r, log2ceil_pow2.
        assert (Hbn : gosub (k + (lBGInputs l0 + m)) (lBGInputs l0) = Some (m + k)%nat).
        { unfold gosub. destruct (Nat.leb_spec (lBGInputs l0) (k + (lBGInputs l0 + m))); [f_equal; lia|lia]. }
        assert (Et : tabs last = glued (lBGInputs l) m (nth last a [])) by (unfold tabs; rewrite Hl; reflexivity).
        change (nth_error c last) with (get c last) in Hl.
        rewrite Hbn, ELc, Hlast, Hl.
        change (GetInitialQPrimeAndQ (m + k) (lBGOutputs l)) with (qP, q). cbv beta iota zeta.
        unfold InitialRoundSumcheckProver, LayerAsBKTWithCopy. rewrite ELc, Hlast, Hl. fold q qP. rewrite Est.
        rewrite (get_nth a last []) by lia. cbv beta iota zeta.
        replace (map DeepCopy (nth last a [])) with (nth last a []) by (symmetry; apply map_id).
        rewrite LC, Heq. rewrite Et, <- Hp, Hmtp. rewrite set_some by (rewrite repeat_length; lia).
        cbn [get nth_error]. rewrite !set_some by (rewrite repeat_length; lia).
        rewrite loop_plain; [reflexivity| | |].
        - unfold plen; cbn [SumcheckProofs ClaimsLeft ClaimsRight]; rewrite !upd_length, !repeat_length; auto.
        - intros i li Hi Hli. assert (i < length c)%nat by (apply nth_error_Some; congruence). assert (i = last) by lia. subst i.
          unfold get in Hl. rewrite Hl in Hli. injection Hli as <-. cbn [SumcheckProofs]. rewrite nth_upd_same by (rewrite repeat_length; lia). exact LM.
        - exists l. cbn [ClaimsLeft ClaimsRight]. rewrite !nth_error_upd_eq by (rewrite repeat_length; lia). auto 10.
      Qed.

      (** The tables of the layers are determined by that of the inputs. *)
      Lemma tabs_0 : c <> [] -> tabs 0 = glued b m inputs.
      Proof.
        intros Hc. unfold tabs. destruct Ha as (_ & A2 & _). rewrite A2.
        destruct c as [|l0 c']; [congruence|]. cbn. destruct Hfits as [-> _]. reflexivity.
      Qed.

      Lemma tabs_S j l l' : nth_error c j = Some l -> nth_error c (S j) = Some l' ->
        layer_table l (2 ^ (m + k)) (tabs j) (tabs (S j)).
      Proof.
        intros Hl Hl'. pose proof (a_layer nCore Hcore m k c b inputs a Hlayers Hfits Hinp Hlen Ha j l Hl) as H.
        unfold tabs. rewrite Hl, Hl'. rewrite (fits_next c b j l l' Hfits Hl Hl'). exact H.
      Qed.
    End Circ.
  End Two.

  Lemma layer_table_unique (l : Layer F) N inp out out' : layer_table l N inp out -> layer_table l N inp out' -> out = out'.
  Proof.
    intros [L1 H1] [L2 H2]. apply (list_ext 0); [congruence|]. intros i Hi. rewrite L1 in Hi.
    assert (HN : N <> 0%nat) by (intros ->; lia).
    assert (E : i = (i / N * N + i mod N)%nat) by (rewrite Nat.mul_comm; apply Nat.div_mod; exact HN).
    rewrite E. rewrite H1, H2; auto; try (apply Nat.mod_upper_bound; exact HN);
      apply Nat.div_lt_upper_bound; lia.
  Qed.

  Lemma plain_prove_ext ch bN (c : list (Layer F)) V V' : (forall j, (j < length c)%nat -> V j = V' j) ->
    plain_prove ch bN c V = plain_prove ch bN c V'.
  Proof.
    intros H. unfold plain_prove. destruct (gosub (length c) 1) as [last|] eqn:E; [|reflexivity].
    assert (Hlast : (S last = length c)%nat).
    { unfold gosub in E. destruct (Nat.leb_spec 1 (length c)); [|discriminate]. injection E as <-. lia. }
    rewrite (H last) by lia. destruct (get c last); [|reflexivity]. destruct (GetStaticTable _ _); [|reflexivity].
    destruct (plain_sc _ _ _ _ _) as [[[[[proof qP] qL] qR] fc]|]; [|reflexivity].
    destruct (set _ last proof); [|reflexivity]. destruct (get fc 0); [|reflexivity]. destruct (get fc 1); [|reflexivity].
    destruct (set _ last _); [|reflexivity]. destruct (set _ last _); [|reflexivity].
    rewrite (foldM_ext _ (fun st layer => plain_layer ch c (V' layer) layer st)); [reflexivity|].
    intros st x Hx. apply in_rev, in_seq in Hx. rewrite H by lia. reflexivity.
  Qed.

  (** Two runs of the prover on the same instances, cut into chunks differently and with different numbers of cores. *)
  Lemma same_proof ch (c : list (Layer F)) b nCore mtProve m k inputs a nCore' mtProve' m' k' inputs' a' :
    distinct_upto (F:=F) 12 -> c <> [] -> (forall l, In l c -> layer_ok l) -> fits b c ->
    (0 < nCore)%nat -> follows_machine ch nCore mtProve -> chunked k m b inputs -> assignment_of c (2 ^ m) inputs a ->
    (0 < nCore')%nat -> follows_machine ch nCore' mtProve' -> chunked k' m' b inputs' -> assignment_of c (2 ^ m') inputs' a' ->
    (m + k = m' + k')%nat -> glued b m inputs = glued b m' inputs' ->
    GkrProve ch mtProve c a nCore = GkrProve ch mtProve' c a' nCore'.
  Proof.
    intros Hd Hc Hl Hf H1 H2 [H3 H3'] H4 H5 H6 [H7 H7'] H8 Hs Hg.
    rewrite (prove_plain ch Hd nCore mtProve H1 H2 m k c b inputs a Hl Hf H3' H3 H4 Hc).
    rewrite (prove_plain ch Hd nCore' mtProve' H5 H6 m' k' c b inputs' a' Hl Hf H7' H7 H8 Hc).
    rewrite <- Hs. apply plain_prove_ext. intros j Hj. induction j as [|j IH].
    - erewrite (tabs_0 m c b inputs a), (tabs_0 m' c b inputs' a'); eassumption.
    - specialize (IH ltac:(lia)). destruct (nth_error c j) as [l|] eqn:Hlj; [|apply nth_error_None in Hlj; lia].
      destruct (nth_error c (S j)) as [l'|] eqn:Hlj'; [|apply nth_error_None in Hlj'; lia].
      pose proof (tabs_S nCore H1 m k c b inputs a Hl Hf H3' H3 H4 j l l' Hlj Hlj') as T1.
      pose proof (tabs_S nCore' H5 m' k' c b inputs' a' Hl Hf H7' H7 H8 j l l' Hlj Hlj') as T2.
      rewrite <- Hs, <- IH in T2. exact (layer_table_unique l _ _ _ _ T1 T2).
  Qed.
End L.
