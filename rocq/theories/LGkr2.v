(** Lemmas about the GKR protocol: the honest run. *)
From Coq Require Import List Arith Lia Bool.
From Verif Require Import Field Go MCommon Spec LSpec LCommon MPoly LPoly LPoly2 LPoly3 Trans MCircuit SpecCircuit LCircuit LCircuit2
  LCircuit3 MSumcheck LSumcheck SpecSumcheck LSumcheck4 LSumcheck5 MSumPar SpecSumPar LSumPar4 MGkr SpecGkr LGkr.
Import ListNotations.

Section L.
  Context {F : Field}.
  Add Field FfieldGkr2 : (f_theory F).
  Open Scope F_scope.

  Lemma eq_chunks (q : list F) k m nCore : (0 < nCore)%nat -> length q = (m + k)%nat ->
    exists chunks, GetChunkedEqTable q (2 ^ k) nCore = Some chunks /\ length chunks = (2 ^ k)%nat /\
      (forall c, In c chunks -> length c = (2 ^ m)%nat) /\ interleave (2 ^ m) chunks = eqtab q.
  Proof.
    intros Hc Hq. destruct (chunked_eq_spec F q k nCore Hc ltac:(lia)) as (chunks & t & E & Et & HL & HS & HN).
    rewrite GetFoldedEqTable_spec in Et. injection Et as <-.
    replace (length q - k)%nat with m in * by lia.
    exists chunks. split; [exact E|]. split; [exact HL|]. split.
    - intros c Hi. apply (In_nth _ _ []) in Hi. destruct Hi as (i & Hi & <-). apply HS. lia.
    - symmetry. apply interleave_eq; rewrite HL.
      + rewrite eqtab_length, Hq, Nat.pow_add_r. reflexivity.
      + intros u s Hu Hs. symmetry. apply HN; assumption.
  Qed.

  (** The static tables of a layer. *)
  Lemma statics_ok (l : Layer F) q : wf_layer l -> length q = lBGOutputs l ->
    exists tabs, GetStaticTable l q = Some tabs /\ length tabs = length (lGates l) /\
      forall i, (i < length (lGates l))%nat -> length (nth i tabs []) = (2 ^ lBGInputs l * 2 ^ lBGInputs l)%nat.
  Proof.
    intros Hwf Hq. destruct (static_table_spec l q Hwf Hq) as (tabs & E & HL & HS).
    exists tabs. split; [exact E|]. split; [exact HL|]. intros i Hi.
    destruct (HS i (nth i (lGates l) agate)) as (t & Et & Hlen & _); [apply nth_error_nth'; exact Hi|].
    rewrite (nth_error_nth _ _ [] Et), Hlen. rewrite <- Nat.pow_mul_l. reflexivity.
  Qed.

  Definition lincomb (lam : F) (t0 t1 : list F) : list F :=
    map (fun i => 1 * nth i t0 0 + lam * nth i t1 0) (seq 0 (length t1)).

  Lemma combineStatics_ok (tL tR : list (list F)) lam n g : length tL = n -> length tR = n ->
    (forall i, (i < n)%nat -> length (nth i tL []) = g) -> (forall i, (i < n)%nat -> length (nth i tR []) = g) ->
    combineStatics tL tR 1 lam = Some (map (fun i => lincomb lam (nth i tL []) (nth i tR [])) (seq 0 n)).
  Proof.
    intros L1 L2 H1 H2. unfold combineStatics. rewrite L1. apply mapM_some. intros i Hi. apply in_seq in Hi.
    rewrite (get_nth tL i []), (get_nth tR i []) by lia.
    rewrite LinearCombination_spec by (rewrite H1, H2 by lia; reflexivity). reflexivity.
  Qed.

  Lemma mle_lincomb lam (t0 t1 x : list F) : length t1 = (2 ^ length x)%nat ->
    mle (lincomb lam t0 t1) x = mle t0 x * 1 + mle t1 x * lam.
  Proof.
    intros H. rewrite (mle_linear t0 t1 _ 1 lam x); [ring|]. intros i Hi. unfold lincomb.
    rewrite nth_map_seq by lia. reflexivity.
  Qed.

  Lemma evaluateStaticTables_ok (l : Layer F) q tabs x y : wf_layer l -> length q = lBGOutputs l ->
    GetStaticTable l q = Some tabs -> length x = lBGInputs l -> length y = lBGInputs l ->
    evaluateStaticTables l q x y = Some (map (fun t => mle t (x ++ y)) tabs).
  Proof.
    intros Hwf Hq E Hx Hy. unfold evaluateStaticTables. rewrite E.
    destruct (statics_ok l q Hwf Hq) as (tabs' & E' & HL & HS). rewrite E in E'. injection E' as <-.
    apply mapM_some. intros t Ht. apply (In_nth _ _ []) in Ht. destruct Ht as (i & Hi & <-).
    apply Evaluate_mle. rewrite HS, app_length, Hx, Hy, Nat.pow_add_r by lia. reflexivity.
  Qed.

  Lemma evaluateStaticTablesLinCombs_ok (l : Layer F) qL qR tL tR x y lam : wf_layer l ->
    length qL = lBGOutputs l -> length qR = lBGOutputs l ->
    GetStaticTable l qL = Some tL -> GetStaticTable l qR = Some tR -> length x = lBGInputs l -> length y = lBGInputs l ->
    evaluateStaticTablesLinCombs l qL qR x y 1 lam =
    Some (map (fun t => mle t (x ++ y)) (map (fun i => lincomb lam (nth i tL []) (nth i tR [])) (seq 0 (length (lGates l))))).
  Proof.
    intros Hwf HqL HqR EL ER Hx Hy. unfold evaluateStaticTablesLinCombs. rewrite EL, ER.
    destruct (statics_ok l qL Hwf HqL) as (tL' & EL' & LL & SL). rewrite EL in EL'. injection EL' as <-.
    destruct (statics_ok l qR Hwf HqR) as (tR' & ER' & LR & SR). rewrite ER in ER'. injection ER' as <-.
    rewrite LL, map_map. apply mapM_some. intros i Hi. apply in_seq in Hi.
    assert (Hxy : (2 ^ lBGInputs l * 2 ^ lBGInputs l = 2 ^ length (x ++ y))%nat)
      by (rewrite app_length, Hx, Hy, Nat.pow_add_r; reflexivity).
    rewrite (get_nth tL i []) by lia. rewrite Evaluate_mle by (rewrite SL by lia; exact Hxy).
    rewrite (get_nth tR i []) by lia. rewrite Evaluate_mle by (rewrite SR by lia; exact Hxy).
    cbv beta iota zeta. rewrite mle_lincomb by (rewrite SR by lia; exact Hxy). reflexivity.
  Qed.

  (** The claim of an intermediate layer. *)
  Lemma layer_sum2 (l : Layer F) qL qR x tL tR V W lam : wf_layer l -> gates_once l ->
    length qL = lBGOutputs l -> length qR = lBGOutputs l ->
    GetStaticTable l qL = Some tL -> GetStaticTable l qR = Some tR -> layer_table l (2 ^ length x) V W ->
    table_sum (2 ^ length x) (2 ^ lBGInputs l) (lGates l)
      (map (fun i => lincomb lam (nth i tL []) (nth i tR [])) (seq 0 (length (lGates l)))) (eqtab x) V V
    = mle W (qR ++ x) * lam + mle W (qL ++ x).
  Proof.
    intros Hwf Hg HqL HqR EL ER HW.
    destruct (statics_ok l qL Hwf HqL) as (tL' & EL' & LL & SL). rewrite EL in EL'. injection EL' as <-.
    destruct (statics_ok l qR Hwf HqR) as (tR' & ER' & LR & SR). rewrite ER in ER'. injection ER' as <-.
    rewrite (table_sum_linear _ _ _ tL tR _ _ _ _ lam LL LR).
    - rewrite (layer_sum l qL x tL V W), (layer_sum l qR x tR V W) by assumption. ring.
    - rewrite map_length, seq_length. reflexivity.
    - intros i j Hi Hj. rewrite (nth_map_seq _ _ _ []) by exact Hi. unfold lincomb.
      rewrite nth_map_seq by (rewrite SR by exact Hi; exact Hj). ring.
  Qed.

  Lemma fits_next : forall (c : list (Layer F)) b j l l', fits b c -> nth_error c j = Some l -> nth_error c (S j) = Some l' ->
    lBGInputs l' = lBGOutputs l.
  Proof.
    induction c as [|l0 c IH]; intros b j l l' Hf Hj Hj'; [destruct j; discriminate|].
    destruct Hf as [H1 H2]. destruct j as [|j].
    - injection Hj as <-. destruct c as [|l1 c]; [discriminate|]. injection Hj' as <-. exact (proj1 H2).
    - exact (IH _ j l l' H2 Hj Hj').
  Qed.

  (** What the verifier checks, for outputs and inputs given by whole tables and any point
      [(q, qP)] at which the outputs are read. *)
  Definition accepted (ch : list F -> F) (mm : bool) (c : list (Layer F)) (bN : nat) (pf : Proof F) (q qP out inp : list F) : Prop :=
    exists l sp qP' qL' qR' tot vl vr sts zP zL zR,
      nth_error c (length c - 1) = Some l /\
      nth_error (SumcheckProofs pf) (length c - 1) = Some sp /\
      Verify ch (mle out (q ++ qP)) sp bN (lBGInputs l) = Some (Accept qP' qL' qR' tot) /\
      (length qP <= length qP')%nat /\
      nth_error (ClaimsLeft pf) (length c - 1) = Some vl /\ nth_error (ClaimsRight pf) (length c - 1) = Some vr /\
      evaluateStaticTables l q qL' qR' = Some sts /\
      EvaluateCombinator vl vr (eqprod qP qP') (lGates l) sts = Some tot /\
      verifyLayers ch mm c bN pf (length c - 1) qP' qL' qR' = Some (inr (zP, zL, zR)) /\
      length zP = bN /\ length zL = length zR /\ (2 ^ (length zL + bN) = length inp)%nat /\
      nth_error (ClaimsLeft pf) 0 = Some (mle inp (zL ++ zP)) /\ nth_error (ClaimsRight pf) 0 = Some (mle inp (zR ++ zP)).

  Lemma accepted_verify ch mm m k b (c : list (Layer F)) l pf inputs outputs : (0 < k)%nat ->
    c <> [] -> nth_error c (length c - 1) = Some l -> chunked k m b inputs -> chunked k m (lBGOutputs l) outputs ->
    accepted ch mm c (m + k) pf (count (lBGOutputs l)) (count (m + k)) (glued (lBGOutputs l) m outputs) (glued b m inputs) ->
    GkrVerifyWith ch mm (m + k) c pf inputs outputs = Some true.
  Proof.
    intros Hk Hc Hl [I1 I2] [O1 O2] (l' & sp & qP' & qL' & qR' & tot & vl & vr & sts & zP & zL & zR &
      H1 & H2 & H3 & H4 & H5 & H6 & H7 & H8 & H9 & H10 & H11 & H12 & H13 & H14).
    rewrite Hl in H1. injection H1 as <-.
    unfold GkrVerifyWith. assert (Eg : gosub (length c) 1 = Some (length c - 1)%nat) by (destruct c; [congruence|reflexivity]).
    rewrite Eg. unfold get at 1. rewrite Hl.
    change (GetInitialQPrimeAndQ (m + k) (lBGOutputs l)) with (count (F:=F) (m + k), count (F:=F) (lBGOutputs l)). cbv beta iota zeta.
    assert (Lq : forall n, length (count (F:=F) n) = n) by (intros n; unfold count; rewrite map_length, seq_length; reflexivity).
    destruct (evaluate_chunked_spec F outputs (count (lBGOutputs l) ++ count (m + k)) k (lBGOutputs l + m) Hk O1) as [_ EC].
    { intros t Ht. rewrite Nat.pow_add_r. auto. } { rewrite app_length, !Lq. lia. }
    unfold glued in H3. rewrite EC. unfold get at 1. rewrite H2, H3. cbv beta iota zeta.
    rewrite EvalEq_spec by exact H4. unfold get at 1 2. rewrite H5, H6, H7, H8, feqb_refl, H9. cbv beta iota zeta.
    assert (LI : length (glued b m inputs) = (2 ^ (b + (m + k)))%nat).
    { unfold glued. rewrite interleave_length, I1, <- Nat.pow_add_r. f_equal. lia. }
    assert (LzL : length zL = b).
    { rewrite LI in H12. apply Nat.pow_inj_r in H12; lia. }
    destruct (evaluate_mixed_chunked_spec F inputs zP zL zR k m b Hk I1) as [_ EM]; auto; try congruence.
    { intros t Ht. rewrite Nat.pow_add_r. auto. }
    rewrite EM. unfold get. rewrite H13, H14. unfold glued. rewrite !feqb_refl. reflexivity.
  Qed.

  Section Run.
    Variable ch : list F -> F.
    Variable nCore : nat.
    Variable mtProve : MTProver F -> option (list (list F) * list F * list F * list F * list F).
    Hypothesis Hdist : distinct_upto (F:=F) 12.
    Hypothesis Hcore : (0 < nCore)%nat.
    Hypothesis Hmt : follows_machine ch nCore mtProve.
    Variables m k : nat.

    (** The numbers of coefficients of the polynomials of one sum-check. *)
    Definition poly_lengths (l : Layer F) (proof : list (list F)) : Prop :=
      map (@length F) proof = repeat (maxHL (lGates l) + 2)%nat (lBGInputs l) ++ repeat (maxHR (lGates l) + 2)%nat (lBGInputs l) ++
        repeat (maxHP (lGates l) + 2)%nat (m + k).

    (** One call of the multi-threaded sum-check prover. *)
    Lemma layer_prove (l : Layer F) st chunks qP : layer_ok l -> length st = length (lGates l) ->
      (forall tab, In tab st -> length tab = (2 ^ lBGInputs l * 2 ^ lBGInputs l)%nat) ->
      length chunks = (2 ^ k)%nat -> (forall c, In c chunks -> length c = (2 ^ (lBGInputs l + m))%nat) ->
      length qP = (m + k)%nat ->
      exists eqc proof qP' qL' qR' fin,
        let V := glued (lBGInputs l) m chunks in
        let vl := mle V (qL' ++ qP') in
        let vr := mle V (qR' ++ qP') in
        let sts := map (fun t => mle t (qL' ++ qR')) st in
        GetChunkedEqTable qP (2 ^ k) nCore = Some eqc /\
        mtProve (MkMT chunks chunks eqc (lGates l) st) = Some (proof, qP', qL', qR', vl :: vr :: eqprod qP qP' :: sts) /\
        Verify ch (table_sum (2 ^ (m + k)) (2 ^ lBGInputs l) (lGates l) st (eqtab qP) V V) proof (m + k) (lBGInputs l)
          = Some (Accept qP' qL' qR' fin) /\
        EvaluateCombinator vl vr (eqprod qP qP') (lGates l) sts = Some fin /\
        length proof = (2 * lBGInputs l + (m + k))%nat /\
        length qL' = lBGInputs l /\ length qR' = lBGInputs l /\ length qP' = (m + k)%nat /\ poly_lengths l proof.
    Proof.
      intros (Hwf & Hg & Hne & Hok & Hmax) Lst Sst LC SC HqP.
      destruct (eq_chunks qP k m nCore Hcore HqP) as (eqc & Eeq & Leq & Seq & Ieq).
      set (p := MkMT chunks chunks eqc (lGates l) st).
      set (bG := lBGInputs l) in *.
      assert (HMT : mt_ok p (2 ^ k) m bG).
      { unfold mt_ok, p. cbn [tEq tVL tVR tStatic tGates].
        assert (Hmany : forall g, In g (lGates l) -> many_ok g) by (intros g Hgi; apply (Hok g Hgi)).
        pose proof (pow_pos k). auto 12. }
      set (V := interleave (2 ^ (bG + m)) chunks).
      assert (HT : tables_ok bG bG (m + k) (lGates l) st (eqtab qP) V V).
      { unfold tables_ok. rewrite eqtab_length, HqP. unfold V. rewrite interleave_length, LC, <- Nat.pow_add_r.
        replace (bG + m + k)%nat with (bG + (m + k))%nat by lia. repeat split; auto.
        intros tab Ht. rewrite Sst, <- Nat.pow_add_r by exact Ht. reflexivity. }
      destruct (complete ch (m + k) bG (lGates l) st (eqtab qP) V V Hdist HT Hne Hok Hmax) as (proof & qP' & qL' & qR' & H).
      cbn zeta in H. destruct H as (HP & _ & HV & HC & Lp & LL & LR & LP & LM).
      assert (HPw : Prove ch (whole p m bG) = Some (proof, qP', qL', qR', mle V (qL' ++ qP') :: mle V (qR' ++ qP') ::
         mle (eqtab qP) qP' :: map (fun t => mle t (qL' ++ qR')) st)).
      { unfold whole, p. cbn [tEq tVL tVR tStatic tGates]. rewrite Ieq. exact HP. }
      destruct (mt_same_result ch p (2 ^ k) m bG nCore _ HMT Hcore HPw) as [Hprep Hmust].
      exists eqc, proof, qP', qL', qR'. eexists. cbn zeta. unfold glued. fold bG V. split; [exact Eeq|].
      rewrite mle_eqtab in * by congruence.
      split.
      - eapply (Hmt p (2 ^ k)%nat m bG _ _ _ HMT HPw Hprep). eapply must_mono; [|exact Hmust]. intros s Hs. apply Hs.
      - split; [exact HV|]. split; [exact HC|]. auto.
    Qed.

    Section Circ.
      Variable c : list (Layer F).
      Variable b : nat.
      Variable inputs : list (list F).
      Variable a : list (list (list F)).
      Hypothesis Hlayers : forall l, In l c -> layer_ok l.
      Hypothesis Hfits : fits b c.
      Hypothesis Hinp : forall inp, In inp inputs -> length inp = (2 ^ b * 2 ^ m)%nat.
      Hypothesis Hlen : length inputs = (2 ^ k)%nat.
      Hypothesis Ha : assignment_of c (2 ^ m) inputs a.

      (** the glued table of layer [j] of the assignment *)
      Definition LV (l : Layer F) (j : nat) : list F := glued (lBGInputs l) m (nth j a []).

      Lemma a_chunks j l : nth_error c j = Some l ->
        length (nth j a []) = (2 ^ k)%nat /\ (forall t, In t (nth j a []) -> length t = (2 ^ (lBGInputs l + m))%nat).
      Proof.
        intros Hj. assert (j < length c)%nat by (apply nth_error_Some; congruence).
        destruct (assignment_shape c b (2 ^ m) inputs a j Hfits Hinp Ha ltac:(lia)) as (L1 & bk & L2 & L3).
        rewrite L1, Hlen. split; [reflexivity|]. rewrite (L3 l Hj). intros t Ht.
        apply (In_nth _ _ []) in Ht. destruct Ht as (i & Hi & <-). rewrite L2, Nat.pow_add_r by lia. reflexivity.
      Qed.

      Lemma a_layer j l : nth_error c j = Some l ->
        layer_table l (2 ^ (m + k)) (LV l j) (glued (lBGOutputs l) m (nth (S j) a [])).
      Proof.
        intros Hj. destruct (a_chunks j l Hj) as [L1 _].
        pose proof (Hlayers l (nth_error_In _ _ Hj)) as (Hwf & _).
        destruct Ha as (A1 & A2 & A3). destruct (A3 j l Hj) as [A4 A5].
        unfold LV, glued. rewrite !Nat.pow_add_r, <- L1.
        apply glue_layer; auto; rewrite ?L1, ?A4; auto using pow_pos. rewrite <- Hlen. exact A5.
      Qed.

      Definition plen (pf : Proof F) : Prop :=
        length (SumcheckProofs pf) = length c /\ length (ClaimsLeft pf) = length c /\ length (ClaimsRight pf) = length c.

      (** The sum-check proofs from layer [j] on have the right shape. *)
      Definition pshape (j : nat) (pf : Proof F) : Prop :=
        forall i l, (j <= i)%nat -> nth_error c i = Some l -> poly_lengths l (nth i (SumcheckProofs pf) []).

      (** [pf'] has the entries of [pf] from index [j] on. *)
      Definition agree (j : nat) (pf pf' : Proof F) : Prop :=
        forall i, (j <= i)%nat -> nth_error (SumcheckProofs pf') i = nth_error (SumcheckProofs pf) i /\
          nth_error (ClaimsLeft pf') i = nth_error (ClaimsLeft pf) i /\
          nth_error (ClaimsRight pf') i = nth_error (ClaimsRight pf) i.

      (** The claims of layer [j] are right. *)
      Definition claims_at (j : nat) (pf : Proof F) (qP qL qR : list F) : Prop :=
        exists l, nth_error c j = Some l /\ length qP = (m + k)%nat /\ length qL = lBGInputs l /\ length qR = lBGInputs l /\
          nth_error (ClaimsLeft pf) j = Some (mle (LV l j) (qL ++ qP)) /\
          nth_error (ClaimsRight pf) j = Some (mle (LV l j) (qR ++ qP)).

      Lemma nth_error_upd_other {A} (l : list A) i j v : i <> j -> nth_error (upd l i v) j = nth_error l j.
      Proof.
        revert i j. induction l as [|x l IH]; intros i j H; destruct i, j; simpl; auto; try congruence.
      Qed.
      Lemma nth_error_upd_same {A} (l : list A) i v : (i < length l)%nat -> nth_error (upd l i v) i = Some v.
      Proof. revert i. induction l as [|x l IH]; intros i H; destruct i; simpl in *; auto; try lia. apply IH. lia. Qed.

      (** The checks of layer [j] pass on any proof that has the entries [j] and [j+1] of [pf]. *)
      Lemma prove_step j pf qP qL qR : plen pf -> pshape (S j) pf -> claims_at (S j) pf qP qL qR ->
        exists pf' qP' qL' qR',
          proveLayer ch mtProve c a nCore j (pf, qP, qL, qR) = Some (pf', qP', qL', qR') /\ plen pf' /\ pshape j pf' /\
          claims_at j pf' qP' qL' qR' /\ agree (S j) pf pf' /\
          forall mm pf2, agree j pf' pf2 ->
            verifyLayers ch mm c (m + k) pf2 (S j) qP qL qR = verifyLayers ch mm c (m + k) pf2 j qP' qL' qR'.
      Proof.
        intros (P1 & P2 & P3) HSh (l' & Hl' & LqP & LqL & LqR & CL & CR).
        assert (Hj : (S j < length c)%nat) by (apply nth_error_Some; congruence).
        destruct (nth_error c j) as [l|] eqn:Hl; [|apply nth_error_None in Hl; lia].
        pose proof (fits_next c b j l l' Hfits Hl Hl') as Hbb. rewrite Hbb in LqL, LqR.
        pose proof (Hlayers l (nth_error_In _ _ Hl)) as Hok. pose proof Hok as (Hwf & Hg & _).
        destruct (a_chunks j l Hl) as [LC SC].
        destruct (statics_ok l qL Hwf LqL) as (tL & EL & LtL & StL).
        destruct (statics_ok l qR Hwf LqR) as (tR & ER & LtR & StR).
        set (cl := mle (LV l' (S j)) (qL ++ qP)) in *. set (cr := mle (LV l' (S j)) (qR ++ qP)) in *.
        set (lam := ch [cl; cr]).
        set (st := map (fun i => lincomb lam (nth i tL []) (nth i tR [])) (seq 0 (length (lGates l)))).
        assert (Lst : length st = length (lGates l)) by (unfold st; rewrite map_length, seq_length; reflexivity).
        assert (Sst : forall tab, In tab st -> length tab = (2 ^ lBGInputs l * 2 ^ lBGInputs l)%nat).
        { intros tab Ht. apply in_map_iff in Ht. destruct Ht as (i & <- & Hi). apply in_seq in Hi.
          unfold lincomb. rewrite map_length, seq_length. apply StR. lia. }
        destruct (layer_prove l st (nth j a []) qP Hok Lst Sst LC SC LqP)
          as (eqc & proof & qP' & qL' & qR' & fin & H). cbn zeta in H.
        destruct H as (Heq & Hmtp & HV & HC & Lp & LL & LR & LP & LM).
        fold (LV l j) in *.
        exists (MkProof (upd (SumcheckProofs pf) j proof) (upd (ClaimsLeft pf) j (mle (LV l j) (qL' ++ qP')))
                  (upd (ClaimsRight pf) j (mle (LV l j) (qR' ++ qP')))), qP', qL', qR'.
        split; [|split; [|split; [|split; [|split]]]].
        - unfold proveLayer. replace (j + 1)%nat with (S j) by lia. unfold get at 1 2. rewrite CL, CR. cbv beta iota zeta.
          fold lam. unfold IntermediateRoundsSumcheckProver, LayerAsBKTWithCopy.
          destruct Ha as (A1 & _). rewrite (get_nth a j []) by lia. cbv beta iota zeta.
          replace (map DeepCopy (nth j a [])) with (nth j a []) by (symmetry; apply map_id).
          rewrite LC, Heq. unfold get at 1. rewrite Hl, EL, ER.
          rewrite (combineStatics_ok tL tR lam _ _ LtL LtR StL StR). fold st. rewrite Hmtp.
          rewrite set_some by lia. unfold get. cbn [nth_error]. rewrite !set_some by lia. reflexivity.
        - unfold plen. cbn [SumcheckProofs ClaimsLeft ClaimsRight]. rewrite !upd_length. auto.
        - intros i li Hi Hli. cbn [SumcheckProofs]. rewrite nth_upd by lia. destruct (Nat.eqb_spec i j) as [->|Hne].
          + rewrite Hl in Hli. injection Hli as <-. exact LM.
          + apply HSh; [lia|exact Hli].
        - exists l. cbn [ClaimsLeft ClaimsRight]. rewrite !nth_error_upd_same by lia. auto 10.
        - intros i Hi. cbn [SumcheckProofs ClaimsLeft ClaimsRight]. rewrite !nth_error_upd_other by lia. auto.
        - intros mm pf2 Hag. destruct (Hag j ltac:(lia)) as (G1 & G2 & G3). destruct (Hag (S j) ltac:(lia)) as (_ & G5 & G6).
          cbn [SumcheckProofs ClaimsLeft ClaimsRight] in *.
          rewrite nth_error_upd_same in G1 by lia. rewrite nth_error_upd_same in G2 by lia. rewrite nth_error_upd_same in G3 by lia. rewrite nth_error_upd_other in G5 by lia. rewrite nth_error_upd_other in G6 by lia.
          cbn [verifyLayers]. replace (j + 1)%nat with (S j) by lia. unfold get. rewrite G5, G6, CL, CR. cbv beta iota zeta.
          fold lam. rewrite G1, Hl.
          assert (ES : (cr * lam + cl) = table_sum (2 ^ (m + k)) (2 ^ lBGInputs l) (lGates l) st (eqtab qP) (LV l j) (LV l j)).
          { rewrite <- LqP. unfold st. rewrite (layer_sum2 l qL qR qP tL tR (LV l j) (LV l' (S j))); auto.
            unfold LV at 2. rewrite Hbb, LqP. exact (a_layer j l Hl). }
          rewrite ES, HV. cbv beta iota zeta. rewrite EvalEq_spec by lia. cbv beta iota zeta.
          rewrite G2, G3. rewrite (evaluateStaticTablesLinCombs_ok l qL qR tL tR qL' qR' lam) by assumption.
          fold st. rewrite HC, feqb_refl. reflexivity.
      Qed.

      Lemma prove_loop j : forall pf qP qL qR, plen pf -> pshape j pf -> claims_at j pf qP qL qR ->
        exists pf' qP' qL' qR',
          foldM (fun st layer => proveLayer ch mtProve c a nCore layer st) (rev (seq 0 j)) (pf, qP, qL, qR)
            = Some (pf', qP', qL', qR') /\ plen pf' /\ pshape 0 pf' /\ claims_at 0 pf' qP' qL' qR' /\ agree j pf pf' /\
          forall mm, verifyLayers ch mm c (m + k) pf' j qP qL qR = Some (inr (qP', qL', qR')).
      Proof.
        induction j as [|j IH]; intros pf qP qL qR HL HSh HC.
        - exists pf, qP, qL, qR. split; [reflexivity|]. split; [exact HL|]. split; [exact HSh|]. split; [exact HC|]. split; [|intros mm; reflexivity].
          intros i _. auto.
        - destruct (prove_step j pf qP qL qR HL HSh HC) as (pf1 & qP1 & qL1 & qR1 & E1 & L1 & S1 & C1 & G1 & V1).
          destruct (IH pf1 qP1 qL1 qR1 L1 S1 C1) as (pf' & qP' & qL' & qR' & E2 & L2 & S2 & C2 & G2 & V2).
          exists pf', qP', qL', qR'. rewrite seq_S, rev_app_distr. cbn [rev app foldM Nat.add]. rewrite E1.
          split; [exact E2|]. split; [exact L2|]. split; [exact S2|]. split; [exact C2|]. split.
          + intros i Hi. destruct (G1 i Hi) as (X1 & X2 & X3). destruct (G2 i ltac:(lia)) as (Y1 & Y2 & Y3).
            rewrite Y1, Y2, Y3. auto.
          + intros mm. rewrite V1; [apply V2|exact G2].
      Qed.

      (** The checks of the verifier on the proof of the prover, for any number of chunks. *)
      Theorem gkr_complete_from : c <> [] -> forall l, nth_error c (length c - 1) = Some l ->
        exists pf, GkrProve ch mtProve c a nCore = Some pf /\ plen pf /\ pshape 0 pf /\
          forall mm, accepted ch mm c (m + k) pf (count (lBGOutputs l)) (count (m + k))
            (glued (lBGOutputs l) m (nth (length c) a [])) (glued b m inputs).
      Proof.
        intros Hc l Hl'. destruct (length c) as [|last] eqn:ELc; [destruct c; [congruence|discriminate]|].
        assert (Hl : nth_error c last = Some l) by (rewrite <- Hl'; f_equal; lia).
        pose proof (Hlayers l (nth_error_In _ _ Hl)) as Hok. pose proof Hok as (Hwf & Hg & _).
        destruct (nth_error c 0) as [l0|] eqn:Hl0; [|apply nth_error_None in Hl0; lia].
        destruct (a_chunks last l Hl) as [LC SC]. destruct (a_chunks 0 l0 Hl0) as [LC0 SC0].
        pose proof Ha as (A1 & A2 & A3). destruct (A3 last l Hl) as [LO SO].
        rewrite A2 in LC0, SC0.
        set (q := snd (GetInitialQPrimeAndQ (F:=F) (m + k) (lBGOutputs l))).
        set (qP := fst (GetInitialQPrimeAndQ (F:=F) (m + k) (lBGOutputs l))).
        assert (Lq : length q = lBGOutputs l) by (unfold q; cbn; rewrite map_length, seq_length; reflexivity).
        assert (LqP : length qP = (m + k)%nat) by (unfold qP; cbn; rewrite map_length, seq_length; reflexivity).
        destruct (statics_ok l q Hwf Lq) as (st & Est & Lst & Sst).
        assert (Sst' : forall tab, In tab st -> length tab = (2 ^ lBGInputs l * 2 ^ lBGInputs l)%nat).
        { intros tab Ht. apply (In_nth _ _ []) in Ht. destruct Ht as (i & Hi & <-). apply Sst. lia. }
        destruct (layer_prove l st (nth last a []) qP Hok Lst Sst' LC SC LqP)
          as (eqc & proof & qP' & qL' & qR' & fin & H). cbn zeta in H.
        destruct H as (Heq & Hmtp & HV & HC & Lp & LL & LR & LP & LM). fold (LV l last) in *.
        set (pf0 := MkProof (upd (repeat [] (S last)) last proof) (upd (repeat 0 (S last)) last (mle (LV l last) (qL' ++ qP')))
                     (upd (repeat 0 (S last)) last (mle (LV l last) (qR' ++ qP')))).
        assert (HL0 : plen pf0) by (unfold plen, pf0; cbn [SumcheckProofs ClaimsLeft ClaimsRight]; rewrite !upd_length, !repeat_length; auto).
        assert (HC0 : claims_at last pf0 qP' qL' qR').
        { exists l. unfold pf0. cbn [ClaimsLeft ClaimsRight]. rewrite !nth_error_upd_same by (rewrite repeat_length; lia). auto 10. }
        assert (HS0 : pshape last pf0).
        { intros i li Hi Hli. assert (i < length c)%nat by (apply nth_error_Some; congruence). assert (i = last) by lia. subst i.
          rewrite Hl in Hli. injection Hli as <-. unfold pf0. cbn [SumcheckProofs]. rewrite nth_upd_same by (rewrite repeat_length; lia). exact LM. }
        destruct (prove_loop last pf0 qP' qL' qR' HL0 HS0 HC0) as (pf & qP2 & qL2 & qR2 & EL & HL2 & HS2 & HC2 & HG & HVL).
        assert (Hlast : gosub (S last) 1 = Some last) by (unfold gosub; cbn; rewrite Nat.sub_0_r; reflexivity).
        exists pf. split; [|split; [exact HL2|split; [exact HS2|]]].
        - unfold GkrProve, proverBN. rewrite (get_nth a 0 []) by lia. rewrite A2.
          assert (H0 : (0 < length inputs)%nat) by (rewrite Hlen; apply pow_pos).
          rewrite (get_nth inputs 0 []) by exact H0. unfold get at 1. rewrite Hl0.
          rewrite LC0, SC0 by (apply nth_In; exact H0). rewrite <- Nat.pow_add_r, log2ceil_pow2.
          assert (Hbn : gosub (k + (lBGInputs l0 + m)) (lBGInputs l0) = Some (m + k)%nat).
          { unfold gosub. destruct (Nat.leb_spec (lBGInputs l0) (k + (lBGInputs l0 + m))); [f_equal; lia|lia]. }
          rewrite Hbn, ELc, Hlast. unfold get at 1. rewrite Hl.
          change (GetInitialQPrimeAndQ (m + k) (lBGOutputs l)) with (qP, q). cbv beta iota zeta.
          unfold InitialRoundSumcheckProver, LayerAsBKTWithCopy. rewrite ELc, Hlast. unfold get at 1. rewrite Hl, Est.
          rewrite (get_nth a last []) by lia. cbv beta iota zeta.
          replace (map DeepCopy (nth last a [])) with (nth last a []) by (symmetry; apply map_id).
          rewrite LC, Heq, Hmtp. rewrite set_some by (rewrite repeat_length; lia).
          unfold get at 1 2. cbn [nth_error]. rewrite !set_some by (rewrite repeat_length; lia).
          fold pf0. rewrite EL. reflexivity.
        - intros mm. destruct (HG last ltac:(lia)) as (G1 & G2 & G3). unfold pf0 in G1, G2, G3.
          cbn [SumcheckProofs ClaimsLeft ClaimsRight] in G1, G2, G3.
          rewrite nth_error_upd_same in G1 by (rewrite repeat_length; lia). rewrite nth_error_upd_same in G2 by (rewrite repeat_length; lia). rewrite nth_error_upd_same in G3 by (rewrite repeat_length; lia).
          pose proof (layer_sum l q qP st (LV l last) (glued (lBGOutputs l) m (nth (S last) a [])) Hwf Hg Lq Est) as ES.
          rewrite LqP in ES. specialize (ES (a_layer last l Hl)).
          destruct HC2 as (l0' & Hl0' & LqP2 & LqL2 & LqR2 & CL & CR). rewrite Hl0 in Hl0'. injection Hl0' as <-.
          assert (Hb0 : lBGInputs l0 = b) by (destruct c; [discriminate|]; injection Hl0 as ->; exact (proj1 Hfits)).
          unfold LV in CL, CR. rewrite A2, Hb0 in CL, CR.
          exists l, proof, qP', qL', qR', fin, (mle (LV l last) (qL' ++ qP')), (mle (LV l last) (qR' ++ qP')),
            (map (fun t => mle t (qL' ++ qR')) st), qP2, qL2, qR2.
          rewrite ELc. replace (S last - 1)%nat with last by lia. change (count (lBGOutputs l)) with q. change (count (m + k)) with qP.
          split; [exact Hl|]. split; [exact G1|]. split; [rewrite <- ES; exact HV|]. split; [lia|]. split; [exact G2|]. split; [exact G3|].
          split; [exact (evaluateStaticTables_ok l q st qL' qR' Hwf Lq Est LL LR)|]. split; [exact HC|]. split; [apply HVL|].
          split; [exact LqP2|]. split; [congruence|]. split; [|split; [exact CL|exact CR]].
          rewrite LqL2, Hb0. unfold glued. rewrite interleave_length, Hlen, <- Nat.pow_add_r. f_equal. lia.
      Qed.

      Theorem gkr_complete : c <> [] -> (0 < k)%nat ->
        exists pf, GkrProve ch mtProve c a nCore = Some pf /\ plen pf /\
          forall mm, GkrVerifyWith ch mm (m + k) c pf inputs (nth (length c) a []) = Some true.
      Proof.
        intros Hc Hk. destruct (nth_error c (length c - 1)) as [l|] eqn:Hl.
        2: { apply nth_error_None in Hl. destruct c; [congruence|cbn in Hl; lia]. }
        destruct (gkr_complete_from Hc l Hl) as (pf & E & HL & _ & HA). exists pf. split; [exact E|]. split; [exact HL|].
        intros mm. apply (accepted_verify ch mm m k b c l); auto.
        - split; assumption.
        - pose proof Ha as (A1 & A2 & A3). destruct (A3 _ l Hl) as [LO SO].
          replace (S (length c - 1)) with (length c) in LO, SO by (destruct c; [congruence|cbn; lia]).
          split; [congruence|]. intros t Ht. apply (In_nth _ _ []) in Ht. destruct Ht as (i & Hi & <-). apply SO. congruence.
      Qed.
    End Circ.
  End Run.
End L.
