(** When the prover of package gkr returns (lemmas for PHonest.v). *)
From Coq Require Import List Arith Lia Bool.
From Verif Require Import Field Go MCommon Spec LSpec LCommon MPoly LPoly LPoly2 LPoly3 Trans MCircuit SpecCircuit LCircuit LCircuit2
  LCircuit3 MSumcheck LSumcheck LSumcheck2 LSumcheck3 SpecSumcheck LSumcheck4 LSumcheck5 MSumPar SpecSumPar LSumPar3 LSumPar4 SpecEnds LEnds4 LEnds5 MGkr SpecGkr LGkr LGkr2 LGkr3 LGkr4
  SpecHonest LHonest LHonest2 FrPrime Fr.
Import ListNotations.

Lemma shaped_in {F : Field} m k (c : list (Layer F)) a : shaped k m c a -> forall j l, nth_error c j = Some l -> j < length a.
Proof.
  intros Hsh j l H. destruct (Hsh j l H) as [E _]. destruct (Nat.lt_ge_cases j (length a)) as [Hj|Hj]; [exact Hj|].
  rewrite nth_overflow in E by exact Hj. pose proof (pow_pos k). cbn in E. lia.
Qed.

Section S.
  Variable ch : list Fr -> Fr.
  Variable nCore : nat.
  Variable mtProve : MTProver Fr -> option (list (list Fr) * list Fr * list Fr * list Fr * list Fr).
  Hypothesis Hcore : 0 < nCore.
  Hypothesis Hmt : follows_machine ch nCore mtProve.
  Hypothesis Hpan : panics_with_machine ch nCore mtProve.
  Variables m k : nat.

  Lemma whole_lengths (p : MTProver Fr) n bG proof qP qL qR fin : mt_ok p n m bG -> n = 2 ^ k ->
    Prove ch (whole p m bG) = Some (proof, qP, qL, qR, fin) ->
    length qP = m + k /\ length qL = bG /\ length qR = bG /\ exists f0 f1 fs, fin = f0 :: f1 :: fs.
  Proof.
    intros Hok Hn H. rewrite (prove_eq0 ch (whole p m bG) bG (2 ^ m * n)) in H.
    - destruct (LEnds4.oks _ _ _ _); [|discriminate H]. unfold finalClaimsOf in H.
      destruct (get (sVL _) 0); [|discriminate H]. destruct (get (sVR _) 0); [|discriminate H]. destruct (get (sEq _) 0); [|discriminate H].
      destruct (mapM _ _); [|discriminate H]. injection H as <- <- <- <- <-. rewrite !map_length, !seq_length.
      rewrite Hn, <- Nat.pow_add_r, log2ceil_pow2. eauto 8.
    - exact (whole_shape p n m bG Hok).
    - unfold manys, whole. rewrite New_eq. cbn [sGates]. apply Hok.
  Qed.

  Lemma layer_call (l : Layer Fr) st chunks qP : startable l -> length st = length (lGates l) ->
    (forall tab, In tab st -> length tab = 2 ^ lBGInputs l * 2 ^ lBGInputs l) ->
    chunked k m (lBGInputs l) chunks -> length qP = m + k ->
    exists eqc, GetChunkedEqTable qP (2 ^ k) nCore = Some eqc /\
      (in_range (m + k) l -> exists proof qP' qL' qR' f0 f1 fs,
         mtProve (MkMT chunks chunks eqc (lGates l) st) = Some (proof, qP', qL', qR', f0 :: f1 :: fs) /\
         length qP' = m + k /\ length qL' = lBGInputs l /\ length qR' = lBGInputs l) /\
      (~ in_range (m + k) l -> mtProve (MkMT chunks chunks eqc (lGates l) st) = None).
  Proof.
    intros (Hwf & Hne & Hmany) Lst Sst [LC SC] HqP.
    destruct (eq_chunks qP k m nCore Hcore HqP) as (eqc & Eeq & Leq & Seq & Ieq). exists eqc. split; [exact Eeq|].
    set (p := MkMT chunks chunks eqc (lGates l) st).
    assert (HMT : mt_ok p (2 ^ k) m (lBGInputs l)).
    { unfold mt_ok, p. cbn [tEq tVL tVR tStatic tGates]. rewrite <- Nat.pow_add_r in SC. pose proof (pow_pos k). auto 12. }
    destruct (mt_exact ch p (2 ^ k) m (lBGInputs l) nCore HMT Hcore) as (Hprep & Hyes & Hno).
    assert (Hf : mt_fine p (2 ^ k) m (lBGInputs l) <-> in_range (m + k) l).
    { unfold mt_fine, in_range, p. cbn [tGates].
      assert (E : m + k = 0 <-> m = 0 /\ 2 ^ k = 1).
      { split; [intros H; assert (m = 0 /\ k = 0) as [-> ->] by lia; auto|]. intros [-> H]. destruct k; [reflexivity|]. cbn [Nat.pow] in H. pose proof (pow_pos n). lia. }
      rewrite E. split; [intros (_ & H1 & H2); auto|]. intros (H1 & H2). split; [exists k; reflexivity|auto]. }
    split; intros H.
    - destruct (Hyes (proj2 Hf H)) as (((((proof & qP') & qL') & qR') & fin) & HP & Hmust).
      destruct (whole_lengths p _ _ _ _ _ _ _ HMT eq_refl HP) as (L1 & L2 & L3 & f0 & f1 & fs & ->).
      exists proof, qP', qL', qR', f0, f1, fs. split; [|auto]. exact (Hmt p _ _ _ _ _ _ HMT HP Hprep Hmust).
    - apply (Hpan p _ _ _ _ _ HMT Hprep). apply Hno. intros Hfine. apply H, Hf, Hfine.
  Qed.

  Lemma range_dec bN (l : Layer Fr) : in_range bN l \/ ~ in_range bN l.
  Proof. unfold in_range. lia. Qed.

  Section Circ.
    Variable c : list (Layer Fr).
    Variable b : nat.
    Variable a : list (list (list Fr)).
    Hypothesis Hlayers : forall l, In l c -> startable l.
    Hypothesis Hfits : fits b c.
    Hypothesis Hsh : shaped k m c a.

    (** the state of the loop of Prove: sizes only *)
    Definition sizes (j : nat) (st : Proof Fr * list Fr * list Fr * list Fr) : Prop :=
      let '(pf, qP, qL, qR) := st in
      plen c pf /\ length qP = m + k /\ exists l, nth_error c j = Some l /\ length qL = lBGInputs l /\ length qR = lBGInputs l.

    Lemma call_step j st : sizes (S j) st -> forall l, nth_error c j = Some l ->
      (in_range (m + k) l -> exists st', proveLayer ch mtProve c a nCore j st = Some st' /\ sizes j st') /\
      (~ in_range (m + k) l -> proveLayer ch mtProve c a nCore j st = None).
    Proof.
      destruct st as [[[pf qP] qL] qR]. intros ((P1 & P2 & P3) & LqP & l' & Hl' & LqL & LqR) l Hl.
      assert (Hj : S j < length c) by (apply nth_error_Some; congruence).
      pose proof (fits_next c b j l l' Hfits Hl Hl') as Hbb. rewrite Hbb in LqL, LqR.
      pose proof (Hlayers l (nth_error_In _ _ Hl)) as Hok. pose proof Hok as (Hwf & _).
      destruct (statics_ok l qL Hwf LqL) as (tL & EL & LtL & StL).
      destruct (statics_ok l qR Hwf LqR) as (tR & ER & LtR & StR).
      set (lam := ch [nth (S j) (ClaimsLeft pf) fzero; nth (S j) (ClaimsRight pf) fzero]).
      set (st := map (fun i => lincomb lam (nth i tL []) (nth i tR [])) (seq 0 (length (lGates l)))).
      assert (Lst : length st = length (lGates l)) by (unfold st; rewrite map_length, seq_length; reflexivity).
      assert (Sst : forall tab, In tab st -> length tab = 2 ^ lBGInputs l * 2 ^ lBGInputs l).
      { intros tab Ht. apply in_map_iff in Ht. destruct Ht as (i & <- & Hi). apply in_seq in Hi.
        unfold lincomb. rewrite map_length, seq_length. apply StR. lia. }
      destruct (layer_call l st (nth j a []) qP Hok Lst Sst (Hsh j l Hl) LqP) as (eqc & Heq & Hyes & Hno).
      destruct (Hsh j l Hl) as [LC _].
      assert (E : proveLayer ch mtProve c a nCore j (pf, qP, qL, qR) =
        match mtProve (MkMT (nth j a []) (nth j a []) eqc (lGates l) st) with
        | Some (proof, qP', qL', qR', fc) =>
          sps <- set (SumcheckProofs pf) j proof ;; f0 <- get fc 0 ;; f1 <- get fc 1 ;;
          cls <- set (ClaimsLeft pf) j f0 ;; crs <- set (ClaimsRight pf) j f1 ;; Some (MkProof sps cls crs, qP', qL', qR')
        | None => None end).
      { unfold proveLayer. replace (j + 1) with (S j) by lia. rewrite (get_nth (ClaimsLeft pf) (S j) fzero), (get_nth (ClaimsRight pf) (S j) fzero) by lia.
        cbv beta iota zeta. fold lam. unfold IntermediateRoundsSumcheckProver, LayerAsBKTWithCopy.
        rewrite (get_nth a j []) by exact (shaped_in m k c a Hsh j l Hl). cbv beta iota zeta.
        replace (map DeepCopy (nth j a [])) with (nth j a []) by (symmetry; apply map_id).
        rewrite LC, Heq. unfold get at 1. rewrite Hl, EL, ER.
        rewrite (combineStatics_ok tL tR lam _ _ LtL LtR StL StR). fold st. reflexivity. }
      rewrite E. split; intros H; [|rewrite (Hno H); reflexivity].
      destruct (Hyes H) as (proof & qP' & qL' & qR' & f0 & f1 & fs & EP & L1 & L2 & L3). rewrite EP.
      eexists. split.
      - rewrite set_some by lia. unfold get. cbn [nth_error]. rewrite !set_some by lia. reflexivity.
      - cbn [sizes]. unfold plen. cbn [SumcheckProofs ClaimsLeft ClaimsRight]. rewrite !upd_length. split; [auto|]. split; [exact L1|]. exists l. auto.
    Qed.

    Lemma call_loop j : forall st, sizes j st ->
      (foldM (fun st layer => proveLayer ch mtProve c a nCore layer st) (rev (seq 0 j)) st <> None <->
       forall i l, i < j -> nth_error c i = Some l -> in_range (m + k) l).
    Proof.
      induction j as [|j IH]; intros st Hs.
      - cbn. split; [intros _ i l Hi; lia|discriminate].
      - rewrite seq_S, rev_app_distr. cbn [rev app foldM Nat.add].
        assert (Hj : j < length c).
        { destruct st as [[[pf qP] qL] qR]. destruct Hs as (_ & _ & l' & Hl' & _). assert (S j < length c) by (apply nth_error_Some; congruence). lia. }
        destruct (nth_error c j) as [l|] eqn:Hl; [|apply nth_error_None in Hl; lia].
        destruct (call_step j st Hs l Hl) as [HA HB]. destruct (range_dec (m + k) l) as [Hr|Hr].
        + destruct (HA Hr) as (st' & E & Hs'). rewrite E, (IH st' Hs'). split.
          * intros H i l2 Hi Hl2. destruct (Nat.eq_dec i j) as [->|Hne]; [|apply (H i l2); [lia|exact Hl2]]. rewrite Hl in Hl2. injection Hl2 as <-. exact Hr.
          * intros H i l2 Hi Hl2. apply (H i l2); [lia|exact Hl2].
        + rewrite (HB Hr). split; [intros H; exfalso; apply H; reflexivity|]. intros H. exfalso. apply Hr, (H j l); [lia|exact Hl].
    Qed.

    Lemma prover_exact : c <> [] -> (GkrProve ch mtProve c a nCore <> None <-> forall l, In l c -> in_range (m + k) l).
    Proof.
      intros Hc. assert (ELc : exists last, length c = S last).
      { destruct (Nat.eq_dec (length c) 0) as [E|E]; [apply length_zero_iff_nil in E; contradiction|]. exists (length c - 1). lia. }
      destruct ELc as [last ELc].
      destruct (nth_error c last) as [l|] eqn:Hl; [|apply nth_error_None in Hl; lia].
      pose proof (Hlayers l (nth_error_In _ _ Hl)) as Hok. pose proof Hok as (Hwf & _).
      destruct (nth_error c 0) as [l0|] eqn:Hl0; [|apply nth_error_None in Hl0; lia].
      destruct (Hsh last l Hl) as [LC SC]. destruct (Hsh 0 l0 Hl0) as [LC0 SC0].
      set (q := snd (GetInitialQPrimeAndQ (F:=Fr) (m + k) (lBGOutputs l))).
      set (qP := fst (GetInitialQPrimeAndQ (F:=Fr) (m + k) (lBGOutputs l))).
      assert (Lq : length q = lBGOutputs l) by (unfold q; cbn; rewrite map_length, seq_length; reflexivity).
      assert (LqP : length qP = m + k) by (unfold qP; cbn; rewrite map_length, seq_length; reflexivity).
      destruct (statics_ok l q Hwf Lq) as (st & Est & Lst & Sst).
      assert (Sst' : forall tab, In tab st -> length tab = 2 ^ lBGInputs l * 2 ^ lBGInputs l).
      { intros tab Ht. apply (In_nth _ _ []) in Ht. destruct Ht as (i & Hi & <-). apply Sst. lia. }
      destruct (layer_call l st (nth last a []) qP Hok Lst Sst' (Hsh last l Hl) LqP) as (eqc & Heq & Hyes & Hno).
      assert (Hlast : gosub (S last) 1 = Some last) by (unfold gosub; cbn; rewrite Nat.sub_0_r; reflexivity).
      assert (E : GkrProve ch mtProve c a nCore =
        match mtProve (MkMT (nth last a []) (nth last a []) eqc (lGates l) st) with
        | Some (proof, qP', qL', qR', fc) =>
          sps <- set (repeat [] (S last)) last proof ;; f0 <- get fc 0 ;; f1 <- get fc 1 ;;
          cls <- set (repeat fzero (S last)) last f0 ;; crs <- set (repeat fzero (S last)) last f1 ;;
          '(pf, _, _, _) <- foldM (fun st layer => proveLayer ch mtProve c a nCore layer st) (rev (seq 0 last)) (MkProof sps cls crs, qP', qL', qR') ;; Some pf
        | None => None end).
      { unfold GkrProve, proverBN. rewrite (get_nth a 0 []) by exact (shaped_in m k c a Hsh 0 l0 Hl0).
        assert (H0 : 0 < length (nth 0 a [])) by (rewrite LC0; apply pow_pos).
        rewrite (get_nth (nth 0 a []) 0 []) by exact H0. unfold get at 1. rewrite Hl0.
        rewrite LC0, SC0 by (apply nth_In; exact H0). rewrite <- !Nat.pow_add_r, log2ceil_pow2.
        assert (Hbn : gosub (k + (lBGInputs l0 + m)) (lBGInputs l0) = Some (m + k)).
        { unfold gosub. destruct (Nat.leb_spec (lBGInputs l0) (k + (lBGInputs l0 + m))); [f_equal; lia|lia]. }
        rewrite Hbn, ELc, Hlast. unfold get at 1. rewrite Hl.
        change (GetInitialQPrimeAndQ (m + k) (lBGOutputs l)) with (qP, q). cbv beta iota zeta.
        unfold InitialRoundSumcheckProver, LayerAsBKTWithCopy. rewrite ELc, Hlast. unfold get at 1. rewrite Hl, Est.
        rewrite (get_nth a last []) by exact (shaped_in m k c a Hsh last l Hl). cbv beta iota zeta.
        replace (map DeepCopy (nth last a [])) with (nth last a []) by (symmetry; apply map_id).
        rewrite LC, Heq. reflexivity. }
      rewrite E. clear E. destruct (range_dec (m + k) l) as [Hr|Hr].
      - destruct (Hyes Hr) as (proof & qP' & qL' & qR' & f0 & f1 & fs & EP & L1 & L2 & L3). rewrite EP.
        rewrite set_some by (rewrite repeat_length; lia). unfold get. cbn [nth_error]. rewrite !set_some by (rewrite repeat_length; lia).
        set (st0 := (MkProof _ _ _, qP', qL', qR')).
        assert (Hs : sizes last st0).
        { unfold st0. cbn [sizes]. unfold plen. cbn [SumcheckProofs ClaimsLeft ClaimsRight]. rewrite !upd_length, !repeat_length.
          split; [auto|]. split; [exact L1|]. exists l. auto. }
        pose proof (call_loop last st0 Hs) as HL.
        assert (Hi : (match foldM (fun st layer => proveLayer ch mtProve c a nCore layer st) (rev (seq 0 last)) st0 with
            | Some (pf, _, _, _) => Some pf | None => None end <> None) <->
            (forall i l, i < last -> nth_error c i = Some l -> in_range (m + k) l)).
        { rewrite <- HL. destruct (foldM _ _ st0) as [[[[x1 x2] x3] x4]|]; split; congruence. }
        rewrite Hi. split.
        + intros H l2 Hin. apply In_nth_error in Hin. destruct Hin as [i Hin]. assert (i < length c) by (apply nth_error_Some; congruence).
          destruct (Nat.eq_dec i last) as [->|Hne]; [|apply (H i l2); [lia|exact Hin]]. rewrite Hl in Hin. injection Hin as <-. exact Hr.
        + intros H i l2 _ Hl2. apply H. exact (nth_error_In _ _ Hl2).
      - rewrite (Hno Hr). split; [intros H; exfalso; apply H; reflexivity|]. intros H. exfalso. apply Hr, H. exact (nth_error_In _ _ Hl).
    Qed.
  End Circ.
End S.

Lemma must_not_fails {S : Type} (step : S -> option S -> Prop) P s : must step P s -> fails step s -> False.
Proof.
  intros Hm Hf. unfold fails in Hf. revert Hm. induction Hf as [s H1 IH H2]. intros Hm. inversion Hm as [s' N1 N2 N3 E]. subst s'.
  apply H2. intros [s'|] Hs; [|exact (N1 Hs)]. exact (IH s' Hs (N2 s' Hs)).
Qed.

(** Both hypotheses about [mtProve] can be met. *)
Lemma mtWhole_panics (ch : list Fr -> Fr) nCore : 0 < nCore -> panics_with_machine ch nCore (mtWhole ch).
Proof.
  intros Hc p n k bG K c Hok Hprep Hf.
  destruct (mt_exact ch p n k bG nCore Hok Hc) as (Hprep' & Hyes & Hno). rewrite Hprep in Hprep'. injection Hprep' as -> ->.
  assert (E : mtWhole ch p = Prove ch (whole p k bG)).
  { pose proof Hok as (Hn & E1 & E2 & _ & S1 & S2 & _). unfold mtWhole.
    rewrite (S1 (nth 0 (tEq p) [])) by (apply nth_In; lia). rewrite (S2 (nth 0 (tVL p) [])) by (apply nth_In; lia).
    rewrite !Nat.log2_pow2 by lia. replace (bG + k - k) with bG by lia. reflexivity. }
  rewrite E. destruct (Prove ch (whole p k bG)) as [out|] eqn:EP; [|reflexivity].
  assert (Hfine : mt_fine p n k bG) by (apply (whole_exact ch p n k bG Hok); rewrite EP; discriminate).
  destruct (Hyes Hfine) as (o & _ & Hm). exfalso. exact (must_not_fails _ _ _ Hm Hf).
Qed.
