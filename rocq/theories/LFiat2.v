(** Soundness of the verifier on a list of challenges. *)
From Coq Require Import List Arith Lia Bool.
From Verif Require Import Field Go MCommon Spec LSpec LCommon MPoly LPoly LPoly2 LPoly3 Trans MCircuit SpecCircuit LCircuit LCircuit2
  LCircuit3 MSumcheck LSumcheck SpecSumcheck LSumcheck4 LSumcheck5 MSumPar SpecSumPar LSumPar4 MGkr SpecGkr SpecInter LGkr LGkr2 LGkr3 LGkr4
  LInter2 SpecProof MRepair SpecRepair LRepair LRepair2 MFiat LFiat.
Import ListNotations.

Section L.
  Context {F : Field}.
  Add Field FfieldFiat2 : (f_theory F).
  Open Scope F_scope.

  Section Circ.
    Variables m k b : nat.
    Variable c : list (Layer F).
    Variable inputs : list (list F).
    Variable a : list (list (list F)).
    Variable pf : Proof F.
    Hypothesis Hlayers : forall l, In l c -> wf_layer l /\ gates_once l.
    Hypothesis Hfits : fits b c.
    Hypothesis Hin : chunked k m b inputs.
    Hypothesis Ha : assignment_of c (2 ^ m) inputs a.

    Local Notation lay j := (nth j c (NewLayer [])).
    Local Notation n := (length c).
    Local Notation TV l j := (glued (lBGInputs l) m (nth j a [])).
    Local Notation rn := (rnds m k c).
    Local Notation of := (off (rnds m k c) (length c)).
    Variables q qP : list F.
    (** The challenges after the first point. *)
    Variable all : list F.
    Definition seg (j : nat) : list F := firstn (rn j) (skipn (of j) all).

    (** What can happen at the challenge of a round, and at the challenge that combines two claims; [p] and [(cl, cr)] are
        the messages. *)
    Definition round_hit (j i : nat) (p : list F) (r : F) : Prop :=
      let tp t := cube_sum (run_of m k c a q qP all j) (rn j - S i) (firstn i (seg j) ++ [t]) in
      (exists t, peval p t <> tp t) /\ peval p r = tp r.
    Definition pair_hit (j : nat) (cl cr r : F) : Prop :=
      let bi := lBGInputs (lay j) in
      let tl := mle (TV (lay j) j) (firstn bi (seg j) ++ skipn (bi + bi) (seg j)) in
      let tr := mle (TV (lay j) j) (firstn bi (skipn bi (seg j)) ++ skipn (bi + bi) (seg j)) in
      (cl, cr) <> (tl, tr) /\ cr * r + cl = tr * r + tl.
    Definition hit (e : nat * nat) : Prop :=
      let '(j, i) := e in
      (j < n)%nat /\
      ((i < rn j)%nat /\ (exists p, nth_error (nth j (SumcheckProofs pf) []) i = Some p /\ round_hit j i p (nth (of j + i) all 0)) \/
       i = rn j /\ (0 < j)%nat /\ pair_hit j (nth j (ClaimsLeft pf) 0) (nth j (ClaimsRight pf) 0) (nth (of j + i) all 0)).

    Lemma seg_here j (x rest : list F) : skipn (of j) all = x ++ rest -> length x = rn j -> seg j = x.
    Proof. intros E L. unfold seg. rewrite E. apply firstn_len_app. exact L. Qed.

    Lemma nth_here j i (x rest : list F) r : skipn (of j) all = x ++ rest -> nth_error x i = Some r -> nth (of j + i) all 0 = r.
    Proof.
      intros E Hr. apply nth_error_nth. rewrite <- (firstn_skipn (of j) all), E.
      assert (Hlt : (i < length (x ++ rest))%nat) by (rewrite app_length; assert (i < length x)%nat by (apply nth_error_Some; congruence); lia).
      assert (Hof : length (firstn (of j) all) = of j).
      { rewrite firstn_length. apply (f_equal (@length F)) in E. rewrite skipn_length in E. lia. }
      rewrite nth_error_app2, Hof by lia. replace (of j + i - of j)%nat with i by lia.
      rewrite nth_error_app1 by (apply nth_error_Some; congruence). exact Hr.
    Qed.

    Lemma split3 {A} (x y z : list A) u : length x = u -> length y = u ->
      firstn u (x ++ y ++ z) = x /\ firstn u (skipn u (x ++ y ++ z)) = y /\ skipn (u + u) (x ++ y ++ z) = z.
    Proof.
      intros H1 H2. split; [apply firstn_len_app; exact H1|]. split; [rewrite skipn_len_app by exact H1; apply firstn_len_app; exact H2|].
      rewrite app_assoc. apply skipn_len_app. rewrite app_length. lia.
    Qed.

    Lemma isound_loop zP zL zR l0 : nth_error c 0 = Some l0 ->
      nth_error (ClaimsLeft pf) 0 = Some (mle (TV l0 0) (zL ++ zP)) -> nth_error (ClaimsRight pf) 0 = Some (mle (TV l0 0) (zR ++ zP)) ->
      (forall j l sp, nth_error c j = Some l -> nth_error (SumcheckProofs pf) j = Some sp -> length sp = (2 * lBGInputs l + (m + k))%nat) ->
      forall j qPj qL qR l rest, (j < n)%nat ->
      nth_error c j = Some l -> length qPj = (m + k)%nat -> length qL = lBGInputs l -> length qR = lBGInputs l ->
      skipn (of j) all = (qL ++ qR ++ qPj) ++ rest ->
      iverifyLayers c pf j qPj qL qR rest = Some (Some (zP, zL, zR)) ->
      (nth j (ClaimsLeft pf) 0, nth j (ClaimsRight pf) 0) <> (mle (TV l j) (qL ++ qPj), mle (TV l j) (qR ++ qPj)) ->
      exists e, hit e.
    Proof.
      intros Hl0 HzL HzR Hlen. induction j as [|j IH]; intros qPj qL qR l rest Hj Hl LP LL LR Hsk HV Hne.
      - exfalso. apply Hne. cbn [iverifyLayers] in HV. injection HV as <- <- <-.
        rewrite Hl0 in Hl. injection Hl as <-. rewrite (nth_error_nth _ _ 0 HzL), (nth_error_nth _ _ 0 HzR). reflexivity.
      - apply ilayers_inv in HV.
        destruct HV as (cl & cr & lam & sp & l' & qP' & qL' & qR' & tot & rest' & vl & vr & sts & E1 & E2 & E3 & E4 & -> & E5 & LL' & LR' & E6 & E7 & E8 & E9 & E10 & E11).
        pose proof (fits_next c b j l' l Hfits E4 Hl) as Hbb.
        assert (Hlay : lay (S j) = l) by (apply nth_error_nth; exact Hl).
        assert (Hlay' : lay j = l') by (apply nth_error_nth; exact E4).
        assert (HrS : length (qL ++ qR ++ qPj) = rn (S j)) by (unfold rnds; rewrite Hlay, !app_length; lia).
        assert (HsS : seg (S j) = qL ++ qR ++ qPj) by (apply (seg_here (S j) _ _ Hsk HrS)).
        destruct (split3 qL qR qPj (lBGInputs l) LL LR) as (P1 & P2 & P3).
        assert (LP' : length qP' = (m + k)%nat).
        { pose proof (answers_at_length _ _ _ _ E5) as HL. rewrite !app_length, (Hlen j l' sp E4 E3) in HL. lia. }
        assert (Hrj : length (qL' ++ qR' ++ qP') = rn j) by (unfold rnds; rewrite Hlay', !app_length; lia).
        assert (Hlam : nth (of (S j) + rn (S j)) all 0 = lam).
        { apply (nth_here (S j) _ ((qL ++ qR ++ qPj) ++ [lam]) ((qL' ++ qR' ++ qP') ++ rest')).
          - rewrite Hsk, <- (app_assoc (qL ++ qR ++ qPj)). reflexivity.
          - rewrite nth_error_app2, HrS, Nat.sub_diag by lia. reflexivity. }
        assert (Hsk' : skipn (of j) all = (qL' ++ qR' ++ qP') ++ rest').
        { rewrite (off_step (rnds m k c) n j Hj). rewrite <- Nat.add_assoc, <- skipn_add, Hsk.
          rewrite <- skipn_add, skipn_len_app by exact HrS. reflexivity. }
        assert (Hsj : seg j = qL' ++ qR' ++ qP') by (apply (seg_here j _ _ Hsk' Hrj)).
        rewrite (nth_error_nth _ _ 0 E1), (nth_error_nth _ _ 0 E2) in Hne.
        set (tl := mle (TV l (S j)) (qL ++ qPj)) in *. set (tr := mle (TV l (S j)) (qR ++ qPj)) in *.
        destruct (f_eq_dec (cr * lam + cl) (tr * lam + tl)) as [He|He].
        { exists (S j, rn (S j)). split; [exact Hj|]. right. split; [reflexivity|]. split; [lia|].
          rewrite (nth_error_nth _ _ 0 E1), (nth_error_nth _ _ 0 E2), Hlam. unfold pair_hit. rewrite HsS, Hlay, P1, P2, P3. fold tl tr. auto. }
        destruct (f_eq_dec vl (mle (TV l' j) (qL' ++ qP'))) as [->|Hvl].
        2: { apply (IH qP' qL' qR' l' rest'); auto; try lia. rewrite (nth_error_nth _ _ 0 E7). congruence. }
        destruct (f_eq_dec vr (mle (TV l' j) (qR' ++ qP'))) as [->|Hvr].
        2: { apply (IH qP' qL' qR' l' rest'); auto; try lia. rewrite (nth_error_nth _ _ 0 E8). congruence. }
        destruct (Hlayers l' (nth_error_In _ _ E4)) as [Hwf Hg].
        assert (LL2 : length qL = lBGOutputs l') by congruence. assert (LR2 : length qR = lBGOutputs l') by congruence.
        destruct (statics_ok l' qL Hwf LL2) as (tL & EL & LtL & StL).
        destruct (statics_ok l' qR Hwf LR2) as (tR & ER & LtR & StR).
        rewrite (evaluateStaticTablesLinCombs_ok l' qL qR tL tR qL' qR' lam) in E9 by assumption.
        injection E9 as <-.
        destruct (tv_layer m k b c inputs a Hlayers Hfits Hin Ha j l' E4) as [HT LT].
        destruct (layer_sound_at l' (map (fun i => lincomb lam (nth i tL []) (nth i tR [])) (seq 0 (length (lGates l'))))
          (fun o => chi (to_bits (lBGOutputs l') o) qL + lam * chi (to_bits (lBGOutputs l') o) qR)
          qPj (TV l' j) (cr * lam + cl) sp (m + k) qP' qL' qR' tot) as (i & p & r & H1 & H2 & H3); auto.
        + apply (weights_lincomb l' tL tR (fun o => chi (to_bits (lBGOutputs l') o) qL) (fun o => chi (to_bits (lBGOutputs l') o) qR)); auto using weights_static.
        + intros tab Ht. apply in_map_iff in Ht. destruct Ht as (i & <- & Hi). apply in_seq in Hi.
          unfold lincomb. rewrite map_length, seq_length. apply StR. lia.
        + rewrite <- LP in HT |- *. rewrite (layer_sum2 l' qL qR qPj tL tR _ _ lam Hwf Hg LL2 LR2 EL ER HT).
          rewrite <- Hbb. exact He.
        + assert (Hi : (i < rn j)%nat) by (rewrite <- Hrj; apply nth_error_Some; congruence).
          exists (j, i). split; [lia|]. left. split; [exact Hi|]. exists p. rewrite (nth_error_nth _ _ [] E3). split; [exact H1|].
          rewrite (nth_here j i _ _ r Hsk' H2). unfold round_hit, run_of. destruct (Nat.eqb_spec (S j) n) as [En|En]; [lia|].
          rewrite Hlay', Hsj. fold (seg (S j)). rewrite Hlam, HsS. rewrite Hbb in P1, P2, P3. rewrite P1, P2, P3.
          replace (rn j) with (2 * lBGInputs l' + (m + k))%nat by (unfold rnds; rewrite Hlay'; reflexivity). exact H3.
    Qed.
  End Circ.

  Lemma igkr_sound m k b (c : list (Layer F)) l rs pf inputs outputs a :
    (forall l, In l c -> wf_layer l /\ gates_once l) -> fits b c -> nth_error c (length c - 1) = Some l ->
    chunked k m b inputs -> assignment_of c (2 ^ m) inputs a -> chunked k m (lBGOutputs l) outputs ->
    IGkrVerify rs (m + k) c pf inputs outputs = Some true ->
    let bo := lBGOutputs l in
    exact_shape c (m + k) pf /\ (bo + (m + k) <= length rs)%nat /\
    (mle (glued bo m outputs) (firstn (bo + (m + k)) rs) = mle (glued bo m (nth (length c) a [])) (firstn (bo + (m + k)) rs) \/
     exists e, hit m k c a pf (firstn bo rs) (firstn (m + k) (skipn bo rs)) (skipn (bo + (m + k)) rs) e).
  Proof.
    intros Hl Hfits Hlast Hin Ha Hout HV bo.
    destruct (igkr_inv m k b c l rs pf inputs outputs) as (HS & q & qP & sp & qP' & qL' & qR' & tot & rest & vl & vr & sts & zP & zL & zR &
      -> & Lq & LqP & E3 & E4 & LL & LR & LP & E6 & E7 & E8 & E9 & E10 & LzP & E12 & E13); auto.
    { intros l' H'. apply Hl. exact H'. }
    split; [exact HS|]. split; [rewrite !app_length; unfold bo; lia|].
    assert (F1 : firstn bo (q ++ qP ++ (qL' ++ qR' ++ qP') ++ rest) = q) by (apply firstn_len_app; exact Lq).
    assert (F2 : skipn bo (q ++ qP ++ (qL' ++ qR' ++ qP') ++ rest) = qP ++ (qL' ++ qR' ++ qP') ++ rest) by (apply skipn_len_app; exact Lq).
    assert (F3 : firstn (m + k) (qP ++ (qL' ++ qR' ++ qP') ++ rest) = qP) by (apply firstn_len_app; exact LqP).
    assert (F4 : firstn (bo + (m + k)) (q ++ qP ++ (qL' ++ qR' ++ qP') ++ rest) = q ++ qP).
    { rewrite app_assoc. apply firstn_len_app. rewrite app_length. unfold bo. lia. }
    assert (F5 : skipn (bo + (m + k)) (q ++ qP ++ (qL' ++ qR' ++ qP') ++ rest) = (qL' ++ qR' ++ qP') ++ rest).
    { rewrite app_assoc. apply skipn_len_app. rewrite app_length. unfold bo. lia. }
    rewrite F1, F2, F3, F4, F5. clear F1 F2 F3 F4 F5.
    destruct (f_eq_dec (mle (glued bo m outputs) (q ++ qP)) (mle (glued bo m (nth (length c) a [])) (q ++ qP))) as [E|Hne]; [left; exact E|right].
    set (all := (qL' ++ qR' ++ qP') ++ rest). set (last := (length c - 1)%nat) in *.
    assert (Hlen : length c = S last) by (assert (last < length c)%nat by (apply nth_error_Some; congruence); unfold last in *; lia).
    pose proof (exact_shape_shape c (m + k) pf HS) as (_ & _ & _ & S4).
    destruct (Hl l (nth_error_In _ _ Hlast)) as [Hwf Hg].
    destruct (nth_error c 0) as [l0|] eqn:Hl0; [|apply nth_error_None in Hl0; lia].
    assert (Hb0 : lBGInputs l0 = b) by (destruct c; [discriminate|]; injection Hl0 as ->; exact (proj1 Hfits)).
    assert (HA0 : glued b m (nth 0 a []) = glued b m inputs) by (destruct Ha as (_ & -> & _); reflexivity).
    rewrite <- HA0, <- Hb0 in E12, E13.
    assert (Hoff : off (rnds m k c) (length c) last = 0%nat) by (unfold off; rewrite Hlen; replace (S last - S last)%nat with 0%nat by lia; reflexivity).
    assert (Hsk : skipn (off (rnds m k c) (length c) last) all = (qL' ++ qR' ++ qP') ++ rest) by (rewrite Hoff; reflexivity).
    assert (HLs : forall j l sp, nth_error c j = Some l -> nth_error (SumcheckProofs pf) j = Some sp -> length sp = (2 * lBGInputs l + (m + k))%nat).
    { intros j l' sp' H1 H2. apply (S4 j l' sp' H1 H2). }
    destruct (f_eq_dec vl (mle (glued (lBGInputs l) m (nth last a [])) (qL' ++ qP'))) as [->|Hvl].
    2: { apply (isound_loop m k b c inputs a pf Hl Hfits Hin Ha q qP all zP zL zR l0 Hl0 E12 E13 HLs last qP' qL' qR' l rest); auto; try lia.
         rewrite (nth_error_nth _ _ 0 E6). congruence. }
    destruct (f_eq_dec vr (mle (glued (lBGInputs l) m (nth last a [])) (qR' ++ qP'))) as [->|Hvr].
    2: { apply (isound_loop m k b c inputs a pf Hl Hfits Hin Ha q qP all zP zL zR l0 Hl0 E12 E13 HLs last qP' qL' qR' l rest); auto; try lia.
         rewrite (nth_error_nth _ _ 0 E7). congruence. }
    destruct (statics_ok l q Hwf Lq) as (st & Est & Lst & Sst).
    rewrite (evaluateStaticTables_ok l q st qL' qR' Hwf Lq Est LL LR) in E8. injection E8 as <-.
    destruct (tv_layer m k b c inputs a Hl Hfits Hin Ha last l Hlast) as [HT LT].
    destruct (layer_sound_at l st (fun o => chi (to_bits (lBGOutputs l) o) q) qP (glued (lBGInputs l) m (nth last a [])) (mle (glued bo m outputs) (q ++ qP)) sp (m + k) qP' qL' qR' tot)
      as (i & p & r & H1 & H2 & H3); auto using weights_static.
    - intros tab Ht. apply (In_nth _ _ []) in Ht. destruct Ht as (i & Hi & <-). apply Sst. lia.
    - rewrite <- LqP in HT |- *. rewrite (layer_sum l q qP st _ _ Hwf Hg Lq Est HT). rewrite Hlen in Hne. exact Hne.
    - assert (Hlay : nth last c (NewLayer []) = l) by (apply nth_error_nth; exact Hlast).
      assert (Hr : length (qL' ++ qR' ++ qP') = rnds m k c last) by (unfold rnds; rewrite Hlay, !app_length; lia).
      exists (last, i). split; [lia|]. left. split; [rewrite <- Hr; apply nth_error_Some; congruence|]. exists p. rewrite (nth_error_nth _ _ [] E3). split; [exact H1|].
      rewrite (nth_here m k c all last i _ _ r Hsk H2). unfold round_hit, run_of. rewrite <- Hlen, Nat.eqb_refl, (seg_here m k c all last _ _ Hsk Hr), Hlay.
      replace (rnds m k c last) with (2 * lBGInputs l + (m + k))%nat by (unfold rnds; rewrite Hlay; reflexivity). exact H3.
  Qed.
End L.
