(** Lemmas about the verifier on a list of challenges. *)
From Coq Require Import List Arith Lia Bool.
From Verif Require Import Field Go MCommon Spec LSpec LCommon MPoly LPoly LPoly2 LPoly3 Trans MCircuit SpecCircuit LCircuit LCircuit2
  LCircuit3 MSumcheck LSumcheck SpecSumcheck LSumcheck4 LSumcheck5 MSumPar SpecSumPar LSumPar4 MGkr SpecGkr SpecInter LGkr LGkr2 LGkr3 LGkr4
  SpecProof MRepair SpecRepair LRepair LRepair2 MFiat.
Import ListNotations.

Section L.
  Context {F : Field}.
  Add Field FfieldFiat : (f_theory F).
  Open Scope F_scope.

  (** ** With the challenges of the code this is the repaired verifier *)
  Section Code.
    Variable ch : list F -> F.

    Lemma iloop_code cs : forall v acc rest, iverify_loop v cs (map ch cs ++ rest) acc =
      match verify_loop ch v cs acc with
      | Some (Some (qs, e)) => Some (Some (qs, e, rest))
      | Some None => Some None
      | None => None
      end.
    Proof.
      induction cs as [|c cs IH]; intros v acc rest; cbn [iverify_loop verify_loop map app]; [reflexivity|].
      destruct (EvaluatePolynomial c 0); [|reflexivity]. destruct (EvaluatePolynomial c 1); [|reflexivity].
      destruct (_ =? _); [|reflexivity]. cbn [get nth_error skipn]. destruct (EvaluatePolynomial c (ch c)); [|reflexivity]. apply IH.
    Qed.

    Lemma IVerify_code claim cs rest bN bG : IVerify claim cs (map ch cs ++ rest) bG =
      match Verify ch claim cs bN bG with
      | Some (Accept qP qL qR e) => Some (Some (qP, qL, qR, e, rest))
      | Some Reject => Some None
      | None => None
      end.
    Proof.
      unfold IVerify, Verify. rewrite iloop_code. destruct (verify_loop ch claim cs []) as [[[qs e]|]|]; [|reflexivity|reflexivity].
      destruct (slice qs 0 bG); [|reflexivity]. destruct (slice qs bG (2 * bG)); [|reflexivity].
      destruct (slice qs (2 * bG) (length qs)); reflexivity.
    Qed.

    (** The messages from the claims about layer [j] on. *)
    Definition tail_msgs (pf : Proof F) (j : nat) : list (list F) :=
      (if (0 <? j)%nat then [[nth j (ClaimsLeft pf) 0; nth j (ClaimsRight pf) 0]] else []) ++
      flat_map (layer_messages pf) (rev (seq 0 j)).

    Lemma tail_msgs_S pf j : tail_msgs pf (S j) =
      [nth (S j) (ClaimsLeft pf) 0; nth (S j) (ClaimsRight pf) 0] :: nth j (SumcheckProofs pf) [] ++ tail_msgs pf j.
    Proof.
      unfold tail_msgs. destruct (Nat.ltb_spec 0 (S j)); [|lia]. rewrite seq_S, rev_app_distr. cbn [rev app flat_map Nat.add].
      unfold layer_messages at 1. rewrite <- app_assoc. reflexivity.
    Qed.

    Lemma messages_tail pf n : messages (S n) pf = nth n (SumcheckProofs pf) [] ++ tail_msgs pf n.
    Proof.
      unfold messages. rewrite seq_S, rev_app_distr. cbn [rev app flat_map Nat.add]. unfold layer_messages at 1. rewrite <- app_assoc. reflexivity.
    Qed.

    Lemma ilayers_code (c : list (Layer F)) bN pf j : forall qP qL qR, iverifyLayers c pf j qP qL qR (map ch (tail_msgs pf j)) =
      match verifyLayers ch false c bN pf j qP qL qR with
      | Some (inl _) => Some None
      | Some (inr z) => Some (Some z)
      | None => None
      end.
    Proof.
      induction j as [|j IH]; intros qP qL qR; cbn [iverifyLayers verifyLayers]; [reflexivity|].
      replace (j + 1)%nat with (S j) by lia.
      destruct (get (ClaimsLeft pf) (S j)) as [cl|] eqn:E1; [|reflexivity].
      destruct (get (ClaimsRight pf) (S j)) as [cr|] eqn:E2; [|reflexivity]. cbv zeta.
      rewrite tail_msgs_S, (nth_error_nth _ _ 0 E1), (nth_error_nth _ _ 0 E2). cbn [map]. unfold get at 1. cbn [nth_error skipn].
      destruct (get (SumcheckProofs pf) j) as [sp|] eqn:E3; [|reflexivity].
      destruct (get c j) as [l|]; [|reflexivity]. rewrite (nth_error_nth _ _ [] E3), map_app, (IVerify_code _ _ _ bN).
      destruct (Verify ch _ sp bN (lBGInputs l)) as [[|qP' qL' qR' tot]|]; [reflexivity| |reflexivity].
      destruct (EvalEq qP qP'); [|reflexivity]. destruct (get (ClaimsLeft pf) j); [|reflexivity]. destruct (get (ClaimsRight pf) j); [|reflexivity].
      destruct (evaluateStaticTablesLinCombs _ _ _ _ _ _ _); [|reflexivity]. destruct (EvaluateCombinator _ _ _ _ _); [|reflexivity].
      destruct (_ =? _); [apply IH|reflexivity].
    Qed.

    Lemma igkr_code (c : list (Layer F)) bN pf inputs outputs l q qP : nth_error c (length c - 1) = Some l ->
      length q = lBGOutputs l -> length qP = bN ->
      IGkrVerify (q ++ qP ++ map ch (messages (length c) pf)) bN c pf inputs outputs = RGkrVerify ch qP q bN c pf inputs outputs.
    Proof.
      intros Hl Lq LqP. unfold IGkrVerify, RGkrVerify. destruct (negb (shapeOK bN c pf)); [reflexivity|].
      destruct (gosub (length c) 1) as [last|] eqn:Eg; [|reflexivity].
      assert (Hlast : length c = S last /\ last = (length c - 1)%nat).
      { unfold gosub in Eg. destruct (Nat.leb_spec 1 (length c)); [|discriminate]. injection Eg as <-. lia. }
      destruct Hlast as [Hlen Hlast]. rewrite <- Hlast in Hl. assert (Hg : get c last = Some l) by exact Hl. rewrite Hg, Hlen.
      rewrite !slice_some by (rewrite ?app_length; lia). rewrite Nat.sub_0_r, skipn_O, firstn_len_app by exact Lq.
      rewrite skipn_len_app by exact Lq. replace (lBGOutputs l + bN - lBGOutputs l)%nat with bN by lia. rewrite firstn_len_app by exact LqP.
      destruct (REvaluateChunked outputs (q ++ qP)); [|reflexivity].
      rewrite app_assoc, skipn_len_app by (rewrite app_length; lia). rewrite messages_tail, map_app.
      destruct (get (SumcheckProofs pf) last) as [sp|] eqn:E3; [|reflexivity].
      rewrite (nth_error_nth _ _ [] E3), (IVerify_code _ _ _ bN).
      destruct (Verify ch _ sp bN (lBGInputs l)) as [[|qP' qL' qR' tot]|]; [reflexivity| |reflexivity].
      destruct (EvalEq qP qP'); [|reflexivity]. destruct (get (ClaimsLeft pf) last); [|reflexivity]. destruct (get (ClaimsRight pf) last); [|reflexivity].
      destruct (evaluateStaticTables _ _ _ _); [|reflexivity]. destruct (EvaluateCombinator _ _ _ _ _); [|reflexivity].
      destruct (_ =? _); [|reflexivity]. rewrite (ilayers_code c bN). destruct (verifyLayers ch false c bN pf last qP' qL' qR') as [[bb|[[zP zL] zR]]|] eqn:EL; [| |reflexivity].
      - destruct bb; [|reflexivity]. exfalso. exact (no_early_true ch c bN pf last _ _ _ EL).
      - reflexivity.
    Qed.
  End Code.

  (** ** What it accepts *)
  Fixpoint answers_at (v : F) (cs : list (list F)) (rs : list F) (fin : F) : Prop :=
    match cs, rs with
    | [], [] => fin = v
    | c :: cs', r :: rs' => c <> [] /\ v = peval c 0 + peval c 1 /\ answers_at (peval c r) cs' rs' fin
    | _, _ => False
    end.

  Lemma answers_at_length cs : forall v rs fin, answers_at v cs rs fin -> length rs = length cs.
  Proof. induction cs as [|c cs IH]; intros v [|r rs] fin; cbn [answers_at length]; try tauto. intros (_ & _ & H). f_equal. eauto. Qed.

  Lemma iloop_accept cs : forall v rs acc qs fin rest,
    iverify_loop v cs rs acc = Some (Some (qs, fin, rest)) <-> exists used, rs = used ++ rest /\ answers_at v cs used fin /\ qs = acc ++ used.
  Proof.
    induction cs as [|c cs IH]; intros v rs acc qs fin rest; cbn [iverify_loop].
    - split.
      + intros H. injection H as <- <- <-. exists []. rewrite app_nil_r. cbn. auto.
      + intros ([|u used] & -> & H & ->); cbn [answers_at] in H; [|contradiction]. subst. rewrite app_nil_r. reflexivity.
    - destruct c as [|c0 c'].
      { split; [discriminate|]. intros ([|u used] & _ & H & _); cbn [answers_at] in H; [contradiction|]. destruct H as [H _]. congruence. }
      set (c := c0 :: c') in *. rewrite !(EvaluatePolynomial_spec c) by discriminate.
      destruct (feqb_spec F v (peval c 0 + peval c 1)) as [E|E].
      + destruct rs as [|r rs]; unfold get; cbn [nth_error skipn].
        { split; [discriminate|]. intros ([|u used] & H & HA & _); [cbn [answers_at] in HA; contradiction|discriminate]. }
        rewrite EvaluatePolynomial_spec by discriminate. rewrite IH. split.
        * intros (used & -> & HA & ->). exists (r :: used). split; [reflexivity|]. split; [cbn [answers_at]; split; [discriminate|auto]|].
          rewrite <- app_assoc. reflexivity.
        * intros ([|u used] & H & HA & ->); [cbn [answers_at] in HA; contradiction|]. injection H as <- ->. cbn [answers_at] in HA.
          exists used. split; [reflexivity|]. split; [apply HA|]. rewrite <- app_assoc. reflexivity.
      + split; [discriminate|]. intros ([|u used] & _ & H & _); cbn [answers_at] in H; [contradiction|]. destruct H as (_ & H & _). congruence.
  Qed.

  Lemma IVerify_accept claim cs rs bG qP qL qR fin rest :
    IVerify claim cs rs bG = Some (Some (qP, qL, qR, fin, rest)) <->
    rs = (qL ++ qR ++ qP) ++ rest /\ answers_at claim cs (qL ++ qR ++ qP) fin /\ length qL = bG /\ length qR = bG.
  Proof.
    unfold IVerify. split.
    - destruct (iverify_loop claim cs rs []) as [[[[qs e] rest']|]|] eqn:E; [|discriminate|discriminate].
      apply iloop_accept in E. destruct E as (used & -> & HA & ->). cbn [app].
      unfold slice. destruct (Nat.leb_spec 0 bG); [|lia]. destruct (Nat.leb_spec bG (length used)) as [H1|]; [|discriminate].
      destruct (Nat.leb_spec bG (2 * bG)); [|lia]. destruct (Nat.leb_spec (2 * bG) (length used)) as [H2|]; [|discriminate].
      rewrite Nat.leb_refl. cbn [andb]. intros H3. injection H3 as <- <- <- <- <-.
      rewrite Nat.sub_0_r. cbn [skipn].
      replace (2 * bG - bG)%nat with bG by lia. rewrite (firstn_all2 (skipn (2 * bG) used)) by (rewrite skipn_length; lia).
      replace (2 * bG)%nat with (bG + bG)%nat by lia. rewrite <- skipn_add.
      replace (bG + (bG + 0) - bG)%nat with bG by lia. rewrite (firstn_skipn bG (skipn bG used)), firstn_skipn.
      split; [reflexivity|]. split; [exact HA|]. rewrite !firstn_length, skipn_length. lia.
    - intros (-> & HA & L1 & L2).
      assert (EL : iverify_loop claim cs ((qL ++ qR ++ qP) ++ rest) [] = Some (Some (qL ++ qR ++ qP, fin, rest))).
      { apply iloop_accept. exists (qL ++ qR ++ qP). auto. }
      rewrite EL. rewrite !slice_some by (rewrite ?app_length; lia).
      rewrite Nat.sub_0_r, skipn_O. replace (2 * bG - bG)%nat with bG by lia.
      rewrite (firstn_len_app qL _ bG), (skipn_len_app qL _ bG), (firstn_len_app qR _ bG) by assumption.
      rewrite (app_assoc qL qR qP), (skipn_len_app (qL ++ qR)) by (rewrite app_length; lia).
      rewrite firstn_all2 by (rewrite ?app_length; lia). reflexivity.
  Qed.

  (** ** The sum-check: right at the end and wrong at the start, hence right at some challenge where it is wrong before *)
  Lemma sound_at (f : list F -> F) cs : forall x v rs fin, answers_at v cs rs fin -> fin = f (x ++ rs) ->
    v <> cube_sum f (length cs) x ->
    exists i c r, nth_error cs i = Some c /\ nth_error rs i = Some r /\
      (exists t, peval c t <> cube_sum f (length cs - S i) (x ++ firstn i rs ++ [t])) /\
      peval c r = cube_sum f (length cs - S i) (x ++ firstn i rs ++ [r]).
  Proof.
    induction cs as [|c cs IH]; intros x v [|r rs] fin HA Hf Hv; cbn [answers_at length] in *; try contradiction.
    - exfalso. apply Hv. unfold cube_sum. cbn [cube suml bpoint map]. rewrite <- HA, Hf. ring.
    - destruct HA as (_ & Hsum & HA).
      assert (Hdiff : exists t, peval c t <> cube_sum f (length cs) (x ++ [t])).
      { destruct (f_eq_dec (peval c 0) (cube_sum f (length cs) (x ++ [0]))) as [E0|]; [|eauto].
        destruct (f_eq_dec (peval c 1) (cube_sum f (length cs) (x ++ [1]))) as [E1|]; [|eauto].
        exfalso. apply Hv. rewrite Hsum, E0, E1, cube_sum_S. reflexivity. }
      destruct (f_eq_dec (peval c r) (cube_sum f (length cs) (x ++ [r]))) as [E|E].
      + exists 0%nat, c, r. cbn [nth_error firstn app]. rewrite Nat.sub_succ, Nat.sub_0_r. auto.
      + destruct (IH (x ++ [r]) (peval c r) rs fin HA) as (i & c' & r' & H1 & H2 & H3 & H4); [|exact E|].
        * rewrite <- app_assoc. exact Hf.
        * exists (S i), c', r'. cbn [nth_error firstn app]. rewrite Nat.sub_succ.
          split; [exact H1|]. split; [exact H2|]. split.
          -- destruct H3 as (t & H3). exists t. rewrite <- app_assoc in H3. exact H3.
          -- rewrite <- app_assoc in H4. exact H4.
  Qed.

  (** One layer: right final claims, wrong starting claim. *)
  Lemma layer_sound_at (l : Layer F) st weight qP V claim sp bN qP' qL' qR' tot :
    wf_layer l -> gates_once l -> weights_of l st weight ->
    (forall tab, In tab st -> length tab = (2 ^ lBGInputs l * 2 ^ lBGInputs l)%nat) ->
    length qP = bN -> length qP' = bN -> length V = (2 ^ (lBGInputs l + bN))%nat ->
    answers_at claim sp (qL' ++ qR' ++ qP') tot -> length qL' = lBGInputs l -> length qR' = lBGInputs l ->
    EvaluateCombinator (mle V (qL' ++ qP')) (mle V (qR' ++ qP')) (eqprod qP qP') (lGates l)
      (map (fun t => mle t (qL' ++ qR')) st) = Some tot ->
    claim <> table_sum (2 ^ bN) (2 ^ lBGInputs l) (lGates l) st (eqtab qP) V V ->
    exists i c r, nth_error sp i = Some c /\ nth_error (qL' ++ qR' ++ qP') i = Some r /\
      let tp t := cube_sum (layer_poly l weight qP V) (2 * lBGInputs l + bN - S i) (firstn i (qL' ++ qR' ++ qP') ++ [t]) in
      (exists t, peval c t <> tp t) /\ peval c r = tp r.
  Proof.
    intros Hwf Hg HW Hst LqP LqP' LV HA LL LR HC Hne.
    assert (Lp : length sp = (2 * lBGInputs l + bN)%nat).
    { rewrite <- (answers_at_length _ _ _ _ HA), !app_length. lia. }
    pose proof HW as [HW1 HW2].
    assert (HT : tables_ok (lBGInputs l) (lBGInputs l) bN (lGates l) st (eqtab qP) V V).
    { unfold tables_ok. rewrite eqtab_length, LqP. repeat split; auto.
      intros tab Ht. rewrite Hst, Nat.pow_add_r by exact Ht. reflexivity. }
    pose proof (claims_combinator (lGates l) st (eqtab qP) V V qL' qR' qP' HW1) as HCC.
    rewrite mle_eqtab in HCC by congruence. rewrite HC, LL, LR in HCC.
    assert (Htot : tot = combinator (lBGInputs l) (lBGInputs l) (lGates l) st (eqtab qP) V V (qL' ++ qR' ++ qP')) by congruence.
    set (rs := qL' ++ qR' ++ qP') in *.
    assert (Lrs : length rs = (2 * lBGInputs l + bN)%nat) by (unfold rs; rewrite !app_length; lia).
    assert (Hext : forall y, length y = (2 * lBGInputs l + bN)%nat ->
      combinator (lBGInputs l) (lBGInputs l) (lGates l) st (eqtab qP) V V y = layer_poly l weight qP V y).
    { intros y Hy. apply combinator_layer_poly; auto. lia. }
    destruct (sound_at (combinator (lBGInputs l) (lBGInputs l) (lGates l) st (eqtab qP) V V) sp [] claim rs tot HA) as (i & c & r & H1 & H2 & H3 & H4).
    - exact Htot.
    - intros ->. apply Hne. pose proof (tables_shape _ _ _ _ _ _ _ _ HT) as HS.
      rewrite <- psum_table_sum by exact HW1. rewrite (psum_cube _ _ _ _ HS), Lp.
      replace (2 * lBGInputs l + bN)%nat with (lBGInputs l + lBGInputs l + bN)%nat by lia. unfold comb. rewrite New_eq. reflexivity.
    - rewrite Lp in H3, H4. cbn [app] in H3, H4. exists i, c, r. split; [exact H1|]. split; [exact H2|]. cbv zeta.
      assert (Hi : (i < 2 * lBGInputs l + bN)%nat) by (rewrite <- Lrs; apply nth_error_Some; congruence).
      assert (HE : forall t, cube_sum (combinator (lBGInputs l) (lBGInputs l) (lGates l) st (eqtab qP) V V) (2 * lBGInputs l + bN - S i) (firstn i rs ++ [t]) =
        cube_sum (layer_poly l weight qP V) (2 * lBGInputs l + bN - S i) (firstn i rs ++ [t])).
      { intros t. apply (cube_sum_ext_len _ _ (2 * lBGInputs l + bN) _ _ Hext). rewrite app_length, firstn_length. cbn [length]. lia. }
      split; [destruct H3 as (t & H3); exists t; rewrite <- HE; exact H3|rewrite <- HE; exact H4].
  Qed.

  (** ** Inversion of the program *)
  Lemma ilayers_inv (c : list (Layer F)) pf j qP qL qR rs z :
    iverifyLayers c pf (S j) qP qL qR rs = Some (Some z) ->
    exists cl cr lam sp l qP' qL' qR' tot rest vl vr sts,
      nth_error (ClaimsLeft pf) (S j) = Some cl /\ nth_error (ClaimsRight pf) (S j) = Some cr /\
      nth_error (SumcheckProofs pf) j = Some sp /\ nth_error c j = Some l /\
      rs = lam :: (qL' ++ qR' ++ qP') ++ rest /\ answers_at (cr * lam + cl) sp (qL' ++ qR' ++ qP') tot /\
      length qL' = lBGInputs l /\ length qR' = lBGInputs l /\ (length qP <= length qP')%nat /\
      nth_error (ClaimsLeft pf) j = Some vl /\ nth_error (ClaimsRight pf) j = Some vr /\
      evaluateStaticTablesLinCombs l qL qR qL' qR' 1 lam = Some sts /\
      EvaluateCombinator vl vr (eqprod qP qP') (lGates l) sts = Some tot /\
      iverifyLayers c pf j qP' qL' qR' rest = Some (Some z).
  Proof.
    cbn [iverifyLayers]. replace (j + 1)%nat with (S j) by lia. unfold get at 1 2.
    destruct (nth_error (ClaimsLeft pf) (S j)) as [cl|] eqn:E1; [|discriminate].
    destruct (nth_error (ClaimsRight pf) (S j)) as [cr|] eqn:E2; [|discriminate]. cbv zeta.
    destruct rs as [|lam rs]; [discriminate|]. unfold get. cbn [nth_error skipn].
    destruct (nth_error (SumcheckProofs pf) j) as [sp|] eqn:E3; [|discriminate].
    destruct (nth_error c j) as [l|] eqn:E4; [|discriminate].
    destruct (IVerify (cr * lam + cl) sp rs (lBGInputs l)) as [[[[[[qP' qL'] qR'] tot] rest]|]|] eqn:E5; [|discriminate|discriminate].
    apply IVerify_accept in E5. destruct E5 as (-> & HA & LL & LR).
    destruct (le_lt_dec (length qP) (length qP')) as [Hle|Hlt]; [|rewrite EvalEq_panics by exact Hlt; discriminate].
    rewrite EvalEq_spec by exact Hle.
    destruct (nth_error (ClaimsLeft pf) j) as [vl|] eqn:E6; [|discriminate].
    destruct (nth_error (ClaimsRight pf) j) as [vr|] eqn:E7; [|discriminate].
    destruct (evaluateStaticTablesLinCombs l qL qR qL' qR' 1 lam) as [sts|] eqn:E8; [|discriminate].
    destruct (EvaluateCombinator vl vr (eqprod qP qP') (lGates l) sts) as [ev|] eqn:E9; [|discriminate].
    destruct (tot =? ev) eqn:E10; [|discriminate]. apply feqb_eq in E10. subst ev. intros H.
    exists cl, cr, lam, sp, l, qP', qL', qR', tot, rest, vl, vr, sts. auto 20.
  Qed.

  Lemma igkr_inv m k b (c : list (Layer F)) l rs pf inputs outputs :
    (forall l, In l c -> wf_layer l) -> fits b c -> nth_error c (length c - 1) = Some l ->
    chunked k m b inputs -> chunked k m (lBGOutputs l) outputs ->
    IGkrVerify rs (m + k) c pf inputs outputs = Some true ->
    exact_shape c (m + k) pf /\
    exists q qP sp qP' qL' qR' tot rest vl vr sts zP zL zR,
      rs = q ++ qP ++ (qL' ++ qR' ++ qP') ++ rest /\ length q = lBGOutputs l /\ length qP = (m + k)%nat /\
      nth_error (SumcheckProofs pf) (length c - 1) = Some sp /\
      answers_at (mle (glued (lBGOutputs l) m outputs) (q ++ qP)) sp (qL' ++ qR' ++ qP') tot /\
      length qL' = lBGInputs l /\ length qR' = lBGInputs l /\ length qP' = (m + k)%nat /\
      nth_error (ClaimsLeft pf) (length c - 1) = Some vl /\ nth_error (ClaimsRight pf) (length c - 1) = Some vr /\
      evaluateStaticTables l q qL' qR' = Some sts /\
      EvaluateCombinator vl vr (eqprod qP qP') (lGates l) sts = Some tot /\
      iverifyLayers c pf (length c - 1) qP' qL' qR' rest = Some (Some (zP, zL, zR)) /\
      length zP = (m + k)%nat /\
      nth_error (ClaimsLeft pf) 0 = Some (mle (glued b m inputs) (zL ++ zP)) /\
      nth_error (ClaimsRight pf) 0 = Some (mle (glued b m inputs) (zR ++ zP)).
  Proof.
    intros Hwf Hfits Hl Hin Hout. unfold IGkrVerify.
    destruct (shapeOK (m + k) c pf) eqn:ES; cbn [negb]; [|discriminate].
    apply shapeOK_iff in ES. pose proof (exact_shape_shape c (m + k) pf ES) as HS. pose proof HS as (S1 & S2 & S3 & S4).
    assert (Hc : (length c - 1 < length c)%nat) by (apply nth_error_Some; congruence).
    unfold gosub. destruct (Nat.leb_spec 1 (length c)); [|lia]. unfold get at 1. rewrite Hl.
    unfold slice. destruct (Nat.leb_spec 0 (lBGOutputs l)); [|lia]. destruct (Nat.leb_spec (lBGOutputs l) (length rs)) as [Hr1|]; [|discriminate].
    destruct (Nat.leb_spec (lBGOutputs l) (lBGOutputs l + (m + k))); [|lia].
    destruct (Nat.leb_spec (lBGOutputs l + (m + k)) (length rs)) as [Hr2|]; [|discriminate]. cbn [andb].
    rewrite Nat.sub_0_r, skipn_O. replace (lBGOutputs l + (m + k) - lBGOutputs l)%nat with (m + k)%nat by lia.
    set (q := firstn (lBGOutputs l) rs). set (qP := firstn (m + k) (skipn (lBGOutputs l) rs)).
    assert (Lq : length q = lBGOutputs l) by (unfold q; rewrite firstn_length; lia).
    assert (LqP : length qP = (m + k)%nat) by (unfold qP; rewrite firstn_length, skipn_length; lia).
    rewrite (REvaluateChunked_ok outputs (q ++ qP) k (lBGOutputs l + m) (tabs_chunked k m _ _ Hout)) by (rewrite app_length; lia).
    fold (glued (lBGOutputs l) m outputs).
    destruct (get_total (SumcheckProofs pf) (length c - 1) ltac:(lia)) as (sp & Esp). rewrite Esp.
    destruct (S4 _ l sp Hl Esp) as [Q1 Q2].
    destruct (IVerify _ sp (skipn (lBGOutputs l + (m + k)) rs) (lBGInputs l)) as [[[[[[qP' qL'] qR'] tot] rest]|]|] eqn:E5; [|discriminate|discriminate].
    apply IVerify_accept in E5. destruct E5 as (Ers & HA & LL & LR).
    assert (LP' : length qP' = (m + k)%nat).
    { pose proof (answers_at_length _ _ _ _ HA) as HL. rewrite !app_length in HL. lia. }
    rewrite EvalEq_spec by lia.
    destruct (get_total (ClaimsLeft pf) (length c - 1) ltac:(lia)) as (vl & Evl). rewrite Evl.
    destruct (get_total (ClaimsRight pf) (length c - 1) ltac:(lia)) as (vr & Evr). rewrite Evr.
    destruct (evaluateStaticTables l q qL' qR') as [sts|] eqn:E8; [|discriminate].
    destruct (EvaluateCombinator vl vr (eqprod qP qP') (lGates l) sts) as [ev|] eqn:E9; [|discriminate].
    destruct (tot =? ev) eqn:E10; [|discriminate]. apply feqb_eq in E10. subst ev.
    destruct (iverifyLayers c pf (length c - 1) qP' qL' qR' rest) as [[[[zP zL] zR]|]|] eqn:E11; [|discriminate|discriminate].
    assert (HZ : length zP = (m + k)%nat /\ length zL = b /\ length zR = b).
    { clear - E11 Hl LP' LL LR Hfits S4 Hc. revert l qP' qL' qR' rest Hl LP' LL LR E11. generalize (length c - 1)%nat as j.
      induction j as [|j IH]; intros l qP qL qR rs Hl LP LL LR H.
      - cbn [iverifyLayers] in H. injection H as <- <- <-.
        assert (Hb0 : lBGInputs l = b) by (destruct c; [discriminate|]; injection Hl as ->; exact (proj1 Hfits)). split; [exact LP|lia].
      - apply ilayers_inv in H. destruct H as (cl & cr & lam & sp & l' & qP2 & qL2 & qR2 & tot & rest & vl & vr & sts & _ & _ & X3 & X4 & _ & X6 & X7 & X8 & _ & _ & _ & _ & _ & X14).
        apply (IH l' qP2 qL2 qR2 rest X4); auto. pose proof (answers_at_length _ _ _ _ X6) as HL. rewrite !app_length in HL.
        destruct (S4 j l' sp X4 X3) as [HL2 _]. lia. }
    destruct HZ as (Z1 & Z2 & Z3).
    rewrite (REvaluateMixedChunked_ok inputs zP zL zR k m b (tabs_chunked k m b _ Hin) Z1 Z2 Z3).
    fold (glued b m inputs). destruct (get_total (ClaimsLeft pf) 0 ltac:(lia)) as (v0 & E0). rewrite E0.
    destruct (get_total (ClaimsRight pf) 0 ltac:(lia)) as (w0 & E0'). rewrite E0'.
    intros HT. injection HT as HT. apply andb_true_iff in HT. destruct HT as [HT1 HT2]. apply feqb_eq in HT1. apply feqb_eq in HT2.
    split; [exact ES|]. exists q, qP, sp, qP', qL', qR', tot, rest, vl, vr, sts, zP, zL, zR. unfold get in *.
    split.
    { rewrite <- Ers. rewrite <- (firstn_skipn (lBGOutputs l) rs) at 1. fold q. f_equal. rewrite <- (firstn_skipn (m + k) (skipn (lBGOutputs l) rs)) at 1. fold qP. f_equal. apply skipn_add. }
    repeat (split; [first [assumption|congruence]|]). congruence.
  Qed.
End L.
