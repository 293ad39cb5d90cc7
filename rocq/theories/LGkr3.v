(** Lemmas about the GKR protocol: soundness. *)
From Coq Require Import List Arith Lia Bool.
From Verif Require Import Field Go MCommon Spec LSpec LCommon MPoly LPoly LPoly2 LPoly3 Trans MCircuit SpecCircuit LCircuit LCircuit2
  LCircuit3 MSumcheck LSumcheck SpecSumcheck LSumcheck4 LSumcheck5 MSumPar SpecSumPar LSumPar4 MGkr SpecGkr LGkr LGkr2.
Import ListNotations.

Section L.
  Context {F : Field}.
  Add Field FfieldGkr3 : (f_theory F).
  Open Scope F_scope.

  (** The entries of the static tables [tabs] are the weights of the wires. *)
  Definition weights_of (l : Layer F) (tabs : list (list F)) (weight : nat -> F) : Prop :=
    length tabs = length (lGates l) /\
    forall i a b, (i < length (lGates l))%nat -> (a < 2 ^ lBGInputs l)%nat -> (b < 2 ^ lBGInputs l)%nat ->
      nth (a * 2 ^ lBGInputs l + b) (nth i tabs []) 0 =
      suml (filter (fun w => id_eqb (gid (wGate w)) (gid (nth i (lGates l) agate)) && (wL w =? a) && (wR w =? b))%nat (Wires l))
        (fun w => weight (wO w)).

  Lemma weights_sum (l : Layer F) tabs weight (X : nat -> nat -> Gate F -> F) : wf_layer l -> gates_once l ->
    weights_of l tabs weight ->
    sumn (2 ^ lBGInputs l) (fun a => sumn (2 ^ lBGInputs l) (fun b =>
      suml (combine (lGates l) tabs) (fun gs => nth (a * 2 ^ lBGInputs l + b) (snd gs) 0 * X a b (fst gs))))
    = suml (Wires l) (fun w => weight (wO w) * X (wL w) (wR w) (wGate w)).
  Proof.
    intros Hwf [Hnd Hin] [HL HS].
    set (n := (2 ^ lBGInputs l)%nat) in *.
    transitivity (suml (Wires l) (fun w => suml (lGates l) (fun g => if id_eqb (gid (wGate w)) (gid g)
       then weight (wO w) * X (wL w) (wR w) g else 0))).
    2: { apply suml_ext. intros w Hw.
         rewrite (suml_once (lGates l) (wGate w) (fun g => weight (wO w) * X (wL w) (wR w) g)) by auto. reflexivity. }
    transitivity (sumn n (fun a => sumn n (fun b => suml (Wires l) (fun w => suml (lGates l) (fun g =>
       if (wL w * n + wR w =? a * n + b)%nat then (if id_eqb (gid (wGate w)) (gid g) then weight (wO w) * X a b g else 0) else 0))))).
    - apply sumn_ext. intros a Ha. apply sumn_ext. intros b Hb.
      rewrite (suml_combine _ (lGates l) tabs agate []) by exact HL.
      rewrite suml_swap. rewrite (suml_nth (lGates l) agate). apply sumn_ext. intros i Hi. cbn [fst snd].
      rewrite (HS i a b Hi Ha Hb), suml_filter, <- suml_scal_r.
      apply suml_ext. intros w Hw. destruct (Hwf w Hw) as (W1 & W2 & W3). fold n in W1, W2.
      assert (Eb : ((wL w * n + wR w =? a * n + b) = (wL w =? a) && (wR w =? b))%nat).
      { destruct (Nat.eqb_spec (wL w) a), (Nat.eqb_spec (wR w) b); cbn [andb].
        - subst. apply Nat.eqb_refl.
        - apply Nat.eqb_neq. lia.
        - apply Nat.eqb_neq. intros H. apply mul_add_inj in H; lia.
        - apply Nat.eqb_neq. intros H. apply mul_add_inj in H; lia. }
      rewrite Eb. destruct (id_eqb _ _), (wL w =? a)%nat, (wR w =? b)%nat; cbn [andb]; ring.
    - rewrite (sumn_ext n _ (fun a => suml (Wires l) (fun w => sumn n (fun b => suml (lGates l) (fun g =>
       if (wL w * n + wR w =? a * n + b)%nat then (if id_eqb (gid (wGate w)) (gid g) then weight (wO w) * X a b g else 0) else 0)))))
       by (intros; apply sumn_suml_swap).
      rewrite sumn_suml_swap. apply suml_ext. intros w Hw. destruct (Hwf w Hw) as (W1 & W2 & W3).
      rewrite <- (sumn_delta2 n n (wL w) (wR w) (fun a b => suml (lGates l) (fun g =>
        if id_eqb (gid (wGate w)) (gid g) then weight (wO w) * X a b g else 0))) by assumption.
      apply sumn_ext. intros a Ha. apply sumn_ext. intros b Hb.
      destruct (_ =? _)%nat; [reflexivity|]. apply suml_zero. reflexivity.
  Qed.

  Lemma combinator_layer_poly (l : Layer F) tabs weight qP V x : wf_layer l -> gates_once l -> weights_of l tabs weight ->
    length x = (lBGInputs l + lBGInputs l + length qP)%nat ->
    combinator (lBGInputs l) (lBGInputs l) (lGates l) tabs (eqtab qP) V V x = layer_poly l weight qP V x.
  Proof.
    intros Hwf Hg HW Hx. unfold combinator, layer_poly. cbv zeta.
    set (b := lBGInputs l) in *. set (xL := firstn b x). set (xR := firstn b (skipn b x)). set (x' := skipn (b + b) x).
    assert (LL : length xL = b) by (unfold xL; rewrite firstn_length; lia).
    assert (LR : length xR = b) by (unfold xR; rewrite firstn_length, skipn_length; lia).
    assert (LP : length x' = length qP) by (unfold x'; rewrite skipn_length; lia).
    rewrite mle_eqtab by congruence. f_equal.
    rewrite (suml_ext (Wires l) _ (fun w => weight (wO w) * (chi (to_bits b (wL w)) xL * chi (to_bits b (wR w)) xR *
      geval (wGate w) (mle V (xL ++ x')) (mle V (xR ++ x'))))) by (intros; ring).
    rewrite <- (weights_sum l tabs weight (fun i j g => chi (to_bits b i) xL * chi (to_bits b j) xR *
      geval g (mle V (xL ++ x')) (mle V (xR ++ x')))) by assumption.
    fold b.
    rewrite (sumn_ext (2 ^ b) _ (fun i => suml (combine (lGates l) tabs) (fun gs => sumn (2 ^ b) (fun j =>
      nth (i * 2 ^ b + j) (snd gs) 0 * (chi (to_bits b i) xL * chi (to_bits b j) xR *
      geval (fst gs) (mle V (xL ++ x')) (mle V (xR ++ x'))))))) by (intros; apply sumn_suml_swap).
    rewrite sumn_suml_swap. apply suml_ext. intros gs _.
    rewrite mle_app, LL, LR, sum_cube, <- sumn_scal_r. apply sumn_ext. intros i Hi.
    rewrite sum_cube, <- sumn_scal_r. apply sumn_ext. intros j Hj.
    rewrite !bits_val_to_bits by assumption. ring.
  Qed.

  Lemma weights_static (l : Layer F) q tabs : wf_layer l -> length q = lBGOutputs l -> GetStaticTable l q = Some tabs ->
    weights_of l tabs (fun o => chi (to_bits (lBGOutputs l) o) q).
  Proof.
    intros Hwf Hq E. destruct (static_table_spec l q Hwf Hq) as (tabs' & E' & HL & HS).
    rewrite E in E'. injection E' as <-. split; [exact HL|]. intros i a b Hi Ha Hb.
    destruct (HS i (nth i (lGates l) agate)) as (t & Et & _ & Ht); [apply nth_error_nth'; exact Hi|].
    rewrite (nth_error_nth _ _ [] Et), (Ht a b Ha Hb). apply suml_ext. intros w Hw.
    rewrite eqprod_sym, chi_eqprod by (rewrite to_bits_length; auto). reflexivity.
  Qed.

  Lemma weights_lincomb (l : Layer F) tL tR wl wr lam : weights_of l tL wl -> weights_of l tR wr ->
    (forall i, (i < length (lGates l))%nat -> length (nth i tR []) = (2 ^ lBGInputs l * 2 ^ lBGInputs l)%nat) ->
    weights_of l (map (fun i => lincomb lam (nth i tL []) (nth i tR [])) (seq 0 (length (lGates l)))) (fun o => wl o + lam * wr o).
  Proof.
    intros [L1 H1] [L2 H2] HS. split; [rewrite map_length, seq_length; reflexivity|]. intros i a b Hi Ha Hb.
    rewrite (nth_map_seq _ _ _ []) by exact Hi. unfold lincomb.
    rewrite nth_map_seq by (rewrite HS by exact Hi; apply mul_add_lt; assumption).
    rewrite H1, H2 by assumption. rewrite suml_add, suml_scal_l. ring.
  Qed.

  Lemma cube_sum_ext_len (f g : list F -> F) n k x : (forall y, length y = n -> f y = g y) -> (length x + k)%nat = n ->
    cube_sum f k x = cube_sum g k x.
  Proof. intros H Hx. exact (cube_sum_ext f g k x n H Hx). Qed.

  Section Sound.
    Variable ch : list F -> F.

    (** One layer: right final claims, wrong starting claim, hence a collision. *)
    Lemma layer_sound (l : Layer F) st weight qP V claim sp bN qP' qL' qR' tot :
      wf_layer l -> gates_once l -> weights_of l st weight ->
      (forall tab, In tab st -> length tab = (2 ^ lBGInputs l * 2 ^ lBGInputs l)%nat) ->
      length qP = bN -> length qP' = bN -> length V = (2 ^ (lBGInputs l + bN))%nat ->
      Verify ch claim sp bN (lBGInputs l) = Some (Accept qP' qL' qR' tot) ->
      EvaluateCombinator (mle V (qL' ++ qP')) (mle V (qR' ++ qP')) (eqprod qP qP') (lGates l)
        (map (fun t => mle t (qL' ++ qR')) st) = Some tot ->
      claim <> table_sum (2 ^ bN) (2 ^ lBGInputs l) (lGates l) st (eqtab qP) V V ->
      sumcheck_collision ch (layer_poly l weight qP V) (2 * lBGInputs l + bN) sp.
    Proof.
      intros Hwf Hg HW Hst LqP LqP' LV HV HC Hne. pose proof HV as HV'. apply Verify_accept in HV'.
      destruct HV' as (HA & LL & LR & E).
      assert (Lp : length sp = (2 * lBGInputs l + bN)%nat).
      { rewrite <- (map_length ch sp), E, !app_length. lia. }
      destruct HW as [HW1 HW2].
      assert (HT : tables_ok (lBGInputs l) (lBGInputs l) bN (lGates l) st (eqtab qP) V V).
      { unfold tables_ok. rewrite eqtab_length, LqP. repeat split; auto.
        intros tab Ht. rewrite Hst, Nat.pow_add_r by exact Ht. reflexivity. }
      pose proof (claims_combinator (lGates l) st (eqtab qP) V V qL' qR' qP' HW1) as HCC.
      rewrite mle_eqtab in HCC by congruence. rewrite HC, LL, LR in HCC.
      assert (Htot : tot = combinator (lBGInputs l) (lBGInputs l) (lGates l) st (eqtab qP) V V (qL' ++ qR' ++ qP')) by congruence.
      destruct (soundness ch bN (lBGInputs l) (lGates l) st (eqtab qP) V V claim sp qP' qL' qR' tot HT Lp HV Htot Hne)
        as (i & c & Hi & Hd & He).
      assert (Hext : forall t, cube_sum (combinator (lBGInputs l) (lBGInputs l) (lGates l) st (eqtab qP) V V) (2 * lBGInputs l + bN - S i)
          (map ch (firstn i sp) ++ [t]) = cube_sum (layer_poly l weight qP V) (2 * lBGInputs l + bN - S i) (map ch (firstn i sp) ++ [t])).
      { intros t. apply (cube_sum_ext_len _ _ (2 * lBGInputs l + bN)).
        - intros y Hy. apply combinator_layer_poly; auto; [split; assumption|lia].
        - assert (i < length sp)%nat by (apply nth_error_Some; congruence).
          rewrite app_length, map_length, firstn_length. cbn [length]. lia. }
      exists i, c. split; [rewrite <- Lp; apply nth_error_Some; congruence|]. split; [exact Hi|]. split.
      - destruct Hd as (t & Hd). exists t. intros E'. apply Hd. rewrite E'. symmetry. apply Hext.
      - etransitivity; [exact He|]. apply Hext.
    Qed.

    Lemma verifyLayers_inv mm (c : list (Layer F)) bN pf j qP qL qR z :
      verifyLayers ch mm c bN pf (S j) qP qL qR = Some (inr z) ->
      exists cl cr sp l qP' qL' qR' tot vl vr sts,
        nth_error (ClaimsLeft pf) (S j) = Some cl /\ nth_error (ClaimsRight pf) (S j) = Some cr /\
        nth_error (SumcheckProofs pf) j = Some sp /\ nth_error c j = Some l /\
        Verify ch (cr * ch [cl; cr] + cl) sp bN (lBGInputs l) = Some (Accept qP' qL' qR' tot) /\
        (length qP <= length qP')%nat /\
        nth_error (ClaimsLeft pf) j = Some vl /\ nth_error (ClaimsRight pf) j = Some vr /\
        evaluateStaticTablesLinCombs l qL qR qL' qR' 1 (ch [cl; cr]) = Some sts /\
        EvaluateCombinator vl vr (eqprod qP qP') (lGates l) sts = Some tot /\
        verifyLayers ch mm c bN pf j qP' qL' qR' = Some (inr z).
    Proof.
      cbn [verifyLayers]. replace (j + 1)%nat with (S j) by lia. unfold get.
      destruct (nth_error (ClaimsLeft pf) (S j)) as [cl|] eqn:E1; [|discriminate].
      destruct (nth_error (ClaimsRight pf) (S j)) as [cr|] eqn:E2; [|discriminate]. cbv zeta.
      destruct (nth_error (SumcheckProofs pf) j) as [sp|] eqn:E3; [|discriminate].
      destruct (nth_error c j) as [l|] eqn:E4; [|discriminate].
      destruct (Verify ch (cr * ch [cl; cr] + cl) sp bN (lBGInputs l)) as [[|qP' qL' qR' tot]|] eqn:E5; [discriminate| |discriminate].
      destruct (le_lt_dec (length qP) (length qP')) as [Hle|Hlt]; [|rewrite EvalEq_panics by exact Hlt; discriminate].
      rewrite EvalEq_spec by exact Hle.
      destruct (nth_error (ClaimsLeft pf) j) as [vl|] eqn:E6; [|discriminate].
      destruct (nth_error (ClaimsRight pf) j) as [vr|] eqn:E7; [|discriminate].
      destruct (evaluateStaticTablesLinCombs l qL qR qL' qR' 1 (ch [cl; cr])) as [sts|] eqn:E8; [|discriminate].
      destruct (EvaluateCombinator vl vr (eqprod qP qP') (lGates l) sts) as [ev|] eqn:E9; [|discriminate].
      destruct (tot =? ev) eqn:E10; [|discriminate]. apply feqb_eq in E10. subst ev. intros H.
      exists cl, cr, sp, l, qP', qL', qR', tot, vl, vr, sts. auto 15.
    Qed.

    Lemma verifyLayers_grow mm (c : list (Layer F)) bN pf j : forall qP qL qR zP zL zR,
      verifyLayers ch mm c bN pf j qP qL qR = Some (inr (zP, zL, zR)) -> (length qP <= length zP)%nat.
    Proof.
      induction j as [|j IH]; intros qP qL qR zP zL zR H.
      - cbn [verifyLayers] in H. injection H as <- _ _. lia.
      - apply verifyLayers_inv in H. destruct H as (cl & cr & sp & l & qP' & qL' & qR' & tot & vl & vr & sts & H).
        destruct H as (_ & _ & _ & _ & _ & Hle & _ & _ & _ & _ & Hrec). apply IH in Hrec. lia.
    Qed.

    Lemma GkrVerify_inv mm bN (c : list (Layer F)) pf inputs outputs : c <> [] -> mm = false ->
      GkrVerifyWith ch mm bN c pf inputs outputs = Some true ->
      exists l claim sp qP' qL' qR' tot vl vr sts zP zL zR al ar,
        nth_error c (length c - 1) = Some l /\
        EvaluateChunked outputs (count (lBGOutputs l) ++ count bN) = Some claim /\
        nth_error (SumcheckProofs pf) (length c - 1) = Some sp /\
        Verify ch claim sp bN (lBGInputs l) = Some (Accept qP' qL' qR' tot) /\
        (bN <= length qP')%nat /\
        nth_error (ClaimsLeft pf) (length c - 1) = Some vl /\ nth_error (ClaimsRight pf) (length c - 1) = Some vr /\
        evaluateStaticTables l (count (lBGOutputs l)) qL' qR' = Some sts /\
        EvaluateCombinator vl vr (eqprod (count bN) qP') (lGates l) sts = Some tot /\
        verifyLayers ch mm c bN pf (length c - 1) qP' qL' qR' = Some (inr (zP, zL, zR)) /\
        EvaluateMixedChunked inputs zP zL zR = Some (al, ar) /\
        nth_error (ClaimsLeft pf) 0 = Some al /\ nth_error (ClaimsRight pf) 0 = Some ar.
    Proof.
      intros Hc -> . unfold GkrVerifyWith. destruct c as [|l0 c']; [congruence|]. set (c := l0 :: c') in *.
      assert (Eg : gosub (length c) 1 = Some (length c - 1)%nat) by reflexivity. rewrite Eg. unfold get.
      destruct (nth_error c (length c - 1)) as [l|] eqn:El; [|discriminate].
      change (GetInitialQPrimeAndQ bN (lBGOutputs l)) with (count (F:=F) bN, count (F:=F) (lBGOutputs l)). cbv beta iota zeta.
      destruct (EvaluateChunked outputs _) as [claim|] eqn:E1; [|discriminate].
      destruct (nth_error (SumcheckProofs pf) (length c - 1)) as [sp|] eqn:E2; [|discriminate].
      destruct (Verify ch claim sp bN (lBGInputs l)) as [[|qP' qL' qR' tot]|] eqn:E3; [discriminate| |discriminate].
      assert (Lc : length (count (F:=F) bN) = bN) by (unfold count; rewrite map_length, seq_length; reflexivity).
      destruct (le_lt_dec (length (count (F:=F) bN)) (length qP')) as [Hle|Hlt]; [|rewrite EvalEq_panics by exact Hlt; discriminate].
      rewrite EvalEq_spec by exact Hle.
      destruct (nth_error (ClaimsLeft pf) (length c - 1)) as [vl|] eqn:E4; [|discriminate].
      destruct (nth_error (ClaimsRight pf) (length c - 1)) as [vr|] eqn:E5; [|discriminate].
      destruct (evaluateStaticTables l _ qL' qR') as [sts|] eqn:E6; [|discriminate].
      destruct (EvaluateCombinator vl vr _ (lGates l) sts) as [ev|] eqn:E7; [|discriminate].
      destruct (tot =? ev) eqn:E8; [|discriminate]. apply feqb_eq in E8. subst ev.
      destruct (verifyLayers ch false c bN pf (length c - 1) qP' qL' qR') as [[bb|[[zP zL] zR]]|] eqn:E9; [|
        |discriminate].
      - intros H. injection H as ->. exfalso. clear - E9. revert E9. generalize (length c - 1)%nat as j. intros j. revert qP' qL' qR'.
        induction j as [|j IH]; intros qP qL qR; cbn [verifyLayers]; [discriminate|].
        destruct (get _ _); [|discriminate]. destruct (get _ _); [|discriminate]. destruct (get _ _); [|discriminate]. destruct (get _ _); [|discriminate].
        cbv zeta. destruct (Verify _ _ _ _ _) as [[|]|]; try discriminate.
        destruct (EvalEq _ _); [|discriminate]. destruct (get _ _); [|discriminate]. destruct (get _ _); [|discriminate].
        destruct (evaluateStaticTablesLinCombs _ _ _ _ _ _ _); [|discriminate]. destruct (EvaluateCombinator _ _ _ _ _); [|discriminate].
        destruct (_ =? _); [apply IH|discriminate].
      - destruct (EvaluateMixedChunked inputs zP zL zR) as [[al ar]|] eqn:E10; [|discriminate].
        destruct (nth_error (ClaimsLeft pf) 0) as [vl0|] eqn:E11; [|discriminate].
        destruct (nth_error (ClaimsRight pf) 0) as [vr0|] eqn:E12; [|discriminate].
        intros H. injection H as H. apply andb_true_iff in H. destruct H as [H1 H2].
        apply feqb_eq in H1. apply feqb_eq in H2. subst vl0 vr0.
        exists l, claim, sp, qP', qL', qR', tot, vl, vr, sts, zP, zL, zR, al, ar. rewrite Lc in Hle. auto 20.
    Qed.

    Lemma mixed_long (chunks : list (list F)) k m b hP hL hR : (0 < k)%nat -> chunked k m b chunks -> length hL = b ->
      (m + k < length hP)%nat -> EvaluateMixedChunked chunks hP hL hR = None.
    Proof.
      intros Hk [L1 L2] HL Hlt. unfold EvaluateMixedChunked. rewrite L1, log2ceil_pow2.
      destruct (Nat.ltb_spec (length hP) k); [reflexivity|].
      assert (Ls : length (skipn (length hP - k) hP) = k) by (rewrite skipn_length; lia).
      destruct (chunkedEvalRecombine_ok chunks (skipn (length hP - k) hP) (2 ^ b * 2 ^ m)) as (r & -> & Lr & _).
      { rewrite Ls. apply tabs_of_In; assumption. }
      { intros E. rewrite E in Ls. cbn in Ls. lia. }
      unfold EvaluateLeftAndRight, DeepCopy. rewrite Evaluate_panics; [reflexivity|].
      rewrite Lr, app_length, firstn_length, <- Nat.pow_add_r. apply Nat.pow_lt_mono_r; lia.
    Qed.

    Lemma chal_parts (pf : Proof F) j sp b qL qR qP : nth_error (SumcheckProofs pf) j = Some sp -> length qL = b -> length qR = b ->
      map ch sp = qL ++ qR ++ qP -> ptL ch pf b j = qL /\ ptR ch pf b j = qR /\ ptP ch pf b j = qP.
    Proof.
      intros E HL HR Em. unfold ptL, ptR, ptP, chal. rewrite (nth_error_nth _ _ [] E), Em.
      split; [apply firstn_len_app; exact HL|]. split; [rewrite skipn_len_app by exact HL; apply firstn_len_app; exact HR|].
      rewrite app_assoc. apply skipn_len_app. rewrite app_length. lia.
    Qed.

    Section Circ.
      Variables m k b : nat.
      Variable c : list (Layer F).
      Variable inputs : list (list F).
      Variable a : list (list (list F)).
      Variable pf : Proof F.
      Hypothesis Hlayers : forall l, In l c -> wf_layer l /\ gates_once l.
      Hypothesis Hfits : fits b c.
      Hypothesis Hin : chunked k m b inputs.
      Hypothesis Ha : assignment_of c (2 ^ m) inputs a.

      Local Notation TV l j := (glued (lBGInputs l) m (nth j a [])).

      Lemma tv_layer j l : nth_error c j = Some l ->
        layer_table l (2 ^ (m + k)) (TV l j) (glued (lBGOutputs l) m (nth (S j) a [])) /\
        length (TV l j) = (2 ^ (lBGInputs l + (m + k)))%nat.
      Proof.
        intros Hj. destruct Hin as [Hlen Hinp].
        destruct (a_chunks 1 Nat.lt_0_1 m k c b inputs a Hfits Hinp Hlen Ha j l Hj) as [L1 L2].
        pose proof (Hlayers l (nth_error_In _ _ Hj)) as (Hwf & _).
        destruct Ha as (A1 & A2 & A3). destruct (A3 j l Hj) as [A4 A5]. split.
        - unfold glued. rewrite !Nat.pow_add_r, <- L1.
          apply glue_layer; auto; rewrite ?L1, ?A4; auto using pow_pos. rewrite <- Hlen. exact A5.
        - unfold glued. rewrite interleave_length, L1, <- Nat.pow_add_r. f_equal. lia.
      Qed.

      Lemma sound_loop zP zL zR l0 qI qPI : nth_error c 0 = Some l0 -> length zP = (m + k)%nat ->
        nth_error (ClaimsLeft pf) 0 = Some (mle (TV l0 0) (zL ++ zP)) -> nth_error (ClaimsRight pf) 0 = Some (mle (TV l0 0) (zR ++ zP)) ->
        forall j qP qL qR l, (j < length c)%nat ->
        nth_error c j = Some l -> length qP = (m + k)%nat -> length qL = lBGInputs l -> length qR = lBGInputs l ->
        qL = ptL ch pf (lBGInputs l) j -> qR = ptR ch pf (lBGInputs l) j -> qP = ptP ch pf (lBGInputs l) j ->
        verifyLayers ch false c (m + k) pf j qP qL qR = Some (inr (zP, zL, zR)) ->
        (nth j (ClaimsLeft pf) 0, nth j (ClaimsRight pf) 0) <> (mle (TV l j) (qL ++ qP), mle (TV l j) (qR ++ qP)) ->
        exists i, collision_from ch pf c m k a qI qPI i.
      Proof.
        intros Hl0 HzP HzL HzR. induction j as [|j IH]; intros qP qL qR l Hj Hl LP LL LR PL PR PP HV Hne.
        - exfalso. apply Hne. cbn [verifyLayers] in HV. injection HV as <- <- <-.
          rewrite Hl0 in Hl. injection Hl as <-. rewrite (nth_error_nth _ _ 0 HzL), (nth_error_nth _ _ 0 HzR). reflexivity.
        - pose proof (verifyLayers_inv _ _ _ _ _ _ _ _ _ HV) as
            (cl & cr & sp & l' & qP' & qL' & qR' & tot & vl & vr & sts & E1 & E2 & E3 & E4 & E5 & E6 & E7 & E8 & E9 & E10 & E11).
          rewrite (nth_error_nth _ _ 0 E1), (nth_error_nth _ _ 0 E2) in Hne.
          pose proof (fits_next c b j l' l Hfits E4 Hl) as Hbb.
          set (tl := mle (TV l (S j)) (qL ++ qP)) in *. set (tr := mle (TV l (S j)) (qR ++ qP)) in *.
          set (lam := ch [cl; cr]) in *.
          destruct (f_eq_dec (cr * lam + cl) (tr * lam + tl)) as [He|He].
          { exists (S j), l. split; [exact Hl|]. right. split; [lia|].
            rewrite (nth_error_nth _ _ 0 E1), (nth_error_nth _ _ 0 E2). unfold lambda_collision. fold lam.
            rewrite <- PL, <- PR, <- PP. fold tl tr. auto. }
          pose proof (verifyLayers_grow _ _ _ _ _ _ _ _ _ _ _ E11) as Hgrow.
          assert (LP' : length qP' = (m + k)%nat) by lia.
          pose proof E5 as HVer. apply Verify_accept in HVer. destruct HVer as (_ & LL' & LR' & Em).
          destruct (chal_parts pf j sp (lBGInputs l') qL' qR' qP' E3 LL' LR' Em) as (PL' & PR' & PP').
          destruct (f_eq_dec vl (mle (TV l' j) (qL' ++ qP'))) as [->|Hvl].
          2: { apply (IH qP' qL' qR' l'); auto; try lia. rewrite (nth_error_nth _ _ 0 E7). congruence. }
          destruct (f_eq_dec vr (mle (TV l' j) (qR' ++ qP'))) as [->|Hvr].
          2: { apply (IH qP' qL' qR' l'); auto; try lia. rewrite (nth_error_nth _ _ 0 E8). congruence. }
          exists j, l'. split; [exact E4|]. left. unfold run_poly_from.
          destruct (Nat.eqb_spec (S j) (length c)); [lia|].
          rewrite (nth_error_nth _ _ 0 E1), (nth_error_nth _ _ 0 E2), (nth_error_nth _ _ [] E3). cbv zeta. fold lam.
          rewrite <- Hbb. rewrite <- PL, <- PR, <- PP.
          destruct (Hlayers l' (nth_error_In _ _ E4)) as [Hwf Hg].
          rewrite Hbb in LL, LR.
          destruct (statics_ok l' qL Hwf LL) as (tL & EL & LtL & StL).
          destruct (statics_ok l' qR Hwf LR) as (tR & ER & LtR & StR).
          rewrite (evaluateStaticTablesLinCombs_ok l' qL qR tL tR qL' qR' lam) in E9 by assumption.
          injection E9 as <-.
          destruct (tv_layer j l' E4) as [HT LT].
          apply (layer_sound l' (map (fun i => lincomb lam (nth i tL []) (nth i tR [])) (seq 0 (length (lGates l'))))
            (fun o => chi (to_bits (lBGInputs l) o) qL + lam * chi (to_bits (lBGInputs l) o) qR)
            qP (TV l' j) (cr * lam + cl) sp (m + k) qP' qL' qR' tot); auto.
          + rewrite Hbb. apply (weights_lincomb l' tL tR (fun o => chi (to_bits (lBGOutputs l') o) qL) (fun o => chi (to_bits (lBGOutputs l') o) qR)); auto using weights_static.
          + intros tab Ht. apply in_map_iff in Ht. destruct Ht as (i & <- & Hi). apply in_seq in Hi.
            unfold lincomb. rewrite map_length, seq_length. apply StR. lia.
          + rewrite <- LP in HT |- *. rewrite (layer_sum2 l' qL qR qP tL tR _ _ lam Hwf Hg LL LR EL ER HT).
            rewrite <- Hbb. exact He.
      Qed.

      (** The layers below [j] do not change the lengths. *)
      Lemma layers_lengths l0 : nth_error c 0 = Some l0 -> forall last l qP' qL' qR' zP zL zR,
        verifyLayers ch false c (m + k) pf last qP' qL' qR' = Some (inr (zP, zL, zR)) ->
        nth_error c last = Some l -> length qL' = lBGInputs l -> length qR' = lBGInputs l ->
        length zL = lBGInputs l0 /\ length zR = lBGInputs l0.
      Proof.
        intros Hl0 last. induction last as [|j IH]; intros l qP' qL' qR' zP zL zR E10 Hlast LL' LR'.
        - cbn [verifyLayers] in E10. injection E10 as <- <- <-. rewrite Hl0 in Hlast. injection Hlast as <-. auto.
        - apply verifyLayers_inv in E10. destruct E10 as (cl & cr & sp & l' & qP2 & qL2 & qR2 & tot & vl & vr & sts & _ & _ & _ & X4 & X5 & _ & _ & _ & _ & _ & X11).
          apply Verify_accept in X5. destruct X5 as (_ & X & Y & _). eapply IH; eauto.
      Qed.

      Lemma verify_accepted outputs llast : c <> [] -> (0 < k)%nat -> nth_error c (length c - 1) = Some llast ->
        chunked k m (lBGOutputs llast) outputs ->
        GkrVerifyWith ch false (m + k) c pf inputs outputs = Some true ->
        accepted ch false c (m + k) pf (count (lBGOutputs llast)) (count (m + k)) (glued (lBGOutputs llast) m outputs) (glued b m inputs).
      Proof.
        intros Hc Hk Hlast Hout HV.
        apply GkrVerify_inv in HV; [|exact Hc|reflexivity].
        destruct HV as (l & claim & sp & qP' & qL' & qR' & tot & vl & vr & sts & zP & zL & zR & al & ar &
          E1 & E2 & E3 & E4 & E5 & E6 & E7 & E8 & E9 & E10 & E11 & E12 & E13).
        rewrite Hlast in E1. injection E1 as <-.
        assert (Lq : forall n, length (count (F:=F) n) = n) by (intros n; unfold count; rewrite map_length, seq_length; reflexivity).
        destruct Hout as [O1 O2].
        destruct (evaluate_chunked_spec F outputs (count (lBGOutputs llast) ++ count (m + k)) k (lBGOutputs llast + m) Hk O1) as [_ EC].
        { intros t Ht. rewrite Nat.pow_add_r. auto. } { rewrite app_length, !Lq. lia. }
        rewrite EC in E2.
        destruct (nth_error c 0) as [l0|] eqn:Hl0; [|apply nth_error_None in Hl0; destruct c; [congruence|cbn in Hl0; lia]].
        assert (Hb0 : lBGInputs l0 = b) by (destruct c; [discriminate|]; injection Hl0 as ->; exact (proj1 Hfits)).
        pose proof (verifyLayers_grow _ _ _ _ _ _ _ _ _ _ _ E10) as Hgrow.
        pose proof E4 as HVer. apply Verify_accept in HVer. destruct HVer as (_ & LL' & LR' & Em).
        destruct (layers_lengths l0 Hl0 _ _ _ _ _ _ _ _ E10 Hlast LL' LR') as [LzL LzR].
        rewrite Hb0 in LzL, LzR.
        assert (LzP : length zP = (m + k)%nat).
        { destruct (le_lt_dec (length zP) (m + k)) as [|Hlt]; [lia|].
          rewrite (mixed_long inputs k m b zP zL zR Hk Hin LzL Hlt) in E11. discriminate. }
        destruct Hin as [I1 I2].
        destruct (evaluate_mixed_chunked_spec F inputs zP zL zR k m b Hk I1) as [_ EM]; auto.
        { intros t Ht. rewrite Nat.pow_add_r. auto. }
        rewrite EM in E11. injection E11 as <- <-.
        exists llast, sp, qP', qL', qR', tot, vl, vr, sts, zP, zL, zR.
        assert (Ec : claim = mle (glued (lBGOutputs llast) m outputs) (count (lBGOutputs llast) ++ count (m + k))) by (unfold glued; congruence).
        rewrite <- Ec, !Lq. unfold glued at 1. rewrite interleave_length, I1, <- Nat.pow_add_r.
        repeat (split; [first [assumption|congruence|f_equal; lia]|]). assumption.
      Qed.

      (** Soundness for whole tables and any point. *)
      Lemma gkr_sound_from llast q qP out : c <> [] -> nth_error c (length c - 1) = Some llast ->
        length q = lBGOutputs llast -> length qP = (m + k)%nat ->
        accepted ch false c (m + k) pf q qP out (glued b m inputs) ->
        mle out (q ++ qP) <> mle (glued (lBGOutputs llast) m (nth (length c) a [])) (q ++ qP) ->
        exists j, collision_from ch pf c m k a q qP j.
      Proof.
        intros Hc Hlast Lq LqP (l & sp & qP' & qL' & qR' & tot & vl & vr & sts & zP & zL & zR &
          E1 & E3 & E4 & E5 & E6 & E7 & E8 & E9 & E10 & LzP & LzLR & LI & E12 & E13) Hne.
        rewrite Hlast in E1. injection E1 as <-. set (last := (length c - 1)%nat) in *.
        assert (Hlen : length c = S last) by (destruct c; [congruence|unfold last; cbn; lia]).
        destruct (Hlayers llast (nth_error_In _ _ Hlast)) as [Hwf Hg].
        destruct (nth_error c 0) as [l0|] eqn:Hl0; [|apply nth_error_None in Hl0; lia].
        assert (Hb0 : lBGInputs l0 = b) by (destruct c; [discriminate|]; injection Hl0 as ->; exact (proj1 Hfits)).
        pose proof (verifyLayers_grow _ _ _ _ _ _ _ _ _ _ _ E10) as Hgrow.
        pose proof E4 as HVer. apply Verify_accept in HVer. destruct HVer as (_ & LL' & LR' & Em).
        assert (LP' : length qP' = (m + k)%nat) by lia.
        assert (HA0 : glued b m (nth 0 a []) = glued b m inputs) by (destruct Ha as (_ & -> & _); reflexivity).
        rewrite <- HA0, <- Hb0 in E12, E13.
        destruct (chal_parts pf last sp (lBGInputs llast) qL' qR' qP' E3 LL' LR' Em) as (PL' & PR' & PP').
        destruct (f_eq_dec vl (mle (TV llast last) (qL' ++ qP'))) as [->|Hvl].
        2: { apply (sound_loop zP zL zR l0 q qP Hl0 LzP E12 E13 last qP' qL' qR' llast); auto; try lia.
             rewrite (nth_error_nth _ _ 0 E6). congruence. }
        destruct (f_eq_dec vr (mle (TV llast last) (qR' ++ qP'))) as [->|Hvr].
        2: { apply (sound_loop zP zL zR l0 q qP Hl0 LzP E12 E13 last qP' qL' qR' llast); auto; try lia.
             rewrite (nth_error_nth _ _ 0 E7). congruence. }
        exists last, llast. split; [exact Hlast|]. left. unfold run_poly_from. rewrite Hlen, Nat.eqb_refl.
        rewrite (nth_error_nth _ _ [] E3). cbv zeta.
        destruct (statics_ok llast q Hwf Lq) as (st & Est & Lst & Sst).
        rewrite (evaluateStaticTables_ok llast q st qL' qR' Hwf Lq Est LL' LR') in E8. injection E8 as <-.
        destruct (tv_layer last llast Hlast) as [HT LT].
        apply (layer_sound llast st (fun o => chi (to_bits (lBGOutputs llast) o) q) qP (TV llast last) (mle out (q ++ qP)) sp (m + k) qP' qL' qR' tot); auto using weights_static.
        - intros tab Ht. apply (In_nth _ _ []) in Ht. destruct Ht as (i & Hi & <-). apply Sst. lia.
        - rewrite <- LqP in HT |- *. rewrite (layer_sum llast q qP st _ _ Hwf Hg Lq Est HT).
          rewrite Hlen in Hne. exact Hne.
      Qed.

      Lemma gkr_sound outputs llast : c <> [] -> (0 < k)%nat -> nth_error c (length c - 1) = Some llast ->
        chunked k m (lBGOutputs llast) outputs ->
        GkrVerifyWith ch false (m + k) c pf inputs outputs = Some true ->
        output_claim (m + k) m llast outputs <> output_claim (m + k) m llast (nth (length c) a []) ->
        exists j, collision_at ch pf c m k a j.
      Proof.
        intros Hc Hk Hlast Hout HV Hne.
        assert (Lq : forall n, length (count (F:=F) n) = n) by (intros n; unfold count; rewrite map_length, seq_length; reflexivity).
        destruct (gkr_sound_from llast (count (lBGOutputs llast)) (count (m + k)) (glued (lBGOutputs llast) m outputs)) as (j & l & Hl & HC); auto.
        - apply verify_accepted; assumption.
        - exists j, l. split; [exact Hl|]. unfold run_poly. cbv zeta in *. destruct (Nat.eqb_spec (S j) (length c)) as [E|E].
          + replace (length c - 1)%nat with j in Hlast by lia. rewrite Hl in Hlast. injection Hlast as ->. exact HC.
          + unfold run_poly_from in *. rewrite (proj2 (Nat.eqb_neq _ _) E) in *. exact HC.
      Qed.
    End Circ.
  End Sound.
End L.
