(** The counting model of the GKR verifier computes what the model computes (lemmas for PCost2.v). *)
From Coq Require Import List Arith ZArith Lia Bool.
From Verif Require Import Field Go MCommon MPoly MCircuit MSumcheck MGkr MHash MCost SpecCost MCost2 SpecCost2 LCost LCost5.
Import ListNotations.

Section S.
  Context {F : Field}.
  Open Scope F_scope.

  Lemma er_mul (x y : F) : erase (wmul x y) = Some (x * y).
  Proof. reflexivity. Qed.

  Lemma er_MimcHash (Arks input : list F) : erase (WMimcHash Arks input) = MimcHash Arks input.
  Proof.
    unfold WMimcHash, MimcHash. er1. unfold WMimcUpdate, MimcUpdate. cbv zeta. apply er_bind'; [|reflexivity].
    unfold WMimcPermutation, MimcPermutation. er1. cbv zeta. er1. reflexivity.
  Qed.

  Lemma er_FoldMany (t rs : list F) : erase (WFoldMany t rs) = FoldMany t rs.
  Proof. unfold WFoldMany, FoldMany. er1. apply er_Fold. Qed.

  Lemma er_Evaluate (t x : list F) : erase (WEvaluate t x) = Evaluate t x.
  Proof. unfold WEvaluate, Evaluate. apply er_bind'; [apply er_FoldMany|]. intros a. apply er_last. Qed.

  Lemma er_LeftRight (t hP hL hR : list F) : erase (WEvaluateLeftAndRight t hP hL hR) = EvaluateLeftAndRight t hP hL hR.
  Proof.
    unfold WEvaluateLeftAndRight, EvaluateLeftAndRight. cbv zeta. apply er_bind'; [apply er_Evaluate|intros a].
    apply er_bind'; [apply er_Evaluate|reflexivity].
  Qed.

  Lemma er_TabMul (dst : list F) a x n : erase (WTabMul dst a x n) = TabMul dst a x n.
  Proof. unfold WTabMul, TabMul, over_chunk, forRange. cbv zeta. repeat er1. Qed.

  Lemma er_recombine_step st (q : F) : erase (Wrecombine_step st q) = recombine_step st q.
  Proof.
    destruct st as [inp ?]. unfold Wrecombine_step, recombine_step. cbv zeta. apply er_bind'; [|reflexivity].
    er1. repeat er1. apply er_bind'; [apply er_TabMul|]. intros d. apply er_last.
  Qed.

  Lemma er_recombine (b : list (list F)) qs : erase (WchunkedEvalRecombine b qs) = chunkedEvalRecombine b qs.
  Proof.
    unfold WchunkedEvalRecombine, chunkedEvalRecombine. destruct (negb _); [reflexivity|].
    apply er_bind'; [er1; apply er_recombine_step|]. intros st. apply er_last.
  Qed.

  Lemma er_EvaluateChunked (b : list (list F)) q : erase (WEvaluateChunked b q) = EvaluateChunked b q.
  Proof. unfold WEvaluateChunked, EvaluateChunked. cbv zeta. er1. apply er_bind'; [apply er_recombine|]. intros r. apply er_Evaluate. Qed.

  Lemma er_EvaluateMixedChunked (b : list (list F)) hP hL hR : erase (WEvaluateMixedChunked b hP hL hR) = EvaluateMixedChunked b hP hL hR.
  Proof.
    unfold WEvaluateMixedChunked, EvaluateMixedChunked. cbv zeta. destruct (_ <? _)%nat; [reflexivity|].
    apply er_bind'; [apply er_recombine|]. intros r. apply er_LeftRight.
  Qed.

  Lemma er_EvalEq (q h : list F) : erase (WEvalEq q h) = EvalEq q h.
  Proof. unfold WEvalEq, EvalEq. repeat er1. reflexivity. Qed.

  Lemma er_Combinator (vL vR eq : F) ws sts : (forall g, In g ws -> forall x y, erase (wEval g x y) = Some (geval (wbase g) x y)) ->
    erase (WEvaluateCombinator vL vR eq ws sts) = EvaluateCombinator vL vR eq (map wbase ws) sts.
  Proof.
    intros H. unfold WEvaluateCombinator, EvaluateCombinator. apply er_bind'; [|intros; apply er_mul].
    apply er_gates. intros s i g Hg. cbn [fst snd]. rewrite er_bind, (H g Hg). repeat er1.
  Qed.

  Lemma er_GetStaticTable (l : Layer F) q : erase (WGetStaticTable l q) = GetStaticTable l q.
  Proof. unfold WGetStaticTable, GetStaticTable. er1. er1. apply er_FoldMany. Qed.

  Lemma er_static (l : Layer F) q nL nR : erase (WevaluateStaticTables l q nL nR) = evaluateStaticTables l q nL nR.
  Proof. unfold WevaluateStaticTables, evaluateStaticTables. apply er_bind'; [apply er_GetStaticTable|]. intros t. er1. apply er_Evaluate. Qed.

  Lemma er_statics (l : Layer F) qL qR nL nR a b :
    erase (WevaluateStaticTablesLinCombs l qL qR nL nR a b) = evaluateStaticTablesLinCombs l qL qR nL nR a b.
  Proof.
    unfold WevaluateStaticTablesLinCombs, evaluateStaticTablesLinCombs. apply er_bind'; [apply er_GetStaticTable|]. intros tL.
    apply er_bind'; [apply er_GetStaticTable|]. intros tR. er1. er1. apply er_bind'; [apply er_Evaluate|]. intros x. er1.
    apply er_bind'; [apply er_Evaluate|]. intros y. repeat er1.
  Qed.

  Section V.
    Variables (ch : list F -> F) (wch : list F -> W F).
    Hypothesis Hch : forall m, erase (wch m) = Some (ch m).

    Lemma er_rounds : forall proof e q, erase (Wverify_rounds wch e proof q) = verify_loop ch e proof q.
    Proof.
      induction proof as [|c proof IH]; intros e q; [reflexivity|]. cbn [Wverify_rounds verify_loop].
      apply er_bind'; [apply er_EvaluatePolynomial|intros a]. apply er_bind'; [apply er_EvaluatePolynomial|intros b]. cbv zeta.
      destruct (e =? a + b); [|reflexivity]. rewrite er_bind, Hch. apply er_bind'; [apply er_EvaluatePolynomial|intros x]. apply IH.
    Qed.

    Lemma er_VerifyHashing claim proof bN bG : erase (WVerifyHashing wch claim proof bN bG) = Verify ch claim proof bN bG.
    Proof.
      unfold WVerifyHashing, Verify. apply er_bind'; [apply er_rounds|]. intros [[q e]|]; [|reflexivity]. repeat er1.
    Qed.

    Variables (c : list (Layer F)) (gates : list (list (WGate F))) (prices : list (list Price)).
    Hypothesis HP : priced_layers c gates prices.

    Lemma er_Comb_at i l vL vR eq sts : get c i = Some l ->
      erase (WEvaluateCombinator vL vR eq (nth i gates []) sts) = EvaluateCombinator vL vR eq (lGates l) sts.
    Proof.
      intros E. destruct (HP i l E) as [-> HG]. apply er_Combinator. intros g Hg x y.
      destruct (all_priced _ _ HG g Hg) as (p & P1 & _). rewrite P1. reflexivity.
    Qed.

    Lemma er_verifyLayers om bN pf : forall todo qP qL qR,
      erase (WverifyLayers wch gates om c bN pf todo qP qL qR) = verifyLayers ch om c bN pf todo qP qL qR.
    Proof.
      induction todo as [|layer IH]; intros qP qL qR; [reflexivity|]. cbn [WverifyLayers verifyLayers].
      er1. er1. cbv zeta. rewrite er_bind, Hch. er1. er1. destruct (get c layer) as [l|] eqn:El; [|reflexivity].
      apply er_bind'; [apply er_VerifyHashing|]. intros [|nP nL nR t]; [reflexivity|].
      apply er_bind'; [apply er_EvalEq|]. intros e. er1. er1. apply er_bind'; [apply er_statics|]. intros sts.
      apply er_bind'; [apply er_Comb_at; exact El|]. intros v. destruct (t =? v); [apply IH|reflexivity].
    Qed.

    Lemma er_GkrVerify om bN pf inputs outputs :
      erase (WGkrVerifyWith wch gates om bN c pf inputs outputs) = GkrVerifyWith ch om bN c pf inputs outputs.
    Proof.
      unfold WGkrVerifyWith, GkrVerifyWith. cbv zeta. er1. destruct (get c a) as [l|] eqn:El; [|reflexivity]. unfold GetInitialQPrimeAndQ. cbv zeta.
      apply er_bind'; [apply er_EvaluateChunked|]. intros claim. er1. apply er_bind'; [apply er_VerifyHashing|].
      intros [|nP nL nR t]; [reflexivity|]. apply er_bind'; [apply er_EvalEq|]. intros e. er1. er1.
      apply er_bind'; [apply er_static|]. intros sts. apply er_bind'; [apply er_Comb_at; exact El|]. intros v.
      destruct (t =? v); [|reflexivity]. apply er_bind'; [apply er_verifyLayers|]. intros [b|[[p q] r]]; [reflexivity|].
      apply er_bind'; [apply er_EvaluateMixedChunked|]. intros [x y]. repeat er1.
    Qed.
  End V.
End S.
