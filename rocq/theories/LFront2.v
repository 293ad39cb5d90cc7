(** The gadgets on expressions simulate those on wires: the gadgets of snark/. *)
From Coq Require Import List Arith Lia Bool.
From Verif Require Import Field Go MHash MGkr MSnark MFront SpecSnark SpecSize SpecFront LFront.
Import ListNotations.

Ltac up X :=
  match type of X with ext ?c ?f ?c1 ?f1 => repeat match goal with
    | H : RV c f _ _ |- _ => apply (RV_ext c f c1 f1 _ _ X) in H
    | H : each RV c f _ _ |- _ => apply (each_mono RV RV_mono c f c1 f1 _ _ X) in H
    | H : each (each RV) c f _ _ |- _ => apply (each_mono (each RV) (each_mono RV RV_mono) c f c1 f1 _ _ X) in H
    | H : each (each (each RV)) c f _ _ |- _ => apply (each_mono (each (each RV)) (each_mono (each RV) (each_mono RV RV_mono)) c f c1 f1 _ _ X) in H
    end end.
Ltac b_ t := eapply sim_bind; [t|
  let c := fresh "c" in let f := fresh "f" in let v := fresh "v" in let a := fresh "a" in let X := fresh "X" in let H := fresh "H" in
  intros c f v a X H; up X; clear X].
Ltac at_get := apply sim_lift; first [apply (each_get RV) | apply (each_get (each RV)) | apply (each_get (each (each RV)))]; eassumption.
Ltac at_slice := apply sim_lift, (each_slice RV); eassumption.
Ltac nil_ := first [eassumption | apply Forall2_nil].

Section L.
  Context {F : Field}.
  Variable fe : Frontend F.
  Hypothesis FE : faithful fe.
  Variable Arks : list F.
  Variable cs0 : CS F.

  Notation sim := (sim fe cs0).
  Ltac const := apply sim_Constant; exact FE.
  Ltac add := apply sim_Add; [exact FE|eassumption|eassumption|nil_].
  Ltac sub := apply sim_Sub; [exact FE|eassumption|eassumption].
  Ltac mul := apply sim_Mul; [exact FE|eassumption|eassumption].

  Lemma sim_UnivariateEqEval cs f q h q' h' : RV cs f q q' -> RV cs f h h' -> sim cs f (UnivariateEqEval q h) (FUnivariateEqEval fe q' h') RV.
  Proof.
    intros Q H0. unfold UnivariateEqEval, FUnivariateEqEval. b_ const. b_ sub. b_ sub. b_ const. b_ mul. b_ mul. add.
  Qed.

  Lemma sim_EqEval cs f q h q' h' : each RV cs f q q' -> each RV cs f h h' -> sim cs f (SEqEval q h) (FEqEval fe q' h') RV.
  Proof.
    intros Q H0. unfold SEqEval, FEqEval. rewrite <- (each_length _ _ _ _ _ Q). b_ const. apply sim_loop; [exact H|].
    intros c1 f1 r r' i X R. up X. clear X. b_ at_get. b_ at_get. b_ ltac:(apply sim_UnivariateEqEval; eassumption). mul.
  Qed.

  Lemma sim_Fold cs f t t' x x' : each RV cs f t t' -> RV cs f x x' -> sim cs f (SFold t x) (FFold fe t' x') (each RV).
  Proof.
    intros T H0. unfold SFold, FFold. rewrite <- (each_length _ _ _ _ _ T). eapply sim_bind; [|intros c1 f1 a b X H; at_slice].
    apply sim_loop; [exact T|]. intros c1 f1 r r' i X R. up X. clear X. b_ at_get. b_ at_get. b_ sub. b_ mul. b_ at_get. b_ add.
    apply sim_lift, (each_set RV); eassumption.
  Qed.

  Lemma sim_Eval cs f t t' xs xs' : each RV cs f t t' -> each RV cs f xs xs' -> sim cs f (SEval t xs) (FEval fe t' xs') RV.
  Proof.
    intros T H0. unfold SEval, FEval. b_ ltac:(apply (sim_fold fe cs0 (each RV) RV); [apply RV_mono|exact T|exact H0|]).
    - intros c1 f1 a b c d X HI HE. apply sim_Fold; assumption.
    - at_get.
  Qed.

  Lemma sim_EvalMixed cs f t t' qL qL' qR qR' qP qP' : each RV cs f t t' -> each RV cs f qL qL' -> each RV cs f qR qR' -> each RV cs f qP qP' ->
    sim cs f (SEvalMixed t qL qR qP) (FEvalMixed fe t' qL' qR' qP') (both RV RV).
  Proof.
    intros T HL HR HP. unfold SEvalMixed, FEvalMixed. rewrite <- (each_length _ _ _ _ _ T), <- (each_length _ _ _ _ _ HL).
    eapply sim_bind; [apply (sim_lift _ _ _ _ _ _ (fun _ _ a b => a = b)); destruct (godiv _ _); [reflexivity|exact I]|].
    intros c1 f1 n n' X <-. up X. clear X. b_ ltac:(apply (sim_map fe cs0 RV); [apply RV_mono|]).
    - intros c2 f2 i X. up X. clear X. b_ at_slice. apply sim_Eval; assumption.
    - b_ ltac:(apply sim_Eval; eassumption). b_ ltac:(apply sim_Eval; eassumption). apply sim_ret. split; assumption.
  Qed.

  Lemma sim_UniEval cs f p p' x x' : each RV cs f p p' -> RV cs f x x' -> sim cs f (SUniEval p x) (FUniEval fe p' x') RV.
  Proof.
    intros P H0. unfold SUniEval, FUniEval. rewrite <- (each_length _ _ _ _ _ P). b_ const. b_ const.
    b_ ltac:(apply (sim_loop fe cs0 (both RV RV)); [split; eassumption|]).
    - intros c2 f2 [r u] [r' u'] i X [R U]. cbn in R, U. up X. clear X. cbn beta iota.
      b_ ltac:(instantiate (1 := RV); match goal with |- context[(?x =? ?y)%nat] => destruct (x =? y)%nat; [apply sim_ret; eassumption|mul] end).
      b_ at_get. b_ add. apply sim_ret. split; eassumption.
    - destruct v1 as [r u], a1 as [r' u']. match goal with H : both _ _ _ _ _ _ |- _ => destruct H as [R U] end. cbn in R, U.
      b_ const. mul.
  Qed.

  Lemma sim_ZeroAndOne cs f p p' : each RV cs f p p' -> sim cs f (SZeroAndOne p) (FZeroAndOne fe p') RV.
  Proof. intros P. unfold SZeroAndOne, FZeroAndOne. rewrite <- (each_length _ _ _ _ _ P). b_ at_get. b_ at_slice. add. Qed.

  Lemma sim_MimcRound cs f m m' s s' i : RV cs f m m' -> RV cs f s s' -> sim cs f (SMimcRound Arks m s i) (FMimcRound fe Arks m' s' i) RV.
  Proof.
    intros M0 S0. unfold SMimcRound, FMimcRound. eapply sim_bind; [apply (sim_lift _ _ _ _ _ _ (fun _ _ a b => a = b)); destruct (get Arks i); [reflexivity|exact I]|].
    intros c1 f1 n n' X <-. up X. clear X. b_ const.
    b_ ltac:(apply sim_Add; [exact FE|eassumption|eassumption|constructor; [eassumption|constructor]]). b_ mul. b_ mul. b_ mul. mul.
  Qed.

  Lemma sim_MimcHash cs f l l' : each RV cs f l l' -> sim cs f (SMimcHash Arks l) (FMimcHash fe Arks l') RV.
  Proof.
    intros P. unfold SMimcHash, FMimcHash. b_ const. apply (sim_fold fe cs0 RV RV); [apply RV_mono|assumption|assumption|].
    intros c1 f1 s s' m m' X S0 M0. b_ ltac:(apply (sim_loop fe cs0 RV); [exact S0|]).
    - intros c2 f2 x y i X2 A. up X2. apply sim_MimcRound; assumption.
    - apply sim_Add; [exact FE|eassumption|eassumption|constructor; [eassumption|constructor]].
  Qed.

  Definition RS : CS F -> list nat -> list nat * list nat * list nat * nat -> list lc * list lc * list lc * lc -> Prop :=
    both (both (both (each RV) (each RV)) (each RV)) RV.

  Lemma sim_SumcheckAssertValid cs f ps ps' cl cl' bG : each (each RV) cs f ps ps' -> RV cs f cl cl' ->
    sim cs f (SSumcheckAssertValid Arks ps cl bG) (FSumcheckAssertValid fe Arks ps' cl' bG) RS.
  Proof.
    intros P C. unfold SSumcheckAssertValid, FSumcheckAssertValid.
    b_ ltac:(apply (sim_fold fe cs0 (both (each RV) RV) (each RV)); [apply each_mono, RV_mono|split; [constructor|exact C]|exact P|]).
    - intros c1 f1 [hs c] [hs' c'] p p' X [H1 H2] H3. cbn in H1, H2. b_ ltac:(apply sim_ZeroAndOne; eassumption).
      eapply sim_bind; [apply sim_AssertIsEqual; eassumption|]. intros z3 y3 [] [] X3 _. up X3. clear X3.
      b_ ltac:(apply sim_MimcHash; eassumption). b_ ltac:(apply sim_UniEval; eassumption). apply sim_ret. split; [|assumption].
      apply each_app; [assumption|constructor; [assumption|constructor]].
    - destruct v as [hs u], a as [hs' u']. destruct H as [H1 H2]. cbn in H1, H2. rewrite <- (each_length _ _ _ _ _ H1).
      b_ at_slice. b_ at_slice. b_ at_slice. apply sim_ret. split; [split; [split|]|]; assumption.
  Qed.

  (** related gates, table generators and layers *)
  Definition RGate (g : SGate) (g' : FGate) : Prop := forall cs f a b a' b', RV cs f a a' -> RV cs f b b' -> sim cs f (g a b) (g' a' b') RV.
  Definition RTable (g : StaticTableGenerator) (g' : FTableGenerator) : Prop := forall cs f q q', each RV cs f q q' -> sim cs f (g q) (g' q') (each RV).
  Definition RLayer (l : SLayer F) (l' : FLayer F) : Prop :=
    sBG l = fBG l' /\ Forall2 RGate (sGates l) (fGates l') /\ Forall2 RTable (sTables l) (fTables l').

  Lemma sim_CipherGate ark : RGate (SCipherGate ark) (FCipherGate fe ark).
  Proof. intros cs f a b a' b' A B. unfold SCipherGate, FCipherGate. b_ const. b_ add. b_ mul. b_ mul. b_ mul. b_ mul. add. Qed.
  Lemma sim_CopyGate : RGate SCopyGate FCopyGate.
  Proof. intros cs f a b a' b' A B. apply sim_ret. exact A. Qed.

  Ltac four := apply sim_ret; repeat (constructor; [eassumption|]); constructor.
  Lemma sim_CopyTable : RTable GetCopyTable (FGetCopyTable fe).
  Proof. intros cs f q q' Q. unfold GetCopyTable, FGetCopyTable. b_ const. b_ const. b_ at_get. b_ const. four. Qed.
  Lemma sim_CipherTable : RTable GetCipherTable (FGetCipherTable fe).
  Proof.
    intros cs f q q' Q. unfold GetCipherTable, FGetCipherTable. b_ const. b_ const. b_ at_get.
    b_ ltac:(apply sim_SubConst; [exact FE|eassumption]). b_ const. four.
  Qed.
  Lemma sim_FinalCipherTable : RTable GetFinalCipherTable (FGetFinalCipherTable fe).
  Proof. intros cs f q q' Q. unfold GetFinalCipherTable, FGetFinalCipherTable. b_ const. b_ const. b_ const. b_ const. four. Qed.

  Lemma same_get {A B} (R : A -> B -> Prop) cs f l l' i : Forall2 R l l' -> sim cs f (lift (get l i)) (lift (get l' i)) (fun _ _ a b => R a b).
  Proof. intros H. apply sim_lift. apply (each_get (fun _ _ => R) cs f). exact H. Qed.
  Ltac layer_get H := eapply sim_bind; [apply (same_get _ _ _ _ _ _ H)|];
    let c := fresh "c" in let f := fresh "f" in let v := fresh "g" in let a := fresh "g'" in let X := fresh "X" in let H := fresh "G" in
    intros c f v a X H; up X; clear X.

  Lemma sim_Combine cs f l l' q q' qP qP' hL hL' hR hR' hP hP' vL vL' vR vR' : RLayer l l' ->
    each RV cs f q q' -> each RV cs f qP qP' -> each RV cs f hL hL' -> each RV cs f hR hR' -> each RV cs f hP hP' -> RV cs f vL vL' -> RV cs f vR vR' ->
    sim cs f (SCombine l q qP hL hR hP vL vR) (FCombine fe l' q' qP' hL' hR' hP' vL' vR') RV.
  Proof.
    intros (LB & LG & LT) Q QP HL HR HP VL VR. unfold SCombine, FCombine. rewrite <- (each_length (fun _ _ => RGate) cs f _ _ LG). b_ const.
    assert (HLR := each_app RV _ _ _ _ _ _ HL HR).
    b_ ltac:(apply (sim_loop fe cs0 RV); [eassumption|]).
    - intros c1 f1 r r' i X R. up X. clear X. layer_get LT. b_ ltac:(apply G; eassumption). b_ ltac:(apply sim_Eval; eassumption).
      layer_get LG. b_ ltac:(apply G0; eassumption). b_ mul. add.
    - b_ ltac:(apply sim_EqEval; eassumption). mul.
  Qed.

  Lemma sim_CombineWithLinearComb cs f l l' qL qL' qR qR' qP qP' hL hL' hR hR' hP hP' lL lL' lR lR' vL vL' vR vR' : RLayer l l' ->
    each RV cs f qL qL' -> each RV cs f qR qR' -> each RV cs f qP qP' -> each RV cs f hL hL' -> each RV cs f hR hR' -> each RV cs f hP hP' ->
    RV cs f lL lL' -> RV cs f lR lR' -> RV cs f vL vL' -> RV cs f vR vR' ->
    sim cs f (SCombineWithLinearComb l qL qR qP hL hR hP lL lR vL vR) (FCombineWithLinearComb fe l' qL' qR' qP' hL' hR' hP' lL' lR' vL' vR') RV.
  Proof.
    intros (LB & LG & LT) QL QR QP HL HR HP LL LR VL VR. unfold SCombineWithLinearComb, FCombineWithLinearComb.
    rewrite <- (each_length (fun _ _ => RGate) cs f _ _ LG). b_ const.
    assert (HLR := each_app RV _ _ _ _ _ _ HL HR).
    b_ ltac:(apply (sim_loop fe cs0 RV); [eassumption|]).
    - intros c1 f1 r r' i X R. up X. clear X. layer_get LT. b_ ltac:(apply G; exact QL). b_ ltac:(apply G; exact QR).
      b_ ltac:(apply sim_Eval; [exact H0|exact HLR]). b_ ltac:(apply sim_Mul; [exact FE|exact LL|exact H2]).
      b_ ltac:(apply sim_Eval; [exact H1|exact HLR]). b_ ltac:(apply sim_Mul; [exact FE|exact LR|exact H4]).
      b_ ltac:(apply sim_Add; [exact FE|exact H3|exact H5|constructor]).
      layer_get LG. b_ ltac:(apply G0; eassumption). b_ ltac:(apply sim_Mul; [exact FE|exact H6|exact H7]). add.
    - b_ ltac:(apply sim_EqEval; eassumption). mul.
  Qed.

  Definition RP : CS F -> list nat -> SProof nat -> SProof (lc (F:=F)) -> Prop := fun cs f p p' =>
    each (each (each RV)) cs f (sSumchecks p) (sSumchecks p') /\ each RV cs f (sLeft p) (sLeft p') /\ each RV cs f (sRight p) (sRight p').

  Definition R3 : CS F -> list nat -> list nat * list nat * list nat -> list lc * list lc * list lc -> Prop :=
    both (both (each RV) (each RV)) (each RV).

  Lemma sim_AssertLayer cs f c c' p p' st st' layer : Forall2 RLayer c c' -> RP cs f p p' -> R3 cs f st st' ->
    sim cs f (SAssertLayer Arks c p st layer) (FAssertLayer fe Arks c' p' st' layer) R3.
  Proof.
    intros C (P1 & P2 & P3) S0. destruct st as [[hL hR] hP], st' as [[hL' hR'] hP']. destruct S0 as [[SL SR] SP]. cbn in SL, SR, SP.
    unfold SAssertLayer, FAssertLayer. b_ const. b_ ltac:(apply sim_lift, (each_get RV); exact P2). b_ ltac:(apply sim_lift, (each_get RV); exact P3).
    b_ ltac:(apply sim_MimcHash; constructor; [eassumption|constructor; [eassumption|constructor]]).
    b_ ltac:(apply sim_Mul; [exact FE|exact H2|exact H1]). b_ ltac:(apply sim_Add; [exact FE|exact H0|exact H3|constructor]).
    b_ ltac:(apply sim_lift, (each_get (each (each RV))); exact P1). layer_get C. rewrite <- (proj1 G).
    b_ ltac:(apply sim_SumcheckAssertValid; [exact H5|exact H4]). destruct v6 as [[[h1 h2] h3] e], a6 as [[[h1' h2'] h3'] e'].
    destruct H6 as [[[E1 E2] E3] E4]. cbn in E1, E2, E3, E4.
    b_ ltac:(apply sim_lift, (each_get RV); exact P2). b_ ltac:(apply sim_lift, (each_get RV); exact P3).
    b_ ltac:(apply sim_CombineWithLinearComb; [exact G|exact SL|exact SR|exact SP|exact E1|exact E2|exact E3|exact H|exact H2|exact H6|exact H7]).
    eapply sim_bind; [apply sim_AssertIsEqual; [exact E4|exact H8]|]. intros z3 y3 [] [] X3 _. up X3. clear X3.
    apply sim_ret. split; [split|]; assumption.
  Qed.

  Lemma sim_GkrAssertValid cs f c c' p p' q q' qP qP' vi vi' vo vo' : Forall2 RLayer c c' -> RP cs f p p' ->
    each RV cs f q q' -> each RV cs f qP qP' -> each RV cs f vi vi' -> each RV cs f vo vo' ->
    sim cs f (SGkrAssertValid Arks p c q qP vi vo) (FGkrAssertValid fe Arks p' c' q' qP' vi' vo') (fun _ _ _ _ => True).
  Proof.
    intros C (P1 & P2 & P3) Q QP VI VO. unfold SGkrAssertValid, FGkrAssertValid.
    b_ ltac:(apply sim_Eval; [exact VO|apply each_app; [exact Q|exact QP]]). b_ ltac:(apply sim_lift, (each_get (each (each RV))); exact P1).
    layer_get C. rewrite <- (proj1 G). b_ ltac:(apply sim_SumcheckAssertValid; [exact H0|exact H]).
    destruct v1 as [[[h1 h2] h3] e], a1 as [[[h1' h2'] h3'] e']. destruct H1 as [[[E1 E2] E3] E4]. cbn in E1, E2, E3, E4.
    b_ ltac:(apply sim_lift, (each_get RV); exact P2). b_ ltac:(apply sim_lift, (each_get RV); exact P3).
    b_ ltac:(apply sim_Combine; [exact G|exact Q|exact QP|exact E1|exact E2|exact E3|exact H1|exact H2]).
    eapply sim_bind; [apply sim_AssertIsEqual; [exact E4|exact H3]|]. intros z3 y3 [] [] X3 _. up X3. clear X3.
    b_ ltac:(apply (sim_loop fe cs0 R3); [split; [split; [exact E1|exact E2]|exact E3]|]).
    - intros z4 y4 st st' i X R. up X. clear X. apply sim_AssertLayer; [exact C|split; [|split]; assumption|exact R].
    - destruct v4 as [[k1 k2] k3], a4 as [[k1' k2'] k3']. destruct H4 as [[K1 K2] K3]. cbn in K1, K2, K3.
      b_ ltac:(apply sim_lift, (each_get RV); exact P2). b_ ltac:(apply sim_lift, (each_get RV); exact P3).
      b_ ltac:(apply sim_EvalMixed; [exact VI|exact K1|exact K2|exact K3]). destruct v6 as [x y], a6 as [x' y']. destruct H6 as [X1 X2]. cbn in X1, X2.
      eapply sim_bind; [apply sim_AssertIsEqual; [exact X1|exact H4]|]. intros z5 y5 [] [] X3 _. up X3. clear X3.
      apply sim_AssertIsEqual; assumption.
  Qed.

  Lemma related_mapM {I A B} (R : A -> B -> Prop) (g : I -> option A) (h : I -> option B) l :
    (forall i, match g i, h i with Some a, Some b => R a b | None, None => True | _, _ => False end) ->
    match mapM g l, mapM h l with Some a, Some b => Forall2 R a b | None, None => True | _, _ => False end.
  Proof.
    intros H. induction l as [|i l IH]; cbn [mapM]; [constructor|]. specialize (H i).
    destruct (g i), (h i); try contradiction; [|exact Logic.I]. destruct (mapM g l), (mapM h l); try contradiction; [|exact Logic.I].
    constructor; assumption.
  Qed.

  Lemma related_mimc : match SCreateMimcCircuit Arks, FCreateMimcCircuit fe Arks with
    | Some sc, Some fc => Forall2 RLayer sc fc | None, None => True | _, _ => False end.
  Proof.
    unfold SCreateMimcCircuit, FCreateMimcCircuit.
    match goal with |- context[mapM ?g ?l] => assert (H := fun h => related_mapM RLayer g h l) end.
    match goal with |- context[mapM ?g ?l] => match g with context[MkFLayer] => specialize (H g) end end.
    match type of H with ?P -> _ => assert (K : P) end.
    { intros i. destruct (get Arks i) as [ark|]; [|exact I]. split; [reflexivity|]. split; (constructor; [|constructor; [|constructor]]);
        first [apply sim_CipherGate | apply sim_CopyGate | apply sim_CipherTable | apply sim_CopyTable]. }
    specialize (H K). clear K. revert H. match goal with |- context[mapM ?g ?l] => destruct (mapM g l) as [sc|] end;
      match goal with |- context[mapM ?g ?l] => destruct (mapM g l) as [fc|] end; intros H; try contradiction; [|exact I].
    destruct (get Arks (MimcRounds - 1)) as [ark|]; [|exact I].
    apply Forall2_app; [exact H|]. constructor; [|constructor]. split; [reflexivity|].
    split; (constructor; [|constructor]); first [apply sim_CipherGate | apply sim_FinalCipherTable].
  Qed.
End L.
