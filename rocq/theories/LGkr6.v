(** Which outputs are accepted with a given proof: those with the claim of the proof. *)
From Coq Require Import List Arith Lia Bool.
From Verif Require Import Field Go MCommon Spec LSpec MPoly LPoly LPoly3 MCircuit SpecCircuit MSumcheck SpecSumcheck
  MSumPar SpecSumPar MGkr SpecGkr LGkr4.
Import ListNotations.

Section L.
  Context {F : Field}.
  Add Field FfieldGkr6 : (f_theory F).
  Open Scope F_scope.
  Variable ch : list F -> F.

  (** The claim is determined by what an accepting run of the sum-check verifier returns. *)
  Lemma verify_claim claim claim' sp bN bG a b c t a' b' c' t' :
    Verify ch claim sp bN bG = Some (Accept a b c t) -> Verify ch claim' sp bN bG = Some (Accept a' b' c' t') ->
    (claim = claim' \/ (a = a' /\ b = b' /\ c = c' /\ t = claim /\ t' = claim')).
  Proof.
    unfold Verify. destruct sp as [|p sp]; cbn [verify_loop].
    - cbn [length]. destruct (slice [] 0 bG) as [qL|]; [|discriminate]. cbn beta iota.
      destruct (slice [] bG (2 * bG)) as [qR|]; [|discriminate].
      destruct (slice [] (2 * bG) 0) as [qP|]; [|discriminate].
      intros E E'. injection E as <- <- <- <-. injection E' as <- <- <- <-. right. auto.
    - destruct (EvaluatePolynomial p 0) as [v0|]; [|discriminate]. destruct (EvaluatePolynomial p 1) as [v1|]; [|discriminate].
      cbn beta iota zeta.
      destruct (claim =? v0 + v1) eqn:E1; [|discriminate]. destruct (claim' =? v0 + v1) eqn:E2; [|discriminate].
      intros _ _. left. apply feqb_eq in E1. apply feqb_eq in E2. congruence.
  Qed.

  Lemma outputs_exact mm m k (c : list (Layer F)) l pf inputs outs outs' : (0 < k)%nat ->
    nth_error c (length c - 1) = Some l -> chunked k m (lBGOutputs l) outs -> chunked k m (lBGOutputs l) outs' ->
    GkrVerifyWith ch mm (m + k) c pf inputs outs = Some true ->
    (GkrVerifyWith ch mm (m + k) c pf inputs outs' = Some true <->
     output_claim (m + k) m l outs' = output_claim (m + k) m l outs).
  Proof.
    intros Hk Hl [O1 O2] [O1' O2'] H. revert H. unfold GkrVerifyWith.
    destruct (gosub (length c) 1) as [last|] eqn:Eg; [|discriminate].
    assert (last = (length c - 1)%nat) as -> by (unfold gosub in Eg; destruct (1 <=? length c)%nat; congruence).
    assert (Egc : get c (length c - 1) = Some l) by exact Hl. rewrite Egc.
    change (GetInitialQPrimeAndQ (m + k) (lBGOutputs l)) with (count (F:=F) (m + k), count (F:=F) (lBGOutputs l)). cbv beta iota zeta.
    destruct (evaluate_chunked_spec F outs (count (lBGOutputs l) ++ count (m + k)) k (lBGOutputs l + m) Hk O1) as [_ EC].
    { intros t Ht. rewrite Nat.pow_add_r. auto. } { rewrite app_length, !count_length. lia. }
    destruct (evaluate_chunked_spec F outs' (count (lBGOutputs l) ++ count (m + k)) k (lBGOutputs l + m) Hk O1') as [_ EC'].
    { intros t Ht. rewrite Nat.pow_add_r. auto. } { rewrite app_length, !count_length. lia. }
    rewrite EC, EC'. fold (glued (lBGOutputs l) m outs) (glued (lBGOutputs l) m outs').
    fold (output_claim (m + k) m l outs) (output_claim (m + k) m l outs').
    destruct (get (SumcheckProofs pf) (length c - 1)) as [sp|]; [|discriminate].
    set (x := output_claim (m + k) m l outs). set (x' := output_claim (m + k) m l outs').
    intros H. split.
    - intros H'. revert H H'.
      destruct (Verify ch x sp (m + k) (lBGInputs l)) as [[|a b cc t]|] eqn:E1; try discriminate.
      destruct (Verify ch x' sp (m + k) (lBGInputs l)) as [[|a' b' cc' t']|] eqn:E2; try discriminate.
      destruct (verify_claim _ _ _ _ _ _ _ _ _ _ _ _ _ E1 E2) as [<-|(<- & <- & <- & -> & ->)]; [reflexivity|].
      destruct (EvalEq (count (m + k)) a) as [e|]; [|discriminate].
      destruct (get (ClaimsLeft pf) (length c - 1)) as [vl|]; [|discriminate].
      destruct (get (ClaimsRight pf) (length c - 1)) as [vr|]; [|discriminate].
      destruct (evaluateStaticTables l (count (lBGOutputs l)) b cc) as [sts|]; [|discriminate].
      destruct (EvaluateCombinator vl vr e (lGates l) sts) as [ev|]; [|discriminate].
      destruct (x =? ev) eqn:F1; [|discriminate]. destruct (x' =? ev) eqn:F2; [|discriminate].
      apply feqb_eq in F1. apply feqb_eq in F2. congruence.
    - intros ->. exact H.
  Qed.
End L.
