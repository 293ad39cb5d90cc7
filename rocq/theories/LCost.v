(** The counting model computes what the model computes (lemmas for PCost.v). *)
From Coq Require Import List Arith ZArith Lia Bool.
From Verif Require Import Field Go MCommon MPoly MCircuit MSumcheck MCost SpecCost.
Import ListNotations.

Lemma er_bind {A B} (m : W A) (f : A -> W B) : erase (bindW m f) = match erase m with Some a => erase (f a) | None => None end.
Proof. destruct m as [[a n]|]; cbn; [|reflexivity]. destruct (f a) as [[b k]|]; reflexivity. Qed.

Lemma er_bind' {A B} (m : W A) o (f : A -> W B) k : erase m = o -> (forall a, erase (f a) = k a) ->
  erase (bindW m f) = match o with Some a => k a | None => None end.
Proof. intros <- H. rewrite er_bind. destruct (erase m); [apply H|reflexivity]. Qed.

Lemma er_opt {A B} (o : option A) (f : A -> W B) k : (forall a, erase (f a) = k a) ->
  erase (match o with Some a => f a | None => None end) = match o with Some a => k a | None => None end.
Proof. intros H. destruct o; [apply H|reflexivity]. Qed.

Lemma er_last {A} (o : option A) : erase (match o with Some a => ret a | None => None end) = o.
Proof. destruct o; reflexivity. Qed.

Lemma er_tail {A} (m : W A) o : erase m = o -> erase (bindW m ret) = o.
Proof. intros <-. rewrite er_bind. destruct (erase m); reflexivity. Qed.

Lemma er_fold {A S} (f : S -> A -> W S) g : (forall s a, erase (f s a) = g s a) -> forall l s, erase (foldW f l s) = foldM g l s.
Proof.
  intros H. induction l as [|a l IH]; intros s; [reflexivity|]. cbn [foldW foldM].
  rewrite er_bind, H. destruct (g s a); [apply IH|reflexivity].
Qed.

Lemma er_for {S} (f : S -> nat -> W S) g n s : (forall s a, erase (f s a) = g s a) -> erase (forW n f s) = forN n g s.
Proof. intros H. apply er_fold. exact H. Qed.

Lemma er_map {A B} (f : A -> W B) g : (forall a, erase (f a) = g a) -> forall l, erase (mapW f l) = mapM g l.
Proof.
  intros H. induction l as [|a l IH]; [reflexivity|]. cbn [mapW mapM]. rewrite er_bind, H.
  destruct (g a); [|reflexivity]. rewrite er_bind, IH. destruct (mapM g l); reflexivity.
Qed.

Lemma combine_map {A B C} (f : B -> C) (l : list A) : forall m, combine l (map f m) = map (fun x => (fst x, f (snd x))) (combine l m).
Proof. induction l as [|a l IH]; intros [|b m]; cbn; [reflexivity..|]. f_equal. apply IH. Qed.

Lemma foldM_map {A B S} (f : A -> B) (g : S -> B -> option S) : forall l s, foldM g (map f l) s = foldM (fun s a => g s (f a)) l s.
Proof. induction l as [|a l IH]; intros s; [reflexivity|]. cbn. destruct (g s (f a)); [apply IH|reflexivity]. Qed.

Lemma er_gates {G H S} (base : G -> H) (f : S -> nat * G -> W S) (g : S -> nat * H -> option S) gs s :
  (forall s i x, In x gs -> erase (f s (i, x)) = g s (i, base x)) ->
  erase (foldW f (combine (seq 0 (length gs)) gs) s) = foldM g (combine (seq 0 (length (map base gs))) (map base gs)) s.
Proof.
  intros E. rewrite map_length, combine_map, foldM_map.
  assert (Hin : forall i x, In (i, x) (combine (seq 0 (length gs)) gs) -> In x gs) by (intros i x; apply in_combine_r).
  revert Hin. generalize (combine (seq 0 (length gs)) gs). intros l. revert s. induction l as [|[i x] l IH]; intros s Hin; [reflexivity|].
  cbn [foldW foldM]. rewrite er_bind, E by (apply (Hin i); left; reflexivity). cbn [fst snd].
  destruct (g s (i, base x)); [|reflexivity]. apply IH. intros j y Hy. apply (Hin j). right. exact Hy.
Qed.

Ltac er1 := match goal with
  | |- erase (match ?o with Some a => ret a | None => None end) = ?o => apply er_last
  | |- erase (match ?o with Some _ => _ | None => None end) = match ?o with Some _ => _ | None => None end => apply er_opt; intros
  | |- erase (bindW (wmul _ _) _) = _ => rewrite er_bind; cbn [erase wmul]
  | |- erase (ret _) = Some _ => reflexivity
  | |- erase (forW _ _ _) = forN _ _ _ => apply er_for; intros
  | |- erase (foldW _ _ _) = foldM _ _ _ => apply er_fold; intros
  | |- erase (mapW _ _) = mapM _ _ => apply er_map; intros
  end.

Section S.
  Context {F : Field}.
  Open Scope F_scope.

  (* ---------------------------------------------------------------- polynomials *)
  Lemma er_Fold (t : list F) r : erase (WFold t r) = Fold t r.
  Proof.
    unfold WFold, Fold, FoldArray. cbv zeta. apply er_bind'.
    - apply er_for. intros s i. unfold fold_body. repeat er1.
    - intros a. apply er_last.
  Qed.

  Lemma er_EvaluatePolynomial (c : list F) x : erase (WEvaluatePolynomial c x) = EvaluatePolynomial c x.
  Proof. unfold WEvaluatePolynomial, EvaluatePolynomial. repeat er1. Qed.

  Lemma er_InterpolateOnRange (v : list F) : erase (WInterpolateOnRange v) = InterpolateOnRange v.
  Proof. unfold WInterpolateOnRange, InterpolateOnRange. cbv zeta. repeat er1. Qed.

  (* ---------------------------------------------------------------- evaluations *)
  Lemma er_combineSplit nE (sp ev : list (list (list F))) : erase (WcombineSplit nE sp ev) = combineSplit nE sp ev.
  Proof. unfold WcombineSplit, combineSplit. repeat er1. Qed.

  Lemma er_addScaled (sp : list (list (list F))) i h vS eq : erase (WaddScaled sp i h vS eq) = addScaled sp i h vS eq.
  Proof. unfold WaddScaled, addScaled. cbv zeta. repeat er1. Qed.

  Section Prover.
    Variable gs : list (WGate F).
    Hypothesis HL : forall g, In g gs -> forall res vs x, erase (wManyVL g res vs x) = gmanyVL (wbase g) res vs x.
    Hypothesis HR : forall g, In g gs -> forall res x vs, erase (wManyVR g res x vs) = gmanyVR (wbase g) res x vs.
    Hypothesis HE : forall g, In g gs -> forall x y, erase (wEval g x y) = Some (geval (wbase g) x y).

    Lemma er_HL p : sGates p = map wbase gs -> erase (WGetEvalsOnHL gs p) = GetEvalsOnHL p.
    Proof.
      intros Hg. unfold WGetEvalsOnHL, GetEvalsOnHL. cbv zeta. repeat er1.
      unfold WaccumulateEvalsOnHL, accumulateEvalsOnHL. cbv zeta. repeat er1. rewrite Hg.
      apply er_bind'; [|intros [[sp ?] ?]; apply er_combineSplit]. repeat er1. destruct s0 as [[sp e] vS]. repeat er1.
      destruct s0 as [[sp' e'] vS']. repeat er1. apply er_gates. intros [[sp1 e1] v1] i x Hx. cbn [fst snd]. repeat er1.
      match goal with |- erase (if ?b then _ else _) = _ => destruct b end; [|reflexivity].
      apply er_bind'; [apply HL, Hx|intros ?]. apply er_bind'; [apply er_addScaled|reflexivity].
    Qed.

    Lemma er_HR p : sGates p = map wbase gs -> erase (WGetEvalsOnHR gs p) = GetEvalsOnHR p.
    Proof.
      intros Hg. unfold WGetEvalsOnHR, GetEvalsOnHR. cbv zeta. repeat er1.
      unfold WaccumulateEvalsOnHR, accumulateEvalsOnHR. cbv zeta. repeat er1. rewrite Hg.
      apply er_bind'; [|intros [[sp ?] ?]; apply er_combineSplit]. repeat er1. destruct s0 as [[sp e] vS]. repeat er1.
      apply er_gates. intros [[sp1 e1] v1] i x Hx. cbn [fst snd]. repeat er1.
      match goal with |- erase (if ?b then _ else _) = _ => destruct b end; [|reflexivity].
      apply er_bind'; [apply HR, Hx|intros ?]. apply er_bind'; [apply er_addScaled|reflexivity].
    Qed.

    Lemma er_HPrime p : sGates p = map wbase gs -> erase (WGetEvalsOnHPrime gs p) = GetEvalsOnHPrime p.
    Proof.
      intros Hg. unfold WGetEvalsOnHPrime, GetEvalsOnHPrime. cbv zeta. repeat er1.
      unfold WaccumulateEvalsOnHPrime, accumulateEvalsOnHPrime. cbv zeta. rewrite Hg.
      apply er_bind'; [|intros [[[sp ?] ?] ?]; repeat er1]. apply er_for. intros [[[sp bL] bR] bE] h. repeat er1.
      apply er_bind'; [|reflexivity]. apply er_gates. intros s i x Hx. cbn [fst snd]. repeat er1.
      rewrite er_bind, HE by exact Hx. repeat er1.
    Qed.

    (* -------------------------------------------------------------- rounds *)
    Lemma er_FoldHL (p : Prover F) r : erase (WFoldHL p r) = FoldHL p r.
    Proof. unfold WFoldHL, FoldHL. repeat (apply er_bind'; [first [apply er_Fold | apply er_map; intros; apply er_Fold]|intros ?]). reflexivity. Qed.
    Lemma er_FoldHR (p : Prover F) r : erase (WFoldHR p r) = FoldHR p r.
    Proof. unfold WFoldHR, FoldHR. repeat (apply er_bind'; [first [apply er_Fold | apply er_map; intros; apply er_Fold]|intros ?]). reflexivity. Qed.
    Lemma er_FoldHPrime (p : Prover F) r : erase (WFoldHPrime p r) = FoldHPrime p r.
    Proof. unfold WFoldHPrime, FoldHPrime. repeat (apply er_bind'; [apply er_Fold|intros ?]). reflexivity. Qed.

    Lemma er_rounds (ch : list F -> F) We e Wf f : (forall p, sGates p = map wbase gs -> erase (We p) = e p) -> (forall p r, erase (Wf p r) = f p r) ->
      (forall p r p', f p r = Some p' -> sGates p' = sGates p) ->
      forall k p pf q, sGates p = map wbase gs -> erase (Wrounds ch k We Wf (p, pf, q)) = rounds ch k e f (p, pf, q) /\
        (forall p' pf' q', rounds ch k e f (p, pf, q) = Some (p', pf', q') -> sGates p' = map wbase gs).
    Proof.
      intros He Hf Hk k. unfold Wrounds, rounds, forW, forN. generalize 0%nat as a. induction k as [|k IH]; intros a p pf q Hg.
      - split; [reflexivity|]. cbn. intros p' pf' q' [= <- _ _]. exact Hg.
      - cbn [seq foldW foldM]. rewrite er_bind. unfold Wround at 1, round at 1 3. rewrite er_bind, He by exact Hg.
        destruct (e p) as [ev|]; [|split; [reflexivity|discriminate]].
        rewrite er_bind, er_InterpolateOnRange. destruct (InterpolateOnRange ev) as [c|]; [|split; [reflexivity|discriminate]]. cbv zeta.
        rewrite er_bind, Hf. destruct (f p (ch c)) as [p1|] eqn:E1; [|split; [reflexivity|discriminate]]. cbn [erase ret].
        apply IH. rewrite (Hk _ _ _ E1). exact Hg.
    Qed.

    Lemma er_Prove (ch : list F -> F) p : sGates p = map wbase gs -> erase (WProve gs ch p) = Prove ch p.
    Proof.
      intros Hg. unfold WProve, Prove. cbv zeta. destruct (godiv _ _) as [g|]; [|reflexivity].
      destruct (er_rounds ch (WGetEvalsOnHL gs) GetEvalsOnHL WFoldHL FoldHL er_HL er_FoldHL) with (k := log2ceil g) (p := p) (pf := @nil (list F)) (q := @nil F) as [E1 K1].
      { intros p0 r p'. unfold FoldHL. destruct (mapM _ _); [|discriminate]. destruct (Fold _ _); [|discriminate]. intros [= <-]. reflexivity. }
      { exact Hg. }
      rewrite er_bind, E1. destruct (rounds ch _ GetEvalsOnHL FoldHL _) as [[[p1 pf1] q1]|] eqn:R1; [|reflexivity]. specialize (K1 _ _ _ eq_refl).
      destruct (er_rounds ch (WGetEvalsOnHR gs) GetEvalsOnHR WFoldHR FoldHR er_HR er_FoldHR) with (k := log2ceil g) (p := p1) (pf := pf1) (q := @nil F) as [E2 K2].
      { intros p0 r p'. unfold FoldHR. destruct (mapM _ _); [|discriminate]. destruct (Fold _ _); [|discriminate]. intros [= <-]. reflexivity. }
      { exact K1. }
      rewrite er_bind, E2. destruct (rounds ch _ GetEvalsOnHR FoldHR _) as [[[p2 pf2] q2]|] eqn:R2; [|reflexivity]. specialize (K2 _ _ _ eq_refl).
      destruct (er_rounds ch (WGetEvalsOnHPrime gs) GetEvalsOnHPrime WFoldHPrime FoldHPrime er_HPrime er_FoldHPrime) with (k := log2ceil (length (sEq p))) (p := p2) (pf := pf2) (q := @nil F) as [E3 _].
      { intros p0 r p'. unfold FoldHPrime. destruct (Fold _ _); [|discriminate]. destruct (Fold _ _); [|discriminate]. destruct (Fold _ _); [|discriminate]. intros [= <-]. reflexivity. }
      { exact K2. }
      rewrite er_bind, E3. destruct (rounds ch _ GetEvalsOnHPrime FoldHPrime _) as [[[p3 pf3] q3]|]; [|reflexivity].
      destruct (finalClaimsOf p3); reflexivity.
    Qed.
  End Prover.

  (* ---------------------------------------------------------------- verifier *)
  Lemma er_loop (ch : list F -> F) : forall proof e q, erase (Wverify_loop ch e proof q) = verify_loop ch e proof q.
  Proof.
    induction proof as [|c proof IH]; intros e q; [reflexivity|]. cbn [Wverify_loop verify_loop].
    apply er_bind'; [apply er_EvaluatePolynomial|intros a]. apply er_bind'; [apply er_EvaluatePolynomial|intros b]. cbv zeta.
    destruct (e =? a + b); [|reflexivity]. apply er_bind'; [apply er_EvaluatePolynomial|intros x]. apply IH.
  Qed.

  Lemma er_Verify (ch : list F -> F) claim proof bN bG : erase (WVerify ch claim proof bN bG) = Verify ch claim proof bN bG.
  Proof.
    unfold WVerify, Verify. apply er_bind'; [apply er_loop|]. intros [[q e]|]; [|reflexivity]. repeat er1.
  Qed.
End S.
