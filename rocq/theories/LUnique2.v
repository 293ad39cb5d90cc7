(** The honest proof is right. *)
From Coq Require Import List Arith ZArith Lia Bool Ring Field.
From Verif Require Import Field Go MCommon Spec MPoly LSpec LCommon LPoly LEffect LPoly2 MCircuit SpecCircuit LCircuit LCircuit2 LCircuit3 MSumcheck SpecSumcheck
  LSumcheck LSumcheck2 LSumcheck3 LSumcheck4 LSumcheck5.
Import ListNotations.

Section L.
  Context {F : Field}.
  Add Field FfieldLUnique2 : (f_theory F).
  Open Scope F_scope.
  Variable ch : list F -> F.

  (** One phase: each polynomial is the function that was interpolated. *)
  Fixpoint tv (V : nat -> Prover F -> F) (foldf : Prover F -> F -> Prover F) (cs : list (list F)) (p : Prover F) : Prop :=
    match cs with
    | [] => True
    | c :: cs' => (forall t, peval c t = V (length cs') (foldf p t)) /\ tv V foldf cs' (foldf p (ch c))
    end.

  Section Phase.
    Variable evals : Prover F -> option (list F).
    Variable fold : Prover F -> F -> option (Prover F).
    Variable foldf : Prover F -> F -> Prover F.
    Variable Inv : nat -> Prover F -> Prop.
    Variable V : nat -> Prover F -> F.
    Hypothesis fold_eq : forall p r, fold p r = Some (foldf p r).
    Hypothesis evals_eq : forall k p, Inv (S k) p -> exists d, (d <= 11)%nat /\ distinct_upto (F:=F) (S d) /\
      evals p = Some (map (fun t => V k (foldf p (fnat t))) (seq 0 (d + 1))) /\
      poly_deg_le d (fun t => V k (foldf p t)).
    Hypothesis Inv_fold : forall k p r, Inv (S k) p -> Inv k (foldf p r).

    Lemma phaseT k : forall p proof q, Inv k p ->
      exists cs, length cs = k /\
        rounds ch k evals fold (p, proof, q) = Some (fold_left foldf (map ch cs) p, proof ++ cs, q ++ map ch cs) /\
        tv V foldf cs p /\ Inv 0%nat (fold_left foldf (map ch cs) p).
    Proof.
      induction k as [|k IH]; intros p proof q HI.
      - exists []. split; [reflexivity|]. split; [rewrite !app_nil_r; reflexivity|]. split; [exact I|exact HI].
      - destruct (evals_eq k p HI) as (d & Hd & Hdist & He & Hdeg).
        destruct (InterpolateOnRange_function (fun t => V k (foldf p t)) d Hdist ltac:(lia) Hdeg) as (c & Ec & Lc & Hc).
        destruct (IH (foldf p (ch c)) (proof ++ [c]) (q ++ [ch c]) (Inv_fold k p (ch c) HI)) as (cs & L & ER & ET & EI).
        exists (c :: cs). split; [cbn; lia|]. split; [|split].
        + rewrite rounds_S. unfold round. rewrite He, Nat.add_1_r, Ec, fold_eq. cbv beta iota zeta. rewrite ER.
          cbn [map fold_left]. rewrite <- !app_assoc. reflexivity.
        + cbn [tv]. rewrite L. auto.
        + exact EI.
    Qed.
  End Phase.

  Hypothesis Hdist : distinct_upto (F:=F) 12.

  Lemma phaseT_HL n g k p proof q : (0 < g)%nat -> (k = 0%nat \/ sGates p <> []) -> tidy p -> shape n (2 ^ k) g p ->
    exists cs, length cs = k /\
      rounds ch k GetEvalsOnHL FoldHL (p, proof, q) = Some (fold_left foldHL (map ch cs) p, proof ++ cs, q ++ map ch cs) /\
      tv (fun k p => psum n (2 ^ k) g p) foldHL cs p /\ shape n 1 g (fold_left foldHL (map ch cs) p).
  Proof.
    intros Hg Hne HT HS.
    destruct (phaseT GetEvalsOnHL FoldHL foldHL
      (fun k p' => tidy p' /\ (k = 0%nat \/ sGates p' <> []) /\ shape n (2 ^ k) g p') (fun k p => psum n (2 ^ k) g p)) with (k := k) (p := p) (proof := proof) (q := q)
      as (cs & A & B & C & D).
    - apply FoldHL_eq.
    - intros k' p' ((T1 & T2 & T3 & T4 & T5) & [N|N] & S'); [discriminate|]. exists (dHL p'). rewrite Nat.pow_succ_r' in S'.
      split; [lia|]. split; [apply (dist_le Hdist); exact T3|]. split; [apply GetEvalsOnHL_spec; assumption|apply deg_HL; assumption].
    - intros k' p' r (T & N & S'). rewrite Nat.pow_succ_r' in S'. split; [exact T|]. split; [|apply shape_HL; exact S'].
      destruct N as [N|N]; [discriminate|right; exact N].
    - auto.
    - exists cs. split; [exact A|]. split; [exact B|]. split; [exact C|apply D].
  Qed.

  Lemma phaseT_HR n k p proof q : tidy p -> shape n 1 (2 ^ k) p ->
    exists cs, length cs = k /\
      rounds ch k GetEvalsOnHR FoldHR (p, proof, q) = Some (fold_left foldHR (map ch cs) p, proof ++ cs, q ++ map ch cs) /\
      tv (fun k p => psum n 1 (2 ^ k) p) foldHR cs p /\ shape n 1 1 (fold_left foldHR (map ch cs) p).
  Proof.
    intros HT HS.
    destruct (phaseT GetEvalsOnHR FoldHR foldHR
      (fun k p' => tidy p' /\ shape n 1 (2 ^ k) p') (fun k p => psum n 1 (2 ^ k) p)) with (k := k) (p := p) (proof := proof) (q := q)
      as (cs & A & B & C & D).
    - apply FoldHR_eq.
    - intros k' p' ((T1 & T2 & T3 & T4 & T5) & S'). exists (dHR p'). rewrite Nat.pow_succ_r' in S'.
      split; [lia|]. split; [apply (dist_le Hdist); exact T4|]. split; [apply GetEvalsOnHR_spec; assumption|apply deg_HR; assumption].
    - intros k' p' r (T & S'). rewrite Nat.pow_succ_r' in S'. split; [exact T|apply shape_HR; exact S'].
    - auto.
    - exists cs. split; [exact A|]. split; [exact B|]. split; [exact C|apply D].
  Qed.

  Lemma phaseT_HP k p proof q : tidy p -> shape (2 ^ k) 1 1 p ->
    exists cs, length cs = k /\
      rounds ch k GetEvalsOnHPrime FoldHPrime (p, proof, q) = Some (fold_left foldHP (map ch cs) p, proof ++ cs, q ++ map ch cs) /\
      tv (fun k p => psum (2 ^ k) 1 1 p) foldHP cs p.
  Proof.
    intros HT HS.
    destruct (phaseT GetEvalsOnHPrime FoldHPrime foldHP
      (fun k p' => tidy p' /\ shape (2 ^ k) 1 1 p') (fun k p => psum (2 ^ k) 1 1 p)) with (k := k) (p := p) (proof := proof) (q := q)
      as (cs & A & B & C & D).
    - apply FoldHP_eq.
    - intros k' p' ((T1 & T2 & T3 & T4 & T5) & S'). exists (dHPrime p'). rewrite Nat.pow_succ_r' in S'.
      split; [lia|]. split; [apply (dist_le Hdist); exact T5|].
      split; [apply GetEvalsOnHPrime_spec with (n := (2 * 2 ^ k')%nat); [apply half_double|exact S']|apply deg_HP; assumption].
    - intros k' p' r (T & S'). rewrite Nat.pow_succ_r' in S'. split; [exact T|apply shape_HP; exact S'].
    - auto.
    - exists cs. auto.
  Qed.

  (** The polynomials [cs] are the partial sums of [f], with [e] more variables after them. *)
  Fixpoint tp (f : list F -> F) (e : nat) (cs : list (list F)) (x : list F) : Prop :=
    match cs with
    | [] => True
    | c :: cs' => (forall t, peval c t = cube_sum f (length cs' + e) (x ++ [t])) /\ tp f e cs' (x ++ [ch c])
    end.

  Lemma tp_app f e cs1 cs2 : forall x, tp f (length cs2 + e) cs1 x -> tp f e cs2 (x ++ map ch cs1) -> tp f e (cs1 ++ cs2) x.
  Proof.
    induction cs1 as [|c cs1 IH]; intros x H1 H2; cbn [tp app map] in *; [rewrite app_nil_r in H2; exact H2|].
    destruct H1 as [A B]. split.
    - intros t. rewrite A, app_length. f_equal. lia.
    - apply IH; [exact B|]. rewrite <- app_assoc. exact H2.
  Qed.

  Lemma tp_pre f g e y cs : forall x n, (forall z, length z = n -> g (y ++ z) = f z) -> (length x + length cs + e)%nat = n ->
    tp f e cs x -> tp g e cs (y ++ x).
  Proof.
    induction cs as [|c cs IH]; intros x n H Hn HT; cbn [tp length] in *; [exact I|]. destruct HT as [A B]. split.
    - intros t. rewrite A. unfold cube_sum. apply suml_ext. intros b Hb. apply in_cube in Hb.
      rewrite <- !app_assoc. symmetry. apply H. rewrite !app_length, bpoint_length. cbn [length]. lia.
    - rewrite <- app_assoc. apply (IH (x ++ [ch c]) n H); [rewrite app_length; cbn; lia|exact B].
  Qed.

  Lemma tp_nth f e cs : forall x i c t, tp f e cs x -> nth_error cs i = Some c ->
    peval c t = cube_sum f (length cs + e - S i) (x ++ map ch (firstn i cs) ++ [t]).
  Proof.
    induction cs as [|c0 cs IH]; intros x [|i] c t HT Hi; try discriminate; cbn [tp length nth_error firstn map app] in *.
    - injection Hi as <-. destruct HT as [A _]. rewrite A. f_equal. lia.
    - destruct HT as [_ B]. rewrite (IH _ i c t B Hi), <- app_assoc. f_equal.
  Qed.

  Lemma tv_HL kR kN cs : forall p, shape (2 ^ kN) (2 ^ length cs) (2 ^ kR) p ->
    tv (fun k p => psum (2 ^ kN) (2 ^ k) (2 ^ kR) p) foldHL cs p -> tp (comb (length cs) kR p) (kR + kN) cs [].
  Proof.
    induction cs as [|c cs IH]; intros p HS HT; cbn [tv tp length] in *; [exact I|]. destruct HT as [A B]. split.
    - intros t. rewrite A. cbn [app]. rewrite Nat.add_assoc. symmetry. apply cube_HL. exact HS.
    - apply (tp_pre _ _ _ [ch c] cs [] (length cs + kR + kN) ltac:(intros z Hz; apply (comb_HL (length cs) kR kN _ p (ch c) z eq_refl HS); exact Hz)); [cbn; lia|].
      apply IH; [apply shape_HL; exact HS|exact B].
  Qed.

  Lemma tv_HR kN cs : forall p, shape (2 ^ kN) 1 (2 ^ length cs) p ->
    tv (fun k p => psum (2 ^ kN) 1 (2 ^ k) p) foldHR cs p -> tp (comb 0 (length cs) p) kN cs [].
  Proof.
    induction cs as [|c cs IH]; intros p HS HT; cbn [tv tp length] in *; [exact I|]. destruct HT as [A B]. split.
    - intros t. rewrite A. cbn [app]. symmetry. apply cube_HR. exact HS.
    - apply (tp_pre _ _ _ [ch c] cs [] (length cs + kN) ltac:(intros z Hz; apply (comb_HR (length cs) kN _ p (ch c) z eq_refl HS); exact Hz)); [cbn; lia|].
      apply IH; [apply shape_HR; exact HS|exact B].
  Qed.

  Lemma tv_HP cs : forall p, shape (2 ^ length cs) 1 1 p ->
    tv (fun k p => psum (2 ^ k) 1 1 p) foldHP cs p -> tp (comb 0 0 p) 0 cs [].
  Proof.
    induction cs as [|c cs IH]; intros p HS HT; cbn [tv tp length] in *; [exact I|]. destruct HT as [A B]. split.
    - intros t. rewrite A, Nat.add_0_r. cbn [app]. symmetry. apply cube_HP. exact HS.
    - apply (tp_pre _ _ _ [ch c] cs [] (length cs) ltac:(intros z Hz; apply (comb_HP (length cs) p (ch c) z HS); exact Hz)); [cbn; lia|].
      apply IH; [apply shape_HP; exact HS|exact B].
  Qed.

  Lemma comb_many_HL kR kN (xs : list F) : forall (p : Prover F) y, shape (2 ^ kN) (2 ^ length xs) (2 ^ kR) p -> length y = (kR + kN)%nat ->
    comb (length xs) kR p (xs ++ y) = comb 0 kR (fold_left foldHL xs p) y.
  Proof.
    induction xs as [|x xs IH]; intros p y HS Hy; [reflexivity|]. cbn [length app fold_left] in *.
    rewrite (comb_HL (length xs) kR kN _ p x (xs ++ y) eq_refl HS) by (rewrite app_length; lia).
    apply IH; [apply shape_HL; exact HS|exact Hy].
  Qed.
  Lemma comb_many_HR kN (xs : list F) : forall (p : Prover F) y, shape (2 ^ kN) 1 (2 ^ length xs) p -> length y = kN ->
    comb 0 (length xs) p (xs ++ y) = comb 0 0 (fold_left foldHR xs p) y.
  Proof.
    induction xs as [|x xs IH]; intros p y HS Hy; [reflexivity|]. cbn [length app fold_left] in *.
    rewrite (comb_HR (length xs) kN _ p x (xs ++ y) eq_refl HS) by (rewrite app_length; lia).
    apply IH; [apply shape_HR; exact HS|exact Hy].
  Qed.

  Lemma Prove_right bN bG (p : Prover F) proof qP qL qR fc :
    (bG = 0%nat \/ sGates p <> []) -> tidy p -> shape (2 ^ bN) (2 ^ bG) (2 ^ bG) p ->
    Prove ch p = Some (proof, qP, qL, qR, fc) -> tp (comb bG bG p) 0 proof [] /\ length proof = (2 * bG + bN)%nat.
  Proof.
    intros Hne HT HS HP.
    destruct (phaseT_HL (2 ^ bN) (2 ^ bG) bG p [] [] (pow_pos bG) Hne HT HS) as (csL & L1 & R1 & A1 & S1).
    assert (HT1 : tidy (fold_left foldHL (map ch csL) p)) by (rewrite foldHL_many; exact HT).
    destruct (phaseT_HR (2 ^ bN) bG _ ([] ++ csL) [] HT1 S1) as (csR & L2 & R2 & A2 & S2).
    assert (HT2 : tidy (fold_left foldHR (map ch csR) (fold_left foldHL (map ch csL) p)))
      by (rewrite foldHR_many; exact HT1).
    destruct (phaseT_HP bN _ (([] ++ csL) ++ csR) [] HT2 S2) as (csP & L3 & R3 & A3).
    assert (E : proof = csL ++ csR ++ csP).
    { destruct HS as [Hn Heq HvL HvR Hst Htab].
      unfold Prove in HP. rewrite Heq, HvR, godiv_some, Nat.div_mul in HP by (specialize (pow_pos bN); lia).
      rewrite !log2ceil_pow2 in HP. rewrite R1 in HP. rewrite R2 in HP. rewrite R3 in HP.
      destruct (finalClaimsOf _) in HP; [|discriminate]. injection HP as HP _ _ _ _. rewrite <- HP. cbn [app]. rewrite <- app_assoc. reflexivity. }
    subst proof. split; [|rewrite !app_length; lia].
    assert (LL : length (map ch csL) = bG) by (rewrite map_length; exact L1).
    assert (LR : length (map ch csR) = bG) by (rewrite map_length; exact L2).
    apply tp_app.
    - rewrite app_length, L2, L3, Nat.add_0_r. rewrite <- L1 at 1. apply (tv_HL bG bN csL); [rewrite L1; exact HS|exact A1].
    - cbn [app].
      assert (T2 : tp (comb 0 bG (fold_left foldHL (map ch csL) p)) 0 (csR ++ csP) []).
      { apply tp_app.
        - rewrite L3, Nat.add_0_r. rewrite <- L2 at 1. apply (tv_HR bN csR); [rewrite L2; exact S1|exact A2].
        - cbn [app].
          pose proof (tv_HP csP (fold_left foldHR (map ch csR) (fold_left foldHL (map ch csL) p))) as T3.
          rewrite L3 in T3. specialize (T3 S2 A3).
          rewrite <- (app_nil_r (map ch csR)). apply (tp_pre (comb 0 0 (fold_left foldHR (map ch csR) (fold_left foldHL (map ch csL) p))) _ _ (map ch csR) csP [] bN).
          + intros z Hz. rewrite <- LR at 1. apply (comb_many_HR bN); [rewrite LR; exact S1|exact Hz].
          + cbn. lia.
          + exact T3. }
      rewrite <- (app_nil_r (map ch csL)). apply (tp_pre (comb 0 bG (fold_left foldHL (map ch csL) p)) _ _ (map ch csL) (csR ++ csP) [] (bG + bN)).
      + intros z Hz. rewrite <- LL at 1. apply (comb_many_HL bG bN); [rewrite LL; exact HS|exact Hz].
      + rewrite app_length. cbn. lia.
      + exact T2.
  Qed.
End L.
