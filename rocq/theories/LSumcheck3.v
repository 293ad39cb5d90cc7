(** Round polynomials, completeness and soundness of the sum-check protocol. *)
From Coq Require Import List Arith ZArith Lia Bool Ring Field.
From Verif Require Import Field Go MCommon Spec MPoly LSpec LCommon LPoly LEffect LPoly2 MCircuit SpecCircuit LCircuit LCircuit2 MSumcheck SpecSumcheck LSumcheck LSumcheck2.
Import ListNotations.

Section S.
  Context {F : Field}.
  Add Field FfieldLSumcheck3 : (f_theory F).
  Open Scope F_scope.

  Lemma foldv_len2 (t : list F) r m : length t = (2 * m)%nat -> length (foldv t r) = m.
  Proof. intros H. rewrite foldv_length, H. apply half_double. Qed.

  Lemma shape_HL n m g (p : Prover F) r : shape n (2 * m) g p -> shape n m g (foldHL p r).
  Proof.
    intros [Hn Heq HvL HvR Hst Htab]. constructor; cbn [foldHL sEq sVL sVR sStatic sGates]; auto.
    - apply foldv_len2. lia.
    - rewrite map_length. exact Hst.
    - intros tab Hin. apply in_map_iff in Hin. destruct Hin as (t & <- & Hin). apply foldv_len2. rewrite (Htab t Hin). lia.
  Qed.
  Lemma shape_HR n m (p : Prover F) r : shape n 1 (2 * m) p -> shape n 1 m (foldHR p r).
  Proof.
    intros [Hn Heq HvL HvR Hst Htab]. constructor; cbn [foldHR sEq sVL sVR sStatic sGates]; auto.
    - apply foldv_len2. lia.
    - rewrite map_length. exact Hst.
    - intros tab Hin. apply in_map_iff in Hin. destruct Hin as (t & <- & Hin). apply foldv_len2. rewrite (Htab t Hin). lia.
  Qed.
  Lemma shape_HP m (p : Prover F) r : shape (2 * m) 1 1 p -> shape m 1 1 (foldHP p r).
  Proof.
    intros [Hn Heq HvL HvR Hst Htab]. constructor; cbn [foldHP sEq sVL sVR sStatic sGates]; auto.
    - lia.
    - apply foldv_len2. lia.
    - rewrite foldv_len2 with (m := m) by lia. lia.
    - rewrite foldv_len2 with (m := m) by lia. lia.
  Qed.

  Lemma foldv_0 (t : list F) m i : length t = (2 * m)%nat -> (i < m)%nat -> nth i (foldv t 0) 0 = nth i t 0.
  Proof. intros H Hi. rewrite (foldv_nth t 0 m i H Hi). ring. Qed.
  Lemma foldv_1 (t : list F) m i : length t = (2 * m)%nat -> (i < m)%nat -> nth i (foldv t 1) 0 = nth (m + i) t 0.
  Proof. intros H Hi. rewrite (foldv_nth t 1 m i H Hi). ring. Qed.

  Lemma split_HL n m g (p : Prover F) : shape n (2 * m) g p ->
    psum n (2 * m) g p = psum n m g (foldHL p 0) + psum n m g (foldHL p 1).
  Proof.
    intros [Hn Heq HvL HvR Hst Htab]. unfold psum, ssum. cbn [foldHL sEq sVL sVR sStatic sGates].
    rewrite <- sumn_add. apply sumn_ext. intros i Hi.
    assert (Hti : length (nth i (sStatic p) []) = (2 * (m * g))%nat) by (rewrite (Htab (nth i (sStatic p) []) (nth_In (sStatic p) [] (n:=i) ltac:(lia))); lia).
    replace (2 * m)%nat with (m + m)%nat by lia. rewrite sumn_plus. f_equal.
    - apply sumn_ext. intros l Hl. apply sumn_ext. intros r Hr. apply sumn_ext. intros h Hh.
      rewrite (nth_map_lt _ (sStatic p) i [] []) by lia.
      rewrite (foldv_0 _ (m * g)) by (try exact Hti; nia). rewrite (foldv_0 _ (m * n)) by nia. reflexivity.
    - apply sumn_ext. intros l Hl. apply sumn_ext. intros r Hr. apply sumn_ext. intros h Hh.
      rewrite (nth_map_lt _ (sStatic p) i [] []) by lia.
      rewrite (foldv_1 _ (m * g)) by (try exact Hti; nia). rewrite (foldv_1 _ (m * n)) by nia.
      rewrite !Nat.mul_add_distr_r, !Nat.add_assoc. reflexivity.
  Qed.

  Lemma split_HR n m (p : Prover F) : shape n 1 (2 * m) p ->
    psum n 1 (2 * m) p = psum n 1 m (foldHR p 0) + psum n 1 m (foldHR p 1).
  Proof.
    intros [Hn Heq HvL HvR Hst Htab]. unfold psum, ssum. cbn [foldHR sEq sVL sVR sStatic sGates].
    rewrite <- sumn_add. apply sumn_ext. intros i Hi.
    assert (Hti : length (nth i (sStatic p) []) = (2 * m)%nat) by (rewrite (Htab (nth i (sStatic p) []) (nth_In (sStatic p) [] (n:=i) ltac:(lia))); lia).
    rewrite !sumn_1. cbn [Nat.mul Nat.add].
    replace (m + (m + 0))%nat with (m + m)%nat by lia. rewrite sumn_plus. f_equal.
    - apply sumn_ext. intros r Hr. apply sumn_ext. intros h Hh.
      rewrite (nth_map_lt _ (sStatic p) i [] []) by lia.
      rewrite (foldv_0 _ m) by (try exact Hti; nia). rewrite (foldv_0 _ (m * n)) by nia. reflexivity.
    - apply sumn_ext. intros r Hr. apply sumn_ext. intros h Hh.
      rewrite (nth_map_lt _ (sStatic p) i [] []) by lia.
      rewrite (foldv_1 _ m) by (try exact Hti; nia). rewrite (foldv_1 _ (m * n)) by nia.
      rewrite !Nat.mul_add_distr_r, !Nat.add_assoc. reflexivity.
  Qed.

  Lemma split_HP m (p : Prover F) : shape (2 * m) 1 1 p ->
    psum (2 * m) 1 1 p = psum m 1 1 (foldHP p 0) + psum m 1 1 (foldHP p 1).
  Proof.
    intros [Hn Heq HvL HvR Hst Htab]. unfold psum, ssum. cbn [foldHP sEq sVL sVR sStatic sGates].
    rewrite <- sumn_add. apply sumn_ext. intros i Hi.
    rewrite !sumn_1. rewrite !Nat.mul_0_l, !Nat.add_0_l.
    replace (2 * m)%nat with (m + m)%nat at 1 by lia. rewrite sumn_plus. f_equal.
    - apply sumn_ext. intros h Hh. rewrite !(foldv_0 _ m) by lia. reflexivity.
    - apply sumn_ext. intros h Hh. rewrite !(foldv_1 _ m) by lia. reflexivity.
  Qed.

  (** ** Degrees *)
  Definition degs_bound (p : Prover F) : Prop := forall g, In g (sGates p) ->
    (degHL g + 1 <= dHL p)%nat /\ (degHR g + 1 <= dHR p)%nat /\ (degHPrime g + 1 <= dHPrime p)%nat /\ degs_ok g.

  Lemma foldv_line (t : list F) i : (i < length t / 2)%nat ->
    exists a b, forall x, nth i (foldv t x) 0 = a + b * x.
  Proof.
    intros H. exists (nth i t 0), (nth (length t / 2 + i) t 0 - nth i t 0). intros x. rewrite foldv_at by exact H. ring.
  Qed.

  Lemma deg_HL n m g (p : Prover F) : shape n (2 * m) g p -> degs_bound p ->
    poly_deg_le (dHL p) (fun t => psum n m g (foldHL p t)).
  Proof.
    intros [Hn Heq HvL HvR Hst Htab] HD. unfold psum, ssum. cbn [foldHL sEq sVL sVR sStatic sGates].
    apply pdl_sumn. intros i Hi. apply pdl_sumn. intros l Hl. apply pdl_sumn. intros r Hr. apply pdl_sumn. intros h Hh.
    destruct (HD (nth i (sGates p) agate) (nth_In _ _ Hi)) as (D1 & _ & _ & D).
    destruct (foldv_line (sVL p) (l * n + h)) as (a & b & E1).
    { rewrite HvL, <- Nat.mul_assoc, half_double. nia. }
    destruct (foldv_line (nth i (sStatic p) []) (l * g + r)) as (a' & b' & E2).
    { rewrite (Htab (nth i (sStatic p) []) (nth_In (sStatic p) [] (n:=i) ltac:(lia))), <- Nat.mul_assoc, half_double. nia. }
    set (y := nth (r * n + h) (sVR p) 0).
    apply (pdl_ext _ (fun t => nth h (sEq p) 0 * ((a' + b' * t) * geval (nth i (sGates p) agate) (a + b * t) y))).
    - intros t. rewrite (nth_map_lt _ (sStatic p) i [] []) by lia. rewrite E1, E2. ring.
    - apply (pdl_mono (1 + degHL (nth i (sGates p) agate))); [lia|]. apply pdl_scal.
      apply pdl_mul; [apply pdl_line|]. apply (D a b y 0).
  Qed.

  Lemma deg_HR n m (p : Prover F) : shape n 1 (2 * m) p -> degs_bound p ->
    poly_deg_le (dHR p) (fun t => psum n 1 m (foldHR p t)).
  Proof.
    intros [Hn Heq HvL HvR Hst Htab] HD. unfold psum, ssum. cbn [foldHR sEq sVL sVR sStatic sGates].
    apply pdl_sumn. intros i Hi. apply pdl_sumn. intros l Hl. apply pdl_sumn. intros r Hr. apply pdl_sumn. intros h Hh.
    destruct (HD (nth i (sGates p) agate) (nth_In _ _ Hi)) as (_ & D1 & _ & D).
    destruct (foldv_line (sVR p) (r * n + h)) as (a & b & E1).
    { rewrite HvR, <- Nat.mul_assoc, half_double. nia. }
    destruct (foldv_line (nth i (sStatic p) []) (l * m + r)) as (a' & b' & E2).
    { rewrite (Htab (nth i (sStatic p) []) (nth_In (sStatic p) [] (n:=i) ltac:(lia))), Nat.mul_1_l, half_double. nia. }
    set (y := nth (l * n + h) (sVL p) 0).
    apply (pdl_ext _ (fun t => nth h (sEq p) 0 * ((a' + b' * t) * geval (nth i (sGates p) agate) y (a + b * t)))).
    - intros t. rewrite (nth_map_lt _ (sStatic p) i [] []) by lia. rewrite E1, E2. ring.
    - apply (pdl_mono (1 + degHR (nth i (sGates p) agate))); [lia|]. apply pdl_scal.
      apply pdl_mul; [apply pdl_line|]. apply (D y 0 a b).
  Qed.

  Lemma deg_HP m (p : Prover F) : shape (2 * m) 1 1 p -> degs_bound p ->
    poly_deg_le (dHPrime p) (fun t => psum m 1 1 (foldHP p t)).
  Proof.
    intros [Hn Heq HvL HvR Hst Htab] HD. unfold psum, ssum. cbn [foldHP sEq sVL sVR sStatic sGates].
    apply pdl_sumn. intros i Hi. apply pdl_sumn. intros l Hl. apply pdl_sumn. intros r Hr. apply pdl_sumn. intros h Hh.
    destruct (HD (nth i (sGates p) agate) (nth_In _ _ Hi)) as (_ & _ & D1 & D).
    destruct (foldv_line (sVL p) (l * m + h)) as (a & b & E1).
    { rewrite HvL, Nat.mul_1_l, half_double. nia. }
    destruct (foldv_line (sVR p) (r * m + h)) as (a2 & b2 & E3).
    { rewrite HvR, Nat.mul_1_l, half_double. nia. }
    destruct (foldv_line (sEq p) h) as (a' & b' & E2).
    { rewrite Heq, half_double. nia. }
    set (s := nth (l * 1 + r) (nth i (sStatic p) []) 0).
    apply (pdl_ext _ (fun t => s * ((a' + b' * t) * geval (nth i (sGates p) agate) (a + b * t) (a2 + b2 * t)))).
    - intros t. rewrite E1, E2, E3. ring.
    - apply (pdl_mono (1 + degHPrime (nth i (sGates p) agate))); [lia|]. apply pdl_scal.
      apply pdl_mul; [apply pdl_line|]. apply (D a b a2 b2).
  Qed.

  (** ** Rounds *)
  Variable ch : list F -> F.

  Lemma foldM_const {S A B} (f : S -> option S) (l : list A) (l' : list B) s : length l = length l' ->
    foldM (fun s _ => f s) l s = foldM (fun s _ => f s) l' s.
  Proof.
    revert l' s. induction l as [|a l IH]; intros [|b l'] s H; try discriminate; [reflexivity|].
    cbn [foldM]. destruct (f s); [|reflexivity]. apply IH. simpl in H. lia.
  Qed.

  Lemma rounds_S k evals fold st :
    rounds ch (S k) evals fold st = (st' <- round ch evals fold st ;; rounds ch k evals fold st').
  Proof.
    unfold rounds, forN. cbn [seq foldM]. destruct (round ch evals fold st) as [st'|]; [|reflexivity].
    apply foldM_const. rewrite !seq_length. reflexivity.
  Qed.

  Section Phase.
    Variable evals : Prover F -> option (list F).
    Variable fold : Prover F -> F -> option (Prover F).
    Variable foldf : Prover F -> F -> Prover F.
    Variable Inv : nat -> Prover F -> Prop.
    Variable V : nat -> Prover F -> F.
    Variable D : nat.
    Hypothesis fold_eq : forall p r, fold p r = Some (foldf p r).
    Hypothesis evals_eq : forall k p, Inv (S k) p -> exists d, d = D /\ (d <= 11)%nat /\ distinct_upto (F:=F) (S d) /\
      evals p = Some (map (fun t => V k (foldf p (fnat t))) (seq 0 (d + 1))) /\
      poly_deg_le d (fun t => V k (foldf p t)).
    Hypothesis V_split : forall k p, Inv (S k) p -> V (S k) p = V k (foldf p 0) + V k (foldf p 1).
    Hypothesis Inv_fold : forall k p r, Inv (S k) p -> Inv k (foldf p r).

    Lemma phase k : forall p proof q, Inv k p ->
      exists cs, map (@length F) cs = repeat (S D) k /\
        rounds ch k evals fold (p, proof, q) = Some (fold_left foldf (map ch cs) p, proof ++ cs, q ++ map ch cs) /\
        answers ch (V k p) cs (V 0%nat (fold_left foldf (map ch cs) p)) /\
        Inv 0%nat (fold_left foldf (map ch cs) p).
    Proof.
      induction k as [|k IH]; intros p proof q HI.
      - exists []. split; [reflexivity|]. split; [rewrite !app_nil_r; reflexivity|]. split; [reflexivity|exact HI].
      - destruct (evals_eq k p HI) as (d & HD & Hd & Hdist & He & Hdeg).
        destruct (InterpolateOnRange_function (fun t => V k (foldf p t)) d Hdist ltac:(lia) Hdeg) as (c & Ec & Lc & Hc).
        destruct (IH (foldf p (ch c)) (proof ++ [c]) (q ++ [ch c]) (Inv_fold k p (ch c) HI)) as (cs & L & ER & EA & EI).
        exists (c :: cs). split; [cbn [map repeat]; rewrite L, Lc, HD; reflexivity|]. split; [|split].
        + rewrite rounds_S. unfold round. rewrite He, Nat.add_1_r, Ec, fold_eq. cbv beta iota zeta. rewrite ER.
          cbn [map fold_left]. rewrite <- !app_assoc. reflexivity.
        + cbn [answers map fold_left]. split; [intros ->; discriminate|]. rewrite !Hc. split; [apply V_split; exact HI|exact EA].
        + exact EI.
    Qed.
  End Phase.

  Lemma answers_app v cs1 cs2 m fin : answers ch v cs1 m -> answers ch m cs2 fin -> answers ch v (cs1 ++ cs2) fin.
  Proof.
    revert v. induction cs1 as [|c cs1 IH]; intros v H1 H2; cbn [answers app] in *; [subst; exact H2|].
    destruct H1 as (A & B & C). auto.
  Qed.

  (** ** Folding several times *)
  Lemma foldHL_many rs : forall p : Prover F, fold_left foldHL rs p =
    MkProver (foldsv (sVL p) rs) (sVR p) (sEq p) (sGates p) (map (fun t => foldsv t rs) (sStatic p)) (dHL p) (dHR p) (dHPrime p).
  Proof.
    induction rs as [|r rs IH]; intros p.
    - cbn. rewrite map_id. destruct p; reflexivity.
    - cbn [fold_left]. rewrite IH. unfold foldHL at 1 2 3 4 5 6 7 8. cbn [sVL sVR sEq sGates sStatic dHL dHR dHPrime].
      rewrite map_map. reflexivity.
  Qed.
  Lemma foldHR_many rs : forall p : Prover F, fold_left foldHR rs p =
    MkProver (sVL p) (foldsv (sVR p) rs) (sEq p) (sGates p) (map (fun t => foldsv t rs) (sStatic p)) (dHL p) (dHR p) (dHPrime p).
  Proof.
    induction rs as [|r rs IH]; intros p.
    - cbn. rewrite map_id. destruct p; reflexivity.
    - cbn [fold_left]. rewrite IH. unfold foldHR at 1 2 3 4 5 6 7 8. cbn [sVL sVR sEq sGates sStatic dHL dHR dHPrime].
      rewrite map_map. reflexivity.
  Qed.
  Lemma foldHP_many rs : forall p : Prover F, fold_left foldHP rs p =
    MkProver (foldsv (sVL p) rs) (foldsv (sVR p) rs) (foldsv (sEq p) rs) (sGates p) (sStatic p) (dHL p) (dHR p) (dHPrime p).
  Proof.
    induction rs as [|r rs IH]; intros p; [destruct p; reflexivity|].
    cbn [fold_left]. rewrite IH. reflexivity.
  Qed.

  (** ** The three phases *)
  Definition neat (p : Prover F) : Prop := manys p /\ degs_bound p.
  Definition tidy (p : Prover F) : Prop :=
    manys p /\ degs_bound p /\ (dHL p <= 11)%nat /\ (dHR p <= 11)%nat /\ (dHPrime p <= 11)%nat.

  Hypothesis Hdist : distinct_upto (F:=F) 12.

  Lemma dist_le d : (d <= 11)%nat -> distinct_upto (F:=F) (S d).
  Proof. intros H. apply (distinct_upto_le 12); [lia|exact Hdist]. Qed.

  Lemma phase_HL n g k p proof q : (0 < g)%nat -> (k = 0%nat \/ sGates p <> []) -> (k = 0 \/ dHL p <= 11)%nat -> neat p -> shape n (2 ^ k) g p ->
    exists cs, map (@length F) cs = repeat (S (dHL p)) k /\
      rounds ch k GetEvalsOnHL FoldHL (p, proof, q) = Some (fold_left foldHL (map ch cs) p, proof ++ cs, q ++ map ch cs) /\
      answers ch (psum n (2 ^ k) g p) cs (psum n 1 g (fold_left foldHL (map ch cs) p)) /\
      shape n 1 g (fold_left foldHL (map ch cs) p).
  Proof.
    intros Hg Hne HD HT HS.
    destruct (phase GetEvalsOnHL FoldHL foldHL
      (fun k p' => dHL p' = dHL p /\ neat p' /\ (k = 0%nat \/ sGates p' <> [] /\ (dHL p' <= 11)%nat) /\ shape n (2 ^ k) g p') (fun k p => psum n (2 ^ k) g p) (dHL p)) with (k := k) (p := p) (proof := proof) (q := q)
      as (cs & A & B & C & D).
    - apply FoldHL_eq.
    - intros k' p' (E & (T1 & T2) & [N|[N T3]] & S'); [discriminate|]. exists (dHL p'). rewrite Nat.pow_succ_r' in S'.
      split; [exact E|]. split; [lia|]. split; [apply dist_le; exact T3|]. split; [apply GetEvalsOnHL_spec; assumption|apply deg_HL; assumption].
    - intros k' p' (E & T & N & S'). rewrite Nat.pow_succ_r' in *. apply split_HL. exact S'.
    - intros k' p' r (E & T & N & S'). rewrite Nat.pow_succ_r' in S'. split; [exact E|]. split; [exact T|]. split; [|apply shape_HL; exact S'].
      destruct N as [N|N]; [discriminate|right; exact N].
    - split; [reflexivity|]. split; [exact HT|]. split; [|exact HS]. destruct Hne as [Hne|Hne], HD as [HD|HD]; auto.
    - exists cs. split; [exact A|]. split; [exact B|]. split; [exact C|apply D].
  Qed.

  Lemma phase_HR n k p proof q : (k = 0 \/ dHR p <= 11)%nat -> neat p -> shape n 1 (2 ^ k) p ->
    exists cs, map (@length F) cs = repeat (S (dHR p)) k /\
      rounds ch k GetEvalsOnHR FoldHR (p, proof, q) = Some (fold_left foldHR (map ch cs) p, proof ++ cs, q ++ map ch cs) /\
      answers ch (psum n 1 (2 ^ k) p) cs (psum n 1 1 (fold_left foldHR (map ch cs) p)) /\
      shape n 1 1 (fold_left foldHR (map ch cs) p).
  Proof.
    intros HD HT HS.
    destruct (phase GetEvalsOnHR FoldHR foldHR
      (fun k p' => dHR p' = dHR p /\ (k = 0 \/ dHR p' <= 11)%nat /\ neat p' /\ shape n 1 (2 ^ k) p') (fun k p => psum n 1 (2 ^ k) p) (dHR p)) with (k := k) (p := p) (proof := proof) (q := q)
      as (cs & A & B & C & D).
    - apply FoldHR_eq.
    - intros k' p' (E & [T4|T4] & (T1 & T2) & S'); [discriminate|]. exists (dHR p'). rewrite Nat.pow_succ_r' in S'.
      split; [exact E|]. split; [lia|]. split; [apply dist_le; exact T4|]. split; [apply GetEvalsOnHR_spec; assumption|apply deg_HR; assumption].
    - intros k' p' (E & _ & T & S'). rewrite Nat.pow_succ_r' in *. apply split_HR. exact S'.
    - intros k' p' r (E & D & T & S'). rewrite Nat.pow_succ_r' in S'. split; [exact E|]. split; [destruct D as [D|D]; [discriminate|right; exact D]|].
      split; [exact T|apply shape_HR; exact S'].
    - auto.
    - exists cs. split; [exact A|]. split; [exact B|]. split; [exact C|apply D].
  Qed.

  Lemma phase_HP k p proof q : (k = 0 \/ dHPrime p <= 11)%nat -> neat p -> shape (2 ^ k) 1 1 p ->
    exists cs, map (@length F) cs = repeat (S (dHPrime p)) k /\
      rounds ch k GetEvalsOnHPrime FoldHPrime (p, proof, q) = Some (fold_left foldHP (map ch cs) p, proof ++ cs, q ++ map ch cs) /\
      answers ch (psum (2 ^ k) 1 1 p) cs (psum 1 1 1 (fold_left foldHP (map ch cs) p)) /\
      shape 1 1 1 (fold_left foldHP (map ch cs) p).
  Proof.
    intros HD HT HS.
    destruct (phase GetEvalsOnHPrime FoldHPrime foldHP
      (fun k p' => dHPrime p' = dHPrime p /\ (k = 0 \/ dHPrime p' <= 11)%nat /\ neat p' /\ shape (2 ^ k) 1 1 p') (fun k p => psum (2 ^ k) 1 1 p) (dHPrime p)) with (k := k) (p := p) (proof := proof) (q := q)
      as (cs & A & B & C & D).
    - apply FoldHP_eq.
    - intros k' p' (E & [T5|T5] & (T1 & T2) & S'); [discriminate|]. exists (dHPrime p'). rewrite Nat.pow_succ_r' in S'.
      split; [exact E|]. split; [lia|]. split; [apply dist_le; exact T5|].
      split; [apply GetEvalsOnHPrime_spec with (n := (2 * 2 ^ k')%nat); [apply half_double|exact S']|apply deg_HP; assumption].
    - intros k' p' (E & _ & T & S'). rewrite Nat.pow_succ_r' in *. apply split_HP. exact S'.
    - intros k' p' r (E & D & T & S'). rewrite Nat.pow_succ_r' in S'. split; [exact E|]. split; [destruct D as [D|D]; [discriminate|right; exact D]|].
      split; [exact T|apply shape_HP; exact S'].
    - auto.
    - exists cs. split; [exact A|]. split; [exact B|]. split; [exact C|apply D].
  Qed.

  (** ** The whole prover *)
  Lemma Prove_spec bN bG (p : Prover F) :
    (bG = 0%nat \/ sGates p <> []) -> neat p -> (bG = 0 \/ dHL p <= 11 /\ dHR p <= 11)%nat -> (bN = 0 \/ dHPrime p <= 11)%nat ->
    shape (2 ^ bN) (2 ^ bG) (2 ^ bG) p ->
    exists csL csR csP,
      let qL := map ch csL in let qR := map ch csR in let qP := map ch csP in
      let vl := mle (sVL p) (qL ++ qP) in
      let vr := mle (sVR p) (qR ++ qP) in
      let e := mle (sEq p) qP in
      let sts := map (fun t => mle t (qL ++ qR)) (sStatic p) in
      length csL = bG /\ length csR = bG /\ length csP = bN /\
      map (@length F) (csL ++ csR ++ csP) = repeat (S (dHL p)) bG ++ repeat (S (dHR p)) bG ++ repeat (S (dHPrime p)) bN /\
      Prove ch p = Some (csL ++ csR ++ csP, qP, qL, qR, vl :: vr :: e :: sts) /\
      answers ch (psum (2 ^ bN) (2 ^ bG) (2 ^ bG) p) (csL ++ csR ++ csP)
        (sumn (length (sGates p)) (fun i => e * nth i sts 0 * geval (nth i (sGates p) agate) vl vr)).
  Proof.
    intros Hne HT HD1 HD2 HS.
    assert (Hpow : forall k, (0 < 2 ^ k)%nat) by (intros k; assert (2 ^ k <> 0)%nat by (apply Nat.pow_nonzero; lia); lia).
    destruct (phase_HL (2 ^ bN) (2 ^ bG) bG p [] [] (Hpow bG) Hne ltac:(lia) HT HS) as (csL & M1 & R1 & A1 & S1).
    assert (HT1 : neat (fold_left foldHL (map ch csL) p)) by (rewrite foldHL_many; exact HT).
    assert (D2 : (bG = 0 \/ dHR (fold_left foldHL (map ch csL) p) <= 11)%nat) by (rewrite foldHL_many; cbn [dHR]; lia).
    destruct (phase_HR (2 ^ bN) bG _ ([] ++ csL) [] D2 HT1 S1) as (csR & M2 & R2 & A2 & S2).
    assert (HT2 : neat (fold_left foldHR (map ch csR) (fold_left foldHL (map ch csL) p)))
      by (rewrite foldHR_many; exact HT1).
    assert (D3 : (bN = 0 \/ dHPrime (fold_left foldHR (map ch csR) (fold_left foldHL (map ch csL) p)) <= 11)%nat)
      by (rewrite foldHR_many, foldHL_many; cbn [dHPrime]; lia).
    destruct (phase_HP bN _ (([] ++ csL) ++ csR) [] D3 HT2 S2) as (csP & M3 & R3 & A3 & S3).
    destruct HS as [Hn Heq HvL HvR Hst Htab].
    assert (L1 : length csL = bG) by (rewrite <- (map_length (@length F)), M1; apply repeat_length).
    assert (L2 : length csR = bG) by (rewrite <- (map_length (@length F)), M2; apply repeat_length).
    assert (L3 : length csP = bN) by (rewrite <- (map_length (@length F)), M3; apply repeat_length).
    exists csL, csR, csP. cbn zeta. split; [exact L1|]. split; [exact L2|]. split; [exact L3|].
    split; [rewrite !map_app, M1, M2, M3, foldHR_many, foldHL_many; reflexivity|].
    set (qL := map ch csL) in *. set (qR := map ch csR) in *. set (qP := map ch csP) in *.
    assert (LL : length qL = bG) by (unfold qL; rewrite map_length; exact L1).
    assert (LR : length qR = bG) by (unfold qR; rewrite map_length; exact L2).
    assert (LP : length qP = bN) by (unfold qP; rewrite map_length; exact L3).
    assert (Efin : fold_left foldHP qP (fold_left foldHR qR (fold_left foldHL qL p)) =
      MkProver [mle (sVL p) (qL ++ qP)] [mle (sVR p) (qR ++ qP)] [mle (sEq p) qP] (sGates p)
        (map (fun t => [mle t (qL ++ qR)]) (sStatic p)) (dHL p) (dHR p) (dHPrime p)).
    { rewrite foldHL_many, foldHR_many, foldHP_many. cbn [sVL sVR sEq sGates sStatic dHL dHR dHPrime].
      rewrite <- !foldsv_app, map_map.
      rewrite (foldsv_full (sVL p)) by (rewrite app_length, LL, LP, Nat.pow_add_r; exact HvL).
      rewrite (foldsv_full (sVR p)) by (rewrite app_length, LR, LP, Nat.pow_add_r; exact HvR).
      rewrite (foldsv_full (sEq p)) by (rewrite LP; exact Heq).
      f_equal. apply map_ext_in. intros t Hin. rewrite <- foldsv_app. apply foldsv_full.
      rewrite app_length, LL, LR, Nat.pow_add_r. apply Htab. exact Hin. }
    split.
    - unfold Prove. rewrite Heq, HvR, godiv_some, Nat.div_mul by (specialize (Hpow bN); lia).
      rewrite !log2ceil_pow2. rewrite R1. cbn [app]. cbn [app] in R2. rewrite R2. cbn [app] in R3. rewrite R3.
      cbn [app]. rewrite Efin. unfold finalClaimsOf. cbn [sVL sVR sEq sStatic get nth_error].
      rewrite (mapM_some _ (fun t => nth 0 t 0)).
      + rewrite map_map. cbn [nth]. rewrite <- app_assoc. reflexivity.
      + intros t Hin. apply in_map_iff in Hin. destruct Hin as (t' & <- & _). reflexivity.
    - apply (answers_app _ _ _ _ _ A1). apply (answers_app _ _ _ _ _ A2).
      replace (sumn _ _) with (psum 1 1 1 (fold_left foldHP qP (fold_left foldHR qR (fold_left foldHL qL p)))); [exact A3|].
      rewrite Efin. unfold psum, ssum. cbn [sVL sVR sEq sGates sStatic]. apply sumn_ext. intros i Hi.
      rewrite !sumn_1. cbn [Nat.mul Nat.add nth].
      rewrite (nth_map_lt _ (sStatic p) i [] []) by lia.
      rewrite (nth_map_lt _ (sStatic p) i 0 []) by lia. reflexivity.
  Qed.
End S.
