(** The multi-threaded prover computes what the single-threaded one computes on the interleaved tables. *)
From Coq Require Import List Arith ZArith Lia Bool Ring Field Permutation.
From Verif Require Import Field Go Trans MCommon Spec MPoly LSpec LCommon LPoly LEffect LPoly2 MCircuit SpecCircuit LCircuit LCircuit2
  MSumcheck SpecSumcheck LSumcheck LSumcheck2 LSumcheck3 LSumcheck4 MSumPar LSumPar.
Import ListNotations.

Lemma log2ceil_mul n k : (1 <= n)%nat -> log2ceil (n * 2 ^ k) = (k + log2ceil n)%nat.
Proof.
  intros H. destruct (log2ceil_spec n H) as [H1 H2].
  assert (Hp : (1 <= n * 2 ^ k)%nat) by (assert (2 ^ k <> 0)%nat by (apply Nat.pow_nonzero; lia); nia).
  destruct (log2ceil_spec _ Hp) as [H3 H4]. apply Nat.le_antisymm.
  - apply H4. rewrite Nat.pow_add_r. nia.
  - destruct (Nat.le_gt_cases k (log2ceil (n * 2 ^ k))) as [Hk|Hk].
    + assert (L : (log2ceil n <= log2ceil (n * 2 ^ k) - k)%nat).
      { apply H2. apply (Nat.mul_le_mono_pos_r _ _ (2 ^ k)); [apply pow_pos|]. rewrite <- Nat.pow_add_r.
        replace (log2ceil (n * 2 ^ k) - k + k)%nat with (log2ceil (n * 2 ^ k)) by lia. exact H3. }
      lia.
    + exfalso. apply (Nat.pow_lt_mono_r 2) in Hk; [|lia]. nia.
Qed.

Section S.
  Context {F : Field}.
  Add Field FfieldLSumPar2 : (f_theory F).
  Open Scope F_scope.

  Definition chunkOf (n s : nat) (t : list F) : list F := map (fun u => nth (u * n + s) t 0) (seq 0 (length t / n)).

  Definition part (n s : nat) (p : Prover F) : Prover F :=
    MkProver (chunkOf n s (sVL p)) (chunkOf n s (sVR p)) (chunkOf n s (sEq p)) (sGates p) (sStatic p) (dHL p) (dHR p) (dHPrime p).

  Lemma chunkOf_length n s t m : (0 < n)%nat -> length t = (m * n)%nat -> length (chunkOf n s t) = m.
  Proof. intros Hn H. unfold chunkOf. rewrite map_length, seq_length, H. apply Nat.div_mul. lia. Qed.
  Lemma chunkOf_nth n s t m u : (0 < n)%nat -> length t = (m * n)%nat -> (u < m)%nat ->
    nth u (chunkOf n s t) 0 = nth (u * n + s) t 0.
  Proof. intros Hn H Hu. unfold chunkOf. rewrite nth_map_seq; [reflexivity|]. rewrite H, Nat.div_mul by lia. exact Hu. Qed.

  Lemma chunkOf_foldv n s t m r : (0 < n)%nat -> (s < n)%nat -> length t = (2 * m * n)%nat ->
    chunkOf n s (foldv t r) = foldv (chunkOf n s t) r.
  Proof.
    intros Hn Hs H.
    assert (Lf : length (foldv t r) = (m * n)%nat) by (apply foldv_len2; lia).
    assert (Lc : length (chunkOf n s t) = (2 * m)%nat) by (apply chunkOf_length; assumption).
    apply (list_ext 0).
    - rewrite (chunkOf_length n s _ m Hn Lf), (foldv_len2 _ r m Lc). reflexivity.
    - intros u Hu. rewrite (chunkOf_length n s _ m Hn Lf) in Hu.
      rewrite (chunkOf_nth n s _ m u Hn Lf Hu), (foldv_nth _ r m u Lc Hu).
      rewrite (foldv_nth t r (m * n) (u * n + s)) by nia.
      rewrite !(chunkOf_nth n s t (2 * m)) by (try assumption; lia).
      rewrite Nat.mul_add_distr_r, Nat.add_assoc. reflexivity.
  Qed.

  Lemma chunk_eq n m (chunks : list (list F)) s : length chunks = n -> (s < n)%nat ->
    (forall c, In c chunks -> length c = m) -> chunkOf n s (interleave m chunks) = nth s chunks [].
  Proof.
    intros HL Hs Hm.
    assert (LI : length (interleave m chunks) = (m * n)%nat) by (rewrite interleave_length, HL; reflexivity).
    assert (Ls : length (nth s chunks []) = m) by (apply Hm, nth_In; lia).
    apply (list_ext 0).
    - rewrite (chunkOf_length n s _ m) by (try assumption; lia). congruence.
    - intros u Hu. rewrite (chunkOf_length n s _ m) in Hu by (try assumption; lia).
      rewrite (chunkOf_nth n s _ m) by (try assumption; lia). subst n. apply interleave_nth; assumption.
  Qed.

  Lemma part_shape n m a b p s : (0 < n)%nat -> (0 < m)%nat -> shape (m * n) a b p -> shape m a b (part n s p).
  Proof.
    intros Hn Hm [H1 H2 H3 H4 H5 H6]. constructor; cbn [part sEq sVL sVR sStatic sGates]; auto; apply chunkOf_length; try assumption; lia.
  Qed.

  Lemma psum_parts n m a b p : (0 < n)%nat -> shape (m * n) a b p ->
    psum (m * n) a b p = sumn n (fun s => psum m a b (part n s p)).
  Proof.
    intros Hn [H1 H2 H3 H4 H5 H6]. unfold psum, ssum. cbn [part sEq sVL sVR sStatic sGates].
    symmetry. rewrite sumn_swap. apply sumn_ext. intros i Hi. rewrite sumn_swap. apply sumn_ext. intros l Hl.
    rewrite sumn_swap. apply sumn_ext. intros r Hr. rewrite sumn_swap. rewrite sumn_mul. apply sumn_ext. intros u Hu.
    apply sumn_ext. intros s Hs.
    rewrite (chunkOf_nth n s (sEq p) m) by assumption.
    rewrite (chunkOf_nth n s (sVL p) (a * m)) by (try assumption; nia).
    rewrite (chunkOf_nth n s (sVR p) (b * m)) by (try assumption; nia).
    rewrite !Nat.mul_add_distr_r, !Nat.mul_assoc, !Nat.add_assoc. reflexivity.
  Qed.

  Lemma part_HL n s m a b p r : (0 < n)%nat -> (s < n)%nat -> shape (m * n) (2 * a) b p ->
    part n s (foldHL p r) = foldHL (part n s p) r.
  Proof.
    intros Hn Hs [H1 H2 H3 H4 H5 H6]. unfold part, foldHL. cbn [sEq sVL sVR sStatic sGates dHL dHR dHPrime].
    rewrite (chunkOf_foldv n s (sVL p) (a * m)) by (try assumption; nia). reflexivity.
  Qed.
  Lemma part_HR n s m b p r : (0 < n)%nat -> (s < n)%nat -> shape (m * n) 1 (2 * b) p ->
    part n s (foldHR p r) = foldHR (part n s p) r.
  Proof.
    intros Hn Hs [H1 H2 H3 H4 H5 H6]. unfold part, foldHR. cbn [sEq sVL sVR sStatic sGates dHL dHR dHPrime].
    rewrite (chunkOf_foldv n s (sVR p) (b * m)) by (try assumption; nia). reflexivity.
  Qed.
  Lemma part_HP n s m p r : (0 < n)%nat -> (s < n)%nat -> shape (2 * m * n) 1 1 p ->
    part n s (foldHP p r) = foldHP (part n s p) r.
  Proof.
    intros Hn Hs [H1 H2 H3 H4 H5 H6]. unfold part, foldHP. cbn [sEq sVL sVR sStatic sGates dHL dHR dHPrime].
    rewrite !(chunkOf_foldv n s _ m) by (try assumption; nia). reflexivity.
  Qed.

  (** The operations of round [j]. *)
  Definition evalsAt (bG j : nat) (p : Prover F) : option (list F) :=
    (if j <? bG then GetEvalsOnHL p else if j <? bG + bG then GetEvalsOnHR p else GetEvalsOnHPrime p)%nat.
  Definition foldAt (bG j : nat) (p : Prover F) (r : F) : Prover F :=
    (if j <? bG then foldHL p r else if j <? bG + bG then foldHR p r else foldHP p r)%nat.
  Definition degAt (bG j : nat) (p : Prover F) : nat :=
    (if j <? bG then dHL p else if j <? bG + bG then dHR p else dHPrime p)%nat.

  (** Shape before round [j], with [q] interleaved chunks. *)
  Definition shp (bG k q j : nat) (p : Prover F) : Prop :=
    shape (2 ^ (k - (j - (bG + bG))) * q) (2 ^ (bG - j)) (2 ^ (bG - (j - bG))) p.
  (** The sum of what is left before round [j], for one of the chunks. *)
  Definition val (bG k q j : nat) (p : Prover F) : F :=
    psum (2 ^ (k - (j - (bG + bG))) * q) (2 ^ (bG - j)) (2 ^ (bG - (j - bG))) p.

  Lemma round_facts bG k q n j p : (0 < q)%nat -> (j < bG + bG + k)%nat -> (bG = 0%nat \/ sGates p <> []) -> manys p ->
    shp bG k q j p ->
    evalsAt bG j p = Some (map (fun t => val bG k q (S j) (foldAt bG j p (fnat t))) (seq 0 (degAt bG j p + 1))) /\
    (forall r, shp bG k q (S j) (foldAt bG j p r)) /\
    (q = n -> forall s r, (s < n)%nat -> part n s (foldAt bG j p r) = foldAt bG j (part n s p) r).
  Proof.
    intros Hq Hj Hne Hm HS. unfold shp, val, evalsAt, foldAt, degAt in *.
    destruct (Nat.ltb_spec j bG) as [H1|H1]; [|destruct (Nat.ltb_spec j (bG + bG)) as [H2|H2]].
    - replace (j - (bG + bG))%nat with 0%nat in * by lia. replace (S j - (bG + bG))%nat with 0%nat by lia.
      replace (j - bG)%nat with 0%nat in * by lia. replace (S j - bG)%nat with 0%nat by lia.
      replace (bG - j)%nat with (S (bG - S j)) in HS by lia. rewrite Nat.pow_succ_r' in HS.
      split; [apply GetEvalsOnHL_spec; auto; [apply pow_pos|destruct Hne; [lia|assumption]]|].
      split; [intros r; apply shape_HL; exact HS|]. intros -> s r Hs. eapply part_HL; eauto.
    - replace (j - (bG + bG))%nat with 0%nat in * by lia. replace (S j - (bG + bG))%nat with 0%nat by lia.
      replace (bG - j)%nat with 0%nat in * by lia. replace (bG - S j)%nat with 0%nat by lia.
      replace (bG - (j - bG))%nat with (S (bG - (S j - bG))) in HS by lia. rewrite (Nat.pow_succ_r' 2 (bG - (S j - bG))) in HS.
      split; [apply GetEvalsOnHR_spec; auto|].
      split; [intros r; apply shape_HR; exact HS|]. intros -> s r Hs. eapply part_HR; eauto.
    - replace (bG - j)%nat with 0%nat in * by lia. replace (bG - S j)%nat with 0%nat by lia.
      replace (bG - (j - bG))%nat with 0%nat in * by lia. replace (bG - (S j - bG))%nat with 0%nat by lia.
      replace (k - (j - (bG + bG)))%nat with (S (k - (S j - (bG + bG)))) in HS by lia.
      rewrite (Nat.pow_succ_r' 2 (k - _)) in HS.
      split; [apply GetEvalsOnHPrime_spec with (n := (2 * 2 ^ (k - (S j - (bG + bG))) * q)%nat); [rewrite <- Nat.mul_assoc; apply half_double|exact HS]|].
      split; [intros r; apply shape_HP; rewrite Nat.mul_assoc; exact HS|]. intros -> s r Hs. eapply part_HP; eauto.
  Qed.
End S.
