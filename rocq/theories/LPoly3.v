(** Property-shaped corollaries of LPoly.v / LPoly2.v. *)
From Coq Require Import List Arith ZArith Lia Bool Ring Field.
From Verif Require Import Field Go MCommon Spec MPoly LSpec LCommon LPoly LPoly2 FrPrime Fr.
Import ListNotations.

Section G.
  Variable F : Field.
  Add Field FfieldLPoly3 : (f_theory F).
  Open Scope F_scope.

  Lemma fold_spec (t : list F) (r : F) (m : nat) :
    length t = (2 * m)%nat ->
    exists t', Fold t r = Some t' /\ length t' = m /\
      forall i, (i < m)%nat -> nth i t' 0 = (1 - r) * nth i t 0 + r * nth (i + m) t 0.
  Proof.
    intros H. exists (foldv t r). split; [apply Fold_foldv|]. split.
    - rewrite foldv_length, H, Nat.mul_comm, Nat.div_mul; lia.
    - intros i Hi. rewrite (foldv_nth t r m) by assumption. rewrite (Nat.add_comm i m). reflexivity.
  Qed.

  Lemma fold_all_spec (t rs : list F) :
    length t = (2 ^ length rs)%nat -> exists v, FoldMany t rs = Some [v].
  Proof. intros H. exists (mle t rs). rewrite FoldMany_foldsv, foldsv_full by assumption. reflexivity. Qed.

  Lemma fold_total (t : list F) (r : F) : exists t', Fold t r = Some t' /\ length t' = (length t / 2)%nat.
  Proof. exists (foldv t r). split; [apply Fold_foldv|apply foldv_length]. Qed.

  Lemma evaluate_boolean (t : list F) (b : list bool) :
    length t = (2 ^ length b)%nat -> Evaluate t (bpoint b) = Some (nth (bits_val b) t 0).
  Proof. intros H. rewrite Evaluate_mle by (rewrite bpoint_length; exact H). rewrite mle_bpoint. reflexivity. Qed.

  Lemma evaluate_too_many (t x : list F) n :
    length t = (2 ^ n)%nat -> (n < length x)%nat -> Evaluate t x = None.
  Proof.
    intros H Hn. apply Evaluate_panics. rewrite H. apply Nat.pow_lt_mono_r; lia.
  Qed.

  Lemma eq_table_spec (q : list F) :
    exists t, GetFoldedEqTable q = Some t /\ length t = (2 ^ length q)%nat /\
      (forall b, length b = length q -> nth (bits_val b) t 0 = chi b q) /\
      suml t (fun x => x) = 1.
  Proof.
    exists (eqtab q). split; [apply GetFoldedEqTable_spec|]. split; [apply eqtab_length|].
    split; [intros; apply eqtab_nth; assumption|apply eqtab_sum].
  Qed.

  Lemma eval_eq_spec (q h : list F) :
    length q = length h ->
    EvalEq q h = Some (eqprod q h) /\
    EvalEq q h = (t <- GetFoldedEqTable q ;; Evaluate t h) /\
    EvalEq q h = EvalEq h q.
  Proof.
    intros H. rewrite !EvalEq_spec by lia. split; [reflexivity|]. split.
    - rewrite GetFoldedEqTable_spec, Evaluate_mle by (rewrite eqtab_length, H; reflexivity).
      rewrite mle_eqtab by assumption. reflexivity.
    - rewrite eqprod_sym. reflexivity.
  Qed.

  Lemma eval_eq_boolean (b c : list bool) :
    length b = length c ->
    EvalEq (F:=F) (bpoint b) (bpoint c) = Some (if list_eq_dec bool_dec b c then 1 else 0).
  Proof.
    intros H. rewrite EvalEq_spec by (rewrite !bpoint_length; lia). f_equal.
    rewrite chi_eqprod by (rewrite bpoint_length; exact H).
    destruct (list_eq_dec bool_dec b c) as [->|Hne]; [apply chi_bpoint_same|apply chi_bpoint_diff; assumption].
  Qed.

  Lemma eqprod_firstn (q h : list F) : eqprod q (firstn (length q) h) = eqprod q h.
  Proof. revert h; induction q as [|x q IH]; intros [|y h]; simpl; auto. rewrite IH. reflexivity. Qed.

  Lemma eval_eq_longer (q h : list F) :
    (length q <= length h)%nat -> EvalEq q h = Some (eqprod q (firstn (length q) h)).
  Proof. intros H. rewrite EvalEq_spec by assumption. rewrite eqprod_firstn. reflexivity. Qed.

  Lemma chunked_eq_spec (q : list F) (k nCore : nat) :
    (0 < nCore)%nat -> (k <= length q)%nat ->
    exists chunks t, GetChunkedEqTable q (2 ^ k) nCore = Some chunks /\ GetFoldedEqTable q = Some t /\
      length chunks = (2 ^ k)%nat /\
      (forall s, (s < 2 ^ k)%nat -> length (nth s chunks []) = (2 ^ (length q - k))%nat) /\
      (forall u s, (u < 2 ^ (length q - k))%nat -> (s < 2 ^ k)%nat ->
         nth u (nth s chunks []) 0 = nth (u * 2 ^ k + s) t 0).
  Proof.
    intros Hc Hk. eexists. eexists. split; [apply GetChunkedEqTable_spec; assumption|].
    split; [apply GetFoldedEqTable_spec|].
    split; [rewrite map_length, cube_length; reflexivity|]. split.
    - intros s Hs. rewrite nth_map_lt with (d' := []) by (rewrite cube_length; assumption).
      rewrite map_length, eqtab_length, firstn_length. f_equal. lia.
    - intros u s Hu Hs. rewrite <- (chunked_eqtab_interleave q k Hk).
      match goal with |- _ = nth _ (interleave _ ?c) _ =>
        assert (E : (2 ^ k)%nat = length c) by (rewrite map_length, cube_length; reflexivity);
        replace (u * 2 ^ k + s)%nat with (u * length c + s)%nat by (rewrite <- E; reflexivity) end.
      rewrite interleave_nth by (rewrite <- ?E; assumption). reflexivity.
  Qed.

  Lemma chunked_eq_panics (q : list F) (nChunks nCore : nat) :
    (2 ^ length q < nChunks \/ (forall k, nChunks <> 2 ^ k))%nat -> GetChunkedEqTable q nChunks nCore = None.
  Proof.
    intros [H|H]; [apply GetChunkedEqTable_too_many|apply GetChunkedEqTable_not_pow2]; assumption.
  Qed.

  Lemma tabs_of_In k L (chunks : list (list F)) :
    length chunks = k -> (forall c, In c chunks -> length c = L) -> tabs k L chunks.
  Proof. intros H1 H2. split; [exact H1|]. intros i Hi. apply H2, nth_In. lia. Qed.

  Lemma evaluate_chunked_spec (chunks : list (list F)) (q : list F) (k m : nat) :
    (0 < k)%nat -> length chunks = (2 ^ k)%nat -> (forall c, In c chunks -> length c = (2 ^ m)%nat) ->
    length q = (m + k)%nat ->
    EvaluateChunked chunks q = Evaluate (interleave (2 ^ m) chunks) q /\
    EvaluateChunked chunks q = Some (mle (interleave (2 ^ m) chunks) q).
  Proof.
    intros Hk HL HC Hq. rewrite (EvaluateChunked_ok chunks q k m); auto using tabs_of_In.
    split; [|reflexivity]. symmetry. apply Evaluate_mle.
    rewrite interleave_length, HL, Hq, Nat.pow_add_r. reflexivity.
  Qed.

  Lemma interleave_one (t : list F) m : length t = m -> interleave m [t] = t.
  Proof.
    intros H. symmetry. apply interleave_eq; simpl; [lia|].
    intros u s Hu Hs. destruct s; [|lia]. f_equal. lia.
  Qed.

  Lemma evaluate_chunked_one (t q : list F) :
    length t = (2 ^ length q)%nat ->
    EvaluateChunked [t] q = None /\ exists v, Evaluate (interleave (2 ^ length q) [t]) q = Some v.
  Proof.
    intros H. split; [apply EvaluateChunked_one|]. rewrite interleave_one by assumption.
    eexists. apply Evaluate_mle. exact H.
  Qed.

  Lemma evaluate_mixed_chunked_spec (chunks : list (list F)) (hP hL hR : list F) (k m g : nat) :
    (0 < k)%nat -> length chunks = (2 ^ k)%nat -> (forall c, In c chunks -> length c = (2 ^ (g + m))%nat) ->
    length hP = (m + k)%nat -> length hL = g -> length hR = g ->
    EvaluateMixedChunked chunks hP hL hR = EvaluateLeftAndRight (interleave (2 ^ (g + m)) chunks) hP hL hR /\
    EvaluateMixedChunked chunks hP hL hR =
      Some (mle (interleave (2 ^ (g + m)) chunks) (hL ++ hP), mle (interleave (2 ^ (g + m)) chunks) (hR ++ hP)).
  Proof.
    intros Hk HL HC H1 H2 H3.
    rewrite (EvaluateMixedChunked_ok chunks hP hL hR k m g); auto using tabs_of_In.
    split; [|reflexivity]. symmetry. apply EvaluateLeftAndRight_mle; [congruence|].
    rewrite interleave_length, HL, H1, H2, <- Nat.pow_add_r. f_equal. lia.
  Qed.

  Lemma evaluate_mixed_chunked_one (t hP hL hR : list F) :
    length hL = length hR -> length t = (2 ^ (length hL + length hP))%nat ->
    EvaluateMixedChunked [t] hP hL hR = None /\ exists v, EvaluateLeftAndRight t hP hL hR = Some v.
  Proof.
    intros H1 H2. split; [apply EvaluateMixedChunked_one|].
    eexists. apply EvaluateLeftAndRight_mle; assumption.
  Qed.

  Lemma interleaved_chunk_spec (t : list F) (nChunk m s : nat) :
    length t = (m * nChunk)%nat -> (s < nChunk)%nat ->
    exists c, InterleavedChunk t s nChunk = Some c /\ length c = m /\
      forall u, (u < m)%nat -> nth u c 0 = nth (u * nChunk + s) t 0.
  Proof.
    intros HL Hs. eexists. split; [apply InterleavedChunk_spec; lia|].
    assert (E : (length t / nChunk)%nat = m) by (rewrite HL, Nat.div_mul; lia). rewrite E.
    split; [rewrite map_length, seq_length; reflexivity|].
    intros u Hu. rewrite nth_map_seq by assumption. f_equal. lia.
  Qed.

  Lemma interleaved_chunks_eq (t : list F) nChunk : (0 < nChunk)%nat ->
    mapM (fun s => InterleavedChunk t s nChunk) (seq 0 nChunk) = Some (chunksOf t nChunk).
  Proof.
    intros Hn. unfold chunksOf. apply mapM_some. intros s Hs. apply in_seq in Hs.
    apply InterleavedChunk_spec; lia.
  Qed.

  Lemma interleaved_chunks_rebuild (t : list F) (nChunk m : nat) :
    (0 < nChunk)%nat -> length t = (m * nChunk)%nat ->
    exists chunks, mapM (fun s => InterleavedChunk t s nChunk) (seq 0 nChunk) = Some chunks /\
      length chunks = nChunk /\ interleave m chunks = t.
  Proof.
    intros Hn HL. exists (chunksOf t nChunk). split; [apply interleaved_chunks_eq; assumption|].
    split; [apply chunksOf_length|]. apply interleave_chunksOf; assumption.
  Qed.

  Lemma interleaved_chunks_evaluate (t q : list F) (k : nat) :
    (0 < k <= length q)%nat -> length t = (2 ^ length q)%nat ->
    (chunks <- mapM (fun s => InterleavedChunk t s (2 ^ k)) (seq 0 (2 ^ k)) ;; EvaluateChunked chunks q)
    = Evaluate t q.
  Proof.
    intros Hk HL. assert (Hp : (0 < 2 ^ k)%nat) by (pose proof (Nat.pow_nonzero 2 k); lia).
    rewrite interleaved_chunks_eq by assumption.
    assert (E : length t = (2 ^ (length q - k) * 2 ^ k)%nat) by (rewrite HL, <- Nat.pow_add_r; f_equal; lia).
    rewrite (EvaluateChunked_ok _ q k (length q - k)); try lia.
    - rewrite interleave_chunksOf by assumption. symmetry. apply Evaluate_mle. exact HL.
    - split; [apply chunksOf_length|]. intros i Hi. rewrite chunksOf_nth by assumption.
      rewrite map_length, seq_length, E, Nat.div_mul by lia. reflexivity.
  Qed.

  Lemma evaluate_polynomial_spec (c : list F) (x : F) :
    EvaluatePolynomial c x =
    match c with [] => None | _ => Some (sumn (length c) (fun i => nth i c 0 * fpow x i)) end.
  Proof. destruct c as [|a c]; [reflexivity|]. apply EvaluatePolynomial_spec. discriminate. Qed.

  Lemma linear_combination_spec (t0 t1 : list F) (a0 a1 : F) :
    length t0 = length t1 ->
    exists t0' t1', LinearCombination t0 t1 a0 a1 = Some (t0', t1') /\
      length t1' = length t1 /\ (forall i, (i < length t1)%nat -> nth i t1' 0 = a0 * nth i t0 0 + a1 * nth i t1 0) /\
      length t0' = length t0 /\ (forall i, (i < length t0)%nat -> nth i t0' 0 = a0 * nth i t0 0).
  Proof.
    intros H. eexists. eexists. split; [apply LinearCombination_spec; exact H|].
    split; [rewrite map_length, seq_length; reflexivity|]. split.
    - intros i Hi. rewrite nth_map_seq by assumption. reflexivity.
    - split; [apply map_length|]. intros i Hi. rewrite nth_map_lt with (d' := 0) by assumption. ring.
  Qed.

  Lemma linear_combination_eval (t0 t1 x : list F) (a0 a1 : F) :
    length t0 = (2 ^ length x)%nat -> length t1 = (2 ^ length x)%nat ->
    (' (_, t) <- LinearCombination t0 t1 a0 a1 ;; Evaluate t x)
    = (v0 <- Evaluate t0 x ;; v1 <- Evaluate t1 x ;; Some (a0 * v0 + a1 * v1)).
  Proof.
    intros H0 H1. rewrite LinearCombination_spec by congruence.
    rewrite !Evaluate_mle by (rewrite ?map_length, ?seq_length; assumption). f_equal.
    apply mle_linear. intros i Hi. rewrite nth_map_seq by (rewrite H1; assumption). reflexivity.
  Qed.

  Lemma linear_combination_panics (t0 t1 : list F) (a0 a1 : F) :
    (length t0 < length t1)%nat -> LinearCombination t0 t1 a0 a1 = None.
  Proof.
    intros H. unfold LinearCombination, forN.
    replace (length t1) with (length t0 + S (length t1 - length t0 - 1))%nat by lia.
    rewrite seq_app, foldM_app.
    match goal with |- match foldM ?f ?l ?s with _ => _ end = _ =>
      destruct (foldM f l s) as [[b0 b1]|] eqn:E; [|reflexivity] end.
    apply (foldM_pres (fun s => length (fst s) = length t0)) in E; [|clear E|reflexivity].
    - simpl in E. cbn [seq foldM Nat.add]. rewrite (get_none b0) by lia. reflexivity.
    - intros [s0 s1] i [s0' s1'] Hs Hi. simpl in Hs.
      destruct (get s0 i); [|discriminate].
      destruct (set s0 i _) as [u|] eqn:E1; [|discriminate].
      destruct (get s1 i); [|discriminate].
      destruct (set s1 i _) as [v|] eqn:E2; [|discriminate].
      destruct (get v i); [|discriminate]. destruct (get u i); [|discriminate].
      destruct (set v i _) as [w|] eqn:E3; [|discriminate].
      injection Hi as <- <-. simpl. apply set_length in E1. congruence.
  Qed.
End G.

(** chunk ranges *)
Lemma chunk_ranges_spec (R : Z -> Z -> list (Z * Z) -> Prop)
  (Rnil : forall b N, R b N [] <-> b = N)
  (Rcons : forall b N x y l, R b N ((x, y) :: l) <-> x = b /\ (x < y)%Z /\ R y N l)
  (nCore N : Z) : nCore <> 0%Z -> (0 <= N)%Z ->
  exists chunks, IntoChunkRanges nCore N = Some chunks /\
    R 0%Z N chunks /\
    (forall l x y l', chunks = l ++ (x, y) :: l' -> l' <> [] -> (y - x = Z.max 4096 (Z.quot N nCore))%Z) /\
    (forall x y, In (x, y) chunks -> (y - x <= Z.max 4096 (Z.quot N nCore))%Z).
Proof.
  intros Hc HN. rewrite IntoChunkRanges_eq by assumption. eexists. split; [reflexivity|].
  fold (chunk_size nCore N). set (c := chunk_size nCore N).
  assert (Hc4 : (4096 <= c)%Z) by (unfold c, chunk_size; lia).
  set (n := chunk_count nCore N).
  assert (Hn : (0 <= n)%Z /\ ((0 < N)%Z -> ((n - 1) * c < N /\ N <= n * c)%Z) /\ (N = 0%Z -> n = 0%Z)).
  { destruct (Z.eq_dec N 0) as [->|].
    - unfold n. rewrite chunk_count_0. lia.
    - destruct (chunk_count_bounds nCore N ltac:(lia)) as (A & B & C & D). fold c n in A, B, C, D. lia. }
  destruct Hn as (Hn0 & Hn1 & Hn2).
  assert (HR : forall k b, (Z.of_nat b + Z.of_nat k = n)%Z ->
     R (if (k =? 0)%nat then N else Z.of_nat b * c)%Z N
       (map (fun i => (Z.of_nat i * c, Z.min N ((Z.of_nat i + 1) * c))%Z) (seq b k))).
  { induction k as [|k IH]; intros b Hb; cbn [seq map Nat.eqb].
    - apply Rnil. reflexivity.
    - apply Rcons. split; [reflexivity|].
      assert (0 < N)%Z by (destruct (Z.eq_dec N 0); [specialize (Hn2 e); lia|lia]).
      destruct (Hn1 H) as [H1 H2].
      assert (Z.of_nat b * c <= (n - 1) * c)%Z by (apply Z.mul_le_mono_nonneg_r; lia).
      split; [lia|]. specialize (IH (S b) ltac:(lia)).
      destruct k as [|k]; cbn [Nat.eqb] in IH.
      + rewrite Z.min_l; [exact IH|]. replace (Z.of_nat b + 1)%Z with n by lia. lia.
      + rewrite Z.min_r.
        * replace (Z.of_nat b + 1)%Z with (Z.of_nat (S b)) by lia. exact IH.
        * assert ((Z.of_nat b + 1) * c <= (n - 1) * c)%Z by (apply Z.mul_le_mono_nonneg_r; lia). lia. }
  split; [|split].
  - specialize (HR (Z.to_nat n) 0%nat ltac:(lia)).
    destruct (Nat.eqb_spec (Z.to_nat n) 0) as [E|E]; [|exact HR].
    rewrite E in *. assert (N = 0)%Z by (destruct (Z.eq_dec N 0); [assumption|destruct (Hn1 ltac:(lia)); nia]).
    subst N. exact HR.
  - intros l x y l' E Hl'.
    assert (Hlen : Z.to_nat n = (length l + S (length l'))%nat).
    { apply (f_equal (@length _)) in E. rewrite map_length, seq_length, app_length in E. exact E. }
    assert (Hnth := f_equal (fun L => nth (length l) L (0, 0)%Z) E). cbn beta in Hnth.
    rewrite nth_map_seq in Hnth by lia. rewrite app_nth2, Nat.sub_diag in Hnth by lia.
    cbn [nth] in Hnth. injection Hnth as <- <-.
    assert (0 < N)%Z by (destruct (Z.eq_dec N 0); [specialize (Hn2 e); lia|lia]).
    destruct (Hn1 H) as [H1 H2].
    assert (0 < length l')%nat by (destruct l'; [congruence|simpl; lia]).
    assert ((Z.of_nat (length l) + 1) * c <= (n - 1) * c)%Z by (apply Z.mul_le_mono_nonneg_r; lia).
    rewrite Z.min_r by lia. lia.
  - intros x y Hin. apply in_map_iff in Hin. destruct Hin as (i & E & Hi). injection E as <- <-. lia.
Qed.

Lemma chunk_ranges_empty (nCore : Z) : nCore <> 0%Z -> IntoChunkRanges nCore 0 = Some [].
Proof. intros H. rewrite IntoChunkRanges_eq by lia. rewrite chunk_count_0. reflexivity. Qed.

(** at the BN254 scalar field *)
Lemma Fr_distinct_le n : (n <= 13)%nat -> distinct_upto (F:=Fr) n.
Proof. intros H. apply (distinct_upto_le 13); [exact H|apply Fr_distinct_13]. Qed.

Lemma interpolation_exact (values : list Fr) : (length values <= 12)%nat ->
  exists c, InterpolateOnRange values = Some c /\ length c = length values /\
    forall i, (i < length values)%nat -> peval c (fnat i) = nth i values 0%F.
Proof. intros H. apply InterpolateOnRange_ok; [apply Fr_distinct_le; lia|exact H]. Qed.

Lemma interpolation_unique (values c : list Fr) : (length values <= 12)%nat ->
  length c = length values ->
  (forall i, (i < length values)%nat -> peval c (fnat i) = nth i values 0%F) ->
  InterpolateOnRange values = Some c.
Proof. intros H. apply InterpolateOnRange_unique; [apply Fr_distinct_le; lia|exact H]. Qed.

Lemma lagrange_basis (n : nat) : (Z.of_nat n <= frModulus)%Z ->
  exists rows, LagrangeCoefficient (F:=Fr) n = Some rows /\ length rows = n /\
    forall l, (l < n)%nat -> length (nth l rows []) = n /\
      forall i, (i < n)%nat -> peval (nth l rows []) (fnat i) = if (i =? l)%nat then 1%F else 0%F.
Proof. intros H. apply LagrangeCoefficient_ok. apply Fr_distinct. exact H. Qed.

Lemma interpolation_limit (values : list Fr) : InterpolateOnRange values = None <-> (12 < length values)%nat.
Proof.
  split.
  - intros E. destruct (Nat.le_gt_cases (length values) 12) as [H|H]; [|exact H].
    destruct (interpolation_exact values H) as (c & E' & _). congruence.
  - apply InterpolateOnRange_limit.
Qed.
