(** Lemmas about the model of package polynomial, second part: chunked tables, Horner
    evaluation, Lagrange interpolation. *)
From Coq Require Import List Arith ZArith Lia Bool Ring Field.
From Verif Require Import Field Go MCommon Spec MPoly LSpec LCommon LPoly LEffect.
Import ListNotations.

Lemma foldM_last_none {A S} (P : S -> Prop) (f : S -> A -> option S) l a s :
  P s -> (forall s, P s -> f s a = None) ->
  (forall s b s', P s -> f s b = Some s' -> P s') ->
  foldM f (l ++ [a]) s = None.
Proof.
  intros HP Hn Hp. revert s HP. induction l as [|b l IH]; intros s HP; simpl.
  - rewrite Hn by assumption. reflexivity.
  - destruct (f s b) as [s'|] eqn:E; [|reflexivity]. apply IH. eapply Hp; eauto.
Qed.

Lemma foldM_pres {A S} (P : S -> Prop) (f : S -> A -> option S) l s s' :
  (forall s b s', P s -> f s b = Some s' -> P s') -> P s -> foldM f l s = Some s' -> P s'.
Proof.
  intros Hp. revert s. induction l as [|b l IH]; intros s HP H; simpl in H.
  - injection H as <-. assumption.
  - destruct (f s b) as [s1|] eqn:E; [|discriminate]. apply (IH s1); eauto.
Qed.

Lemma set_length {A} (l : list A) i v l' : set l i v = Some l' -> length l' = length l.
Proof.
  unfold set. destruct (i <? length l); [|discriminate]. intros H. injection H as <-. apply upd_length.
Qed.

Lemma combine_seq_snoc {A} (l : list A) x a :
  combine (seq a (length (l ++ [x]))) (l ++ [x]) = combine (seq a (length l)) l ++ [(a + length l, x)].
Proof.
  revert a; induction l as [|y l IH]; intros a; simpl.
  - rewrite Nat.add_0_r. reflexivity.
  - rewrite IH. replace (a + S (length l)) with (S a + length l) by lia. reflexivity.
Qed.

Lemma NoDup_map_in {A B} (f : A -> B) l :
  (forall x y, In x l -> In y l -> f x = f y -> x = y) -> NoDup l -> NoDup (map f l).
Proof.
  induction l as [|a l IH]; intros H Hnd; [constructor|].
  inversion Hnd as [|? ? Ha Hl]; subst. simpl. constructor.
  - intros Hin. apply in_map_iff in Hin. destruct Hin as (b & E & Hb).
    apply H in E; [subst; contradiction|right; assumption|left; reflexivity].
  - apply IH; [|assumption]. intros x y Hx Hy. apply H; right; assumption.
Qed.

Section LPoly2.
  Context {F : Field}.
  Add Field FfieldLPoly2 : (f_theory F).
  Open Scope F_scope.
  Implicit Types t q h dst left right : list F.

  Lemma EvalEq_panics q h : (length h < length q)%nat -> EvalEq q h = None.
  Proof.
    intros H. unfold EvalEq, forN.
    replace (length q) with (length h + S (length q - length h - 1))%nat by lia.
    rewrite seq_app, foldM_app. destruct (foldM _ _ 1) as [s|]; [|reflexivity].
    cbn [seq foldM Nat.add]. destruct (get q (length h)); [|reflexivity].
    rewrite get_none by lia. reflexivity.
  Qed.

  (** ** Chunked eq table *)
  Definition tmul (r : F) t : list F := map (fun a => a * r) t.
  Definition tsub1 (r : F) t : list F := map (fun i => nth i t 0 - nth i (tmul r t) 0) (seq 0 (length t)).

  Lemma chain_tables b q t : length b = length q ->
    chain tmul tsub1 b q t = map (fun a => a * chi b q) t.
  Proof.
    revert q t. induction b as [|c b IH]; intros [|r q] t H; simpl in *; try discriminate.
    - rewrite <- (map_id t) at 1. apply map_ext. intros a. ring.
    - rewrite IH by lia. destruct c.
      + unfold tmul. rewrite map_map. apply map_ext. intros a. ring.
      + apply (list_ext 0).
        * unfold tsub1. rewrite !map_length, seq_length. reflexivity.
        * intros i Hi. unfold tsub1 in Hi. rewrite !map_length, seq_length in Hi.
          rewrite !nth_map_lt with (d' := 0) by (unfold tsub1; rewrite ?map_length, ?seq_length; assumption).
          unfold tsub1. rewrite nth_map_seq by assumption. unfold tmul.
          rewrite nth_map_lt with (d' := 0) by assumption. ring.
  Qed.

  Lemma GetChunkedEqTable_spec q k nCore : (0 < nCore)%nat -> (k <= length q)%nat ->
    GetChunkedEqTable q (2 ^ k) nCore =
    Some (map (fun b => map (fun a => a * chi b (skipn (length q - k) q)) (eqtab (firstn (length q - k) q))) (cube k)).
  Proof.
    intros Hc Hk. unfold GetChunkedEqTable. rewrite log2ceil_pow2, gosub_some by assumption.
    rewrite GetFoldedEqTable_spec.
    assert (Hp : (0 < 2 ^ k)%nat) by (pose proof (Nat.pow_nonzero 2 k); lia).
    rewrite set_some by (rewrite repeat_length; assumption).
    set (tail := skipn (length q - k) q). set (t0 := eqtab (firstn (length q - k) q)).
    assert (HT : length tail = k) by (unfold tail; rewrite skipn_length; lia).
    pose (body := fun (r : F) (res : list (list F)) (J JNext : nat) =>
      tJ <- get res J ;; tN <- get res JNext ;; tN <- TabMul tN r tJ nCore ;;
      res <- set res JNext tN ;; tJ <- TabSub tJ tJ tN nCore ;; set res J tJ).
    transitivity (foldM (dbl_step body (length tail)) (combine (seq 0 (length tail)) tail)
                    (upd (repeat [] (2 ^ k)) 0 t0)).
    { rewrite HT. apply foldM_ext. intros s [i r] _. reflexivity. }
    rewrite (dbl_run [] tmul tsub1 (fun _ => True)) with (x := t0); auto.
    - rewrite HT. f_equal. apply map_ext_in. intros b Hb. apply in_cube in Hb.
      rewrite chain_tables by lia. reflexivity.
    - intros r res J JN HJ HJN Hne _. unfold body.
      rewrite (get_nth res J []), (get_nth res JN []) by assumption.
      rewrite TabMul_spec by assumption. rewrite set_some by assumption.
      rewrite TabSub_spec by (rewrite ?map_length; auto).
      rewrite set_some by (rewrite upd_length; assumption). reflexivity.
    - rewrite upd_length, repeat_length, HT. reflexivity.
    - rewrite nth_upd_same by (rewrite repeat_length; assumption). reflexivity.
  Qed.

  Lemma chunked_eq_step_len k nCore res ir res' :
    chunked_eq_step (F:=F) k nCore res ir = Some res' -> length res' = length res.
  Proof.
    destruct ir as [i r]. unfold chunked_eq_step, forN. intros H.
    apply (foldM_pres (fun s => length s = length res) _ _ _ _) in H; auto.
    intros s b s' Hs Hb.
    destruct (get s _) as [tJ|]; [|discriminate].
    destruct (get s _) as [tN|]; [|discriminate].
    destruct (TabMul _ _ _ _) as [tN'|]; [|discriminate].
    destruct (set s _ tN') as [s1|] eqn:E1; [|discriminate].
    destruct (TabSub _ _ _ _) as [tJ'|]; [|discriminate].
    apply set_length in E1. apply set_length in Hb. congruence.
  Qed.

  Lemma GetChunkedEqTable_too_many q nChunks nCore :
    (2 ^ length q < nChunks)%nat -> GetChunkedEqTable q nChunks nCore = None.
  Proof.
    intros H. unfold GetChunkedEqTable. apply log2ceil_gt_half in H.
    unfold gosub. destruct (Nat.leb_spec (log2ceil nChunks) (length q)); [lia|reflexivity].
  Qed.

  Lemma GetChunkedEqTable_not_pow2 q nChunks nCore :
    (forall k, nChunks <> 2 ^ k)%nat -> GetChunkedEqTable q nChunks nCore = None.
  Proof.
    intros H. unfold GetChunkedEqTable. set (k := log2ceil nChunks).
    unfold gosub. destruct (Nat.leb_spec k (length q)) as [Hk|]; [|reflexivity].
    rewrite GetFoldedEqTable_spec.
    destruct (Nat.eq_dec nChunks 0) as [E0|H0].
    { rewrite E0. reflexivity. }
    rewrite set_some by (rewrite repeat_length; lia).
    destruct (log2ceil_spec nChunks) as [L1 L2]; [lia|]. fold k in L1, L2.
    assert (Hlt : (nChunks < 2 ^ k)%nat) by (specialize (H k); lia).
    assert (Hk0 : (0 < k)%nat) by (destruct k; [simpl in Hlt; lia|lia]).
    remember (skipn (length q - k) q) as tail eqn:Etail.
    assert (HT : length tail = k) by (subst; rewrite skipn_length; lia).
    destruct (@exists_last _ tail) as (tl & r & ->); [intros ->; simpl in HT; lia|].
    rewrite combine_seq_snoc. rewrite app_length in HT. simpl in HT.
    apply (foldM_last_none (fun s => length s = nChunks)).
    - rewrite upd_length, repeat_length. reflexivity.
    - intros s Hs. unfold chunked_eq_step, forN. rewrite Nat.add_0_l.
      assert (Hp : (0 < 2 ^ length tl)%nat) by (pose proof (Nat.pow_nonzero 2 (length tl)); lia).
      replace (2 ^ length tl)%nat with (S (2 ^ length tl - 1))%nat by lia.
      rewrite seq_S. apply (foldM_last_none (fun s => length s = nChunks)); auto.
      + intros s1 Hs1. cbn beta.
        replace (k - length tl)%nat with 1%nat by lia.
        replace (k - 1 - length tl)%nat with 0%nat by lia.
        destruct (get s1 _) as [tJ|]; [|reflexivity].
        rewrite (get_none s1); [reflexivity|]. rewrite Hs1.
        replace k with (S (length tl)) in Hlt by lia. rewrite Nat.pow_succ_r' in Hlt.
        simpl Nat.pow. lia.
      + intros s1 b s2 Hs1 Hb. cbn beta in Hb.
        destruct (get s1 _) as [tJ|]; [|discriminate].
        destruct (get s1 _) as [tN|]; [|discriminate].
        destruct (TabMul _ _ _ _) as [tN'|]; [|discriminate].
        destruct (set s1 _ tN') as [s3|] eqn:E1; [|discriminate].
        destruct (TabSub _ _ _ _) as [tJ'|]; [|discriminate].
        apply set_length in E1. apply set_length in Hb. congruence.
    - intros s b s' Hs Hb. apply chunked_eq_step_len in Hb. congruence.
  Qed.

  (** entries of the chunks are the interleaved entries of the whole table *)
  Lemma chunked_eqtab_interleave q k : (k <= length q)%nat ->
    interleave (2 ^ (length q - k))
      (map (fun b => map (fun a => a * chi b (skipn (length q - k) q)) (eqtab (firstn (length q - k) q))) (cube k))
    = eqtab q.
  Proof.
    intros Hk. symmetry. apply interleave_eq; rewrite map_length, cube_length.
    - rewrite eqtab_length, <- Nat.pow_add_r. f_equal. lia.
    - intros u s Hu Hs. rewrite nth_map_lt with (d' := []) by (rewrite cube_length; assumption).
      assert (L1 : length (firstn (length q - k) q) = (length q - k)%nat) by (rewrite firstn_length; lia).
      assert (L2 : length (skipn (length q - k) q) = k) by (rewrite skipn_length; lia).
      rewrite nth_map_lt with (d' := 0) by (rewrite eqtab_length, L1; assumption).
      rewrite nth_cube by assumption.
      assert (E : (u * 2 ^ k + s)%nat = bits_val (to_bits (length q - k) u ++ to_bits k s)).
      { rewrite bits_val_app, to_bits_length, !bits_val_to_bits by assumption. reflexivity. }
      rewrite E. rewrite eqtab_nth by (rewrite app_length, !to_bits_length; lia).
      assert (E' : nth u (eqtab (firstn (length q - k) q)) 0 = chi (to_bits (length q - k) u) (firstn (length q - k) q)).
      { rewrite <- (bits_val_to_bits (length q - k) u) at 1 by assumption.
        apply eqtab_nth. rewrite to_bits_length. auto. }
      rewrite E'.
      rewrite <- chi_app by (rewrite to_bits_length; auto). rewrite firstn_skipn. reflexivity.
  Qed.

  (** ** Recombination of chunked evaluations *)
  Definition col (u : nat) (bkts : list (list F)) : list F := map (fun t => nth u t 0) bkts.

  Definition tabs (k L : nat) (bkts : list (list F)) : Prop :=
    length bkts = k /\ forall i, (i < k)%nat -> length (nth i bkts []) = L.

  Lemma recombine_step_ok inp inp' (q : F) L m :
    tabs (2 * m) L inp ->
    exists res, recombine_step (inp, inp') q = Some (res, res) /\ tabs m L res /\
      forall u, (u < L)%nat -> col u res = foldv (col u inp) q.
  Proof.
    intros [H1 H2]. unfold recombine_step. rewrite H1.
    replace (2 * m / 2)%nat with m by (rewrite Nat.mul_comm, Nat.div_mul; lia).
    rewrite (mapM_some _ (fun k => map (fun u => nth u (nth k inp []) 0 +
        q * (nth u (nth (k + m) inp []) 0 - nth u (nth k inp []) 0)) (seq 0 L))).
    - eexists. split; [reflexivity|]. split.
      + split; [rewrite map_length, seq_length; reflexivity|].
        intros i Hi. rewrite nth_map_seq by assumption. rewrite map_length, seq_length. reflexivity.
      + intros u Hu. unfold col, foldv. rewrite !map_length, H1.
        replace (2 * m / 2)%nat with m by (rewrite Nat.mul_comm, Nat.div_mul; lia).
        rewrite map_map. apply map_ext_in. intros k Hk. apply in_seq in Hk.
        rewrite nth_map_seq by assumption.
        rewrite !nth_map_lt with (d' := []) by lia. rewrite (Nat.add_comm m k). reflexivity.
    - intros k Hk. apply in_seq in Hk.
      rewrite (get_nth inp (k + m) []), (get_nth inp k []) by lia.
      rewrite TabSub_spec by (rewrite ?H2; lia). rewrite TabMul_spec by lia.
      rewrite TabAdd_spec by (rewrite !map_length, seq_length, !H2; lia).
      f_equal. rewrite !map_length, seq_length, H2 by lia.
      apply map_ext_in. intros u Hu. apply in_seq in Hu. rewrite map_map.
      rewrite nth_map_seq by lia. ring.
  Qed.

  Lemma recombine_loop_ok qs : forall inp inp' L, tabs (2 ^ length qs) L inp -> qs <> [] ->
    exists r, foldM recombine_step qs (inp, inp') = Some ([r], [r]) /\ length r = L /\
      forall u, (u < L)%nat -> nth u r 0 = mle (col u inp) qs.
  Proof.
    induction qs as [|q qs IH]; intros inp inp' L HT Hne; [congruence|].
    cbn [length] in HT. rewrite Nat.pow_succ_r' in HT.
    destruct (recombine_step_ok inp inp' q L _ HT) as (res & E & HT' & Hc).
    cbn [foldM]. rewrite E.
    assert (Hm : forall u, (u < L)%nat -> mle (col u inp) (q :: qs) = mle (col u res) qs).
    { intros u Hu. rewrite Hc by assumption. apply mle_foldv.
      unfold col. rewrite map_length. destruct HT as [-> _]. rewrite Nat.pow_succ_r'. reflexivity. }
    destruct qs as [|q' qs].
    - cbn [length Nat.pow] in HT'. destruct HT' as [T1 T2].
      destruct res as [|r [|]]; try discriminate.
      exists r. split; [reflexivity|]. split; [apply (T2 0%nat); lia|].
      intros u Hu. rewrite Hm by assumption. rewrite mle_nil. reflexivity.
    - destruct (IH res res L HT' ltac:(congruence)) as (r & E2 & HL & Hr).
      exists r. split; [exact E2|]. split; [exact HL|].
      intros u Hu. rewrite Hr, Hm by assumption. reflexivity.
  Qed.

  Lemma chunkedEvalRecombine_ok bkts qs L : tabs (2 ^ length qs) L bkts -> qs <> [] ->
    exists r, chunkedEvalRecombine bkts qs = Some r /\ length r = L /\
      forall u, (u < L)%nat -> nth u r 0 = mle (col u bkts) qs.
  Proof.
    intros HT Hne. unfold chunkedEvalRecombine. destruct (HT) as [HL _]. rewrite HL, log2ceil_pow2, Nat.eqb_refl.
    cbn [negb]. destruct (recombine_loop_ok qs bkts [] L HT Hne) as (r & -> & H1 & H2).
    exists r. auto.
  Qed.

  Lemma chunkedEvalRecombine_mle bkts qs x : tabs (2 ^ length qs) (2 ^ length x) bkts -> qs <> [] ->
    exists r, chunkedEvalRecombine bkts qs = Some r /\ length r = (2 ^ length x)%nat /\
      mle r x = mle (interleave (2 ^ length x) bkts) (x ++ qs).
  Proof.
    intros HT Hne. destruct (chunkedEvalRecombine_ok bkts qs _ HT Hne) as (r & E & HL & H).
    exists r. split; [exact E|]. split; [exact HL|].
    rewrite mle_split_low. apply mle_ext. intros u Hu. rewrite nth_map_seq by assumption.
    rewrite H by assumption. apply mle_ext. intros s Hs. rewrite nth_map_seq by assumption.
    destruct HT as [T1 T2]. rewrite <- T1. rewrite interleave_nth by (rewrite ?T1; assumption).
    unfold col. rewrite nth_map_lt with (d' := []) by (rewrite T1; assumption). reflexivity.
  Qed.

  Lemma EvaluateChunked_ok bkts q k m :
    tabs (2 ^ k) (2 ^ m) bkts -> (0 < k)%nat -> length q = (m + k)%nat ->
    EvaluateChunked bkts q = Some (mle (interleave (2 ^ m) bkts) q).
  Proof.
    intros HT Hk Hq. unfold EvaluateChunked. destruct (HT) as [T1 _]. rewrite T1, log2ceil_pow2.
    rewrite gosub_some by lia. replace (length q - k)%nat with m by lia.
    assert (L1 : length (skipn m q) = k) by (rewrite skipn_length; lia).
    assert (L2 : length (firstn m q) = m) by (rewrite firstn_length; lia).
    destruct (chunkedEvalRecombine_mle bkts (skipn m q) (firstn m q)) as (r & -> & HL & H).
    - rewrite L1, L2. exact HT.
    - intros E. rewrite E in L1. simpl in L1. lia.
    - rewrite Evaluate_mle by exact HL. rewrite H, L2, firstn_skipn. reflexivity.
  Qed.

  Lemma EvaluateChunked_one t q : EvaluateChunked [t] q = None.
  Proof.
    unfold EvaluateChunked. cbn [length]. change (log2ceil 1) with 0%nat.
    rewrite gosub_some by lia. rewrite Nat.sub_0_r, skipn_all. reflexivity.
  Qed.

  Lemma EvaluateMixedChunked_ok bkts hP hL hR k m g :
    tabs (2 ^ k) (2 ^ (g + m)) bkts -> (0 < k)%nat -> length hP = (m + k)%nat ->
    length hL = g -> length hR = g ->
    EvaluateMixedChunked bkts hP hL hR =
    Some (mle (interleave (2 ^ (g + m)) bkts) (hL ++ hP), mle (interleave (2 ^ (g + m)) bkts) (hR ++ hP)).
  Proof.
    intros HT Hk Hq HLg HRg. unfold EvaluateMixedChunked. destruct (HT) as [T1 _]. rewrite T1, log2ceil_pow2.
    destruct (Nat.ltb_spec (length hP) k) as [Hlt|_]; [lia|]. replace (length hP - k)%nat with m by lia.
    assert (L1 : length (skipn m hP) = k) by (rewrite skipn_length; lia).
    assert (L2 : length (firstn m hP) = m) by (rewrite firstn_length; lia).
    assert (Hne : skipn m hP <> []) by (intros E; rewrite E in L1; simpl in L1; lia).
    destruct (chunkedEvalRecombine_mle bkts (skipn m hP) (hL ++ firstn m hP)) as (r & E & HL & H).
    { rewrite app_length, L1, L2, HLg. exact HT. } { exact Hne. }
    destruct (chunkedEvalRecombine_mle bkts (skipn m hP) (hR ++ firstn m hP)) as (r' & E' & HL' & H').
    { rewrite app_length, L1, L2, HRg. exact HT. } { exact Hne. }
    rewrite E in E'. injection E' as <-. rewrite E.
    rewrite app_length, L2, HLg in HL, H. rewrite app_length, L2, HRg in H'.
    rewrite <- app_assoc, firstn_skipn in H, H'.
    rewrite EvaluateLeftAndRight_mle by (rewrite ?L2, ?HLg; congruence || auto).
    rewrite H, H'. reflexivity.
  Qed.

  Lemma EvaluateMixedChunked_panics (bkts : list (list F)) hP hL hR :
    (2 ^ length hP < length bkts)%nat -> EvaluateMixedChunked bkts hP hL hR = None.
  Proof.
    intros H. unfold EvaluateMixedChunked. apply log2ceil_gt_half in H.
    destruct (Nat.ltb_spec (length hP) (log2ceil (length bkts))); [reflexivity|lia].
  Qed.

  Lemma EvaluateMixedChunked_one t hP hL hR : EvaluateMixedChunked [t] hP hL hR = None.
  Proof.
    unfold EvaluateMixedChunked. cbn [length]. change (log2ceil 1) with 0%nat.
    cbn [Nat.ltb Nat.leb]. rewrite Nat.sub_0_r, skipn_all.
    destruct (length hP <? 0)%nat; reflexivity.
  Qed.

  (** ** Horner evaluation *)
  Lemma horner_loop (coeffs : list F) x n r : (n <= length coeffs)%nat ->
    foldM (fun result i => c <- get coeffs i ;; Some (result * x + c)) (rev (seq 0 n)) r
    = Some (r * fpow x n + sumn n (fun i => nth i coeffs 0 * fpow x i)).
  Proof.
    revert r. induction n as [|n IH]; intros r Hn.
    - simpl. f_equal. rewrite sumn_0. ring.
    - rewrite seq_S, rev_app_distr. cbn [rev app Nat.add foldM].
      rewrite (get_nth coeffs n 0) by lia. rewrite IH by lia. f_equal. rewrite sumn_S. cbn [fpow]. ring.
  Qed.

  Lemma EvaluatePolynomial_spec (c : list F) x : c <> [] -> EvaluatePolynomial c x = Some (peval c x).
  Proof.
    intros Hc. assert (HL : (0 < length c)%nat) by (destruct c; [congruence|simpl; lia]).
    unfold EvaluatePolynomial. rewrite gosub_some by lia. rewrite (get_nth c _ 0) by lia.
    rewrite horner_loop by lia. f_equal. unfold peval.
    destruct (length c) as [|n]; [lia|]. replace (S n - 1)%nat with n by lia. rewrite sumn_S. ring.
  Qed.

  Lemma EvaluatePolynomial_nil (x : F) : EvaluatePolynomial [] x = None.
  Proof. reflexivity. Qed.

  (** ** Lagrange polynomials *)
  Definition distinct_upto (n : nat) : Prop :=
    forall i j, (i < n)%nat -> (j < n)%nat -> fnat (F:=F) i = fnat j -> i = j.

  Lemma distinct_upto_le n m : (m <= n)%nat -> distinct_upto n -> distinct_upto m.
  Proof. intros H D i j Hi Hj. apply D; lia. Qed.

  Definition domain (n : nat) : list F := map fnat (seq 0 n).

  Lemma domain_NoDup n : distinct_upto n -> NoDup (domain n).
  Proof.
    intros D. unfold domain. apply NoDup_map_in.
    - intros i j Hi Hj. apply in_seq in Hi, Hj. apply D; lia.
    - apply seq_NoDup.
  Qed.

  Lemma mul_binomial_ok n (acc : list F) b0 b1 :
    length acc = n ->
    exists s, mul_binomial n acc [b0; b1] = Some s /\ length s = n /\
      forall k, (k < n)%nat -> nth k s 0 = nth k acc 0 * b0 + (match k with O => 0 | S j => nth j acc 0 * b1 end).
  Proof.
    intros HL. unfold mul_binomial.
    destruct (eff1_run n (fun s => forN n (fun updated j =>
      forN (Nat.min 2 (n - j)) (fun updated k =>
        tmp <- get acc j ;; b <- get [b0; b1] k ;;
        let tmp := tmp * b in
        u <- get updated (j + k) ;; set updated (j + k) (u + tmp)) updated) s)
      (fun k => sumn n (fun j => sumn (Nat.min 2 (n - j)) (fun i =>
          if Nat.eqb k (j + i) then nth j acc 0 * nth i [b0; b1] 0 else 0)))) as (s & E & H1 & H2).
    - apply eff_forN. intros j Hj. apply eff_forN. intros i Hi.
      eapply eff_fun_ext; [|apply (eff_add1 n (j + i) (nth j acc 0 * nth i [b0; b1] 0)); lia].
      intros s Hs. cbn beta. rewrite (get_nth acc j 0) by lia.
      rewrite (get_nth [b0; b1] i 0) by (simpl; lia). reflexivity.
    - exists s. split; [exact E|]. split; [exact H1|]. intros k Hk. rewrite H2.
      transitivity (sumn n (fun j => (if Nat.eqb j k then nth j acc 0 * b0 else 0) +
                       (match k with O => 0 | S k' => if Nat.eqb j k' then nth j acc 0 * b1 else 0 end))).
      + apply sumn_ext. intros j Hj.
        destruct (Nat.eq_dec j (n - 1)) as [Ej|Hne].
        * replace (Nat.min 2 (n - j)) with 1%nat by lia. rewrite sumn_1, Nat.add_0_r. cbn [nth].
          rewrite (Nat.eqb_sym j k). destruct k as [|k']; [ring|].
          destruct (Nat.eqb_spec j k'); [lia|]. ring.
        * replace (Nat.min 2 (n - j)) with 2%nat by lia. rewrite sumn_S, sumn_1, Nat.add_0_r. cbn [nth].
          rewrite (Nat.eqb_sym j k). destruct k as [|k'].
          -- destruct (Nat.eqb_spec 0 (j + 1)); [lia|]. ring.
          -- rewrite Nat.add_1_r. cbn [Nat.eqb]. rewrite (Nat.eqb_sym k' j). reflexivity.
      + rewrite sumn_add, (sumn_delta n k (fun j => nth j acc 0 * b0)) by assumption. f_equal.
        destruct k as [|k']; [apply sumn_zero; reflexivity|].
        apply (sumn_delta n k' (fun j => nth j acc 0 * b1)). lia.
  Qed.

  Lemma mul_binomial_peval n (acc s : list F) b0 b1 x :
    length acc = n -> length s = n -> (forall j, (n - 1 <= j)%nat -> nth j acc 0 = 0) ->
    (forall k, (k < n)%nat -> nth k s 0 = nth k acc 0 * b0 + (match k with O => 0 | S j => nth j acc 0 * b1 end)) ->
    peval s x = peval acc x * (b0 + b1 * x).
  Proof.
    intros HL HS Hz Hk. unfold peval. rewrite HL, HS.
    destruct n as [|n]; [rewrite !sumn_0; ring|].
    rewrite (sumn_ext _ _ (fun k => b0 * (nth k acc 0 * fpow x k) +
        (match k with O => 0 | S j => nth j acc 0 * b1 * fpow x k end))).
    2: { intros k Hlt. rewrite Hk by assumption. destruct k; ring. }
    rewrite sumn_add, sumn_scal_l.
    rewrite (sumn_S_l n (fun k => match k with O => 0 | S j => nth j acc 0 * b1 * fpow x k end)).
    rewrite (sumn_ext n (fun i => nth i acc 0 * b1 * fpow x (S i)) (fun i => b1 * x * (nth i acc 0 * fpow x i)))
      by (intros; cbn [fpow]; ring).
    rewrite sumn_scal_l.
    assert (E : sumn (S n) (fun i => nth i acc 0 * fpow x i) = sumn n (fun i => nth i acc 0 * fpow x i)).
    { rewrite sumn_S, Hz by lia. ring. }
    rewrite E. ring.
  Qed.

  (** number of factors after [i] iterations of the loop of the l-th polynomial *)
  Definition nfac (l i : nat) : nat := if (l <? i)%nat then (i - 1)%nat else i.

  Lemma lagrange_loop n l : (l < n)%nat ->
    exists acc, (acc0 <- set (repeat (0:F) n) 0 1 ;;
      forN n (fun acc i =>
        if (i =? l)%nat then Some acc else
        b <- get (binomials n) i ;; mul_binomial n acc b) acc0) = Some acc /\
      length acc = n /\
      forall x, peval acc x = prodl (filter (fun i => negb (i =? l)%nat) (seq 0 n)) (fun i => x - fnat i).
  Proof.
    intros Hl. rewrite set_some by (rewrite repeat_length; lia).
    match goal with |- exists _, forN ?N ?f ?s0 = _ /\ _ =>
      destruct (forN_inv (fun i (acc : list F) => length acc = n /\
        (forall j, (nfac l i < j)%nat -> nth j acc 0 = 0) /\
        (forall x, peval acc x = prodl (filter (fun i => negb (i =? l)%nat) (seq 0 i)) (fun i => x - fnat i)))
        f N s0) as (acc & E & H1 & H2 & H3) end.
    - split; [rewrite upd_length, repeat_length; reflexivity|]. split.
      + intros j Hj. unfold nfac in Hj. destruct n; [lia|]. simpl in Hj. destruct j; [lia|].
        cbn [repeat upd nth]. destruct (Nat.lt_ge_cases j n); [apply nth_repeat_lt; assumption|].
        apply nth_overflow. rewrite repeat_length. assumption.
      + intros x. destruct n; [lia|]. cbn [repeat upd seq filter prodl].
        rewrite peval_cons, peval_zeros. ring.
    - intros i acc Hi (H1 & H2 & H3). destruct (Nat.eqb_spec i l) as [->|Hne].
      + exists acc. split; [reflexivity|]. split; [assumption|]. split.
        * intros j Hj. apply H2. unfold nfac in *. rewrite Nat.ltb_irrefl.
          destruct (Nat.ltb_spec l (S l)); lia.
        * intros x. rewrite H3, seq_S, filter_app. cbn [filter Nat.add]. rewrite Nat.eqb_refl.
          cbn [negb]. rewrite app_nil_r. reflexivity.
      + unfold binomials. rewrite (get_nth _ i []) by (rewrite map_length, seq_length; assumption).
        rewrite nth_map_seq by assumption.
        destruct (mul_binomial_ok n acc (- fnat i) 1 H1) as (s & E & L & Hk).
        exists s. split; [exact E|]. split; [exact L|].
        assert (Hf : nfac l (S i) = S (nfac l i)).
        { unfold nfac. destruct (Nat.ltb_spec l i), (Nat.ltb_spec l (S i)); lia. }
        assert (Hb : (nfac l i < n - 1)%nat).
        { unfold nfac. destruct (Nat.ltb_spec l i); lia. }
        split.
        * intros j Hj. rewrite Hf in Hj. destruct (Nat.lt_ge_cases j n) as [Hjn|Hjn].
          -- rewrite Hk by assumption. destruct j as [|j]; [lia|]. rewrite !H2 by lia. ring.
          -- apply nth_overflow. lia.
        * intros x. rewrite (mul_binomial_peval n acc s (- fnat i) 1 x H1 L); [| |exact Hk].
          -- rewrite H3, seq_S, filter_app. cbn [filter Nat.add].
             destruct (Nat.eqb_spec i l); [contradiction|]. cbn [negb].
             rewrite prodl_app. cbn [prodl]. ring.
          -- intros j Hj. apply H2. lia.
    - exists acc. auto.
  Qed.

  Lemma lagrange_row_ok n l : distinct_upto n -> (l < n)%nat ->
    exists row, lagrange_row (F:=F) n l = Some row /\ length row = n /\
      forall m, (m < n)%nat -> peval row (fnat m) = if (m =? l)%nat then 1 else 0.
  Proof.
    intros D Hl. destruct (lagrange_loop n l Hl) as (acc & E & HL & Hp).
    unfold lagrange_row.
    destruct (set (repeat 0 n) 0 1) as [acc0|]; [|discriminate].
    rewrite E. rewrite EvaluatePolynomial_spec by (intros ->; simpl in HL; lia).
    eexists. split; [reflexivity|]. split; [rewrite map_length; exact HL|].
    intros m Hm. rewrite peval_map_scal. destruct (Nat.eqb_spec m l) as [->|Hne].
    - assert (Hnz : peval acc (fnat l) <> 0).
      { rewrite Hp. apply prodl_nonzero. intros a Ha. apply filter_In in Ha. destruct Ha as [Ha1 Ha2].
        apply in_seq in Ha1. intros E0. apply f_sub_eq in E0. apply D in E0; [|lia|lia].
        subst. rewrite Nat.eqb_refl in Ha2. discriminate. }
      rewrite <- (f_mul_inv_l _ Hnz). ring.
    - rewrite Hp. rewrite (prodl_zero _ _ m).
      + ring.
      + apply filter_In. split; [apply in_seq; lia|]. destruct (Nat.eqb_spec m l); [contradiction|reflexivity].
      + ring.
  Qed.

  Lemma LagrangeCoefficient_ok n : distinct_upto n ->
    exists rows, LagrangeCoefficient (F:=F) n = Some rows /\ length rows = n /\
      forall l, (l < n)%nat -> length (nth l rows []) = n /\
        forall m, (m < n)%nat -> peval (nth l rows []) (fnat m) = if (m =? l)%nat then 1 else 0.
  Proof.
    intros D. unfold LagrangeCoefficient.
    assert (H : forall N, (N <= n)%nat -> exists rows, mapM (lagrange_row (F:=F) n) (seq 0 N) = Some rows /\ length rows = N /\
      forall l, (l < N)%nat -> length (nth l rows []) = n /\
        forall m, (m < n)%nat -> peval (nth l rows []) (fnat m) = if (m =? l)%nat then 1 else 0).
    { induction N as [|N IH]; intros HN.
      - exists []. split; [reflexivity|]. split; [reflexivity|]. intros l Hl; lia.
      - destruct IH as (rows & E & HL & H); [lia|].
        destruct (lagrange_row_ok n N D ltac:(lia)) as (row & E1 & L1 & H1).
        exists (rows ++ [row]). split; [|split].
        + apply mapM_Forall2. rewrite seq_S. apply Forall2_app.
          * apply mapM_Forall2. exact E.
          * constructor; [exact E1|constructor].
        + rewrite app_length. simpl. lia.
        + intros l Hl. destruct (Nat.eq_dec l N) as [->|].
          * rewrite app_nth2, HL, Nat.sub_diag by lia. simpl. auto.
          * rewrite app_nth1 by lia. apply H. lia. }
    apply H. lia.
  Qed.

  Lemma Interpolate_sum (values : list F) rows n :
    GetLagrangePolynomial n = Some rows -> length values = n -> length rows = n ->
    (forall l, (l < n)%nat -> length (nth l rows []) = n) ->
    exists c, InterpolateOnRange values = Some c /\ length c = n /\
      forall k, nth k c 0 = sumn n (fun i => nth i values 0 * nth k (nth i rows []) 0).
  Proof.
    intros EG HV HR Hrow. unfold InterpolateOnRange. rewrite HV, EG.
    apply (eff1_run n (fun s => forN n (fun result i =>
      value <- get values i ;; row <- get rows i ;;
      forN (length row) (fun result j =>
        lagrangeCoeff <- get row j ;; let tmp := lagrangeCoeff * value in
        x <- get result j ;; set result j (x + tmp)) result) s)).
    apply eff_forN. intros i Hi.
    eapply eff_ext; [|eapply eff_fun_ext; [|apply (eff_forN _ _ n (fun result j =>
        x <- get result j ;; set result j (x + (nth j (nth i rows []) 0 * nth i values 0)))
        (fun j k => if Nat.eqb k j then nth j (nth i rows []) 0 * nth i values 0 else 0))]].
    - intros k. cbn beta.
      destruct (Nat.lt_ge_cases k n).
      + rewrite (sumn_ext _ _ (fun j => if Nat.eqb j k then nth j (nth i rows []) 0 * nth i values 0 else 0))
          by (intros j _; rewrite Nat.eqb_sym; reflexivity).
        rewrite (sumn_delta n k (fun j => nth j (nth i rows []) 0 * nth i values 0)) by assumption. ring.
      + rewrite sumn_zero.
        * rewrite (nth_overflow (nth i rows [])) by (rewrite Hrow; assumption). ring.
        * intros j Hj. destruct (Nat.eqb_spec k j); [lia|reflexivity].
    - intros s Hs. cbn beta. rewrite (get_nth values i 0), (get_nth rows i []) by lia. rewrite Hrow by assumption.
      unfold forN. apply foldM_ext. intros s' j Hj. apply in_seq in Hj.
      rewrite (get_nth (nth i rows []) j 0) by (rewrite Hrow; lia). reflexivity.
    - intros j Hj. apply eff_add1. assumption.
  Qed.

  Lemma InterpolateOnRange_ok (values : list F) :
    distinct_upto (length values) -> (length values <= 12)%nat ->
    exists c, InterpolateOnRange values = Some c /\ length c = length values /\
      forall m, (m < length values)%nat -> peval c (fnat m) = nth m values 0.
  Proof.
    intros D Hn. remember (length values) as n eqn:En.
    destruct (LagrangeCoefficient_ok n D) as (rows & E & HR & H).
    destruct (Interpolate_sum values rows n) as (c & EI & HL & Hc); auto.
    - unfold GetLagrangePolynomial, maxDomainSize. destruct (Nat.ltb_spec n (12 + 1)); [exact E|lia].
    - intros l Hl. apply H. exact Hl.
    - exists c. split; [exact EI|]. split; [exact HL|]. intros m Hm.
      unfold peval. rewrite HL.
      rewrite (sumn_ext _ _ (fun k => sumn n (fun i => nth i values 0 * (nth k (nth i rows []) 0 * fpow (fnat m) k)))).
      2: { intros k Hk. rewrite Hc, <- sumn_scal_r. apply sumn_ext. intros; ring. }
      rewrite sumn_swap.
      rewrite (sumn_ext _ _ (fun i => if Nat.eqb i m then nth i values 0 else 0)).
      + apply (sumn_delta n m (fun i => nth i values 0)). exact Hm.
      + intros i Hi. rewrite sumn_scal_l. destruct (H i Hi) as [HLi Hpi].
        specialize (Hpi m Hm). unfold peval in Hpi. rewrite HLi in Hpi. rewrite Hpi, (Nat.eqb_sym i m).
        destruct (Nat.eqb m i); ring.
  Qed.

  Lemma InterpolateOnRange_limit (values : list F) : (12 < length values)%nat -> InterpolateOnRange values = None.
  Proof.
    intros H. unfold InterpolateOnRange, GetLagrangePolynomial, maxDomainSize.
    destruct (Nat.ltb_spec (length values) (12 + 1)); [lia|reflexivity].
  Qed.

  (** interpolating the values of a polynomial gives it back *)
  Lemma InterpolateOnRange_unique (values c : list F) :
    distinct_upto (length values) -> (length values <= 12)%nat -> length c = length values ->
    (forall m, (m < length values)%nat -> peval c (fnat m) = nth m values 0) ->
    InterpolateOnRange values = Some c.
  Proof.
    intros D Hn HL Hc. destruct (InterpolateOnRange_ok values D Hn) as (c' & E & HL' & Hc').
    rewrite E. f_equal. apply (poly_unique (domain (length values))).
    - apply domain_NoDup. exact D.
    - congruence.
    - unfold domain. rewrite map_length, seq_length. lia.
    - intros x Hx. unfold domain in Hx. apply in_map_iff in Hx. destruct Hx as (m & <- & Hm).
      apply in_seq in Hm. rewrite Hc, Hc' by lia. reflexivity.
  Qed.

  (** interpolating a function of bounded degree recovers it everywhere *)
  Lemma InterpolateOnRange_function (f : F -> F) n :
    distinct_upto (S n) -> (S n <= 12)%nat -> poly_deg_le n f ->
    exists c, InterpolateOnRange (map (fun i => f (fnat i)) (seq 0 (S n))) = Some c /\
      length c = S n /\ forall x, peval c x = f x.
  Proof.
    intros D Hn (c & HL & Hc). exists c. split; [|split; [exact HL|intros x; symmetry; apply Hc]].
    apply InterpolateOnRange_unique; rewrite ?map_length, ?seq_length; auto.
    intros m Hm. rewrite nth_map_seq by assumption. symmetry. apply Hc.
  Qed.

End LPoly2.
