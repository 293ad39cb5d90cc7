(** Exact domains and values of the table functions (lemmas for PDomain.v). *)
From Coq Require Import List Arith ZArith Lia Bool.
From Verif Require Import Field Go Spec SpecDomain MCommon MPoly LSpec LCommon LPoly LPoly2.
Import ListNotations.

Lemma slot_pow2 b : forall n, slot (2 ^ (length b + n)) b = (bits_val b * 2 ^ n)%nat.
Proof.
  induction b as [|c b IH]; intros n; [reflexivity|].
  cbn [slot length bits_val Nat.add]. rewrite half_pow2, IH.
  destruct c; [rewrite Nat.pow_add_r|]; nia.
Qed.

Lemma slot_lt b : forall L, (2 ^ length b <= L)%nat -> (slot L b < L)%nat.
Proof.
  induction b as [|c b IH]; intros L H; [simpl in *; lia|].
  cbn [slot length] in *. rewrite Nat.pow_succ_r' in H.
  assert (H2 : (2 ^ length b <= L / 2)%nat) by (apply Nat.div_le_lower_bound; lia).
  specialize (IH _ H2). pose proof (Nat.mul_div_le L 2 ltac:(lia)). destruct c; lia.
Qed.

Section Domain.
  Context {F : Field}.
  Add Field FfieldDom : (f_theory F).
  Open Scope F_scope.

  Lemma folded_cons (t : list F) r x : (2 ^ S (length x) <= length t)%nat ->
    folded t (r :: x) = folded (foldv t r) x.
  Proof.
    intros H. unfold folded. cbn [length cube]. rewrite suml_app, !suml_map, <- suml_add.
    apply suml_ext. intros b Hb. apply in_cube in Hb. cbn [slot chi].
    rewrite foldv_length. unfold foldv.
    rewrite Nat.pow_succ_r' in H.
    assert (H2 : (2 ^ length b <= length t / 2)%nat) by (apply Nat.div_le_lower_bound; [lia|rewrite Hb; lia]).
    pose proof (slot_lt b _ H2). rewrite nth_map_seq by assumption.
    rewrite Nat.add_0_l. ring.
  Qed.

  Lemma Evaluate_exact (t x : list F) :
    Evaluate t x = if (2 ^ length x <=? length t)%nat then Some (folded t x) else None.
  Proof.
    destruct (Nat.leb_spec (2 ^ length x) (length t)) as [H|H]; [|apply Evaluate_panics; assumption].
    revert t H. induction x as [|r x IH]; intros t H.
    - unfold Evaluate, folded, DeepCopy, FoldMany. cbn [foldM length cube slot chi suml].
      cbn in H. destruct t as [|a t]; [simpl in H; lia|]. cbn. f_equal. ring.
    - cbn [length] in H. rewrite folded_cons by assumption. rewrite <- IH.
      + unfold Evaluate, DeepCopy, FoldMany. cbn [foldM]. rewrite Fold_foldv. reflexivity.
      + rewrite foldv_length. rewrite Nat.pow_succ_r' in H. apply Nat.div_le_lower_bound; lia.
  Qed.

  Lemma folded_mle (t x : list F) n : length t = (2 ^ (length x + n))%nat ->
    folded t x = mle t (x ++ repeat 0 n).
  Proof.
    intros H. unfold folded. rewrite H, mle_app. apply suml_ext. intros b Hb. apply in_cube in Hb.
    rewrite repeat_length. rewrite <- Hb, slot_pow2.
    assert (E : repeat (0 : F) n = bpoint (repeat false n)) by (clear; unfold bpoint; induction n as [|n IH]; [reflexivity|cbn [repeat map]; rewrite <- IH; reflexivity]).
    transitivity (chi b x * mle (skipn (bits_val b * 2 ^ n) t) (bpoint (repeat false n))).
    - rewrite mle_bpoint. replace (bits_val (repeat false n)) with 0%nat.
      + rewrite nth_skipn, Nat.add_0_r. ring.
      + clear. induction n; [reflexivity|]. cbn [repeat bits_val]. rewrite <- IHn. reflexivity.
    - rewrite E. unfold mle. rewrite bpoint_length, repeat_length, <- suml_scal_l.
      apply suml_ext. intros a _. rewrite nth_skipn. ring.
  Qed.

  Lemma EvaluateLeftAndRight_exact (t hP hL hR : list F) :
    EvaluateLeftAndRight t hP hL hR =
    if (2 ^ (Nat.max (length hL) (length hR) + length hP) <=? length t)%nat
    then Some (folded t (hL ++ hP), folded t (hR ++ hP)) else None.
  Proof.
    unfold EvaluateLeftAndRight, DeepCopy. rewrite !Evaluate_exact, !app_length.
    destruct (Nat.leb_spec (2 ^ (Nat.max (length hL) (length hR) + length hP)) (length t)) as [H|H].
    - assert (2 ^ (length hL + length hP) <= 2 ^ (Nat.max (length hL) (length hR) + length hP))%nat
        by (apply Nat.pow_le_mono_r; lia).
      assert (2 ^ (length hR + length hP) <= 2 ^ (Nat.max (length hL) (length hR) + length hP))%nat
        by (apply Nat.pow_le_mono_r; lia).
      rewrite !(proj2 (Nat.leb_le _ _)) by lia. reflexivity.
    - destruct (Nat.max_spec (length hL) (length hR)) as [[_ E]|[_ E]]; rewrite E in H.
      + destruct (_ <=? _)%nat; [|reflexivity].
        rewrite (proj2 (Nat.leb_gt _ _)) by exact H. reflexivity.
      + rewrite (proj2 (Nat.leb_gt _ _)) by exact H. reflexivity.
  Qed.

  Lemma InterleavedChunk_exact (t : list F) on n :
    InterleavedChunk t on n =
    if (n =? 0)%nat then None else
    if (length t / n =? 0)%nat then Some [] else
    if (on + (length t / n - 1) * n <? length t)%nat
    then Some (map (fun i => nth (on + i * n) t 0) (seq 0 (length t / n))) else None.
  Proof.
    destruct (Nat.eqb_spec n 0) as [->|Hn]; [reflexivity|].
    unfold InterleavedChunk. rewrite godiv_some by lia. set (c := (length t / n)%nat).
    destruct (Nat.eqb_spec c 0) as [->|Hc]; [reflexivity|].
    destruct (Nat.ltb_spec (on + (c - 1) * n) (length t)) as [H|H].
    - unfold forN. apply (foldM_write 0); [apply repeat_length|].
      intros s i Hi HL _. rewrite (get_nth t _ 0) by nia. rewrite set_some by lia. reflexivity.
    - unfold forN. assert (Hs : seq 0 c = seq 0 (c - 1) ++ [c - 1]%nat).
      { replace c with (S (c - 1)) at 1 by lia. apply seq_S. }
      rewrite Hs.
      apply foldM_last_none with (P := fun _ => True).
      + exact I.
      + intros s _. unfold get. rewrite (proj2 (nth_error_None t (on + (c - 1) * n))) by assumption. reflexivity.
      + intros; exact I.
  Qed.

  (** ** Chunked evaluation *)
  Lemma TabSub_inv dst (l r : list F) n d : TabSub dst l r n = Some d ->
    length r = length l /\ length d = length l /\ (0 < n)%nat.
  Proof.
    intros H. destruct (Nat.eq_dec n 0) as [->|Hn]; [rewrite TabSub_zero_core in H; discriminate H|].
    destruct (Nat.eq_dec (length r) (length l)) as [E|E]; [|rewrite TabSub_panics in H by assumption; discriminate H].
    rewrite TabSub_spec in H by lia. injection H as <-. rewrite map_length, seq_length. lia.
  Qed.

  (** one level succeeds only on pairs of equal lengths *)
  Lemma recombine_step_inv (inp inp' : list (list F)) q r1 r2 :
    recombine_step (inp, inp') q = Some (r1, r2) ->
    r2 = r1 /\ length r1 = (length inp / 2)%nat /\
    forall i, (i < length inp / 2)%nat ->
      length (nth (i + length inp / 2) inp []) = length (nth i r1 []) /\
      length (nth i inp []) = length (nth i r1 []).
  Proof.
    unfold recombine_step. set (m := (length inp / 2)%nat).
    destruct (mapM _ (seq 0 m)) as [res|] eqn:E; [|discriminate]. intros H. injection H as <- <-.
    pose proof (mapM_length _ _ _ E) as HL. rewrite seq_length in HL.
    split; [reflexivity|]. split; [exact HL|]. intros i Hi.
    apply mapM_Forall2 in E.
    pose proof (Nat.mul_div_le (length inp) 2 ltac:(lia)) as Hm. fold m in Hm.
    assert (Hg : forall (l : list nat) (rs : list (list F)) f, Forall2 (fun a b => f a = Some b) l rs ->
      forall i, (i < length l)%nat -> f (nth i l 0%nat) = Some (nth i rs [])).
    { clear. intros l rs f H. induction H as [|a b l rs Hab H IH]; intros i Hi; [simpl in Hi; lia|].
      destruct i; [exact Hab|]. cbn [nth length] in *. apply IH. lia. }
    specialize (Hg _ _ _ E i ltac:(rewrite seq_length; exact Hi)). cbv beta in Hg.
    rewrite seq_nth in Hg by assumption. cbn [Nat.add] in Hg.
    rewrite (get_nth inp (i + m) []), (get_nth inp i []) in Hg by lia.
    destruct (TabSub [] (nth (i + m) inp []) (nth i inp []) 1) as [d|] eqn:Ed; [|discriminate Hg].
    apply TabSub_inv in Ed. destruct Ed as (E1 & E2 & _).
    rewrite TabMul_spec in Hg by lia.
    rewrite TabAdd_spec in Hg by (rewrite map_length; lia).
    injection Hg as <-. rewrite !map_length, seq_length. lia.
  Qed.

  Lemma recombine_loop_length qs : forall (inp inp' r1 r2 : list (list F)), qs <> [] ->
    foldM recombine_step qs (inp, inp') = Some (r1, r2) ->
    r2 = r1 /\ length r1 = (length inp / 2 ^ length qs)%nat.
  Proof.
    induction qs as [|q qs IH]; intros inp inp' r1 r2 Hne H; [congruence|].
    cbn [foldM] in H. destruct (recombine_step (inp, inp') q) as [(a & b)|] eqn:E; [|discriminate H].
    destruct (recombine_step_inv _ _ _ _ _ E) as (-> & HL & _).
    destruct qs as [|q' qs].
    - cbn [foldM] in H. injection H as <- <-. split; [reflexivity|]. rewrite HL. reflexivity.
    - destruct (IH a a r1 r2 ltac:(discriminate) H) as (-> & HL2). split; [reflexivity|].
      rewrite HL2, HL, Nat.div_div by (try apply Nat.pow_nonzero; lia).
      reflexivity.
  Qed.

  Lemma recombine_loop_tabs qs : forall (inp inp' r1 r2 : list (list F)), qs <> [] ->
    length inp = (2 ^ length qs)%nat ->
    foldM recombine_step qs (inp, inp') = Some (r1, r2) ->
    exists L, tabs (2 ^ length qs) L inp.
  Proof.
    induction qs as [|q qs IH]; intros inp inp' r1 r2 Hne HI H; [congruence|].
    cbn [foldM] in H. destruct (recombine_step (inp, inp') q) as [(a & b)|] eqn:E; [|discriminate H].
    destruct (recombine_step_inv _ _ _ _ _ E) as (-> & HL & Hp).
    assert (Hh : (length inp / 2 = 2 ^ length qs)%nat) by (rewrite HI; apply half_pow2).
    rewrite Hh in *.
    assert (HT : exists L, tabs (2 ^ length qs) L a).
    { destruct qs as [|q' qs].
      - exists (length (nth 0 a [])). split; [exact HL|]. intros i Hi. cbn in Hi.
        replace i with 0%nat by lia. reflexivity.
      - apply (IH a a r1 r2 ltac:(discriminate) HL H). }
    destruct HT as (L & _ & HT). exists L. split; [exact HI|]. intros i Hi.
    cbn [length] in Hi. rewrite Nat.pow_succ_r' in Hi.
    destruct (Nat.lt_ge_cases i (2 ^ length qs)) as [Hlt|Hge].
    - destruct (Hp i Hlt) as [_ ->]. apply HT. exact Hlt.
    - destruct (Hp (i - 2 ^ length qs)%nat ltac:(lia)) as [Hq _].
      rewrite Nat.sub_add in Hq by exact Hge. rewrite Hq. apply HT. lia.
  Qed.

  Lemma chunkedEvalRecombine_inv (bkts : list (list F)) qs r :
    chunkedEvalRecombine bkts qs = Some r ->
    qs <> [] /\ exists L, tabs (2 ^ length qs) L bkts.
  Proof.
    unfold chunkedEvalRecombine. intros H.
    destruct (Nat.eqb_spec (log2ceil (length bkts)) (length qs)) as [Hl|]; [|discriminate H].
    cbn [negb] in H. destruct qs as [|q qs]; [discriminate H|]. split; [discriminate|].
    destruct (foldM recombine_step (q :: qs) (bkts, [])) as [(r1 & r2)|] eqn:E; [|discriminate H].
    destruct (recombine_loop_length (q :: qs) _ _ _ _ ltac:(discriminate) E) as (-> & HL).
    cbn [snd] in H.
    assert (HP : length bkts = (2 ^ length (q :: qs))%nat).
    { destruct (Nat.eq_dec (length bkts) 0) as [E0|H0].
      { rewrite E0, Nat.div_0_l in HL by (apply Nat.pow_nonzero; lia).
        destruct r1; [discriminate H|discriminate HL]. }
      destruct (log2ceil_spec (length bkts)) as [H1 _]; [lia|]. rewrite Hl in H1.
      destruct (Nat.eq_dec (length bkts) (2 ^ length (q :: qs))) as [|Hn]; [assumption|].
      rewrite Nat.div_small in HL by lia. destruct r1; [discriminate H|discriminate HL]. }
    apply (recombine_loop_tabs (q :: qs) _ _ _ _ ltac:(discriminate) HP E).
  Qed.

  Lemma tabs_even k L (bkts : list (list F)) :
    tabs k L bkts <-> length bkts = k /\ even_chunks L bkts.
  Proof.
    unfold tabs, even_chunks. split; intros [H1 H2]; split; try exact H1.
    - intros c Hc. apply (In_nth _ _ []) in Hc. destruct Hc as (i & Hi & <-). apply H2. lia.
    - intros i Hi. apply H2, nth_In. lia.
  Qed.

  Lemma chunkedEvalRecombine_exact (bkts : list (list F)) qs r :
    chunkedEvalRecombine bkts qs = Some r <->
    qs <> [] /\ length bkts = (2 ^ length qs)%nat /\
    exists L, even_chunks L bkts /\ r = blend L bkts qs.
  Proof.
    split.
    - intros H. destruct (chunkedEvalRecombine_inv _ _ _ H) as (Hne & L & HT).
      destruct (chunkedEvalRecombine_ok bkts qs L HT Hne) as (r' & E & HL & Hv).
      rewrite E in H. injection H as <-. split; [exact Hne|].
      apply tabs_even in HT. destruct HT as [T1 T2]. split; [exact T1|]. exists L. split; [exact T2|].
      unfold blend. apply (map_seq_ext 0); [exact HL|]. exact Hv.
    - intros (Hne & HB & L & HE & ->).
      assert (HT : tabs (2 ^ length qs) L bkts) by (apply tabs_even; split; assumption).
      destruct (chunkedEvalRecombine_ok bkts qs L HT Hne) as (r' & E & HL & Hv).
      rewrite E. f_equal. unfold blend. apply (map_seq_ext 0); [exact HL|]. exact Hv.
  Qed.

  Lemma blend_length L (bkts : list (list F)) y : length (blend L bkts y) = L.
  Proof. unfold blend. rewrite map_length, seq_length. reflexivity. Qed.

  Lemma EvaluateChunked_exact (bkts : list (list F)) q v :
    EvaluateChunked bkts q = Some v <->
    exists x y L, q = x ++ y /\ y <> [] /\ length bkts = (2 ^ length y)%nat /\ even_chunks L bkts /\
      (2 ^ length x <= L)%nat /\ v = folded (blend L bkts y) x.
  Proof.
    unfold EvaluateChunked. split.
    - unfold gosub. destruct (Nat.leb_spec (log2ceil (length bkts)) (length q)) as [Hq|]; [|discriminate].
      set (cut := (length q - log2ceil (length bkts))%nat).
      destruct (chunkedEvalRecombine bkts (skipn cut q)) as [r|] eqn:E; [|discriminate].
      apply chunkedEvalRecombine_exact in E. destruct E as (Hne & HB & L & HE & ->).
      rewrite Evaluate_exact, blend_length.
      destruct (Nat.leb_spec (2 ^ length (firstn cut q)) L) as [Hx|]; [|discriminate].
      intros H. injection H as <-. exists (firstn cut q), (skipn cut q), L.
      rewrite firstn_skipn. auto 10.
    - intros (x & y & L & -> & Hne & HB & HE & Hx & ->).
      rewrite HB, log2ceil_pow2, app_length, gosub_some by lia.
      rewrite Nat.add_sub, skipn_app, skipn_all, Nat.sub_diag, firstn_app, firstn_all, Nat.sub_diag.
      cbn [app skipn firstn]. rewrite app_nil_r.
      rewrite (proj2 (chunkedEvalRecombine_exact bkts y (blend L bkts y))) by eauto.
      rewrite Evaluate_exact, blend_length. destruct (Nat.leb_spec (2 ^ length x) L); [reflexivity|lia].
  Qed.

  Lemma EvaluateMixedChunked_exact (bkts : list (list F)) hP hL hR v w :
    EvaluateMixedChunked bkts hP hL hR = Some (v, w) <->
    exists x y L, hP = x ++ y /\ y <> [] /\ length bkts = (2 ^ length y)%nat /\ even_chunks L bkts /\
      (2 ^ (Nat.max (length hL) (length hR) + length x) <= L)%nat /\
      v = folded (blend L bkts y) (hL ++ x) /\ w = folded (blend L bkts y) (hR ++ x).
  Proof.
    unfold EvaluateMixedChunked. split.
    - destruct (Nat.ltb_spec (length hP) (log2ceil (length bkts))) as [|Hq]; [discriminate|].
      set (cut := (length hP - log2ceil (length bkts))%nat).
      destruct (chunkedEvalRecombine bkts (skipn cut hP)) as [r|] eqn:E; [|discriminate].
      apply chunkedEvalRecombine_exact in E. destruct E as (Hne & HB & L & HE & ->).
      rewrite EvaluateLeftAndRight_exact, blend_length.
      destruct (Nat.leb_spec (2 ^ (Nat.max (length hL) (length hR) + length (firstn cut hP))) L) as [Hx|]; [|discriminate].
      intros H. injection H as <- <-. exists (firstn cut hP), (skipn cut hP), L.
      rewrite firstn_skipn. auto 10.
    - intros (x & y & L & -> & Hne & HB & HE & Hx & -> & ->).
      rewrite HB, log2ceil_pow2, app_length.
      destruct (Nat.ltb_spec (length x + length y) (length y)) as [|_]; [lia|].
      rewrite Nat.add_sub, skipn_app, skipn_all, Nat.sub_diag, firstn_app, firstn_all, Nat.sub_diag.
      cbn [app skipn firstn]. rewrite app_nil_r.
      rewrite (proj2 (chunkedEvalRecombine_exact bkts y (blend L bkts y))) by eauto.
      rewrite EvaluateLeftAndRight_exact, blend_length.
      destruct (Nat.leb_spec (2 ^ (Nat.max (length hL) (length hR) + length x)) L); [reflexivity|lia].
  Qed.

  (** ** Eq tables, linear combinations, additions *)
  Lemma GetChunkedEqTable_zero_core (q : list F) k : (0 < k)%nat -> GetChunkedEqTable q (2 ^ k) 0 = None.
  Proof.
    intros Hk. unfold GetChunkedEqTable. rewrite log2ceil_pow2.
    unfold gosub. destruct (Nat.leb_spec k (length q)) as [Hq|]; [|reflexivity].
    rewrite GetFoldedEqTable_spec.
    assert (Hp : (0 < 2 ^ k)%nat) by (pose proof (Nat.pow_nonzero 2 k); lia).
    rewrite set_some by (rewrite repeat_length; assumption).
    assert (HT : length (skipn (length q - k) q) = k) by (rewrite skipn_length; lia).
    destruct (skipn (length q - k) q) as [|r tl]; [cbn in HT; lia|].
    cbn [length seq combine foldM]. unfold chunked_eq_step at 1. cbn [Nat.pow]. unfold forN. cbn [seq foldM].
    destruct (get _ _); [|reflexivity]. destruct (get _ _); reflexivity.
  Qed.

  Lemma GetChunkedEqTable_one (q : list F) nCore : GetChunkedEqTable q 1 nCore = Some [eqtab q].
  Proof.
    unfold GetChunkedEqTable. change (log2ceil 1) with 0%nat. rewrite gosub_some by lia.
    rewrite Nat.sub_0_r, firstn_all, skipn_all, GetFoldedEqTable_spec. reflexivity.
  Qed.

  Lemma GetChunkedEqTable_exact (q : list F) n nCore :
    GetChunkedEqTable q n nCore <> None <->
    exists k, (k <= length q)%nat /\ n = (2 ^ k)%nat /\ (k = 0 \/ 0 < nCore)%nat.
  Proof.
    split.
    - intros H. destruct (Nat.eq_dec n (2 ^ log2ceil n)) as [E|E].
      + exists (log2ceil n). split; [|split; [exact E|]].
        * destruct (Nat.le_gt_cases (log2ceil n) (length q)) as [|Hgt]; [assumption|].
          exfalso. apply H, GetChunkedEqTable_too_many. rewrite E. apply Nat.pow_lt_mono_r; lia.
        * destruct (Nat.eq_dec (log2ceil n) 0) as [|Hk]; [left; assumption|right].
          destruct nCore; [|lia]. exfalso. apply H. rewrite E. apply GetChunkedEqTable_zero_core. lia.
      + exfalso. apply H, GetChunkedEqTable_not_pow2. intros k Hk. apply E. rewrite Hk at 2.
        rewrite log2ceil_pow2. exact Hk.
    - intros (k & Hk & -> & [->|Hc]).
      + cbn [Nat.pow]. rewrite GetChunkedEqTable_one. discriminate.
      + rewrite GetChunkedEqTable_spec by assumption. discriminate.
  Qed.

  Lemma LinearCombination_exact (t0 t1 : list F) a0 a1 :
    LinearCombination t0 t1 a0 a1 =
    if (length t1 <=? length t0)%nat
    then Some (map (fun x => x * a0) (firstn (length t1) t0) ++ skipn (length t1) t0,
               map (fun i => a0 * nth i t0 0 + a1 * nth i t1 0) (seq 0 (length t1)))
    else None.
  Proof.
    destruct (Nat.leb_spec (length t1) (length t0)) as [HL|HL].
    - unfold LinearCombination.
      match goal with |- forN ?n ?f ?s = _ =>
        destruct (forN_inv (fun k '(b0, b1) => length b0 = length t0 /\ length b1 = length t1 /\
          (forall j, (j < k)%nat -> nth j b0 0 = nth j t0 0 * a0 /\ nth j b1 0 = a0 * nth j t0 0 + a1 * nth j t1 0) /\
          (forall j, (k <= j)%nat -> nth j b0 0 = nth j t0 0 /\ nth j b1 0 = nth j t1 0)) f n s)
          as ((b0 & b1) & E & H1 & H2 & H3 & H4) end.
      + repeat split; auto; lia.
      + intros k (b0 & b1) Hk (H1 & H2 & H3 & H4).
        destruct (H4 k ltac:(lia)) as [E0 E1].
        rewrite (get_nth b0 k 0), set_some, (get_nth b1 k 0), set_some by lia.
        rewrite (get_nth _ k 0) by (rewrite upd_length; lia).
        rewrite (get_nth (upd b0 k _) k 0) by (rewrite upd_length; lia).
        rewrite set_some by (rewrite upd_length; lia).
        eexists. split; [reflexivity|]. cbn beta iota. rewrite !upd_length.
        split; [assumption|]. split; [assumption|]. split.
        * intros j Hj. destruct (Nat.eq_dec j k) as [->|Hne].
          -- rewrite !nth_upd_same by (rewrite ?upd_length; lia). rewrite E0, E1. split; ring.
          -- rewrite !nth_upd_other by congruence. apply H3. lia.
        * intros j Hj. rewrite !nth_upd_other by lia. apply H4. lia.
      + rewrite E. f_equal. f_equal.
        * apply (list_ext 0).
          -- rewrite app_length, map_length, firstn_length, skipn_length. lia.
          -- intros i Hi. rewrite H1 in Hi.
             assert (HF : length (map (fun x => x * a0) (firstn (length t1) t0)) = length t1)
               by (rewrite map_length, firstn_length; lia).
             destruct (Nat.lt_ge_cases i (length t1)) as [Hlt|Hge].
             ++ rewrite app_nth1 by lia. rewrite nth_map_lt with (d' := 0) by (rewrite firstn_length; lia).
                rewrite nth_firstn by assumption. apply H3. assumption.
             ++ rewrite app_nth2 by lia. rewrite HF, nth_skipn.
                replace (length t1 + (i - length t1))%nat with i by lia. apply H4. assumption.
        * apply (map_seq_ext 0); [exact H2|]. intros i Hi. apply H3. exact Hi.
    - unfold LinearCombination, forN. replace (length t1) with (length t0 + S (length t1 - length t0 - 1))%nat by lia.
      rewrite seq_app, foldM_app. cbn [Nat.add seq]. 
      match goal with |- context [foldM ?f (seq 0 (length t0)) ?s] =>
        destruct (foldM f (seq 0 (length t0)) s) as [(b0 & b1)|] eqn:E; [|reflexivity] end.
      assert (HB : length b0 = length t0).
      { apply (foldM_pres (fun st => length (fst st) = length t0)) in E; [exact E| |reflexivity].
        intros (c0 & c1) b (d0 & d1) HP. cbn [fst] in *.
        destruct (get c0 b); [|discriminate]. destruct (set c0 b _) as [e0|] eqn:S0; [|discriminate].
        apply set_length in S0.
        destruct (get c1 b); [|discriminate]. destruct (set c1 b _) as [e1|]; [|discriminate].
        destruct (get e1 b); [|discriminate]. destruct (get e0 b); [|discriminate].
        destruct (set e1 b _); [|discriminate]. intros H. injection H as <- <-. congruence. }
      cbn [foldM]. unfold get at 1. rewrite (proj2 (nth_error_None b0 (length t0))) by lia. reflexivity.
  Qed.

  Lemma EvalEq_exact (q h : list F) :
    EvalEq q h = if (length q <=? length h)%nat then Some (eqprod q h) else None.
  Proof.
    destruct (Nat.leb_spec (length q) (length h)); [apply EvalEq_spec|apply EvalEq_panics]; assumption.
  Qed.

  Lemma TabAdd_exact (dst l r : list F) :
    TabAdd dst l r = if (length r =? length l)%nat
      then Some (map (fun i => nth i l 0 + nth i r 0) (seq 0 (length l))) else None.
  Proof.
    destruct (Nat.eqb_spec (length r) (length l)); [apply TabAdd_spec|apply TabAdd_panics]; assumption.
  Qed.

  Lemma TabSub_exact (dst l r : list F) nCore :
    TabSub dst l r nCore = if ((0 <? nCore) && (length r =? length l))%nat
      then Some (map (fun i => nth i l 0 - nth i r 0) (seq 0 (length l))) else None.
  Proof.
    destruct (Nat.ltb_spec 0 nCore) as [Hc|Hc]; cbn [andb].
    - destruct (Nat.eqb_spec (length r) (length l)); [apply TabSub_spec|apply TabSub_panics]; assumption.
    - replace nCore with 0%nat by lia. apply TabSub_zero_core.
  Qed.

  Lemma TabMul_exact (dst : list F) a x nCore :
    TabMul dst a x nCore = if (0 <? nCore)%nat then Some (map (fun y => y * a) x) else None.
  Proof.
    destruct (Nat.ltb_spec 0 nCore) as [Hc|Hc]; [apply TabMul_spec; assumption|].
    replace nCore with 0%nat by lia. apply TabMul_zero_core.
  Qed.

End Domain.
