(** Proofs about the 64-bit model (MInt.v): where it agrees with the unbounded one. *)
From Coq Require Import List Arith ZArith Lia Bool.
From Verif Require Import Field Go MCommon LCommon MPoly MCircuit MInt.
Import ListNotations.
Local Open Scope Z_scope.

Lemma wrap_id z : - 2 ^ 63 <= z < 2 ^ 63 -> wrap z = z.
Proof. intros H. unfold wrap. rewrite Z.mod_small; lia. Qed.

Lemma wrap_range z : - 2 ^ 63 <= wrap z < 2 ^ 63.
Proof. unfold wrap. pose proof (Z.mod_pos_bound (z + 2 ^ 63) (2 ^ 64) eq_refl). lia. Qed.

Lemma wrap_mult z k : wrap (z + k * 2 ^ 64) = wrap z.
Proof. unfold wrap. replace (z + k * 2 ^ 64 + 2 ^ 63) with (z + 2 ^ 63 + k * 2 ^ 64) by ring. rewrite Z.mod_add by lia. reflexivity. Qed.

Lemma wrap_0 k : wrap (k * 2 ^ 64) = 0.
Proof. rewrite <- (Z.add_0_l (k * 2 ^ 64)), wrap_mult. reflexivity. Qed.

Lemma shl_pow k : 0 <= k <= 62 -> shl64 1 k = Some (2 ^ k).
Proof.
  intros H. unfold shl64. destruct (Z.ltb_spec k 0); [lia|]. f_equal.
  rewrite Z.shiftl_1_l. apply wrap_id.
  pose proof (Z.pow_le_mono_r 2 k 62). pose proof (Z.pow_pos_nonneg 2 k). lia.
Qed.

Lemma shl_63 : shl64 1 63 = Some (- 2 ^ 63).
Proof. reflexivity. Qed.

Lemma shl_big k : 64 <= k -> shl64 1 k = Some 0.
Proof.
  intros H. unfold shl64. destruct (Z.ltb_spec k 0); [lia|]. f_equal.
  rewrite Z.shiftl_1_l. replace k with ((k - 64) + 64) by ring.
  rewrite Z.pow_add_r by lia. apply wrap_0.
Qed.

Lemma zget_of_nat {A} (l : list A) n : zget l (Z.of_nat n) = get l n.
Proof. unfold zget. destruct (Z.ltb_spec (Z.of_nat n) 0); [lia|]. rewrite Nat2Z.id. reflexivity. Qed.

Lemma zset_of_nat {A} (l : list A) n v : zset l (Z.of_nat n) v = set l n v.
Proof. unfold zset. destruct (Z.ltb_spec (Z.of_nat n) 0); [lia|]. rewrite Nat2Z.id. reflexivity. Qed.

Lemma zget_neg {A} (l : list A) z : z < 0 -> zget l z = None.
Proof. intros H. unfold zget. destruct (Z.ltb_spec z 0); [reflexivity|lia]. Qed.

Lemma zget_nil {A} z : zget (@nil A) z = None.
Proof. unfold zget. destruct (z <? 0); [reflexivity|]. destruct (Z.to_nat z); reflexivity. Qed.

Lemma make64_of_nat {A} maxLen (x : A) n :
  make64 maxLen x (Z.of_nat n) = if Z.of_nat n <=? maxLen then Some (repeat x n) else None.
Proof.
  unfold make64. destruct (Z.leb_spec 0 (Z.of_nat n)); [|lia]. simpl. rewrite Nat2Z.id. reflexivity.
Qed.

Lemma make64_neg {A} maxLen (x : A) z : z < 0 -> make64 maxLen x z = None.
Proof. intros H. unfold make64. destruct (Z.leb_spec 0 z); [lia|reflexivity]. Qed.

(* ------------------------------------------------------------------ common *)

Lemma log2floor64_loop_log2 fuel i res :
  1 <= i < 2 ^ Z.of_nat fuel -> 0 <= res -> res + Z.of_nat fuel < 2 ^ 62 ->
  log2floor64_loop fuel i res = res + Z.log2 i.
Proof.
  revert i res; induction fuel as [|fuel IH]; intros i res Hi H0 Hr.
  - simpl in Hi. lia.
  - cbn [log2floor64_loop]. rewrite Z.gtb_ltb. destruct (Z.ltb_spec 1 i) as [H1|H1].
    + assert (Hs : Z.shiftr i 1 = i / 2) by (rewrite Z.shiftr_div_pow2 by lia; reflexivity).
      assert (Hd : 1 <= i / 2 < 2 ^ Z.of_nat fuel).
      { split.
        - apply Z.div_le_lower_bound; lia.
        - apply Z.div_lt_upper_bound; [lia|].
          rewrite Nat2Z.inj_succ, Z.pow_succ_r in Hi by lia. lia. }
      unfold add64. rewrite wrap_id by lia.
      rewrite Hs, IH; [|assumption|lia|lia].
      assert (E : Z.log2 (i / 2) = Z.log2 i - 1).
      { rewrite <- Hs, Z.log2_shiftr by lia. assert (1 <= Z.log2 i); [|lia].
        apply Z.log2_le_pow2; lia. }
      lia.
    + assert (i = 1) by lia. subst. simpl. lia.
Qed.

Lemma Log2Floor64_eq a : a < 2 ^ 63 -> Log2Floor64 a = Log2Floor a.
Proof.
  intros H. unfold Log2Floor64. destruct (Z_lt_le_dec 0 a) as [Ha|Ha].
  - rewrite log2floor64_loop_log2; [|simpl Z.of_nat; lia|lia|simpl Z.of_nat; lia].
    rewrite Log2Floor_log2 by lia. lia.
  - cbn [log2floor64_loop]. rewrite Z.gtb_ltb. destruct (Z.ltb_spec 1 a); [lia|].
    destruct a; [reflexivity|lia|reflexivity].
Qed.

Lemma Log2Floor_le62 a : a < 2 ^ 63 -> 0 <= Log2Floor a <= 62.
Proof.
  intros H. destruct (Z_lt_le_dec 0 a) as [Ha|Ha].
  - rewrite Log2Floor_log2 by lia. split; [apply Z.log2_nonneg|].
    assert (Z.log2 a < 63); [|lia]. apply Z.log2_lt_pow2; lia.
  - destruct a; simpl; lia.
Qed.

Lemma Log2Ceil64_eq a : a < 2 ^ 63 -> Log2Ceil64 a = Some (Log2Ceil a).
Proof.
  intros H. unfold Log2Ceil64, Log2Ceil. rewrite Log2Floor64_eq by assumption.
  pose proof (Log2Floor_le62 a H). rewrite shl_pow by lia.
  rewrite Z.shiftl_1_l. unfold add64. rewrite wrap_id by lia. reflexivity.
Qed.

Lemma chunk_loop64_eq n c N b :
  0 <= b -> 0 <= c -> b + Z.of_nat n * c < 2 ^ 63 -> chunk_loop64 n c N b = chunk_loop n c N b.
Proof.
  revert b; induction n as [|n IH]; intros b Hb Hc H; [reflexivity|].
  cbn [chunk_loop64 chunk_loop]. assert (Hn : b + c + Z.of_nat n * c < 2 ^ 63) by lia.
  assert (0 <= Z.of_nat n * c) by nia.
  unfold add64. rewrite wrap_id by lia. f_equal. apply IH; lia.
Qed.

Lemma IntoChunkRanges64_eq nCore N :
  - 2 ^ 63 <= nCore < 2 ^ 63 -> - 2 ^ 63 <= N <= 2 ^ 62 ->
  IntoChunkRanges64 nCore N = IntoChunkRanges nCore N.
Proof.
  intros Hc HN. unfold IntoChunkRanges64, IntoChunkRanges, MaxChunkPerCore, mul64.
  rewrite !Z.mul_1_l. rewrite (wrap_id nCore) by lia. unfold quot64.
  destruct (Z.eqb_spec nCore 0) as [E0|E0]; [reflexivity|].
  destruct (Z_lt_le_dec N 0) as [Hneg|Hpos].
  - (* negative N: nothing, or a panic *)
    assert (HM : forall c, 4096 <= c -> c < 2 ^ 63 ->
              (if c =? 0 then None else Some (wrap (N ÷ c))) = Some (N ÷ c) /\
              wrap (N ÷ c * c) = N ÷ c * c /\ N <= N ÷ c * c /\ - 2 ^ 63 <= N ÷ c <= 0).
    { intros c H1 H2. destruct (Z.eqb_spec c 0); [lia|].
      assert (Hq : N ÷ c = - ((- N) / c)).
      { replace N with (- (- N)) at 1 by ring. rewrite Z.quot_opp_l by lia.
        rewrite Z.quot_div_nonneg by lia. reflexivity. }
      pose proof (Z.mul_div_le (- N) c). pose proof (Z.div_pos (- N) c).
      assert ((- N) / c <= - N) by (apply Z.div_le_upper_bound; nia).
      rewrite Hq. rewrite !wrap_id by nia. repeat split; try reflexivity; nia. }
    assert (HG : forall c, 4096 <= c < 2 ^ 63 ->
      (nChunks <- (if c =? 0 then None else Some (wrap (N ÷ c))) ;;
        if (if wrap (nChunks * c) <? N then add64 nChunks 1 else nChunks) <? 0 then None
        else Some (chunk_loop64 (Z.to_nat (if wrap (nChunks * c) <? N then add64 nChunks 1 else nChunks)) c N 0))
      = if N ÷ c <? 0 then None else Some []).
    { intros c Hc'. destruct (HM c) as (-> & HW & HL & HR); [lia|lia|]. rewrite HW.
      destruct (Z.ltb_spec (N ÷ c * c) N); [lia|]. destruct (Z.ltb_spec (N ÷ c) 0); [reflexivity|].
      replace (N ÷ c) with 0 by lia. reflexivity. }
    assert (HU : forall c, 4096 <= c ->
      (if (if N ÷ c * c <? N then N ÷ c + 1 else N ÷ c) <? 0 then None
       else Some (chunk_loop (Z.to_nat (if N ÷ c * c <? N then N ÷ c + 1 else N ÷ c)) c N 0))
      = if N ÷ c <? 0 then None else Some []).
    { intros c Hc'. assert (Hq : N ÷ c = - ((- N) / c)).
      { replace N with (- (- N)) at 1 by ring. rewrite Z.quot_opp_l by lia.
        rewrite Z.quot_div_nonneg by lia. reflexivity. }
      pose proof (Z.mul_div_le (- N) c). pose proof (Z.div_pos (- N) c).
      destruct (Z.ltb_spec (N ÷ c * c) N); [nia|]. destruct (Z.ltb_spec (N ÷ c) 0); [reflexivity|].
      replace (N ÷ c) with 0 by lia. reflexivity. }
    assert (HMax : forall x, 4096 <= Max MinChunkSize x).
    { intros x. unfold Max, MinChunkSize. rewrite Z.geb_leb. destruct (Z.leb_spec x 4096); lia. }
    rewrite HU by apply HMax. rewrite HG.
    2:{ split; [apply HMax|]. unfold Max, MinChunkSize. rewrite Z.geb_leb.
        pose proof (wrap_range (N ÷ nCore)). destruct (Z.leb_spec (wrap (N ÷ nCore)) 4096); lia. }
    (* the only quotient that wraps is -2^63 / -1 *)
    assert (HQ : (N = - 2 ^ 63 /\ nCore = -1) \/ wrap (N ÷ nCore) = N ÷ nCore).
    { destruct (Z_lt_le_dec 0 nCore) as [Hp|Hp].
      - right. apply wrap_id.
        assert (Hq : N ÷ nCore = - ((- N) / nCore)).
        { replace N with (- (- N)) at 1 by ring. rewrite Z.quot_opp_l by lia.
          rewrite Z.quot_div_nonneg by lia. reflexivity. }
        pose proof (Z.div_pos (- N) nCore).
        assert ((- N) / nCore <= - N) by (apply Z.div_le_upper_bound; nia). lia.
      - assert (Hq : N ÷ nCore = (- N) / (- nCore)).
        { rewrite <- Z.quot_div_nonneg by lia. rewrite Z.quot_opp_opp by lia. reflexivity. }
        pose proof (Z.div_pos (- N) (- nCore)).
        destruct (Z.eq_dec nCore (-1)) as [->|Hne].
        + destruct (Z.eq_dec N (- 2 ^ 63)); [left; auto|]. right. apply wrap_id.
          rewrite Hq. simpl (- -1). rewrite Z.div_1_r. lia.
        + right. apply wrap_id. rewrite Hq.
          assert ((- N) / (- nCore) <= 2 ^ 62); [|lia].
          apply Z.div_le_upper_bound; nia. }
    destruct HQ as [[-> ->]| ->]; reflexivity.
  - (* nonnegative N *)
    assert (HQ : wrap (N ÷ nCore) = N ÷ nCore /\ N ÷ nCore <= N).
    { destruct (Z_lt_le_dec 0 nCore) as [Hp|Hp].
      - rewrite Z.quot_div_nonneg by lia. pose proof (Z.div_pos N nCore).
        assert (N / nCore <= N) by (apply Z.div_le_upper_bound; nia). split; [apply wrap_id; lia|lia].
      - assert (Hq : N ÷ nCore = - (N / (- nCore))).
        { replace nCore with (- (- nCore)) at 1 by ring. rewrite Z.quot_opp_r by lia.
          rewrite Z.quot_div_nonneg by lia. reflexivity. }
        pose proof (Z.div_pos N (- nCore)).
        assert (N / (- nCore) <= N) by (apply Z.div_le_upper_bound; nia).
        split; [apply wrap_id; lia|lia]. }
    destruct HQ as [-> HqN].
    set (c := Max MinChunkSize (N ÷ nCore)).
    assert (Hc1 : 4096 <= c /\ (c = 4096 \/ c <= N)).
    { unfold c, Max, MinChunkSize. rewrite Z.geb_leb. destruct (Z.leb_spec (N ÷ nCore) 4096); lia. }
    destruct (Z.eqb_spec c 0); [lia|].
    rewrite Z.quot_div_nonneg by lia.
    pose proof (Z.div_pos N c). pose proof (Z.mul_div_le N c). pose proof (Z.mod_pos_bound N c).
    pose proof (Z.div_mod N c).
    assert (N / c <= N) by (apply Z.div_le_upper_bound; nia).
    rewrite (wrap_id (N / c)) by lia. rewrite wrap_id by lia.
    unfold add64. rewrite wrap_id by lia.
    destruct (Z.ltb_spec (N / c * c) N).
    + destruct (Z.ltb_spec (N / c + 1) 0); [reflexivity|]. f_equal. apply chunk_loop64_eq; nia.
    + destruct (Z.ltb_spec (N / c) 0); [reflexivity|]. f_equal. apply chunk_loop64_eq; nia.
Qed.

(** With [N] the largest [int] and two cores the last range ends before it begins. *)
Lemma IntoChunkRanges64_overflow :
  IntoChunkRanges64 2 (2 ^ 63 - 1) =
    Some [(0, 2 ^ 62 - 1); (2 ^ 62 - 1, 2 ^ 63 - 2); (2 ^ 63 - 2, - 2 ^ 62 - 3)].
Proof. reflexivity. Qed.
