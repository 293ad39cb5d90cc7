(** Lemmas about package common: logarithms and chunk ranges. *)
From Coq Require Import List ZArith Lia Arith.
From Verif Require Import Go MCommon.
Import ListNotations.
Local Open Scope Z_scope.

Lemma log2floor_loop_spec i res : log2floor_loop i res = res + Z.log2 (Zpos i).
Proof.
  revert res; induction i as [i IH|i IH|]; intros res; cbn [log2floor_loop].
  - rewrite IH. rewrite (Pos2Z.inj_xI i), Z.log2_succ_double by lia. lia.
  - rewrite IH. rewrite (Pos2Z.inj_xO i), Z.log2_double by lia. lia.
  - change (Z.log2 1) with 0. lia.
Qed.

Lemma Log2Floor_log2 a : 0 < a -> Log2Floor a = Z.log2 a.
Proof.
  intros H. destruct a as [|p|p]; try lia. unfold Log2Floor. rewrite log2floor_loop_spec. lia.
Qed.

Lemma Log2Floor_spec a : 1 <= a -> 0 <= Log2Floor a /\ 2 ^ Log2Floor a <= a < 2 ^ (Log2Floor a + 1).
Proof.
  intros H. rewrite Log2Floor_log2 by lia.
  split; [apply Z.log2_nonneg|]. pose proof (Z.log2_spec a ltac:(lia)). lia.
Qed.

Lemma Log2Ceil_spec a : 1 <= a ->
  0 <= Log2Ceil a /\ a <= 2 ^ Log2Ceil a /\ (forall k, 0 <= k -> a <= 2 ^ k -> Log2Ceil a <= k).
Proof.
  intros H. unfold Log2Ceil. rewrite Log2Floor_log2 by lia.
  pose proof (Z.log2_spec a ltac:(lia)) as [H1 H2]. pose proof (Z.log2_nonneg a) as H3.
  rewrite Z.shiftl_1_l.
  destruct (Z.eqb_spec a (2 ^ Z.log2 a)) as [E|E].
  - split; [lia|]. split; [lia|]. intros k Hk Hak.
    rewrite E in Hak. apply Z.pow_le_mono_r_iff in Hak; lia.
  - split; [lia|]. split; [replace (Z.log2 a + 1) with (Z.succ (Z.log2 a)) by lia; lia|].
    intros k Hk Hak. assert (Hlt : 2 ^ Z.log2 a < 2 ^ k) by lia.
    apply Z.pow_lt_mono_r_iff in Hlt; lia.
Qed.

Lemma Log2Ceil_pow2 k : 0 <= k -> Log2Ceil (2 ^ k) = k.
Proof.
  intros Hk. assert (H : 1 <= 2 ^ k) by (pose proof (Z.pow_pos_nonneg 2 k); lia).
  destruct (Log2Ceil_spec (2 ^ k) H) as (H1 & H2 & H3).
  apply Z.pow_le_mono_r_iff in H2; try lia. specialize (H3 k Hk ltac:(lia)). lia.
Qed.

Lemma Zofnat_pow2 k : Z.of_nat (2 ^ k)%nat = 2 ^ Z.of_nat k.
Proof. rewrite Nat2Z.inj_pow. reflexivity. Qed.

Lemma log2ceil_pow2 k : log2ceil (2 ^ k)%nat = k.
Proof. unfold log2ceil. rewrite Zofnat_pow2, Log2Ceil_pow2 by lia. lia. Qed.

Lemma log2ceil_spec n : (1 <= n)%nat ->
  (n <= 2 ^ log2ceil n)%nat /\ (forall k, n <= 2 ^ k -> log2ceil n <= k)%nat.
Proof.
  intros H. unfold log2ceil.
  destruct (Log2Ceil_spec (Z.of_nat n) ltac:(lia)) as (H1 & H2 & H3). split.
  - apply Nat2Z.inj_le. rewrite Zofnat_pow2, Z2Nat.id by lia. exact H2.
  - intros k Hk. apply Nat2Z.inj_le. rewrite Z2Nat.id by lia. apply H3; [lia|].
    rewrite <- Zofnat_pow2. lia.
Qed.

Lemma log2ceil_0 : log2ceil 0 = 1%nat.
Proof. reflexivity. Qed.

Lemma log2ceil_gt_half n k : (2 ^ k < n)%nat -> (k < log2ceil n)%nat.
Proof.
  intros H. destruct (log2ceil_spec n) as [H1 _]; [lia|].
  destruct (Nat.lt_ge_cases k (log2ceil n)) as [|Hge]; [assumption|].
  assert (2 ^ log2ceil n <= 2 ^ k)%nat by (apply Nat.pow_le_mono_r; lia). lia.
Qed.

(** chunk ranges *)
Lemma chunk_loop_map n cs N b :
  chunk_loop n cs N b =
  map (fun i => (b + Z.of_nat i * cs, Z.min N (b + (Z.of_nat i + 1) * cs))) (seq 0 n).
Proof.
  revert b; induction n as [|n IH]; intros b; [reflexivity|].
  cbn [chunk_loop seq map]. f_equal.
  - f_equal; [lia|]. unfold Min. destruct (Z.leb_spec N (b + cs)); lia.
  - rewrite IH, <- seq_shift, map_map. apply map_ext. intros i. f_equal; lia.
Qed.

Definition chunk_size (nCore N : Z) : Z := Z.max 4096 (Z.quot N nCore).
Definition chunk_count (nCore N : Z) : Z :=
  (N + chunk_size nCore N - 1) / chunk_size nCore N.

Lemma chunk_count_alt c N : 1 <= c -> 0 <= N ->
  (if Z.quot N c * c <? N then Z.quot N c + 1 else Z.quot N c) = (N + c - 1) / c.
Proof.
  intros Hc HN. rewrite Z.quot_div_nonneg by lia.
  pose proof (Z.div_mod N c ltac:(lia)) as E. pose proof (Z.mod_pos_bound N c ltac:(lia)) as B.
  destruct (Z.ltb_spec (N / c * c) N) as [H|H].
  - apply Z.div_unique with (r := N mod c - 1); nia.
  - apply Z.div_unique with (r := c - 1); nia.
Qed.

Lemma IntoChunkRanges_eq nCore N : nCore <> 0 -> 0 <= N ->
  IntoChunkRanges nCore N =
  Some (map (fun i => (Z.of_nat i * chunk_size nCore N,
                       Z.min N ((Z.of_nat i + 1) * chunk_size nCore N)))
            (seq 0 (Z.to_nat (chunk_count nCore N)))).
Proof.
  intros Hc HN. unfold IntoChunkRanges. unfold MaxChunkPerCore. rewrite Z.mul_1_l.
  destruct (Z.eqb_spec nCore 0); [lia|].
  assert (E : Max MinChunkSize (Z.quot N nCore) = chunk_size nCore N).
  { unfold Max, MinChunkSize, chunk_size. rewrite Z.geb_leb.
    destruct (Z.leb_spec (Z.quot N nCore) 4096); lia. }
  rewrite E. assert (Hs : 4096 <= chunk_size nCore N) by (unfold chunk_size; lia).
  rewrite chunk_count_alt by lia. fold (chunk_count nCore N).
  assert (0 <= chunk_count nCore N) by (apply Z.div_pos; lia).
  destruct (Z.ltb_spec (chunk_count nCore N) 0); [lia|].
  rewrite chunk_loop_map. f_equal.
Qed.

Lemma IntoChunkRanges_zero N : IntoChunkRanges 0 N = None.
Proof. reflexivity. Qed.

Lemma chunk_count_bounds nCore N : 0 < N ->
  let c := chunk_size nCore N in let n := chunk_count nCore N in
  4096 <= c /\ 1 <= n /\ (n - 1) * c < N /\ N <= n * c.
Proof.
  intros HN c n. assert (Hc : 4096 <= c) by (unfold c, chunk_size; lia).
  assert (E := Z.div_mod (N + c - 1) c ltac:(lia)).
  assert (B := Z.mod_pos_bound (N + c - 1) c ltac:(lia)).
  fold (chunk_count nCore N) in E. change ((N + c - 1) / c) with n in E.
  split; [exact Hc|]. nia.
Qed.

Lemma chunk_count_0 nCore : chunk_count nCore 0 = 0.
Proof.
  unfold chunk_count. apply Z.div_small. unfold chunk_size. lia.
Qed.

(** The index lists of the ranges, concatenated, are 0..N-1. *)
Definition range_indices (c : ChunkRange) : list nat :=
  seq (Z.to_nat (fst c)) (Z.to_nat (snd c) - Z.to_nat (fst c)).

Lemma ranges_concat_aux (c N : nat) n : (0 < c)%nat -> ((n - 1) * c <= N)%nat ->
  flat_map (fun i => seq (i * c) (Nat.min N ((i + 1) * c) - i * c)) (seq 0 n)
  = seq 0 (Nat.min N (n * c)).
Proof.
  intros Hc. induction n as [|n IH]; intros Hn.
  - simpl. rewrite Nat.min_0_r. reflexivity.
  - rewrite seq_S, flat_map_app, IH by nia. cbn [flat_map Nat.add]. rewrite app_nil_r.
    rewrite (Nat.min_r N (n * c)) by nia.
    replace (Nat.min N (S n * c)) with (n * c + (Nat.min N ((n + 1) * c) - n * c))%nat by nia.
    rewrite seq_app. reflexivity.
Qed.

Lemma chunk_ranges_indices nCore N : nCore <> 0 -> (0 <= N) ->
  exists chunks, IntoChunkRanges nCore N = Some chunks /\
    flat_map range_indices chunks = seq 0 (Z.to_nat N).
Proof.
  intros Hc HN. rewrite IntoChunkRanges_eq by assumption.
  eexists. split; [reflexivity|].
  destruct (Z.eq_dec N 0) as [->|HN0].
  { rewrite chunk_count_0. reflexivity. }
  destruct (chunk_count_bounds nCore N ltac:(lia)) as (H1 & H2 & H3 & H4).
  set (c := chunk_size nCore N) in *. set (n := chunk_count nCore N) in *.
  transitivity (seq 0 (Nat.min (Z.to_nat N) (Z.to_nat n * Z.to_nat c))).
  - rewrite <- ranges_concat_aux by nia.
    rewrite flat_map_concat_map, map_map, <- flat_map_concat_map.
    rewrite !flat_map_concat_map. f_equal. apply map_ext_in. intros i Hi. apply in_seq in Hi.
    unfold range_indices. cbn [fst snd].
    assert (E1 : Z.to_nat (Z.of_nat i * c) = (i * Z.to_nat c)%nat) by (rewrite Z2Nat.inj_mul, Nat2Z.id; lia).
    assert (E2 : Z.to_nat (Z.min N ((Z.of_nat i + 1) * c)) = Nat.min (Z.to_nat N) ((i + 1) * Z.to_nat c)).
    { rewrite Z2Nat.inj_min. f_equal. rewrite Z2Nat.inj_mul by lia. f_equal. lia. }
    rewrite E1, E2. reflexivity.
  - f_equal. apply Nat.min_l.
    rewrite <- Z2Nat.inj_mul by lia. apply Z2Nat.inj_le; lia.
Qed.
