(** LinearCombinationOfBookKeepingTables in memory: apart operands, one shared table, a short first operand. *)
From Coq Require Import List Arith ZArith Lia Bool Ring Field.
From Verif Require Import Field Go MCommon Spec MPoly LSpec LCommon LPoly MForkJoin LForkJoin MHeap SpecHeap LHeap.
Import ListNotations.

Section H.
  Context {F : Field}.
  Add Field FfieldH3 : (f_theory F).
  Open Scope F_scope.
  Implicit Types (m : list F) (s : Slice).

  Lemma rd_upd_same m s i v : swf m s -> (i < slen s)%nat -> rd (upd m (base s + i) v) s i = v.
  Proof. intros [A B] H. unfold rd. apply nth_upd_same. lia. Qed.
  Lemma rd_upd_other m s i a v : (base s + i <> a)%nat -> rd (upd m a v) s i = rd m s i.
  Proof. intros H. unfold rd. apply nth_upd_other. auto. Qed.

  Lemma linear_combination_memory m s0 s1 a0 a1 : swf m s0 -> swf m s1 -> apart s0 s1 -> (slen s1 <= slen s0)%nat ->
    exists m', HLinearCombination m s0 s1 a0 a1 = Some m' /\ length m' = length m /\
      (forall i, (i < slen s1)%nat -> rd m' s1 i = a0 * rd m s0 i + a1 * rd m s1 i) /\
      (forall i, (i < slen s1)%nat -> rd m' s0 i = a0 * rd m s0 i) /\
      (forall a, ~ cell s1 a -> (a < base s0 \/ base s0 + slen s1 <= a)%nat -> nth a m' 0 = nth a m 0).
  Proof.
    intros W0 W1 Ap Hle. unfold HLinearCombination.
    assert (D : forall i j, (i < slen s0)%nat -> (j < slen s1)%nat -> (base s0 + i <> base s1 + j)%nat).
    { intros i j Hi Hj E. apply (Ap (base s0 + i)%nat); unfold cell; lia. }
    match goal with |- context [forN (slen s1) ?b m] => destruct (forN_inv (fun k m1 =>
       length m1 = length m /\
       (forall i, (i < slen s1)%nat -> rd m1 s1 i = if (i <? k)%nat then a0 * rd m s0 i + a1 * rd m s1 i else rd m s1 i) /\
       (forall i, (i < slen s1)%nat -> rd m1 s0 i = if (i <? k)%nat then a0 * rd m s0 i else rd m s0 i) /\
       (forall a, ~ cell s1 a -> (a < base s0 \/ base s0 + slen s1 <= a)%nat -> nth a m1 0 = nth a m 0)) b (slen s1) m)
       as (m' & E & H1 & H2 & H3 & H4) end.
    { repeat split; auto. }
    { intros k m1 Hk (H1 & H2 & H3 & H4).
      assert (V0 : forall mm : list F, length mm = length m -> swf mm s0) by (intros mm E; apply (swf_len m); auto).
      assert (V1 : forall mm : list F, length mm = length m -> swf mm s1) by (intros mm E; apply (swf_len m); auto).
      assert (K0 : (k < slen s0)%nat) by lia.
      rewrite (hget_rd m1 s0), (hset_upd m1 s0) by auto.
      set (m2 := upd m1 (base s0 + k) (rd m1 s0 k * a0)).
      assert (L2 : length m2 = length m) by (unfold m2; rewrite upd_length; exact H1).
      rewrite (hget_rd m2 s1), (hset_upd m2 s1) by auto.
      set (m3 := upd m2 (base s1 + k) (rd m2 s1 k * a1)).
      assert (L3 : length m3 = length m) by (unfold m3; rewrite upd_length; exact L2).
      rewrite (hget_rd m3 s1), (hget_rd m3 s0), (hset_upd m3 s1) by auto.
      eexists. split; [reflexivity|].
      assert (R2 : rd m2 s1 k = rd m s1 k).
      { unfold m2. rewrite rd_upd_other by (intros E; apply (D k k); auto). rewrite H2, Nat.ltb_irrefl by auto. reflexivity. }
      assert (R3 : rd m3 s1 k = rd m s1 k * a1) by (unfold m3; rewrite rd_upd_same, R2 by auto; reflexivity).
      assert (R0 : rd m3 s0 k = rd m s0 k * a0).
      { unfold m3. rewrite rd_upd_other by (apply D; auto). unfold m2. rewrite rd_upd_same by auto.
        rewrite H3, Nat.ltb_irrefl by auto. reflexivity. }
      assert (LS : forall i, i <> k -> (i <? S k)%nat = (i <? k)%nat).
      { intros i Hi. destruct (Nat.ltb_spec i (S k)), (Nat.ltb_spec i k); auto; lia. }
      split; [rewrite upd_length; exact L3|]. split; [|split].
      - intros i Hi. destruct (Nat.eq_dec i k) as [->|Hne].
        + rewrite rd_upd_same by auto. rewrite (proj2 (Nat.ltb_lt k (S k))) by lia. rewrite R3, R0. ring.
        + rewrite LS by exact Hne. rewrite rd_upd_other by lia. unfold m3. rewrite rd_upd_other by lia.
          unfold m2. rewrite rd_upd_other by (intros E; apply (D k i); auto). apply H2. exact Hi.
      - intros i Hi. destruct (Nat.eq_dec i k) as [->|Hne].
        + rewrite rd_upd_other by (apply D; auto). rewrite (proj2 (Nat.ltb_lt k (S k))) by lia. rewrite R0. ring.
        + rewrite LS by exact Hne. rewrite rd_upd_other by (apply D; auto; lia).
          unfold m3. rewrite rd_upd_other by (apply D; auto; lia).
          unfold m2. rewrite rd_upd_other by lia. apply H3. exact Hi.
      - intros a Ha Hb. unfold cell in Ha. rewrite nth_upd_other by lia.
        unfold m3. rewrite nth_upd_other by lia. unfold m2. rewrite nth_upd_other by lia. apply H4; [exact Ha|exact Hb]. }
    exists m'. split; [exact E|]. split; [exact H1|].
    split; [|split].
    - intros i Hi. rewrite H2 by exact Hi. rewrite (proj2 (Nat.ltb_lt i (slen s1))) by lia. reflexivity.
    - intros i Hi. rewrite H3 by exact Hi. rewrite (proj2 (Nat.ltb_lt i (slen s1))) by lia. reflexivity.
    - exact H4.
  Qed.

  (** one table given twice *)
  Lemma linear_combination_same m s a0 a1 : swf m s ->
    exists m', HLinearCombination m s s a0 a1 = Some m' /\ length m' = length m /\
      (forall i, (i < slen s)%nat -> rd m' s i = (1 + 1) * a0 * a1 * rd m s i) /\
      (forall a, ~ cell s a -> nth a m' 0 = nth a m 0).
  Proof.
    intros W. unfold HLinearCombination.
    match goal with |- context [forN (slen s) ?b m] => destruct (forN_inv (fun k m1 =>
       length m1 = length m /\
       (forall i, (i < slen s)%nat -> rd m1 s i = if (i <? k)%nat then (1 + 1) * a0 * a1 * rd m s i else rd m s i) /\
       (forall a, ~ cell s a -> nth a m1 0 = nth a m 0)) b (slen s) m)
       as (m' & E & H1 & H2 & H4) end.
    { repeat split; auto. }
    { intros k m1 Hk (H1 & H2 & H4).
      assert (V : forall mm : list F, length mm = length m -> swf mm s) by (intros mm E; apply (swf_len m); auto).
      rewrite (hget_rd m1 s), (hset_upd m1 s) by auto.
      set (m2 := upd m1 (base s + k) (rd m1 s k * a0)).
      assert (L2 : length m2 = length m) by (unfold m2; rewrite upd_length; exact H1).
      rewrite (hget_rd m2 s), (hset_upd m2 s) by auto.
      set (m3 := upd m2 (base s + k) (rd m2 s k * a1)).
      assert (L3 : length m3 = length m) by (unfold m3; rewrite upd_length; exact L2).
      rewrite (hget_rd m3 s), (hset_upd m3 s) by auto.
      eexists. split; [reflexivity|].
      assert (R2 : rd m2 s k = rd m s k * a0).
      { unfold m2. rewrite rd_upd_same by auto. rewrite H2, Nat.ltb_irrefl by auto. reflexivity. }
      assert (R3 : rd m3 s k = rd m s k * a0 * a1) by (unfold m3; rewrite rd_upd_same, R2 by auto; reflexivity).
      split; [rewrite upd_length; exact L3|]. split.
      - intros i Hi. destruct (Nat.eq_dec i k) as [->|Hne].
        + rewrite rd_upd_same by auto. rewrite (proj2 (Nat.ltb_lt k (S k))) by lia. rewrite R3. ring.
        + rewrite rd_upd_other by lia. unfold m3. rewrite rd_upd_other by lia. unfold m2. rewrite rd_upd_other by lia.
          rewrite H2 by exact Hi. destruct (Nat.ltb_spec i (S k)), (Nat.ltb_spec i k); auto; lia.
      - intros a Ha. unfold cell in Ha. rewrite nth_upd_other by lia.
        unfold m3. rewrite nth_upd_other by lia. unfold m2. rewrite nth_upd_other by lia. apply H4. exact Ha. }
    exists m'. split; [exact E|]. split; [exact H1|]. split; [|exact H4].
    intros i Hi. rewrite H2 by exact Hi. rewrite (proj2 (Nat.ltb_lt i (slen s))) by lia. reflexivity.
  Qed.

  Lemma linear_combination_memory_panics m s0 s1 a0 a1 : (slen s0 < slen s1)%nat -> HLinearCombination m s0 s1 a0 a1 = None.
  Proof.
    intros H. unfold HLinearCombination, forN.
    assert (E : exists l, seq 0 (slen s1) = seq 0 (slen s0) ++ slen s0 :: l).
    { exists (seq (S (slen s0)) (slen s1 - S (slen s0))).
      replace (slen s1) with (slen s0 + S (slen s1 - S (slen s0)))%nat at 1 by lia.
      rewrite seq_app. reflexivity. }
    destruct E as (l & E). rewrite E, foldM_app.
    match goal with |- match ?X with _ => _ end = None => destruct X as [m1|]; [|reflexivity] end.
    cbn [foldM]. unfold hget at 1. rewrite Nat.ltb_irrefl. reflexivity.
  Qed.
End H.
