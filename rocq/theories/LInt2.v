(** Proofs about the 64-bit model: tables and layers. *)
From Coq Require Import List Arith ZArith Lia Bool.
From Verif Require Import Field Go MCommon LCommon MPoly MCircuit SpecCircuit MInt LInt LCircuit SpecInt.
Import ListNotations.
Local Open Scope Z_scope.

Lemma pow_of_nat k : 2 ^ Z.of_nat k = Z.of_nat (2 ^ k)%nat.
Proof. rewrite Nat2Z.inj_pow. reflexivity. Qed.

Lemma wrap_nat z n : z = Z.of_nat n -> z < 2 ^ 63 -> wrap z = Z.of_nat n.
Proof. intros -> H. apply wrap_id. lia. Qed.

Lemma foldM_map {A B S} (f : S -> B -> option S) (h : A -> B) l s :
  foldM f (map h l) s = foldM (fun s a => f s (h a)) l s.
Proof. revert s; induction l as [|a l IH]; intros s; simpl; [reflexivity|]. destruct (f s (h a)); auto. Qed.

Section Tables.
  Context {F : Field}.
  Add Field FfieldInt2 : (f_theory F).
  Variable maxLen : Z.
  Hypothesis Hmax : 1 <= maxLen <= 2 ^ 62.

  (** [InterleavedChunk]. *)
  Lemma InterleavedChunk64_eq (t : list F) (on nChunk : nat) :
    len t <= maxLen -> Z.of_nat on < 2 ^ 63 -> Z.of_nat nChunk < 2 ^ 63 ->
    InterleavedChunk64 maxLen t (Z.of_nat on) (Z.of_nat nChunk) = InterleavedChunk t on nChunk.
  Proof.
    intros Ht Ho Hn. unfold InterleavedChunk64, InterleavedChunk, quot64, len in *.
    destruct (Nat.eq_dec nChunk 0) as [->|E0]; [reflexivity|]. rename nChunk into k.
    destruct (Z.eqb_spec (Z.of_nat k) 0); [lia|]. rewrite godiv_some by lia.
    rewrite Z.quot_div_nonneg by lia. rewrite <- Nat2Z.inj_div.
    assert (Hle : (length t / k <= length t)%nat) by (apply Nat.div_le_upper_bound; nia).
    rewrite wrap_id by lia. rewrite make64_of_nat.
    destruct (Z.leb_spec (Z.of_nat (length t / k)) maxLen); [|lia].
    rewrite Nat2Z.id. unfold forN. apply foldM_ext. intros s i Hi. apply in_seq in Hi.
    assert (Hik : (i * k + k <= length t)%nat).
    { assert ((i + 1) * k <= length t / k * k)%nat by (apply Nat.mul_le_mono_r; lia).
      pose proof (Nat.mul_div_le (length t) k). nia. }
    unfold mul64, add64. rewrite <- Nat2Z.inj_mul. rewrite (wrap_nat _ (i * k) eq_refl) by lia.
    destruct (Z_lt_le_dec (Z.of_nat on + Z.of_nat (i * k)) (2 ^ 63)) as [Hs|Hs].
    - rewrite (wrap_nat _ (on + i * k)) by lia. rewrite zget_of_nat.
      destruct (get t (on + i * k)); [|reflexivity]. apply zset_of_nat.
    - assert (E : wrap (Z.of_nat on + Z.of_nat (i * k)) < 0).
      { replace (Z.of_nat on + Z.of_nat (i * k)) with ((Z.of_nat on + Z.of_nat (i * k) - 2 ^ 64) + 1 * 2 ^ 64) by ring.
        rewrite wrap_mult, wrap_id; lia. }
      rewrite zget_neg by assumption. rewrite get_none by lia. reflexivity.
  Qed.

  (** A negative number of chunks, or a negative offset. *)
  Lemma InterleavedChunk64_neg (t : list F) on nChunk :
    len t <= maxLen -> - 2 ^ 63 <= on < 2 ^ 63 -> - 2 ^ 63 <= nChunk < 2 ^ 63 -> on < 0 \/ nChunk < 0 ->
    InterleavedChunk64 maxLen t on nChunk =
      if (nChunk =? 0) || (Z.abs nChunk <=? len t) then None else Some [].
  Proof.
    intros Ht Ho Hn Hneg. unfold InterleavedChunk64, quot64.
    destruct (Z.eqb_spec nChunk 0) as [|E0]; [reflexivity|]. simpl orb.
    assert (Hl : 0 <= len t <= 2 ^ 62) by (unfold len in *; lia).
    destruct (Z.leb_spec (Z.abs nChunk) (len t)) as [Hle|Hgt].
    - destruct (Z_lt_le_dec nChunk 0) as [Hn0|Hn0].
      + assert (Hq : len t ÷ nChunk = - (len t / (- nChunk))).
        { replace nChunk with (- (- nChunk)) at 1 by ring. rewrite Z.quot_opp_r by lia.
          rewrite Z.quot_div_nonneg by lia. reflexivity. }
        assert (1 <= len t / (- nChunk)) by (apply Z.div_le_lower_bound; lia).
        assert (len t / (- nChunk) <= len t) by (apply Z.div_le_upper_bound; nia).
        rewrite wrap_id by lia. rewrite make64_neg by lia. reflexivity.
      + rewrite Z.quot_div_nonneg by lia.
        assert (1 <= len t / nChunk) by (apply Z.div_le_lower_bound; lia).
        assert (len t / nChunk <= len t) by (apply Z.div_le_upper_bound; nia).
        rewrite wrap_id by lia. destruct (make64 maxLen 0%F (len t / nChunk)); [|reflexivity].
        unfold forN. destruct (Z.to_nat (len t / nChunk)) as [|m] eqn:Em; [lia|]. simpl.
        unfold mul64, add64. change (wrap (0 * nChunk)) with 0. rewrite Z.add_0_r.
        rewrite wrap_id by lia. rewrite zget_neg by lia. reflexivity.
    - assert (E : len t ÷ nChunk = 0) by (apply Z.quot_small_iff; lia).
      rewrite E. change (wrap 0) with 0. unfold make64.
      destruct (Z.leb_spec 0 maxLen); [|lia]. reflexivity.
  Qed.

  (** The powers of two of [GetFoldedEqTable] below the size of the table. *)
  Lemma eq_step64_eq n (t : list F) i r :
    (i < n)%nat -> Z.of_nat (2 ^ n) <= 2 ^ 62 ->
    eq_step64 (Z.of_nat n) t (i, r) = eq_step n t (i, r).
  Proof.
    intros Hi Hn. unfold eq_step64, eq_step. cbn [fst snd].
    assert (Hn62 : Z.of_nat n <= 62).
    { rewrite <- pow_of_nat in Hn. apply Z.pow_le_mono_r_iff in Hn; lia. }
    rewrite shl_pow by lia. rewrite pow_of_nat, Nat2Z.id. unfold forN. apply foldM_ext.
    intros s j Hj. apply in_seq in Hj.
    assert (HE : (2 ^ i * 2 ^ (n - i) = 2 ^ n)%nat) by (rewrite <- Nat.pow_add_r; f_equal; lia).
    assert (HE2 : (2 * 2 ^ (n - 1 - i) = 2 ^ (n - i))%nat).
    { replace (n - i)%nat with (S (n - 1 - i)) by lia. simpl. lia. }
    assert (HJ : (j * 2 ^ (n - i) + 2 ^ (n - i) <= 2 ^ n)%nat).
    { rewrite <- HE. replace (j * 2 ^ (n - i) + 2 ^ (n - i))%nat with ((j + 1) * 2 ^ (n - i))%nat by ring.
      apply Nat.mul_le_mono_r. lia. }
    unfold sub64. rewrite (wrap_nat (Z.of_nat n - Z.of_nat i) (n - i)) by lia. rewrite (wrap_nat (Z.of_nat n - 1) (n - 1)) by lia.
    rewrite (wrap_nat _ (n - 1 - i)) by lia.
    rewrite (shl_pow (Z.of_nat (n - 1 - i))) by lia. rewrite pow_of_nat.
    unfold shl64. destruct (Z.ltb_spec (Z.of_nat (n - i)) 0); [lia|].
    rewrite Z.shiftl_mul_pow2 by lia. rewrite pow_of_nat.
    rewrite <- Nat2Z.inj_mul, (wrap_nat _ (j * 2 ^ (n - i)) eq_refl) by lia.
    unfold add64. rewrite (wrap_nat _ (j * 2 ^ (n - i) + 2 ^ (n - 1 - i))) by lia.
    rewrite zget_of_nat. destruct (get s (j * 2 ^ (n - i))); [|reflexivity].
    rewrite zset_of_nat. destruct (set s _ _) as [s'|]; [|reflexivity].
    rewrite !zget_of_nat. destruct (get s' _); [|reflexivity].
    destruct (get s' _); [|reflexivity]. apply zset_of_nat.
  Qed.

  Lemma GetFoldedEqTable64_eq (q : list F) :
    GetFoldedEqTable64 maxLen q = if 2 ^ len q <=? maxLen then GetFoldedEqTable q else None.
  Proof.
    unfold GetFoldedEqTable64, GetFoldedEqTable, len. set (n := length q).
    destruct (Z_le_gt_dec (Z.of_nat n) 62) as [H62|H62].
    - rewrite shl_pow by lia. rewrite pow_of_nat, make64_of_nat.
      destruct (Z.leb_spec (Z.of_nat (2 ^ n)) maxLen) as [Hm|Hm]; [|reflexivity].
      change 0 with (Z.of_nat 0). rewrite zset_of_nat.
      destruct (set (repeat _ _) _ _) as [t|]; [|reflexivity].
      apply foldM_ext. intros s [i r] Hin. apply eq_step64_eq; [|lia].
      apply in_combine_l in Hin. apply in_seq in Hin. lia.
    - assert (Hbig : 2 ^ 62 < 2 ^ Z.of_nat n) by (apply Z.pow_lt_mono_r; lia).
      destruct (Z.leb_spec (2 ^ Z.of_nat n) maxLen); [lia|].
      destruct (Z.eq_dec (Z.of_nat n) 63) as [E|E].
      + rewrite E, shl_63. rewrite make64_neg by lia. reflexivity.
      + rewrite shl_big by lia. unfold make64. destruct (Z.leb_spec 0 maxLen); [|lia]. reflexivity.
  Qed.

  Lemma chunked_eq_step64_eq n nCore (res : list (list F)) i r :
    (i < n)%nat -> (n <= 62)%nat ->
    chunked_eq_step64 (Z.of_nat n) nCore res (i, r) = chunked_eq_step n nCore res (i, r).
  Proof.
    intros Hi Hn62. unfold chunked_eq_step64, chunked_eq_step. cbn [fst snd].
    assert (Hn : Z.of_nat (2 ^ n) <= 2 ^ 62) by (rewrite <- pow_of_nat; apply Z.pow_le_mono_r; lia).
    rewrite shl_pow by lia. rewrite pow_of_nat, Nat2Z.id. unfold forN. apply foldM_ext.
    intros s j Hj. apply in_seq in Hj.
    assert (HE : (2 ^ i * 2 ^ (n - i) = 2 ^ n)%nat) by (rewrite <- Nat.pow_add_r; f_equal; lia).
    assert (HE2 : (2 * 2 ^ (n - 1 - i) = 2 ^ (n - i))%nat).
    { replace (n - i)%nat with (S (n - 1 - i)) by lia. simpl. lia. }
    assert (HJ : (j * 2 ^ (n - i) + 2 ^ (n - i) <= 2 ^ n)%nat).
    { rewrite <- HE. replace (j * 2 ^ (n - i) + 2 ^ (n - i))%nat with ((j + 1) * 2 ^ (n - i))%nat by ring.
      apply Nat.mul_le_mono_r. lia. }
    unfold sub64. rewrite (wrap_nat (Z.of_nat n - Z.of_nat i) (n - i)) by lia. rewrite (wrap_nat (Z.of_nat n - 1) (n - 1)) by lia.
    rewrite (wrap_nat _ (n - 1 - i)) by lia.
    rewrite (shl_pow (Z.of_nat (n - 1 - i))) by lia. rewrite pow_of_nat.
    unfold shl64. destruct (Z.ltb_spec (Z.of_nat (n - i)) 0); [lia|].
    rewrite Z.shiftl_mul_pow2 by lia. rewrite pow_of_nat.
    rewrite <- Nat2Z.inj_mul, (wrap_nat _ (j * 2 ^ (n - i)) eq_refl) by lia.
    unfold add64. rewrite (wrap_nat _ (j * 2 ^ (n - i) + 2 ^ (n - 1 - i))) by lia.
    rewrite !zget_of_nat. destruct (get s _); [|reflexivity]. destruct (get s _); [|reflexivity].
    destruct (TabMul _ _ _ _); [|reflexivity]. rewrite zset_of_nat.
    destruct (set s _ _); [|reflexivity]. destruct (TabSub _ _ _ _); [|reflexivity]. apply zset_of_nat.
  Qed.

  (** The number of chunks is at least 1 and can be allocated. *)
  Lemma GetChunkedEqTable64_eq (q : list F) (nChunks nCore : nat) :
    len q < 2 ^ 62 -> 1 <= Z.of_nat nChunks <= maxLen ->
    GetChunkedEqTable64 maxLen q (Z.of_nat nChunks) nCore =
      if 2 ^ (len q - Log2Ceil (Z.of_nat nChunks)) <=? maxLen then GetChunkedEqTable q nChunks nCore
      else None.
  Proof.
    intros Hq Hn. unfold GetChunkedEqTable64, GetChunkedEqTable. rewrite Log2Ceil64_eq by lia.
    rewrite make64_of_nat. destruct (Z.leb_spec (Z.of_nat nChunks) maxLen); [|lia].
    pose proof (Log2Ceil_spec (Z.of_nat nChunks) ltac:(lia)) as Hs.
    assert (Hlog : Log2Ceil (Z.of_nat nChunks) = Z.of_nat (log2ceil nChunks)).
    { unfold log2ceil. rewrite Z2Nat.id; [reflexivity|]. pose proof (Log2Floor_le62 (Z.of_nat nChunks)).
      unfold Log2Ceil. destruct (_ =? _); lia. }
    rewrite Hlog in *. set (k := log2ceil nChunks) in *.
    assert (Hk : (k <= 62)%nat).
    { destruct Hs as (_ & _ & Hs). specialize (Hs 62 ltac:(lia) ltac:(lia)). lia. }
    clear Hs. unfold sub64, len in *. rewrite wrap_id by lia.
    destruct (Z.ltb_spec (Z.of_nat (length q) - Z.of_nat k) 0) as [Hc|Hc].
    { unfold gosub. destruct (Nat.leb_spec k (length q)); [lia|]. destruct (_ <=? _); reflexivity. }
    rewrite gosub_some by lia. replace (Z.of_nat (length q) - Z.of_nat k) with (Z.of_nat (length q - k)) by lia.
    rewrite Nat2Z.id, GetFoldedEqTable64_eq. unfold len. rewrite firstn_length_le by lia.
    destruct (_ <=? maxLen); [|reflexivity].
    destruct (GetFoldedEqTable _) as [t0|]; [|reflexivity].
    change 0 with (Z.of_nat 0). rewrite zset_of_nat. destruct (set _ _ _) as [res|]; [|reflexivity].
    apply foldM_ext. intros s [i r] Hin. apply chunked_eq_step64_eq; [|assumption].
    apply in_combine_l in Hin. apply in_seq in Hin. rewrite skipn_length in Hin. lia.
  Qed.
End Tables.

Section Layers.
  Context {F : Field}.
  Add Field FfieldInt2b : (f_theory F).
  Variable maxLen : Z.
  Hypothesis Hmax : 1 <= maxLen <= 2 ^ 62.

  (** The sizes: indices of any sign. *)
  Lemma BGOutputs64_eq (ws : list (Wire64 F)) :
    (forall w, In w ws -> w64O w < 2 ^ 63 - 1) ->
    BGOutputs64 ws = Some (Log2Ceil (fold_right Z.max 0 (map w64O ws) + 1)).
  Proof.
    intros H. unfold BGOutputs64.
    assert (G : forall r, 0 <= r ->
      fold_left (fun res w => if res <? w64O w then w64O w else res) ws r =
      Z.max r (fold_right Z.max 0 (map w64O ws))).
    { clear H. induction ws as [|w ws IH]; intros r Hr; simpl; [lia|].
      rewrite IH by (destruct (Z.ltb_spec r (w64O w)); lia). destruct (Z.ltb_spec r (w64O w)); lia. }
    rewrite G by lia.
    assert (B : 0 <= fold_right Z.max 0 (map w64O ws) < 2 ^ 63 - 1).
    { clear G. induction ws as [|w ws IH]; simpl; [lia|].
      pose proof (H w (or_introl eq_refl)). destruct IH; [intros; apply H; simpl; auto|]. lia. }
    rewrite Z.max_r by lia. unfold add64. rewrite wrap_id by lia. apply Log2Ceil64_eq. lia.
  Qed.

  Lemma BGInputs64_eq (ws : list (Wire64 F)) :
    (forall w, In w ws -> w64L w < 2 ^ 63 - 1 /\ w64R w < 2 ^ 63 - 1) ->
    BGInputs64 ws = Some (Log2Ceil (fold_right Z.max 0 (map w64L ws ++ map w64R ws) + 1)).
  Proof.
    intros H. unfold BGInputs64.
    assert (E : forall l1 l2, (forall x : Z, 0 <= fold_right Z.max 0 l2) ->
       fold_right Z.max 0 (l1 ++ l2) = Z.max (fold_right Z.max 0 l1) (fold_right Z.max 0 l2)).
    { intros l1 l2 H0. induction l1 as [|a l1 IH]; simpl; [specialize (H0 0); lia|lia]. }
    assert (P : forall l : list Z, 0 <= fold_right Z.max 0 l) by (induction l; simpl; lia).
    rewrite E by (intros; apply P).
    assert (G : forall r, 0 <= r ->
      fold_left (fun res w => let res := if res <? w64L w then w64L w else res in
        if res <? w64R w then w64R w else res) ws r =
      Z.max r (Z.max (fold_right Z.max 0 (map w64L ws)) (fold_right Z.max 0 (map w64R ws)))).
    { clear H. induction ws as [|w ws IH]; intros r Hr; cbn [fold_left map fold_right]; [lia|].
      rewrite IH; destruct (Z.ltb_spec r (w64L w)); cbv zeta;
      match goal with |- context [?a <? w64R w] => destruct (Z.ltb_spec a (w64R w)) end; lia. }
    rewrite G by lia.
    assert (B : fold_right Z.max 0 (map w64L ws) < 2 ^ 63 - 1 /\ fold_right Z.max 0 (map w64R ws) < 2 ^ 63 - 1).
    { clear G. induction ws as [|w ws IH]; simpl; [lia|].
      pose proof (H w (or_introl eq_refl)). destruct IH; [intros; apply H; simpl; auto|]. lia. }
    pose proof (P (map w64L ws)). pose proof (P (map w64R ws)).
    rewrite Z.max_r by lia. unfold add64. rewrite wrap_id by lia. apply Log2Ceil64_eq. lia.
  Qed.

  Lemma fold_max_nat (l : list nat) :
    fold_right Z.max 0 (map Z.of_nat l) = Z.of_nat (list_max l).
  Proof. induction l as [|a l IH]; simpl; [reflexivity|]. rewrite IH. lia. Qed.

  (** An index [2^63-1] makes [res+1] negative. *)
  Lemma BGOutputs64_overflow (g : Gate F) L R :
    BGOutputs64 [MkWire64 L R (2 ^ 63 - 1) g] = Some 1.
  Proof. reflexivity. Qed.

  (** The size of the static table. *)
  Lemma table_size (bo bi : nat) : (bo <= 63)%nat -> (bi <= 63)%nat ->
    exists gO gL nO,
      shl64 1 (mul64 2 (Z.of_nat bi)) = Some gO /\ shl64 1 (Z.of_nat bi) = Some gL /\
      shl64 1 (Z.of_nat bo) = Some nO /\
      (if 2 ^ (Z.of_nat bo + 2 * Z.of_nat bi) <=? maxLen
       then gO = 2 ^ (2 * Z.of_nat bi) /\ gL = 2 ^ Z.of_nat bi /\
            mul64 nO gO = Z.of_nat (2 ^ bo * 2 ^ (2 * bi))%nat /\
            Z.of_nat (2 ^ bo * 2 ^ (2 * bi))%nat <= maxLen
       else make64 maxLen (@fzero F) (mul64 nO gO) = None \/
            make64 maxLen (@fzero F) (mul64 nO gO) = Some []).
  Proof.
    intros Ho Hi. unfold mul64 at 1. rewrite wrap_id by lia.
    assert (EZ : Z.of_nat (2 ^ bo * 2 ^ (2 * bi))%nat = 2 ^ (Z.of_nat bo + 2 * Z.of_nat bi)).
    { rewrite <- Nat.pow_add_r, <- pow_of_nat. f_equal. lia. }
    rewrite EZ. set (O := Z.of_nat bo) in *. set (I := Z.of_nat bi) in *.
    destruct (Z_le_gt_dec (O + 2 * I) 62) as [Hs|Hs].
    - exists (2 ^ (2 * I)), (2 ^ I), (2 ^ O). rewrite !shl_pow by lia.
      repeat split. unfold mul64. rewrite <- Z.pow_add_r by lia.
      assert (Hb : 0 < 2 ^ (O + 2 * I) <= 2 ^ 62).
      { split; [apply Z.pow_pos_nonneg; lia|apply Z.pow_le_mono_r; lia]. }
      rewrite wrap_id by lia. destruct (Z.leb_spec (2 ^ (O + 2 * I)) maxLen) as [Hm|Hm].
      + repeat split; lia.
      + left. unfold make64. destruct (Z.leb_spec (2 ^ (O + 2 * I)) maxLen); [lia|].
        rewrite andb_false_r. reflexivity.
    - assert (Hbig : 2 ^ 62 < 2 ^ (O + 2 * I)) by (apply Z.pow_lt_mono_r; lia).
      assert (Hf : (2 ^ (O + 2 * I) <=? maxLen) = false) by (apply Z.leb_gt; lia). rewrite Hf.
      assert (HS : forall k, 0 <= k -> exists c, shl64 1 k = Some (2 ^ k + c * 2 ^ 64)).
      { intros k Hk. destruct (Z_le_gt_dec k 62).
        - exists 0. rewrite shl_pow by lia. f_equal. lia.
        - destruct (Z.eq_dec k 63) as [->|]; [exists (-1); reflexivity|].
          exists (- 2 ^ (k - 64)). rewrite shl_big by lia. f_equal.
          replace k with ((k - 64) + 64) at 1 by ring. rewrite Z.pow_add_r by lia. ring. }
      destruct (HS (2 * I)) as [c1 E1]; [lia|]. destruct (HS I) as [c2 E2]; [lia|].
      destruct (HS O) as [c3 E3]; [lia|].
      exists (2 ^ (2 * I) + c1 * 2 ^ 64), (2 ^ I + c2 * 2 ^ 64), (2 ^ O + c3 * 2 ^ 64).
      rewrite E1, E2, E3. repeat split.
      unfold mul64.
      replace ((2 ^ O + c3 * 2 ^ 64) * (2 ^ (2 * I) + c1 * 2 ^ 64)) with
        (2 ^ (O + 2 * I) + (2 ^ O * c1 + c3 * 2 ^ (2 * I) + c3 * c1 * 2 ^ 64) * 2 ^ 64).
      2:{ rewrite Z.pow_add_r by lia. ring. }
      rewrite wrap_mult. destruct (Z.eq_dec (O + 2 * I) 63) as [E|E].
      + left. rewrite E. apply make64_neg. reflexivity.
      + right. replace (O + 2 * I) with ((O + 2 * I - 64) + 64) by ring.
        rewrite Z.pow_add_r by lia. rewrite wrap_0. unfold make64.
        destruct (Z.leb_spec 0 maxLen); [|lia]. reflexivity.
  Qed.

  (** The table of one gate: it is the one of the unbounded model, or its computation panics. *)
  Lemma wiring_table64_eq (l : Layer F) (g : Gate F) :
    wf_layer l -> (lBGOutputs l <= 63)%nat -> (lBGInputs l <= 63)%nat ->
    (exists w, In w (Wires l) /\ gid (wGate w) = gid g) ->
    wiring_table64 maxLen (layer64 l) g =
      if 2 ^ (Z.of_nat (lBGOutputs l) + 2 * Z.of_nat (lBGInputs l)) <=? maxLen
      then wiring_table l g else None.
  Proof.
    intros Hwf Ho Hi Hex. unfold wiring_table64, layer64. cbn [l64BGInputs l64BGOutputs Wires64].
    destruct (table_size (lBGOutputs l) (lBGInputs l) Ho Hi) as (gO & gL & nO & -> & -> & -> & HT).
    destruct (_ <=? maxLen).
    - destruct HT as (-> & -> & -> & HM). rewrite make64_of_nat.
      destruct (Z.leb_spec (Z.of_nat (2 ^ lBGOutputs l * 2 ^ (2 * lBGInputs l))) maxLen); [|lia].
      unfold wiring_table.
      rewrite foldM_map. apply foldM_ext. intros tab w Hw.
      destruct (Hwf w Hw) as (HL & HR & HO).
      set (bi := lBGInputs l) in *. set (bo := lBGOutputs l) in *.
      assert (E2 : (2 ^ (2 * bi) = 2 ^ bi * 2 ^ bi)%nat) by (rewrite <- Nat.pow_add_r; f_equal; lia).
      assert (B1 : (2 ^ bi * wL w + wR w < 2 ^ (2 * bi))%nat).
      { rewrite E2. assert (2 ^ bi * (wL w + 1) <= 2 ^ bi * 2 ^ bi)%nat by (apply Nat.mul_le_mono_l; lia). lia. }
      assert (B2 : (2 ^ (2 * bi) * wO w + 2 ^ (2 * bi) <= 2 ^ bo * 2 ^ (2 * bi))%nat).
      { rewrite (Nat.mul_comm (2 ^ bo)).
        assert (2 ^ (2 * bi) * (wO w + 1) <= 2 ^ (2 * bi) * 2 ^ bo)%nat by (apply Nat.mul_le_mono_l; lia). lia. }
      change (w64Gate (wire64 w)) with (wGate w). change (w64O (wire64 w)) with (Z.of_nat (wO w)).
      change (w64L (wire64 w)) with (Z.of_nat (wL w)). change (w64R (wire64 w)) with (Z.of_nat (wR w)).
      replace (2 * Z.of_nat bi) with (Z.of_nat (2 * bi)) by lia. rewrite !pow_of_nat.
      unfold add64, mul64. rewrite <- !Nat2Z.inj_mul.
      rewrite (wrap_nat _ (2 ^ (2 * bi) * wO w) eq_refl) by lia.
      rewrite (wrap_nat _ (2 ^ bi * wL w) eq_refl) by lia.
      rewrite (wrap_nat (Z.of_nat (2 ^ (2 * bi) * wO w) + Z.of_nat (2 ^ bi * wL w))
                 (2 ^ (2 * bi) * wO w + 2 ^ bi * wL w)) by lia.
      rewrite (wrap_nat _ (2 ^ (2 * bi) * wO w + 2 ^ bi * wL w + wR w)) by lia.
      cbv zeta. rewrite zget_of_nat.
      destruct (id_eqb _ _); [|reflexivity].
      destruct (get tab _) as [x|]; [|reflexivity]. apply zset_of_nat.
    - destruct HT as [-> | ->]; [reflexivity|].
      destruct Hex as (w & Hw & Eg). clear Hwf. cbv zeta.
      induction (Wires l) as [|w' ws IH]; [destruct Hw|]. cbn [map foldM].
      change (w64Gate (wire64 w')) with (wGate w').
      destruct (id_eqb (gid (wGate w')) (gid g)) eqn:Ei; [rewrite zget_nil; reflexivity|].
      destruct Hw as [->|Hw]; [|apply IH; assumption].
      rewrite Eg, id_eqb_refl in Ei. discriminate.
  Qed.

  (** The tables of a layer, every listed gate of which is used by a wire. *)
  Lemma GetStaticTable64_eq (l : Layer F) (q : list F) :
    wf_layer l -> (lBGOutputs l <= 63)%nat -> (lBGInputs l <= 63)%nat ->
    (forall g, In g (lGates l) -> exists w, In w (Wires l) /\ gid (wGate w) = gid g) ->
    lGates l <> [] ->
    GetStaticTable64 maxLen (layer64 l) q =
      if 2 ^ (Z.of_nat (lBGOutputs l) + 2 * Z.of_nat (lBGInputs l)) <=? maxLen
      then GetStaticTable l q else None.
  Proof.
    intros Hwf Ho Hi Hg Hne. unfold GetStaticTable64, GetStaticTable. cbn [l64Gates layer64].
    assert (E : forall g, In g (lGates l) -> wiring_table64 maxLen (layer64 l) g =
      if 2 ^ (Z.of_nat (lBGOutputs l) + 2 * Z.of_nat (lBGInputs l)) <=? maxLen
      then wiring_table l g else None).
    { intros g Hin. apply wiring_table64_eq; auto. }
    destruct (_ <=? maxLen).
    - apply mapM_ext. intros g Hin. rewrite (E g Hin). reflexivity.
    - destruct (lGates l) as [|g gs]; [congruence|]. apply mapM_none with (a := g); [simpl; auto|].
      rewrite E by (simpl; auto). reflexivity.
  Qed.

  (** Evaluation of a layer. *)
  Lemma eval_chunk64_eq (l : Layer F) (inps : list F) :
    wf_layer l -> (lBGOutputs l <= 62)%nat -> (lBGInputs l <= 62)%nat -> len inps <= maxLen ->
    let N := (length inps / 2 ^ lBGInputs l)%nat in
    Z.of_nat N * 2 ^ Z.of_nat (lBGOutputs l) <= maxLen ->
    (forall w, In w (Wires l) -> Z.of_nat (wR w) * Z.of_nat N * Z.of_nat N + Z.of_nat N <= 2 ^ 63) ->
    eval_chunk64 maxLen (layer64 l) inps = eval_chunk l inps.
  Proof.
    intros Hwf Ho Hi Hl N HN HR. unfold eval_chunk64, eval_chunk, layer64, len in *.
    cbn [l64BGInputs l64BGOutputs Wires64]. fold N.
    rewrite !shl_pow by lia. rewrite !pow_of_nat in *. unfold quot64.
    assert (Hpi : (2 ^ lBGInputs l <> 0)%nat) by (apply Nat.pow_nonzero; lia).
    destruct (Z.eqb_spec (Z.of_nat (2 ^ lBGInputs l)) 0); [lia|].
    rewrite Z.quot_div_nonneg by lia. rewrite <- Nat2Z.inj_div. fold N.
    assert (HNl : (N * 2 ^ lBGInputs l <= length inps)%nat).
    { unfold N. rewrite Nat.mul_comm. apply Nat.mul_div_le. assumption. }
    assert (HN1 : (N <= length inps)%nat) by (assert (N * 1 <= N * 2 ^ lBGInputs l)%nat by (apply Nat.mul_le_mono_l; lia); lia).
    rewrite wrap_id by lia. unfold mul64 at 1. rewrite <- Nat2Z.inj_mul in *.
    rewrite wrap_id by lia. rewrite make64_of_nat.
    destruct (Z.leb_spec (Z.of_nat (N * 2 ^ lBGOutputs l)) maxLen); [|lia].
    rewrite foldM_map. apply foldM_ext. intros s w Hw.
    destruct (Hwf w Hw) as (BL & BR & BO). specialize (HR w Hw).
    cbn [w64O w64L w64R w64Gate wire64]. cbv zeta. rewrite Nat2Z.id.
    unfold forN. apply foldM_ext. intros s' h Hh. apply in_seq in Hh.
    assert (IL : (wL w * N + N <= length inps)%nat).
    { assert ((wL w + 1) * N <= 2 ^ lBGInputs l * N)%nat by (apply Nat.mul_le_mono_r; lia). lia. }
    assert (IR : (wR w * N + N <= length inps)%nat).
    { assert ((wR w + 1) * N <= 2 ^ lBGInputs l * N)%nat by (apply Nat.mul_le_mono_r; lia). lia. }
    assert (IO : (wO w * N + N <= N * 2 ^ lBGOutputs l)%nat).
    { assert ((wO w + 1) * N <= 2 ^ lBGOutputs l * N)%nat by (apply Nat.mul_le_mono_r; lia). lia. }
    unfold mul64, add64. rewrite <- !Nat2Z.inj_mul in *.
    rewrite (wrap_nat _ (wL w * N) eq_refl) by lia.
    rewrite (wrap_nat _ (wR w * N) eq_refl) by lia.
    rewrite (wrap_nat _ (wO w * N) eq_refl) by lia.
    rewrite <- !Nat2Z.inj_mul in *.
    rewrite (wrap_nat _ (wR w * N * N) eq_refl) by lia.
    rewrite (wrap_nat _ (wL w * N + h)) by lia.
    rewrite (wrap_nat _ (wR w * N * N + h)) by lia.
    rewrite (wrap_nat _ (wO w * N + h)) by lia.
    rewrite !zget_of_nat. destruct (get inps _) as [vL|]; [|reflexivity].
    destruct (get inps _) as [vR|]; [|reflexivity].
    destruct (get s' _) as [x|]; [|reflexivity]. apply zset_of_nat.
  Qed.

  (** The index of the right operand wraps around: with [2^32] instances, line 91 of layers.go reads
      row 0 in place of row 1, without a panic. *)
  Lemma eval_chunk64_overflow (g : Gate F) (inps : list F) (N : nat) :
    Z.of_nat N = 2 ^ 32 -> length inps = (2 * N)%nat -> len inps <= maxLen ->
    let l := NewLayer [MkWire 0 1 0 g] in
    eval_chunk l inps = None /\
    exists out, eval_chunk64 maxLen (layer64 l) inps = Some out /\ length out = N /\
      forall h, (h < N)%nat ->
        nth h out 0%F = geval g (nth h inps 0%F) (nth h inps 0%F).
  Proof.
    intros HN Hl Hm l.
    assert (El : lBGInputs l = 1%nat /\ lBGOutputs l = 0%nat) by (split; reflexivity).
    destruct El as [Ei Eo].
    assert (Hdiv : (length inps / 2 ^ 1 = N)%nat) by (rewrite Hl; change (2 ^ 1)%nat with 2%nat; rewrite Nat.mul_comm; apply Nat.div_mul; lia).
    split.
    - unfold eval_chunk. rewrite Ei, Eo, Hdiv. cbn [Wires l NewLayer foldM wL wR wO wGate].
      unfold forN. destruct N as [|m] eqn:EN; [lia|]. rewrite <- EN in *.
      replace (seq 0 N) with (0%nat :: seq 1 m) by (rewrite EN; reflexivity). cbn [foldM].
      rewrite Nat.mul_0_l, Nat.mul_1_l, !Nat.add_0_r.
      destruct (get inps 0) as [vL|]; [|reflexivity].
      rewrite (get_none inps (N * N)); [reflexivity|].
      assert (2 * N <= N * N)%nat by (apply Nat.mul_le_mono_r; lia). lia.
    - unfold eval_chunk64, layer64, len in *. cbn [l64BGInputs l64BGOutputs Wires64].
      rewrite Ei, Eo. rewrite !shl_pow by lia. unfold quot64.
      change (2 ^ Z.of_nat 1 =? 0) with false. cbv iota.
      rewrite Z.quot_div_nonneg by (rewrite ?Hl; simpl; lia).
      assert (EN : Z.of_nat (length inps) / 2 ^ Z.of_nat 1 = Z.of_nat N).
      { rewrite Hl, Nat2Z.inj_mul. change (2 ^ Z.of_nat 1) with 2. change (Z.of_nat 2) with 2.
        rewrite Z.mul_comm. apply Z.div_mul. lia. }
      rewrite EN. rewrite wrap_id by lia. unfold mul64 at 1. change (2 ^ Z.of_nat 0) with 1.
      rewrite Z.mul_1_r, wrap_id by lia. rewrite make64_of_nat.
      destruct (Z.leb_spec (Z.of_nat N) maxLen); [|lia].
      cbn [l Wires NewLayer map foldM wire64 w64O w64L w64R w64Gate wL wR wO wGate].
      rewrite Nat2Z.id. unfold mul64.
      change (Z.of_nat 0) with 0. change (Z.of_nat 1) with 1. rewrite Z.mul_0_l, Z.mul_1_l.
      change (wrap 0) with 0. rewrite (wrap_id (Z.of_nat N)) by lia.
      assert (EW : wrap (Z.of_nat N * Z.of_nat N) = 0) by (rewrite HN; reflexivity).
      rewrite EW.
      destruct (forN_inv (fun k out => length out = N /\
          (forall h, (h < k)%nat -> nth h out 0%F = geval g (nth h inps 0%F) (nth h inps 0%F)) /\
          (forall h, (k <= h < N)%nat -> nth h out 0%F = 0%F))
        (fun (subRes : list F) h => vL <- zget inps (add64 0 (Z.of_nat h));;
           vR <- zget inps (add64 0 (Z.of_nat h));;
           x <- zget subRes (add64 0 (Z.of_nat h));;
           zset subRes (add64 0 (Z.of_nat h)) (x + geval g vL vR)%F) N (repeat 0%F N))
        as (out & Eout & HI & HV & _).
      + rewrite repeat_length. repeat split; [intros; lia|]. intros h Hh. apply nth_repeat_lt. lia.
      + intros k out Hk (HL & H1 & H2). unfold add64. rewrite Z.add_0_l, wrap_id by lia.
        rewrite !zget_of_nat, (get_nth inps k 0%F) by lia. rewrite (get_nth out k 0%F) by lia.
        rewrite zset_of_nat, set_some by lia. eexists. split; [reflexivity|].
        rewrite upd_length. split; [assumption|]. rewrite (H2 k) by lia. split.
        * intros h Hh. rewrite nth_upd by lia. destruct (Nat.eqb_spec h k) as [->|Hne]; [ring|]. apply H1. lia.
        * intros h Hh. rewrite nth_upd by lia. destruct (Nat.eqb_spec h k) as [->|Hne]; [lia|]. apply H2. lia.
      + exists out. rewrite Eout. auto.
  Qed.

  (** A wire with a negative index makes the evaluation panic, as long as the products of the index
      with [N] do not wrap. *)
  Lemma foldM_none {A S} (f : S -> A -> option S) l s a :
    In a l -> (forall s, f s a = None) -> foldM f l s = None.
  Proof.
    revert s; induction l as [|b l IH]; intros s Hin H; [destruct Hin|]. simpl.
    destruct Hin as [->|Hin]; [rewrite H; reflexivity|].
    destruct (f s b); [apply IH; assumption|reflexivity].
  Qed.

  Lemma eval_chunk64_negative (l : Layer64 F) (inps : list F) w :
    0 <= l64BGInputs l <= 62 -> 2 ^ l64BGInputs l <= len inps -> len inps <= maxLen ->
    In w (Wires64 l) ->
    let N := len inps / 2 ^ l64BGInputs l in
    (- 2 ^ 63 <= w64L w * N < 0 \/ - 2 ^ 63 <= w64R w * N * N < 0 \/ - 2 ^ 63 <= w64O w * N < 0) ->
    eval_chunk64 maxLen l inps = None.
  Proof.
    intros Hi Hl Hm Hw N Hneg. unfold eval_chunk64. rewrite shl_pow by lia.
    destruct (shl64 1 (l64BGOutputs l)) as [GO|]; [|reflexivity]. unfold quot64.
    pose proof (Z.pow_pos_nonneg 2 (l64BGInputs l)) as Hp.
    destruct (Z.eqb_spec (2 ^ l64BGInputs l) 0); [reflexivity|].
    rewrite Z.quot_div_nonneg by lia. fold N.
    assert (HN : 1 <= N <= len inps).
    { unfold N. split; [apply Z.div_le_lower_bound; lia|apply Z.div_le_upper_bound; nia]. }
    rewrite wrap_id by lia. destruct (make64 _ _ _) as [sub|]; [|reflexivity].
    apply foldM_none with (a := w); [assumption|]. intros s. unfold forN.
    destruct (Z.to_nat N) as [|m] eqn:Em; [lia|]. cbn [seq foldM].
    change (Z.of_nat 0) with 0. unfold add64, mul64. rewrite !Z.add_0_r.
    assert (WW : forall z, wrap (wrap z) = wrap z) by (intros; apply wrap_id, wrap_range).
    rewrite !WW.
    destruct Hneg as [H|[H|H]].
    - rewrite (wrap_id (w64L w * N)) by lia. rewrite zget_neg by lia. reflexivity.
    - assert (E : wrap (wrap (w64R w * N) * N) = w64R w * N * N).
      { rewrite (wrap_id (w64R w * N)); [apply wrap_id; lia|]. nia. }
      rewrite E. rewrite (zget_neg inps (w64R w * N * N)) by lia.
      destruct (zget inps _); reflexivity.
    - rewrite (wrap_id (w64O w * N)) by lia. rewrite (zget_neg s) by lia.
      destruct (zget inps _); [|reflexivity]. destruct (zget inps _); reflexivity.
  Qed.

  Lemma log2ceil_of_nat n : (1 <= n)%nat -> Log2Ceil (Z.of_nat n) = Z.of_nat (log2ceil n).
  Proof.
    intros H. unfold log2ceil. rewrite Z2Nat.id; [reflexivity|].
    apply (proj1 (Log2Ceil_spec (Z.of_nat n) ltac:(lia))).
  Qed.

  Lemma NewLayer64_eq (ws : list (Wire F)) :
    (forall w, In w ws -> small_wire w) ->
    NewLayer64 (map wire64 ws) = Some (layer64 (NewLayer ws)).
  Proof.
    intros H. unfold NewLayer64.
    rewrite BGInputs64_eq.
    2:{ intros w Hw. apply in_map_iff in Hw. destruct Hw as (w' & <- & Hw'). simpl.
        destruct (H w' Hw') as (? & ? & ?). lia. }
    rewrite BGOutputs64_eq.
    2:{ intros w Hw. apply in_map_iff in Hw. destruct Hw as (w' & <- & Hw'). simpl.
        destruct (H w' Hw') as (? & ? & ?). lia. }
    assert (EO : Log2Ceil (fold_right Z.max 0 (map w64O (map wire64 ws)) + 1) = Z.of_nat (BGOutputs ws)).
    { rewrite map_map. change (fun x => w64O (wire64 x)) with (fun x : Wire F => Z.of_nat (wO x)).
      rewrite <- (map_map wO Z.of_nat), fold_max_nat, BGOutputs_max.
      rewrite <- log2ceil_of_nat by lia. f_equal. lia. }
    assert (EI : Log2Ceil (fold_right Z.max 0 (map w64L (map wire64 ws) ++ map w64R (map wire64 ws)) + 1)
                 = Z.of_nat (BGInputs ws)).
    { rewrite !map_map. change (fun x => w64L (wire64 x)) with (fun x : Wire F => Z.of_nat (wL x)).
      change (fun x => w64R (wire64 x)) with (fun x : Wire F => Z.of_nat (wR x)).
      rewrite <- (map_map wL Z.of_nat), <- (map_map wR Z.of_nat), <- map_app, fold_max_nat, BGInputs_max.
      rewrite <- log2ceil_of_nat by lia. f_equal.
      assert (EM : list_max (map wL ws ++ map wR ws) = list_max (map (fun w => Nat.max (wL w) (wR w)) ws)).
      { rewrite list_max_app. clear. induction ws as [|w ws IH]; [reflexivity|].
        cbn [map]. unfold list_max in *. simpl. lia. }
      rewrite EM. lia. }
    rewrite EO, EI. unfold layer64. cbn [NewLayer Wires lGates lBGInputs lBGOutputs]. f_equal. f_equal.
    unfold Gates64, Gates. cbn [existsb].
    assert (G : forall acc, fold_left (fun res (wire : Wire64 F) => res ++ [w64Gate wire]) (map wire64 ws) acc =
              fold_left (fun res (wire : Wire F) => res ++ [wGate wire]) ws acc); [|apply G].
    clear. induction ws as [|w ws IH]; intros acc; [reflexivity|]. cbn [map fold_left]. apply IH.
  Qed.

  Lemma small_sizes (ws : list (Wire F)) :
    (forall w, In w ws -> small_wire w) -> (BGInputs ws <= 63)%nat /\ (BGOutputs ws <= 63)%nat.
  Proof.
    intros H. split.
    - apply (proj2 (BGInputs_spec ws)). intros w Hw. destruct (H w Hw) as (? & ? & ?).
      split; apply Nat2Z.inj_lt; rewrite <- pow_of_nat; change (Z.of_nat 63) with 63; lia.
    - apply (proj2 (BGOutputs_spec ws)). intros w Hw. destruct (H w Hw) as (? & ? & ?).
      apply Nat2Z.inj_lt. rewrite <- pow_of_nat. change (Z.of_nat 63) with 63. lia.
  Qed.

  (** Building a layer and its tables. *)
  Lemma static_tables64_eq (ws : list (Wire F)) (q : list F) :
    ws <> [] -> (forall w, In w ws -> small_wire w) ->
    (l <- NewLayer64 (map wire64 ws) ;; GetStaticTable64 maxLen l q) =
      let l := NewLayer ws in
      if 2 ^ (Z.of_nat (lBGOutputs l) + 2 * Z.of_nat (lBGInputs l)) <=? maxLen
      then GetStaticTable l q else None.
  Proof.
    intros Hne H. rewrite NewLayer64_eq by assumption. cbv zeta.
    destruct (small_sizes ws H) as [Hi Ho].
    assert (HG : forall acc ws', fold_left (fun res (wire : Wire F) => if existsb (id_eqb (gid (wGate wire))) []
                 then res else res ++ [wGate wire]) ws' acc = acc ++ map wGate ws').
    { intros acc ws'. revert acc. induction ws' as [|w ws' IH]; intros acc; [rewrite app_nil_r; reflexivity|].
      cbn [fold_left existsb map]. rewrite IH, <- app_assoc. reflexivity. }
    assert (EG : lGates (NewLayer ws) = map wGate ws) by (cbn [NewLayer lGates]; unfold Gates; rewrite HG; reflexivity).
    apply GetStaticTable64_eq; [apply NewLayer_wf|exact Ho|exact Hi| |].
    - intros g Hg. rewrite EG in Hg. apply in_map_iff in Hg. destruct Hg as (w & <- & Hw). exists w. auto.
    - rewrite EG. destruct ws; [congruence|discriminate].
  Qed.
End Layers.

Section Negative.
  Context {F : Field}.

  (** A negative index is not noticed when the static table is built: the wire from row -1 to output
      1 is entered in the cell of the wire from row 1 to output 0. *)
  Lemma negative_alias maxLen (g : Gate F) :
    8 <= maxLen ->
    (l <- NewLayer64 [MkWire64 (-1) 0 1 g; MkWire64 1 0 0 g] ;; wiring_table64 maxLen l g) =
      Some [0; 0; 0 + 1 + 1; 0; 0; 0; 0; 0]%F.
  Proof.
    intros H. change (NewLayer64 [MkWire64 (-1) 0 1 g; MkWire64 1 0 0 g])
      with (Some (MkLayer64 [MkWire64 (-1) 0 1 g; MkWire64 1 0 0 g] [g; g] 1 1)). cbv iota beta.
    unfold wiring_table64. cbn [l64BGInputs l64BGOutputs Wires64].
    change (shl64 1 (mul64 2 1)) with (Some 4). change (shl64 1 1) with (Some 2). cbv iota beta.
    change (mul64 2 4) with 8. unfold make64. destruct (Z.leb_spec 8 maxLen); [|lia].
    change (0 <=? 8) with true. cbn [andb foldM w64Gate w64L w64R w64O]. rewrite id_eqb_refl.
    reflexivity.
  Qed.

  (** Nor by the evaluation, when the product with [N] wraps around. *)
  Lemma negative_wrap maxLen (g : Gate F) (a b c d : F) :
    4 <= maxLen ->
    (l <- NewLayer64 [MkWire64 (- 2 ^ 62) 0 0 g] ;; eval_chunk64 maxLen l [a; b; c; d]) =
      Some [0 + geval g a a; 0 + geval g b b; 0 + geval g c c; 0 + geval g d d]%F.
  Proof.
    intros H. change (NewLayer64 [MkWire64 (- 2 ^ 62) 0 0 g])
      with (Some (MkLayer64 [MkWire64 (- 2 ^ 62) 0 0 g] [g] 0 0)). cbv iota beta.
    unfold eval_chunk64. cbn [l64BGInputs l64BGOutputs Wires64].
    change (shl64 1 0) with (Some 1). cbv iota beta.
    change (quot64 (len [a; b; c; d]) 1) with (Some 4). cbv iota beta.
    change (mul64 4 1) with 4. unfold make64. destruct (Z.leb_spec 4 maxLen); [|lia].
    reflexivity.
  Qed.
End Negative.

(** The forms used in PInt.v. *)
Lemma log2_64 a : isInt a -> Log2Floor64 a = Log2Floor a /\ Log2Ceil64 a = Some (Log2Ceil a).
Proof. intros [_ H]. split; [apply Log2Floor64_eq|apply Log2Ceil64_eq]; assumption. Qed.

Lemma chunks_64 nCore N : isInt nCore -> isInt N -> N <= 2 ^ 62 ->
  IntoChunkRanges64 nCore N = IntoChunkRanges nCore N.
Proof. unfold isInt. intros. apply IntoChunkRanges64_eq; lia. Qed.

Lemma chunks_overflow : exists nCore N rs Begin End,
  isInt nCore /\ isInt N /\ IntoChunkRanges64 nCore N = Some rs /\ In (Begin, End) rs /\ End < Begin.
Proof.
  exists 2, (2 ^ 63 - 1). do 3 eexists. rewrite IntoChunkRanges64_overflow.
  split; [unfold isInt; lia|]. split; [unfold isInt; lia|]. split; [reflexivity|].
  split; [right; right; left; reflexivity|]. lia.
Qed.

Section Forms.
  Context {F : Field} (maxLen : Z).

  Lemma eq_table_64 (q : list F) : 1 <= maxLen <= 2 ^ 62 ->
    GetFoldedEqTable64 maxLen q = if 2 ^ len q <=? maxLen then GetFoldedEqTable q else None.
  Proof. intros. apply GetFoldedEqTable64_eq. assumption. Qed.

  Lemma chunked_eq_table_64 (q : list F) nChunks nCore :
    1 <= maxLen <= 2 ^ 62 -> len q < 2 ^ 62 -> 1 <= Z.of_nat nChunks <= maxLen ->
    GetChunkedEqTable64 maxLen q (Z.of_nat nChunks) nCore =
      if 2 ^ (len q - Log2Ceil (Z.of_nat nChunks)) <=? maxLen then GetChunkedEqTable q nChunks nCore
      else None.
  Proof. intros. apply GetChunkedEqTable64_eq; assumption. Qed.

  Lemma interleaved_64 (t : list F) on nChunk :
    1 <= maxLen <= 2 ^ 62 -> len t <= maxLen -> isInt (Z.of_nat on) -> isInt (Z.of_nat nChunk) ->
    InterleavedChunk64 maxLen t (Z.of_nat on) (Z.of_nat nChunk) = InterleavedChunk t on nChunk.
  Proof. unfold isInt. intros. apply InterleavedChunk64_eq; lia. Qed.

  Lemma interleaved_neg_64 (t : list F) on nChunk :
    1 <= maxLen <= 2 ^ 62 -> len t <= maxLen -> isInt on -> isInt nChunk -> on < 0 \/ nChunk < 0 ->
    InterleavedChunk64 maxLen t on nChunk =
      if (nChunk =? 0) || (Z.abs nChunk <=? len t) then None else Some [].
  Proof. intros. apply InterleavedChunk64_neg; assumption. Qed.

  Lemma sizes_64 (ws : list (Wire64 F)) :
    (forall w, In w ws -> w64L w < 2 ^ 63 - 1 /\ w64R w < 2 ^ 63 - 1 /\ w64O w < 2 ^ 63 - 1) ->
    BGInputs64 ws = Some (Log2Ceil (fold_right Z.max 0 (map w64L ws ++ map w64R ws) + 1)) /\
    BGOutputs64 ws = Some (Log2Ceil (fold_right Z.max 0 (map w64O ws) + 1)).
  Proof.
    intros H. split; [apply BGInputs64_eq|apply BGOutputs64_eq]; intros w Hw; specialize (H w Hw); tauto.
  Qed.

  Lemma sizes_overflow (g : Gate F) :
    isInt (2 ^ 63 - 1) /\ BGOutputs64 [MkWire64 0 0 (2 ^ 63 - 1) g] = Some 1.
  Proof. split; [unfold isInt; lia|apply BGOutputs64_overflow]. Qed.

  Lemma static_tables_64 (ws : list (Wire F)) (q : list F) :
    1 <= maxLen <= 2 ^ 62 -> ws <> [] -> (forall w, In w ws -> small_wire w) ->
    (l <- NewLayer64 (map wire64 ws) ;; GetStaticTable64 maxLen l q) =
      let l := NewLayer ws in
      if 2 ^ (Z.of_nat (lBGOutputs l) + 2 * Z.of_nat (lBGInputs l)) <=? maxLen
      then GetStaticTable l q else None.
  Proof. intros. apply static_tables64_eq; assumption. Qed.

  Lemma evaluate_64 (l : Layer F) (inps : list F) :
    1 <= maxLen <= 2 ^ 62 -> wf_layer l -> (lBGOutputs l <= 62)%nat -> (lBGInputs l <= 62)%nat ->
    len inps <= maxLen ->
    let N := (length inps / 2 ^ lBGInputs l)%nat in
    Z.of_nat N * 2 ^ Z.of_nat (lBGOutputs l) <= maxLen ->
    (forall w, In w (Wires l) -> Z.of_nat (wR w) * Z.of_nat N * Z.of_nat N + Z.of_nat N <= 2 ^ 63) ->
    eval_chunk64 maxLen (layer64 l) inps = eval_chunk l inps.
  Proof. intros. apply eval_chunk64_eq; assumption. Qed.

  Lemma evaluate_overflow (g : Gate F) (inps : list F) (N : nat) :
    1 <= maxLen <= 2 ^ 62 -> Z.of_nat N = 2 ^ 32 -> length inps = (2 * N)%nat -> len inps <= maxLen ->
    let l := NewLayer [MkWire 0 1 0 g] in
    eval_chunk l inps = None /\
    exists out, eval_chunk64 maxLen (layer64 l) inps = Some out /\ length out = N /\
      forall h, (h < N)%nat -> nth h out 0%F = geval g (nth h inps 0%F) (nth h inps 0%F).
  Proof. intros. apply eval_chunk64_overflow; assumption. Qed.

  Lemma negative_64 (l : Layer64 F) (inps : list F) w :
    1 <= maxLen <= 2 ^ 62 -> 0 <= l64BGInputs l <= 62 -> 2 ^ l64BGInputs l <= len inps ->
    len inps <= maxLen -> In w (Wires64 l) ->
    let N := len inps / 2 ^ l64BGInputs l in
    (- 2 ^ 63 <= w64L w * N < 0 \/ - 2 ^ 63 <= w64R w * N * N < 0 \/ - 2 ^ 63 <= w64O w * N < 0) ->
    eval_chunk64 maxLen l inps = None.
  Proof. intros. eapply eval_chunk64_negative; eassumption. Qed.
End Forms.
