(** Lemmas about package hash. *)
From Coq Require Import List Arith Lia Bool Ring.
From Verif Require Import Field Go MCommon LCommon LPoly MCircuit MHash SpecHash.
Import ListNotations.

Lemma foldM_get {A S} (f : S -> A -> S) (l : list A) n : forall k s, (k + n <= length l)%nat ->
  foldM (fun s i => a <- get l i ;; Some (f s a)) (seq k n) s = Some (fold_left f (firstn n (skipn k l)) s).
Proof.
  induction n as [|n IH]; intros k s H; [reflexivity|].
  destruct (nth_error l k) as [a|] eqn:E; [|apply nth_error_None in E; lia].
  cbn [seq foldM]. unfold get at 1. rewrite E. rewrite IH by lia.
  rewrite (skipn_S_nth l k a) by lia. rewrite (nth_error_nth _ _ a E). reflexivity.
Qed.

Lemma foldM_fold {A S} (f : S -> A -> option S) (g : S -> A -> S) l : forall s,
  (forall s a, f s a = Some (g s a)) -> foldM f l s = Some (fold_left g l s).
Proof. induction l as [|a l IH]; intros s H; cbn [foldM fold_left]; [reflexivity|]. rewrite H. apply IH. exact H. Qed.

Section L.
  Context {F : Field}.
  Add Field FfieldHash : (f_theory F).
  Open Scope F_scope.

  Lemma SBox_pow (x : F) : SBox x = fpow x 7.
  Proof. unfold SBox. cbn [fpow]. ring. Qed.

  (** ** MiMC *)
  Section Mimc.
    Variable Arks : list F.
    Hypothesis Hlen : (91 <= length Arks)%nat.

    Lemma MimcPermutation_ok state block : MimcPermutation Arks state block = Some (mimc_cipher (firstn 91 Arks) block state).
    Proof.
      unfold MimcPermutation, MimcRounds, forN. cbv zeta.
      rewrite (foldM_ext _ (fun s i => a <- get Arks i ;; Some (fpow (s + block + a) 7))).
      - rewrite (foldM_get (fun s a => fpow (s + block + a) 7) Arks 91 0) by lia. reflexivity.
      - intros s i _. destruct (get Arks i); [|reflexivity]. rewrite SBox_pow. reflexivity.
    Qed.

    Lemma MimcUpdate_ok state block : MimcUpdate Arks state block = Some (mimc_compress (firstn 91 Arks) state block).
    Proof. unfold MimcUpdate. rewrite MimcPermutation_ok. reflexivity. Qed.

    Lemma MimcHash_ok input : MimcHash Arks input = Some (fold_left (mimc_compress (firstn 91 Arks)) input 0).
    Proof. unfold MimcHash. apply foldM_fold. intros s x. apply MimcUpdate_ok. Qed.

    Lemma MimcHash_app m1 m2 : exists s, MimcHash Arks m1 = Some s /\
      MimcHash Arks (m1 ++ m2) = Some (fold_left (mimc_compress (firstn 91 Arks)) m2 s).
    Proof. eexists. split; [apply MimcHash_ok|]. rewrite MimcHash_ok, fold_left_app. reflexivity. Qed.

    Lemma MimcHash_concat m1 m2 : exists s, MimcHash Arks m1 = Some s /\ MimcHash Arks (m1 ++ m2) = foldM (MimcUpdate Arks) m2 s.
    Proof.
      destruct (MimcHash_app m1 m2) as (s & E1 & E2). exists s. split; [exact E1|]. rewrite E2. symmetry.
      apply foldM_fold. intros t x. apply MimcUpdate_ok.
    Qed.

    Lemma MimcHash_snoc m x : exists s s', MimcHash Arks m = Some s /\ MimcUpdate Arks s x = Some s' /\
      MimcHash Arks (m ++ [x]) = Some s'.
    Proof.
      eexists. eexists. split; [apply MimcHash_ok|]. split; [apply MimcUpdate_ok|].
      rewrite MimcHash_ok, fold_left_app. reflexivity.
    Qed.
  End Mimc.

  Lemma MimcPermutation_short Arks (state block : F) : (length Arks < 91)%nat -> MimcPermutation Arks state block = None.
  Proof.
    intros H. unfold MimcPermutation, MimcRounds, forN.
    replace 91%nat with (length Arks + (91 - length Arks))%nat by lia. rewrite seq_app, foldM_app.
    destruct (foldM _ (seq 0 (length Arks)) state) as [s|]; [|reflexivity].
    destruct (91 - length Arks)%nat as [|n] eqn:E; [lia|]. cbn [seq foldM]. cbv zeta. rewrite get_none by lia. reflexivity.
  Qed.

  (** ** In-place loops *)
  Lemma AddArkAndKeys_ok (state keys : list F) ark : length keys = length state ->
    AddArkAndKeys state keys ark = Some (map (fun sk => fst sk + snd sk + ark) (combine state keys)).
  Proof.
    intros HL. unfold AddArkAndKeys, forN.
    rewrite (foldM_write 0 (fun i => nth i state 0 + nth i keys 0 + ark)); [|reflexivity|].
    - f_equal. symmetry. apply (map_seq_ext 0).
      + rewrite map_length, combine_length. lia.
      + intros i Hi. rewrite nth_map_lt with (d' := (0, 0)) by (rewrite combine_length; lia).
        rewrite combine_nth by lia. reflexivity.
    - intros t i Hi Ht Hr. rewrite (get_nth t i 0), (get_nth keys i 0), set_some by lia.
      rewrite (get_nth _ i 0) by (rewrite upd_length; lia). rewrite nth_upd_same by lia.
      rewrite set_some by (rewrite upd_length; lia). rewrite (Hr i) by lia.
      f_equal. apply (list_ext 0); [rewrite !upd_length; reflexivity|]. intros j. rewrite upd_length. intros Hj.
      rewrite !nth_upd by (rewrite ?upd_length; lia). destruct (j =? i)%nat; reflexivity.
  Qed.

  Lemma AddArkAndKeys_short (state keys : list F) ark : (length keys < length state)%nat -> AddArkAndKeys state keys ark = None.
  Proof.
    intros HL. unfold AddArkAndKeys, forN. set (body := fun (state : list F) (i : nat) => _).
    replace (length state) with (length keys + (length state - length keys))%nat by lia. rewrite seq_app, foldM_app.
    destruct (foldM body (seq 0 (length keys)) state) as [s|]; [|reflexivity].
    destruct (length state - length keys)%nat as [|n] eqn:E; [lia|]. cbn [seq foldM]. unfold body at 1.
    destruct (get s _); [|reflexivity]. rewrite get_none by lia. reflexivity.
  Qed.

  Lemma FullRound_ok (state : list F) : FullRound state = Some (map (fun x => fpow x 7) state).
  Proof.
    unfold FullRound, forN. rewrite (foldM_write 0 (fun i => fpow (nth i state 0) 7)); [|reflexivity|].
    - f_equal. symmetry. apply (map_seq_ext 0); [apply map_length|].
      intros i Hi. rewrite nth_map_lt with (d' := 0) by exact Hi. reflexivity.
    - intros t i Hi Ht Hr. rewrite (get_nth t i 0), set_some by lia. rewrite (Hr i) by lia. rewrite SBox_pow. reflexivity.
  Qed.

  Lemma PartialRound_ok x (l : list F) : PartialRound (x :: l) = Some (fpow x 7 :: l).
  Proof. unfold PartialRound. cbn [get nth_error]. rewrite set_some by (cbn; lia). cbn [upd]. rewrite SBox_pow. reflexivity. Qed.

  Lemma recombine_ok (state old block : list F) : length old = length state -> length block = length state ->
    recombine state old block = Some (add3 state old block).
  Proof.
    intros HO HB. unfold recombine, forN.
    rewrite (foldM_write 0 (fun i => nth i state 0 + nth i old 0 + nth i block 0)); [|reflexivity|].
    - f_equal. symmetry. apply (map_seq_ext 0).
      + unfold add3. rewrite map_length, !combine_length. lia.
      + intros i Hi. unfold add3. rewrite nth_map_lt with (d' := (0, (0, 0))) by (rewrite !combine_length; lia).
        rewrite !combine_nth by (rewrite ?combine_length; lia). reflexivity.
    - intros t i Hi Ht Hr. rewrite (get_nth t i 0), (get_nth old i 0), set_some by lia.
      rewrite (get_nth _ i 0) by (rewrite upd_length; lia). rewrite nth_upd_same by lia.
      rewrite (get_nth block i 0) by lia. rewrite set_some by (rewrite upd_length; lia). rewrite (Hr i) by lia.
      f_equal. apply (list_ext 0); [rewrite !upd_length; reflexivity|]. intros j. rewrite upd_length. intros Hj.
      rewrite !nth_upd by (rewrite ?upd_length; lia). destruct (j =? i)%nat; reflexivity.
  Qed.

  (** ** Rotation *)
  Lemma upd_app_r {A} (l1 l2 : list A) i v : upd (l1 ++ l2) (length l1 + i) v = l1 ++ upd l2 i v.
  Proof. induction l1 as [|x l1 IH]; cbn [app length Nat.add upd]; [reflexivity|]. rewrite IH. reflexivity. Qed.

  Lemma get_app_r {A} (l1 l2 : list A) i : get (l1 ++ l2) (length l1 + i) = get l2 i.
  Proof. unfold get. rewrite nth_error_app2 by lia. f_equal. lia. Qed.

  Lemma circular_steps (x : F) : forall (rest : list F) (done : list F),
    foldM (fun state i =>
      im <- gosub i 1 ;;
      x <- get state i ;;
      y <- get state im ;;
      state <- set state im x ;;
      set state i y) (seq (S (length done)) (length rest)) (done ++ x :: rest) = Some (done ++ rest ++ [x]).
  Proof.
    induction rest as [|y rest IH]; intros done; [reflexivity|].
    cbn [length seq foldM].
    assert (H0 : gosub (S (length done)) 1 = Some (length done + 0)%nat) by (rewrite gosub_some by lia; f_equal; lia).
    assert (H1 : forall l : list F, get (done ++ l) (S (length done)) = get l 1)
      by (intros; replace (S (length done)) with (length done + 1)%nat by lia; apply get_app_r).
    assert (H2 : forall (l : list F) v, (1 < length l)%nat -> set (done ++ l) (S (length done)) v = Some (done ++ upd l 1 v)).
    { intros l v Hl. replace (S (length done)) with (length done + 1)%nat by lia.
      rewrite set_some by (rewrite app_length; lia). rewrite upd_app_r. reflexivity. }
    rewrite H0, H1, get_app_r. cbn [get nth_error].
    rewrite set_some by (rewrite app_length; cbn; lia). rewrite upd_app_r. cbn [upd].
    rewrite H2 by (cbn; lia). cbn [upd].
    specialize (IH (done ++ [y])). rewrite app_length in IH. cbn [length] in IH.
    replace (length done + 1)%nat with (S (length done)) in IH by lia.
    rewrite <- !app_assoc in IH. cbn [app] in IH. exact IH.
  Qed.

  Lemma CircularPermutation_ok (state : list F) : CircularPermutation state = Some (rotate state).
  Proof.
    unfold CircularPermutation, forRange. destruct state as [|x l]; [reflexivity|].
    cbn [length]. replace (S (length l) - 1)%nat with (length l) by lia. apply (circular_steps x l []).
  Qed.

  Lemma rotate_length (l : list F) : length (rotate l) = length l.
  Proof. destruct l; cbn [rotate]; [reflexivity|]. rewrite app_length. cbn. lia. Qed.

  Lemma rotate_nth (l : list F) i : (i < length l)%nat -> nth i (rotate l) 0 = nth ((i + 1) mod length l) l 0.
  Proof.
    destruct l as [|x l]; cbn [rotate length]; intros H; [lia|].
    destruct (Nat.eq_dec i (length l)) as [->|Hn].
    - rewrite app_nth2, Nat.sub_diag by lia. replace (length l + 1)%nat with (S (length l)) by lia.
      rewrite Nat.mod_same by lia. reflexivity.
    - rewrite app_nth1 by lia. rewrite Nat.mod_small by lia. replace (i + 1)%nat with (S i) by lia. reflexivity.
  Qed.

  Lemma rotate_spec (state : list F) : exists r, CircularPermutation state = Some r /\ length r = length state /\
    forall i, (i < length state)%nat -> nth i r 0 = nth ((i + 1) mod length state) state 0.
  Proof.
    exists (rotate state). split; [apply CircularPermutation_ok|]. split; [apply rotate_length|]. intros i Hi. apply rotate_nth. exact Hi.
  Qed.

  (** ** GMiMC *)
  Section GMimc.
    Variable Arks : list F.

    Lemma gmimcRound_ok (block : list F) i a state : nth_error Arks i = Some a -> length block = length state -> state <> [] ->
      gmimcRound Arks block i state = Some (gmimc_round block state a).
    Proof.
      intros Ea HL Hne. unfold gmimcRound, get. rewrite Ea. rewrite AddArkAndKeys_ok by exact HL. unfold gmimc_round.
      destruct state as [|s state]; [congruence|]. destruct block as [|b block]; [discriminate|].
      cbn [combine map fst snd]. rewrite PartialRound_ok. apply CircularPermutation_ok.
    Qed.

    Lemma gmimc_round_length (key state : list F) a : length key = length state -> length (gmimc_round key state a) = length state.
    Proof.
      intros H. unfold gmimc_round. destruct (map _ (combine state key)) as [|x l] eqn:E.
      - apply (f_equal (@length F)) in E. rewrite map_length, combine_length in E. cbn in *. lia.
      - apply (f_equal (@length F)) in E. rewrite map_length, combine_length in E. rewrite rotate_length. cbn [length] in *. lia.
    Qed.

    Lemma gmimc_cipher_length (key cs : list F) : forall state, length key = length state -> length (gmimc_cipher cs key state) = length state.
    Proof.
      induction cs as [|a cs IH]; intros state H; [reflexivity|]. unfold gmimc_cipher. cbn [fold_left].
      change (length (gmimc_cipher cs key (gmimc_round key state a)) = length state).
      rewrite IH by (rewrite gmimc_round_length; lia). apply gmimc_round_length. exact H.
    Qed.

    Lemma gmimcRounds_ok n (block state : list F) : (n <= length Arks)%nat -> length block = length state -> state <> [] ->
      gmimcRounds Arks n state block = Some (gmimc_cipher (firstn n Arks) block state).
    Proof.
      intros Hn HL Hne. unfold gmimcRounds, forN.
      assert (H : forall k s, (k + n <= length Arks)%nat -> length s = length state ->
        foldM (fun state i => gmimcRound Arks block i state) (seq k n) s
        = Some (gmimc_cipher (firstn n (skipn k Arks)) block s)).
      { clear Hn. induction n as [|n IH]; intros k s Hk Hs; [reflexivity|].
        destruct (nth_error Arks k) as [a|] eqn:E; [|apply nth_error_None in E; lia].
        cbn [seq foldM]. rewrite (gmimcRound_ok block k a s E) by (try congruence; destruct s, state; cbn in *; congruence || lia).
        rewrite (skipn_S_nth Arks k a) by lia. rewrite (nth_error_nth _ _ a E). cbn [firstn].
        rewrite IH by (try lia; rewrite gmimc_round_length; lia). reflexivity. }
      rewrite (H 0%nat) by (auto; lia). reflexivity.
    Qed.

    Lemma GMimcUpdate_ok n (state block : list F) : (n <= length Arks)%nat -> length block = length state -> state <> [] ->
      GMimcUpdate Arks n state block = Some (add3 (gmimc_cipher (firstn n Arks) block state) state block).
    Proof.
      intros Hn HL Hne. unfold GMimcUpdate. rewrite gmimcRounds_ok by assumption.
      apply recombine_ok; rewrite gmimc_cipher_length by exact HL; auto.
    Qed.

    (** No mixing between the words. *)
    Lemma gmimc_round_word (key s : list F) a i : length key = length s -> (i < length s)%nat -> nth i (gmimc_round key s a) 0 =
      let j := ((i + 1) mod length s)%nat in
      let x := nth j s 0 + nth j key 0 + a in if (j =? 0)%nat then fpow x 7 else x.
    Proof.
      intros HK Hi. unfold gmimc_round. set (l0 := map _ (combine s key)).
      assert (L0 : length l0 = length s) by (unfold l0; rewrite map_length, combine_length; lia).
      assert (N0 : forall j, (j < length s)%nat -> nth j l0 0 = nth j s 0 + nth j key 0 + a).
      { intros j Hj. unfold l0. rewrite nth_map_lt with (d' := (0, 0)) by (rewrite combine_length; lia).
        rewrite combine_nth by lia. reflexivity. }
      destruct l0 as [|x l]; [cbn in L0; lia|]. cbn [length] in L0.
      rewrite rotate_nth by (cbn [length]; lia). cbn [length]. rewrite L0. cbv zeta.
      pose proof (Nat.mod_upper_bound (i + 1) (length s) ltac:(lia)) as Hj.
      set (j := ((i + 1) mod length s)%nat) in *. specialize (N0 j Hj).
      destruct j as [|j]; cbn [nth Nat.eqb] in *; rewrite ?N0; congruence.
    Qed.

    Lemma gmimc_no_mixing (key cs : list F) : forall (s s' : list F) i, length key = length s -> length s' = length s -> (i < length s)%nat ->
      nth ((i + length cs) mod length s) s 0 = nth ((i + length cs) mod length s) s' 0 ->
      nth i (gmimc_cipher cs key s) 0 = nth i (gmimc_cipher cs key s') 0.
    Proof.
      induction cs as [|a cs IH]; intros s s' i HK HL Hi HE.
      - cbn [length] in HE. rewrite Nat.add_0_r, Nat.mod_small in HE by exact Hi. exact HE.
      - unfold gmimc_cipher. cbn [fold_left]. apply IH; rewrite ?gmimc_round_length by lia; try assumption.
        assert (Hb : ((i + length cs) mod length s < length s)%nat) by (apply Nat.mod_upper_bound; lia).
        rewrite !gmimc_round_word by lia. rewrite HL. cbv zeta.
        assert (EJ : (((i + length cs) mod length s + 1) mod length s = (i + length (a :: cs)) mod length s)%nat).
        { rewrite Nat.add_mod_idemp_l by lia. f_equal. cbn. lia. }
        rewrite EJ, HE. reflexivity.
    Qed.
  End GMimc.

  (** ** Blocks *)
  Lemma blockAt_ok t (msg : list F) i : (i < length msg)%nat ->
    blockAt t msg i = Some (map (fun j => nth (i + j) msg 0) (seq 0 t)).
  Proof.
    intros Hi. unfold blockAt.
    assert (H : exists ws, (if (length msg <=? i + t)%nat then slice msg i (length msg) else slice msg i (i + t)) = Some ws /\
      (length ws <= t)%nat /\ (forall j, (j < length ws)%nat -> nth j ws 0 = nth (i + j) msg 0) /\
      (forall j, (length ws <= j < t)%nat -> nth (i + j) msg 0 = 0)).
    { destruct (Nat.leb_spec (length msg) (i + t)).
      - rewrite slice_some by lia. eexists. split; [reflexivity|]. rewrite firstn_length, skipn_length. split; [lia|]. split.
        + intros j Hj. rewrite nth_firstn by lia. apply nth_skipn.
        + intros j Hj. apply nth_overflow. lia.
      - rewrite slice_some by lia. eexists. split; [reflexivity|]. rewrite firstn_length, skipn_length. split; [lia|]. split.
        + intros j Hj. rewrite nth_firstn by lia. apply nth_skipn.
        + intros j Hj. lia. }
    destruct H as (ws & -> & HW & HN & HZ).
    destruct (forN_inv (fun k b => length b = t /\ (forall j, (j < k)%nat -> nth j b 0 = nth (i + j) msg 0) /\
      (forall j, (k <= j < t)%nat -> nth j b 0 = 0)) (fun block j => w <- get ws j ;; set block j w) (length ws) (repeat 0 t)) as (b & E & L & N1 & N2).
    - split; [apply repeat_length|]. split; [intros; lia|]. intros j Hj. apply nth_repeat_lt. lia.
    - intros k b Hk (L & N1 & N2). rewrite (get_nth ws k 0), set_some by lia. eexists. split; [reflexivity|].
      rewrite upd_length. split; [exact L|]. split.
      + intros j Hj. rewrite nth_upd by lia. destruct (Nat.eqb_spec j k) as [->|Hne].
        * apply HN. exact Hk.
        * apply N1. lia.
      + intros j Hj. rewrite nth_upd_other by lia. apply N2. lia.
    - rewrite E. f_equal. apply (map_seq_ext 0); [exact L|]. intros j Hj.
      destruct (le_lt_dec (length ws) j); [rewrite N2 by lia; symmetry; apply HZ; lia|apply N1; lia].
  Qed.

  Lemma hashLoop_ok update t (msg : list F) : (0 < t)%nat ->
    let n := ((length msg + t - 1) / t)%nat in
    forall fuel j state, (n - j <= fuel)%nat ->
    hashLoop update t msg fuel (j * t) state =
    foldM update (map (fun j => map (fun i => nth (j * t + i) msg 0) (seq 0 t)) (seq j (n - j))) state.
  Proof.
    intros Ht n. assert (Hn : forall j, (j < n <-> j * t < length msg)%nat).
    { intros j. unfold n. split; intros H.
      - pose proof (Nat.mul_div_le (length msg + t - 1) t ltac:(lia)). nia.
      - apply Nat.div_le_lower_bound; nia. }
    induction fuel as [|fuel IH]; intros j state Hf.
    - replace (n - j)%nat with 0%nat by lia. reflexivity.
    - cbn [hashLoop]. destruct (Nat.ltb_spec (j * t) (length msg)) as [Hlt|Hge].
      + pose proof (proj2 (Hn j) Hlt) as Hj. destruct (n - j)%nat as [|r] eqn:Er; [lia|].
        cbn [seq map foldM]. rewrite blockAt_ok by exact Hlt.
        destruct (update state _) as [s|]; [|reflexivity].
        replace (j * t + t)%nat with (S j * t)%nat by lia. rewrite IH by lia. replace (n - S j)%nat with r by lia. reflexivity.
      + assert (~ (j < n)%nat) by (rewrite Hn; lia). replace (n - j)%nat with 0%nat by lia. reflexivity.
  Qed.

  Lemma hashWith_ok (update : list F -> list F -> option (list F)) t (msg : list F) : (0 < t)%nat ->
    hashWith update t msg = (state <- foldM update (blocks t msg) (repeat 0 t) ;; get state 0).
  Proof.
    intros Ht. unfold hashWith, blocks. pose proof (hashLoop_ok update t msg Ht (length msg) 0 (repeat 0 t)) as H.
    cbv zeta in H. rewrite Nat.sub_0_r in H. cbn [Nat.mul] in H. rewrite H; [reflexivity|].
    destruct (length msg) as [|l]; [rewrite Nat.div_small by lia; lia|]. apply Nat.div_le_upper_bound; nia.
  Qed.

  Lemma blocks_pad t (msg : list F) k : (0 < t)%nat -> (0 < length msg mod t)%nat -> (length msg mod t + k <= t)%nat ->
    blocks t (msg ++ repeat 0 k) = blocks t msg.
  Proof.
    intros Ht Hm Hk. unfold blocks. rewrite app_length, repeat_length.
    assert (En : ((length msg + k + t - 1) / t = (length msg + t - 1) / t)%nat).
    { pose proof (Nat.div_mod (length msg) t ltac:(lia)) as D. set (q := (length msg / t)%nat) in *. set (r := (length msg mod t)%nat) in *.
      transitivity (q + 1)%nat; [|symmetry]; symmetry.
      - apply (Nat.div_unique _ t (q + 1) (r + k - 1)); nia.
      - apply (Nat.div_unique _ t (q + 1) (r - 1)); nia. }
    rewrite En. apply map_ext. intros j. apply map_ext. intros i.
    destruct (le_lt_dec (length msg) (j * t + i)) as [H|H].
    - rewrite app_nth2 by exact H. rewrite (nth_overflow msg) by exact H.
      destruct (le_lt_dec k (j * t + i - length msg)); [apply nth_overflow; rewrite repeat_length; lia|].
      apply nth_repeat_lt. exact l.
    - apply app_nth1. exact H.
  Qed.

  Lemma padding_collision update t (msg : list F) k : (0 < t)%nat -> (0 < length msg mod t)%nat -> (length msg mod t + k <= t)%nat ->
    hashWith update t (msg ++ repeat 0 k) = hashWith update t msg.
  Proof. intros. rewrite !hashWith_ok, blocks_pad by assumption. reflexivity. Qed.

  (** ** Matrices *)
  Lemma MatrixMultiplication_ok (mat : list (list F)) v : (forall row, In row mat -> (length row <= length v)%nat) ->
    MatrixMultiplication mat v = Some (mat_vec mat v).
  Proof.
    intros H. unfold MatrixMultiplication, mat_vec. apply mapM_some. intros row Hr. specialize (H row Hr).
    assert (E : forall k r s, (k + length r <= length v)%nat ->
      foldM (fun res je => let '(j, el) := je in v0 <- get v j ;; Some (res + v0 * el)) (combine (seq k (length r)) r) s
      = Some (s + sumn (length r) (fun j => nth j r 0 * nth (k + j) v 0))).
    { intros k r. revert k. induction r as [|x r IH]; intros k s Hk.
      - cbn. f_equal. ring.
      - cbn [length] in *. cbn [seq combine foldM]. rewrite (get_nth v k 0) by lia. rewrite IH by lia.
        f_equal. rewrite sumn_S_l. cbn [nth]. rewrite Nat.add_0_r.
        rewrite (sumn_ext (length r) (fun i => nth i r 0 * nth (k + S i) v 0) (fun j => nth j r 0 * nth (S k + j) v 0)).
        2: { intros i Hi. replace (k + S i)%nat with (S k + i)%nat by lia. reflexivity. }
        ring. }
    rewrite E by lia. f_equal. cbn [Nat.add]. ring.
  Qed.

  Lemma matrix_spec (mat : list (list F)) v : (forall row, In row mat -> (length row <= length v)%nat) ->
    exists w, MatrixMultiplication mat v = Some w /\ length w = length mat /\
      forall i, (i < length mat)%nat -> nth i w 0 = sumn (length (nth i mat [])) (fun j => nth j (nth i mat []) 0 * nth j v 0).
  Proof.
    intros H. exists (mat_vec mat v). split; [apply MatrixMultiplication_ok; exact H|]. unfold mat_vec. split; [apply map_length|].
    intros i Hi. rewrite nth_map_lt with (d' := []) by exact Hi. reflexivity.
  Qed.

  Lemma MatrixMultiplication_short (mat : list (list F)) v row : In row mat -> (length v < length row)%nat ->
    MatrixMultiplication mat v = None.
  Proof.
    intros Hin Hl. unfold MatrixMultiplication. apply (mapM_none _ _ row Hin).
    assert (E : forall r k s, (k <= length v < k + length r)%nat ->
      foldM (fun res je => let '(j, el) := je in v0 <- get v j ;; Some (res + v0 * el)) (combine (seq k (length r)) r) s = None).
    { induction r as [|x r IH]; intros k s Hk; cbn [length] in *; [lia|]. cbn [seq combine foldM].
      destruct (Nat.eq_dec k (length v)) as [->|]; [rewrite get_none by lia; reflexivity|].
      rewrite (get_nth v k 0) by lia. apply IH. lia. }
    apply E. lia.
  Qed.

  (** ** Poseidon *)
  Section Poseidon.
    Variables (Arks : list F) (cauchy : list (list F)) (t : nat).
    Hypothesis Hmat : length cauchy = t /\ forall row, In row cauchy -> length row = t.

    (** A round leaves the caller's array alone once the variable has been rebound. *)
    Lemma poseidonRound_local block full i c l : (i < length Arks)%nat -> length block = t -> length l = t -> (0 < t)%nat ->
      exists l', poseidonRound Arks cauchy block full i (MkP c (Some l)) = Some (MkP c (Some l')) /\ length l' = t.
    Proof.
      intros Hi HB HL Ht. unfold poseidonRound, current, write. cbn [caller local]. rewrite (get_nth Arks i 0) by exact Hi.
      rewrite AddArkAndKeys_ok by congruence. set (s1 := map _ (combine l block)).
      assert (L1 : length s1 = t) by (unfold s1; rewrite map_length, combine_length; lia).
      assert (H2 : exists s2, (if full then FullRound s1 else PartialRound s1) = Some s2 /\ length s2 = t).
      { destruct full; [rewrite FullRound_ok; eexists; split; [reflexivity|]; rewrite map_length; exact L1|].
        destruct s1 as [|x s1]; [cbn in L1; lia|]. rewrite PartialRound_ok. eexists. split; [reflexivity|]. exact L1. }
      destruct H2 as (s2 & -> & L2). rewrite MatrixMultiplication_ok by (intros row Hr; rewrite (proj2 Hmat row Hr); lia).
      eexists. split; [reflexivity|]. unfold mat_vec. rewrite map_length. apply Hmat.
    Qed.

    Lemma poseidon_rounds block full n : forall i c l, (i + n <= length Arks)%nat -> length block = t -> length l = t -> (0 < t)%nat ->
      exists l', foldM (fun s i => poseidonRound Arks cauchy block full i s) (seq i n) (MkP c (Some l)) = Some (MkP c (Some l')) /\ length l' = t.
    Proof.
      induction n as [|n IH]; intros i c l Hi HB HL Ht; [exists l; auto|]. cbn [seq foldM].
      destruct (poseidonRound_local block full i c l) as (l1 & -> & L1); auto; [lia|]. apply IH; auto. lia.
    Qed.

    Lemma PoseidonUpdate_ok nF nP state block ark0 : (0 < nF)%nat -> (2 * nF + nP <= length Arks)%nat -> nth_error Arks 0 = Some ark0 ->
      length block = t -> length state = t -> (0 < t)%nat ->
      PoseidonUpdate Arks cauchy nF nP state block = Some (map (fun sb => fpow (fst sb + snd sb + ark0) 7) (combine state block)).
    Proof.
      intros HF HA E0 HB HL Ht. unfold PoseidonUpdate, forRange. destruct nF as [|nF]; [lia|].
      replace (S nF - 0)%nat with (S nF) by lia. cbn [seq foldM]. unfold poseidonRound at 1. unfold current, write. cbn [caller local].
      unfold get at 1. rewrite E0. rewrite AddArkAndKeys_ok by congruence. rewrite FullRound_ok, map_map.
      set (c1 := map _ (combine state block)).
      assert (L1 : length c1 = t) by (unfold c1; rewrite map_length, combine_length; lia).
      rewrite MatrixMultiplication_ok by (intros row Hr; rewrite (proj2 Hmat row Hr); lia).
      set (l1 := mat_vec cauchy c1). assert (LL1 : length l1 = t) by (unfold l1, mat_vec; rewrite map_length; apply Hmat).
      destruct (poseidon_rounds block true nF 1 c1 l1) as (l2 & -> & L2); auto; [lia|].
      destruct (poseidon_rounds block false (S nF + nP - S nF) (S nF) c1 l2) as (l3 & -> & L3); auto; [lia|].
      destruct (poseidon_rounds block true (2 * S nF + nP - (S nF + nP)) (S nF + nP) c1 l3) as (l4 & -> & L4); auto; [lia|].
      cbn [caller local]. rewrite recombine_ok by congruence. reflexivity.
    Qed.

    (** The first word of the state only sees the first words of the blocks. *)
    Lemma poseidon_fold nF nP ark0 bs : (0 < nF)%nat -> (2 * nF + nP <= length Arks)%nat -> nth_error Arks 0 = Some ark0 -> (0 < t)%nat ->
      (forall b, In b bs -> length b = t) -> forall state, length state = t ->
      exists s, foldM (PoseidonUpdate Arks cauchy nF nP) bs state = Some s /\ length s = t /\
        nth 0 s 0 = fold_left (fun s w => fpow (s + w + ark0) 7) (map (fun b => nth 0 b 0) bs) (nth 0 state 0).
    Proof.
      intros HF HA E0 Ht. induction bs as [|b bs IH]; intros Hb state HL; [exists state; auto|].
      cbn [foldM map fold_left]. rewrite (PoseidonUpdate_ok nF nP state b ark0) by auto with datatypes.
      assert (Lb : length b = t) by auto with datatypes.
      destruct (IH ltac:(auto with datatypes) (map (fun sb => fpow (fst sb + snd sb + ark0) 7) (combine state b))) as (s & -> & Ls & Hs).
      { rewrite map_length, combine_length. lia. }
      exists s. split; [reflexivity|]. split; [exact Ls|]. rewrite Hs. f_equal.
      destruct state as [|x state]; [cbn in HL; lia|]. destruct b as [|y b]; [cbn in Lb; lia|]. reflexivity.
    Qed.
  End Poseidon.

  Lemma GenerateMDSMatrix_ok (xs ys : list F) t : (t <= length xs)%nat -> (t <= length ys)%nat ->
    GenerateMDSMatrix xs ys t = Some (map (fun i => map (fun j => finv (nth i xs 0 + nth j ys 0)) (seq 0 t)) (seq 0 t)).
  Proof.
    intros Hx Hy. unfold GenerateMDSMatrix. apply mapM_some. intros i Hi. apply in_seq in Hi.
    apply mapM_some. intros j Hj. apply in_seq in Hj. rewrite (get_nth xs i 0), (get_nth ys j 0) by lia. reflexivity.
  Qed.

  Lemma PoseidonHash_ok (Arks xs ys : list F) t nF nP ark0 msg : (0 < t)%nat -> (t <= length xs)%nat -> (t <= length ys)%nat ->
    (0 < nF)%nat -> (2 * nF + nP <= length Arks)%nat -> nth_error Arks 0 = Some ark0 ->
    PoseidonHash Arks xs ys t nF nP msg =
    Some (fold_left (fun s w => fpow (s + w + ark0) 7) (map (fun j => nth (j * t) msg 0) (seq 0 ((length msg + t - 1) / t))) 0).
  Proof.
    intros Ht Hx Hy HF HA E0. unfold PoseidonHash. rewrite GenerateMDSMatrix_ok by assumption.
    rewrite hashWith_ok by exact Ht. set (cauchy := map _ (seq 0 t)).
    assert (Hmat : length cauchy = t /\ forall row, In row cauchy -> length row = t).
    { unfold cauchy. rewrite map_length, seq_length. split; [reflexivity|]. intros row Hr. apply in_map_iff in Hr.
      destruct Hr as (i & <- & _). rewrite map_length, seq_length. reflexivity. }
    destruct (poseidon_fold Arks cauchy t Hmat nF nP ark0 (blocks t msg) HF HA E0 Ht) with (state := repeat (0 : F) t) as (s & -> & Ls & Hs).
    { intros b Hb. unfold blocks in Hb. apply in_map_iff in Hb. destruct Hb as (j & <- & _). rewrite map_length, seq_length. reflexivity. }
    { apply repeat_length. }
    rewrite (get_nth s 0 0) by lia. f_equal. rewrite Hs. rewrite nth_repeat_lt by exact Ht. f_equal.
    unfold blocks. rewrite map_map. apply map_ext. intros j.
    rewrite nth_map_seq by exact Ht. f_equal. lia.
  Qed.
End L.
