(** Lemmas about the model of package polynomial (MPoly.v). *)
From Coq Require Import List Arith ZArith Lia Bool Ring Field.
From Verif Require Import Field Go MCommon Spec MPoly LSpec LCommon.
Import ListNotations.

(** A loop which writes cell [f i := g i] for each [i] once. *)
Lemma foldM_write {A} (d : A) (g : nat -> A) (body : list A -> nat -> option (list A)) n dst :
  length dst = n ->
  (forall t i, i < n -> length t = n -> (forall j, i <= j < n -> nth j t d = nth j dst d) ->
     body t i = Some (upd t i (g i))) ->
  foldM body (seq 0 n) dst = Some (map g (seq 0 n)).
Proof.
  intros HL Hb.
  destruct (foldM_seq_inv (fun k t => length t = n /\ (forall j, j < k -> nth j t d = g j) /\
     (forall j, k <= j < n -> nth j t d = nth j dst d)) body 0 n dst) as (t & E & H1 & H2 & H3).
  - split; [assumption|]. split; [intros; lia|reflexivity].
  - intros k t Hk (H1 & H2 & H3). exists (upd t k (g k)). cbn [Nat.add]. split; [apply Hb; auto|].
    split; [rewrite upd_length; assumption|]. split.
    + intros j Hj. rewrite nth_upd by lia. destruct (Nat.eqb_spec j k) as [->|]; [reflexivity|].
      apply H2; lia.
    + intros j Hj. rewrite nth_upd_other by lia. apply H3; lia.
  - rewrite E. f_equal. apply (map_seq_ext d); assumption.
Qed.

Section LPoly.
  Context {F : Field}.
  Add Field FfieldLPoly : (f_theory F).
  Open Scope F_scope.
  Implicit Types t q h dst left right : list F.

  (** ** Fold *)
  Definition foldv (t : list F) (r : F) : list F :=
    let m := (length t / 2)%nat in
    map (fun i => nth i t 0 + r * (nth (m + i) t 0 - nth i t 0)) (seq 0 m).

  Lemma half_le n : (n / 2 + n / 2 <= n)%nat.
  Proof. pose proof (Nat.div_mod n 2). lia. Qed.

  Lemma FoldArray_spec t r :
    exists t', FoldArray t r = Some t' /\ length t' = length t /\
      (forall i, (i < length t / 2)%nat ->
         nth i t' 0 = nth i t 0 + r * (nth (length t / 2 + i) t 0 - nth i t 0) /\
         nth (length t / 2 + i) t' 0 = r * (nth (length t / 2 + i) t 0 - nth i t 0)) /\
      (forall i, (2 * (length t / 2) <= i)%nat -> nth i t' 0 = nth i t 0).
  Proof.
    unfold FoldArray, middleIndex. set (m := (length t / 2)%nat).
    pose proof (half_le (length t)) as Hm. fold m in Hm.
    destruct (forN_inv (fun k s => length s = length t /\
       (forall i, (i < k)%nat ->
         nth i s 0 = nth i t 0 + r * (nth (m + i) t 0 - nth i t 0) /\
         nth (m + i) s 0 = r * (nth (m + i) t 0 - nth i t 0)) /\
       (forall i, (k <= i < m)%nat -> nth i s 0 = nth i t 0 /\ nth (m + i) s 0 = nth (m + i) t 0) /\
       (forall i, (2 * m <= i)%nat -> nth i s 0 = nth i t 0))
       (fold_body r m) m t) as (s & E & H1 & H2 & H3 & H4).
    - split; [reflexivity|]. split; [intros; lia|]. split; intros; auto.
    - intros k s Hk (H1 & H2 & H3 & H4). unfold fold_body.
      rewrite (get_nth s (m + k) 0), (get_nth s k 0) by lia.
      rewrite set_some by lia. rewrite set_some by (rewrite upd_length; lia).
      eexists. split; [reflexivity|]. rewrite !upd_length. split; [assumption|].
      destruct (H3 k ltac:(lia)) as [Hk1 Hk2].
      split; [|split].
      + intros i Hi. destruct (Nat.eq_dec i k) as [->|Hne].
        * rewrite nth_upd_same by (rewrite upd_length; lia).
          rewrite nth_upd_other by lia. rewrite nth_upd_same by lia.
          rewrite Hk1, Hk2. split; ring.
        * rewrite !nth_upd_other by lia. apply H2. lia.
      + intros i Hi. rewrite !nth_upd_other by lia. apply H3. lia.
      + intros i Hi. rewrite !nth_upd_other by lia. apply H4. lia.
    - exists s. repeat split; auto; apply H2; assumption.
  Qed.

  Lemma Fold_foldv t r : Fold t r = Some (foldv t r).
  Proof.
    unfold Fold. destruct (FoldArray_spec t r) as (t' & E & HL & H & _). rewrite E.
    unfold middleIndex. pose proof (half_le (length t)).
    rewrite slice_some by lia. f_equal. rewrite Nat.sub_0_r. simpl skipn.
    apply (map_seq_ext 0).
    - rewrite firstn_length. lia.
    - intros i Hi. rewrite nth_firstn by assumption. apply H. assumption.
  Qed.

  Lemma foldv_length t r : length (foldv t r) = (length t / 2)%nat.
  Proof. unfold foldv. rewrite map_length, seq_length. reflexivity. Qed.

  Lemma foldv_nth t r m i : length t = (2 * m)%nat -> (i < m)%nat ->
    nth i (foldv t r) 0 = (1 - r) * nth i t 0 + r * nth (m + i) t 0.
  Proof.
    intros HL Hi. unfold foldv. rewrite HL. rewrite Nat.mul_comm, Nat.div_mul by lia.
    rewrite nth_map_seq by assumption. ring.
  Qed.

  Lemma half_pow2 n : (2 ^ S n / 2 = 2 ^ n)%nat.
  Proof. rewrite Nat.pow_succ_r', Nat.mul_comm, Nat.div_mul; lia. Qed.

  Definition foldsv (t : list F) (rs : list F) : list F := fold_left foldv rs t.

  Lemma FoldMany_foldsv t rs : FoldMany t rs = Some (foldsv t rs).
  Proof.
    unfold FoldMany, foldsv. revert t. induction rs as [|r rs IH]; intros t; [reflexivity|].
    cbn [foldM fold_left]. rewrite Fold_foldv. apply IH.
  Qed.

  Lemma foldsv_length t rs n : length t = (2 ^ (length rs + n))%nat -> length (foldsv t rs) = (2 ^ n)%nat.
  Proof.
    unfold foldsv. revert t. induction rs as [|r rs IH]; intros t H; [exact H|].
    cbn [fold_left]. apply IH. rewrite foldv_length, H. cbn [length Nat.add]. apply half_pow2.
  Qed.

  Lemma foldsv_app t rs1 rs2 : foldsv t (rs1 ++ rs2) = foldsv (foldsv t rs1) rs2.
  Proof. unfold foldsv. apply fold_left_app. Qed.

  Lemma mle_foldv t r x : length t = (2 ^ S (length x))%nat -> mle t (r :: x) = mle (foldv t r) x.
  Proof.
    intros HL. rewrite mle_cons. unfold mle. apply suml_ext. intros b Hb. apply in_cube in Hb.
    rewrite (foldv_nth t r (2 ^ length x)); [reflexivity| |].
    - rewrite HL, Nat.pow_succ_r'. reflexivity.
    - rewrite <- Hb. apply bits_val_lt.
  Qed.

  Lemma mle_foldsv t rs x :
    length t = (2 ^ (length rs + length x))%nat -> mle t (rs ++ x) = mle (foldsv t rs) x.
  Proof.
    revert t. induction rs as [|r rs IH]; intros t H; [reflexivity|].
    cbn [app]. rewrite mle_foldv by (rewrite H, app_length; reflexivity).
    unfold foldsv. cbn [fold_left]. apply IH. rewrite foldv_length, H. cbn [length Nat.add]. apply half_pow2.
  Qed.

  Lemma foldsv_full t rs : length t = (2 ^ length rs)%nat -> foldsv t rs = [mle t rs].
  Proof.
    intros H. assert (HL : length (foldsv t rs) = 1%nat).
    { rewrite (foldsv_length t rs 0); [reflexivity|]. rewrite Nat.add_0_r. exact H. }
    destruct (foldsv t rs) as [|a [|]] eqn:E; try discriminate. f_equal.
    rewrite <- (app_nil_r rs). rewrite mle_foldsv by (simpl; rewrite Nat.add_0_r; exact H).
    rewrite E, mle_nil. reflexivity.
  Qed.

  Lemma Evaluate_mle t x : length t = (2 ^ length x)%nat -> Evaluate t x = Some (mle t x).
  Proof.
    intros H. unfold Evaluate, DeepCopy. rewrite FoldMany_foldsv, foldsv_full by assumption. reflexivity.
  Qed.

  Lemma foldsv_nil rs : foldsv [] rs = [].
  Proof. unfold foldsv. induction rs; [reflexivity|]. cbn [fold_left]. exact IHrs. Qed.

  Lemma foldsv_too_many t x : (length t < 2 ^ length x)%nat -> foldsv t x = [].
  Proof.
    revert t. induction x as [|r x IH]; intros t H.
    - simpl in H. destruct t; [reflexivity|simpl in H; lia].
    - unfold foldsv. cbn [fold_left]. apply IH. rewrite foldv_length.
      cbn [length] in H. rewrite Nat.pow_succ_r' in H. apply Nat.div_lt_upper_bound; lia.
  Qed.

  Lemma Evaluate_panics t x : (length t < 2 ^ length x)%nat -> Evaluate t x = None.
  Proof.
    intros H. unfold Evaluate, DeepCopy. rewrite FoldMany_foldsv, foldsv_too_many by assumption. reflexivity.
  Qed.

  Lemma EvaluateLeftAndRight_mle t hP hL hR :
    length hL = length hR -> length t = (2 ^ (length hL + length hP))%nat ->
    EvaluateLeftAndRight t hP hL hR = Some (mle t (hL ++ hP), mle t (hR ++ hP)).
  Proof.
    intros HLR H. unfold EvaluateLeftAndRight, DeepCopy.
    rewrite Evaluate_mle by (rewrite app_length; exact H).
    rewrite Evaluate_mle by (rewrite app_length, <- HLR; exact H). reflexivity.
  Qed.

  Lemma FunctionEvals_spec t :
    FunctionEvals t = Some (map (fun i => nth (length t / 2 + i) t 0 - nth i t 0) (seq 0 (length t / 2))).
  Proof.
    unfold FunctionEvals, middleIndex, forN. pose proof (half_le (length t)).
    apply (foldM_write 0); [apply repeat_length|].
    intros s i Hi HL _.
    rewrite (get_nth t (_ + i) 0), (get_nth t i 0) by lia. rewrite set_some by lia. reflexivity.
  Qed.

  (** ** Interleaved chunks *)
  Lemma InterleavedChunk_spec t on nChunk :
    (0 < nChunk)%nat -> (on < nChunk)%nat ->
    InterleavedChunk t on nChunk =
    Some (map (fun i => nth (on + i * nChunk) t 0) (seq 0 (length t / nChunk))).
  Proof.
    intros Hn Ho. unfold InterleavedChunk. rewrite godiv_some by assumption.
    unfold forN. apply (foldM_write 0); [apply repeat_length|].
    intros s i Hi HL _.
    assert (nChunk * (length t / nChunk) <= length t)%nat by (apply Nat.mul_div_le; lia).
    rewrite (get_nth t _ 0) by nia. rewrite set_some by lia. reflexivity.
  Qed.

  Lemma InterleavedChunk_zero t on : InterleavedChunk t on 0 = None.
  Proof. reflexivity. Qed.

  Definition chunksOf (t : list F) (n : nat) : list (list F) :=
    map (fun s => map (fun i => nth (s + i * n) t 0) (seq 0 (length t / n))) (seq 0 n).

  Lemma chunksOf_length t n : length (chunksOf t n) = n.
  Proof. unfold chunksOf. rewrite map_length, seq_length. reflexivity. Qed.

  Lemma chunksOf_nth t n s : (s < n)%nat ->
    nth s (chunksOf t n) [] = map (fun i => nth (s + i * n) t 0) (seq 0 (length t / n)).
  Proof. intros H. unfold chunksOf. rewrite nth_map_seq by assumption. reflexivity. Qed.

  Lemma interleave_chunksOf t n m : (0 < n)%nat -> length t = (m * n)%nat ->
    interleave m (chunksOf t n) = t.
  Proof.
    intros Hn HL. symmetry. apply interleave_eq; rewrite chunksOf_length.
    - exact HL.
    - intros u s Hu Hs. rewrite chunksOf_nth by assumption.
      rewrite nth_map_seq by (rewrite HL, Nat.div_mul; lia).
      f_equal. lia.
  Qed.

  (** ** Table arithmetic *)
  Lemma resize_some (dst : list F) size : exists d, resize dst size = Some d /\ length d = size.
  Proof.
    unfold resize. destruct (Nat.ltb_spec (length dst) size) as [H|H].
    - rewrite slice_some by (rewrite ?repeat_length; lia).
      eexists. split; [reflexivity|]. rewrite firstn_length, skipn_length, repeat_length. lia.
    - rewrite slice_some by lia. eexists. split; [reflexivity|].
      rewrite firstn_length, skipn_length. lia.
  Qed.

  Lemma TabAdd_spec dst left right : length right = length left ->
    TabAdd dst left right = Some (map (fun i => nth i left 0 + nth i right 0) (seq 0 (length left))).
  Proof.
    intros H. unfold TabAdd. rewrite H, Nat.eqb_refl. cbn [negb].
    destruct (resize_some dst (length left)) as (d & -> & HL).
    apply (foldM_write 0); [assumption|].
    intros s i Hi Hs _. rewrite (get_nth left i 0), (get_nth right i 0), set_some by lia. reflexivity.
  Qed.

  Lemma TabAdd_panics dst left right : length right <> length left -> TabAdd dst left right = None.
  Proof. intros H. unfold TabAdd. destruct (Nat.eqb_spec (length right) (length left)); [contradiction|reflexivity]. Qed.

  Lemma over_chunks_forN nCore N (f : list F -> nat -> option (list F)) dst : (0 < nCore)%nat ->
    exists chunks, IntoChunkRanges (Z.of_nat nCore) (Z.of_nat N) = Some chunks /\
      foldM (fun dst c => over_chunk c f dst) chunks dst = forN N f dst.
  Proof.
    intros Hc. destruct (chunk_ranges_indices (Z.of_nat nCore) (Z.of_nat N)) as (chunks & E & H); try lia.
    exists chunks. split; [exact E|]. rewrite Nat2Z.id in H. unfold forN. rewrite <- H.
    clear E H. revert dst. induction chunks as [|c cs IH]; intros dst; [reflexivity|].
    cbn [foldM flat_map]. rewrite foldM_app. unfold over_chunk, forRange, range_indices in *.
    destruct (foldM f _ dst); [apply IH|reflexivity].
  Qed.

  Lemma TabSub_spec dst left right nCore : (0 < nCore)%nat -> length right = length left ->
    TabSub dst left right nCore = Some (map (fun i => nth i left 0 - nth i right 0) (seq 0 (length left))).
  Proof.
    intros Hc H. unfold TabSub. rewrite H.
    destruct (resize_some dst (length left)) as (d & -> & HL).
    destruct (over_chunks_forN nCore (length left) (fun dst i =>
      a <- get left i ;; b <- get right i ;; set dst i (a - b)) d Hc) as (chunks & -> & E).
    rewrite Nat.eqb_refl. cbn [negb]. rewrite E.
    apply (foldM_write 0); [assumption|].
    intros s i Hi Hs _. rewrite (get_nth left i 0), (get_nth right i 0), set_some by lia. reflexivity.
  Qed.

  Lemma TabSub_panics dst left right nCore : length right <> length left -> TabSub dst left right nCore = None.
  Proof.
    intros H. unfold TabSub. destruct (IntoChunkRanges _ _); [|reflexivity].
    destruct (Nat.eqb_spec (length right) (length left)); [contradiction|reflexivity].
  Qed.

  Lemma TabMul_spec dst lambda x nCore : (0 < nCore)%nat ->
    TabMul dst lambda x nCore = Some (map (fun a => a * lambda) x).
  Proof.
    intros Hc. unfold TabMul.
    destruct (resize_some dst (length x)) as (d & -> & HL).
    destruct (over_chunks_forN nCore (length x) (fun dst i =>
      a <- get x i ;; set dst i (a * lambda)) d Hc) as (chunks & -> & E).
    rewrite E. unfold forN. rewrite (foldM_write 0 (fun i => nth i x 0 * lambda)); [|assumption|].
    - f_equal. symmetry. apply (map_seq_ext 0); [apply map_length|].
      intros i Hi. rewrite nth_map_lt with (d' := 0) by assumption. reflexivity.
    - intros s i Hi Hs _. rewrite (get_nth x i 0), set_some by lia. reflexivity.
  Qed.

  Lemma TabMul_zero_core dst lambda x : TabMul dst lambda x 0 = None.
  Proof. reflexivity. Qed.
  Lemma TabSub_zero_core dst left right : TabSub dst left right 0 = None.
  Proof. reflexivity. Qed.

  (** ** Linear combination *)
  Lemma LinearCombination_spec t0 t1 a0 a1 : length t0 = length t1 ->
    LinearCombination t0 t1 a0 a1 =
    Some (map (fun x => x * a0) t0,
          map (fun i => a0 * nth i t0 0 + a1 * nth i t1 0) (seq 0 (length t1))).
  Proof.
    intros HL. unfold LinearCombination.
    match goal with |- forN ?n ?f ?s = _ =>
      destruct (forN_inv (fun k '(b0, b1) => length b0 = length t1 /\ length b1 = length t1 /\
        (forall j, (j < k)%nat -> nth j b0 0 = nth j t0 0 * a0 /\ nth j b1 0 = a0 * nth j t0 0 + a1 * nth j t1 0) /\
        (forall j, (k <= j)%nat -> nth j b0 0 = nth j t0 0 /\ nth j b1 0 = nth j t1 0)) f n s)
        as ((b0 & b1) & E & H1 & H2 & H3 & H4) end.
    - repeat split; auto; lia.
    - intros k (b0 & b1) Hk (H1 & H2 & H3 & H4).
      destruct (H4 k ltac:(lia)) as [E0 E1].
      rewrite (get_nth b0 k 0), set_some, (get_nth b1 k 0), set_some by lia.
      rewrite (get_nth _ k 0) by (rewrite upd_length; lia).
      rewrite (get_nth (upd b0 k _) k 0) by (rewrite upd_length; lia).
      rewrite set_some by (rewrite upd_length; lia).
      eexists. split; [reflexivity|]. cbn beta iota. rewrite !upd_length.
      split; [assumption|]. split; [assumption|]. split.
      + intros j Hj. destruct (Nat.eq_dec j k) as [->|Hne].
        * rewrite !nth_upd_same by (rewrite ?upd_length; lia). rewrite E0, E1. split; ring.
        * rewrite !nth_upd_other by lia. apply H3. lia.
      + intros j Hj. rewrite !nth_upd_other by lia. apply H4. lia.
    - rewrite E. f_equal. f_equal.
      + apply (list_ext 0).
        * rewrite map_length. lia.
        * intros i Hi. rewrite nth_map_lt with (d' := 0) by lia. apply H3. lia.
      + apply (map_seq_ext 0); [lia|]. intros i Hi. apply H3. lia.
  Qed.

  (** ** Eq tables: the doubling loop, for any type of entries.
      [mulN r x] is written at the upper position and [subN r x] at the lower one. *)
  Section Doubling.
    Context {T : Type} (d : T) (mulN subN : F -> T -> T) (good : T -> Prop).
    Variable body : F -> list T -> nat -> nat -> option (list T).
    Hypothesis body_ok : forall r res J JN, (J < length res)%nat -> (JN < length res)%nat -> J <> JN ->
      good (nth J res d) ->
      body r res J JN = Some (upd (upd res JN (mulN r (nth J res d))) J (subN r (nth J res d))).
    Hypothesis good_mul : forall r x, good x -> good (mulN r x).
    Hypothesis good_sub : forall r x, good x -> good (subN r x).

    Definition dbl_step (n : nat) (res : list T) (ir : nat * F) : option (list T) :=
      let (i, r) := ir in
      forN (2 ^ i) (fun res j =>
        body r res (j * 2 ^ (n - i))%nat (j * 2 ^ (n - i) + 2 ^ (n - 1 - i))%nat) res.

    Fixpoint chain (b : list bool) (q : list F) (x : T) : T :=
      match b, q with
      | c :: b', r :: q' => chain b' q' (if c then mulN r x else subN r x)
      | _, _ => x
      end.

    Lemma chain_snoc b q c r x : length b = length q ->
      chain (b ++ [c]) (q ++ [r]) x = (if c then mulN r else subN r) (chain b q x).
    Proof.
      revert q x. induction b as [|e b IH]; intros [|s q] x H; simpl in *; try discriminate.
      - destruct c; reflexivity.
      - apply IH. lia.
    Qed.

    Lemma chain_good b q x : good x -> good (chain b q x).
    Proof.
      revert q x. induction b as [|e b IH]; intros [|s q] x H; simpl; auto.
      apply IH. destruct e; auto.
    Qed.

    (** One outer iteration. *)
    Lemma dbl_step_ok n i q r x res :
      (i < n)%nat -> length q = i -> good x -> length res = (2 ^ n)%nat ->
      (forall b, length b = i -> nth (bits_val b * 2 ^ (n - i)) res d = chain b q x) ->
      exists res', dbl_step n res (i, r) = Some res' /\ length res' = (2 ^ n)%nat /\
        (forall b, length b = S i -> nth (bits_val b * 2 ^ (n - S i)) res' d = chain b (q ++ [r]) x).
    Proof.
      intros Hi Hq Hx HL Hres. cbn [dbl_step].
      set (w := (2 ^ (n - S i))%nat).
      assert (Hw : (0 < w)%nat) by (unfold w; pose proof (Nat.pow_nonzero 2 (n - S i)); lia).
      assert (Ew : (2 ^ (n - i) = 2 * w)%nat).
      { unfold w. rewrite <- Nat.pow_succ_r'. f_equal. lia. }
      assert (Ew' : (2 ^ (n - 1 - i) = w)%nat) by (unfold w; f_equal; lia).
      assert (En : (2 ^ n = 2 ^ i * (2 * w))%nat).
      { rewrite <- Ew, <- Nat.pow_add_r. f_equal. lia. }
      rewrite Ew, Ew' in *.
      assert (Hidx : forall j, (j < 2 ^ i)%nat -> nth (j * (2 * w)) res d = chain (to_bits i j) q x).
      { intros j Hj. rewrite <- Hres by apply to_bits_length. rewrite bits_val_to_bits by assumption. reflexivity. }
      match goal with |- exists _, forN ?N ?f ?s = _ /\ _ =>
        destruct (forN_inv (fun k s => length s = (2 ^ n)%nat /\
          (forall j, (j < k)%nat -> nth (j * (2 * w)) s d = subN r (chain (to_bits i j) q x) /\
                           nth (j * (2 * w) + w) s d = mulN r (chain (to_bits i j) q x)) /\
          (forall j, (k <= j < 2 ^ i)%nat -> nth (j * (2 * w)) s d = chain (to_bits i j) q x)) f N s)
        as (s' & E & H1 & H2 & H3) end.
      - split; [assumption|]. split; [intros; lia|]. intros j Hj. apply Hidx. lia.
      - intros k s Hk (H1 & H2 & H3).
        assert (Hk1 : (k * (2 * w) + 2 * w <= 2 ^ n)%nat) by (rewrite En; nia).
        rewrite body_ok; try nia.
        2: { rewrite H3 by lia. apply chain_good. exact Hx. }
        eexists. split; [reflexivity|]. rewrite !upd_length. split; [assumption|].
        rewrite (H3 k) by lia. split.
        + intros j Hj. destruct (Nat.eq_dec j k) as [->|Hne].
          * rewrite nth_upd_same by (rewrite upd_length; lia).
            rewrite nth_upd_other by lia. rewrite nth_upd_same by lia. split; reflexivity.
          * assert (j < k)%nat by lia.
            rewrite !nth_upd_other by nia. apply H2. lia.
        + intros j Hj. rewrite !nth_upd_other by nia. apply H3. lia.
      - exists s'. split; [exact E|]. split; [exact H1|].
        intros b Hb. destruct (@exists_last _ b) as (b' & c & ->); [intros ->; discriminate|].
        rewrite app_length in Hb. cbn [length] in Hb.
        assert (Hb' : length b' = i) by lia.
        rewrite chain_snoc by lia. rewrite bits_val_snoc.
        assert (Hv : (bits_val b' < 2 ^ i)%nat) by (rewrite <- Hb'; apply bits_val_lt).
        destruct (H2 (bits_val b') Hv) as [A B].
        assert (Eb : to_bits i (bits_val b') = b') by (rewrite <- Hb'; apply to_bits_bits_val).
        rewrite Eb in *.
        destruct c.
        + rewrite <- B. f_equal. fold w. lia.
        + rewrite <- A. f_equal. fold w. lia.
    Qed.

    Lemma dbl_loop_ok n q2 : forall q1 x res,
      (length q1 + length q2 = n)%nat -> good x -> length res = (2 ^ n)%nat ->
      (forall b, length b = length q1 -> nth (bits_val b * 2 ^ (n - length q1)) res d = chain b q1 x) ->
      exists res', foldM (dbl_step n) (combine (seq (length q1) (length q2)) q2) res = Some res' /\
        length res' = (2 ^ n)%nat /\
        (forall b, length b = n -> nth (bits_val b) res' d = chain b (q1 ++ q2) x).
    Proof.
      induction q2 as [|r q2 IH]; intros q1 x res Hn Hx HL Hres.
      - exists res. split; [reflexivity|]. split; [assumption|]. intros b Hb.
        rewrite app_nil_r. simpl in Hn. rewrite <- Hres by lia.
        replace (n - length q1)%nat with 0%nat by lia. simpl. rewrite Nat.mul_1_r. reflexivity.
      - cbn [length seq combine foldM]. cbn [length] in Hn.
        destruct (dbl_step_ok n (length q1) q1 r x res) as (res1 & E1 & L1 & H1); auto; [lia|].
        rewrite E1.
        assert (EL : length (q1 ++ [r]) = S (length q1)) by (rewrite app_length; simpl; lia).
        destruct (IH (q1 ++ [r]) x res1) as (res2 & E2 & L2 & H2); auto; [lia| |].
        { intros b Hb. rewrite EL in *. apply H1. exact Hb. }
        rewrite EL in E2. rewrite E2. exists res2. split; [reflexivity|]. split; [assumption|].
        intros b Hb. rewrite H2 by assumption. rewrite <- app_assoc. reflexivity.
    Qed.

    Lemma dbl_run q x res : good x -> length res = (2 ^ length q)%nat -> nth 0 res d = x ->
      foldM (dbl_step (length q)) (combine (seq 0 (length q)) q) res
      = Some (map (fun b => chain b q x) (cube (length q))).
    Proof.
      intros Hx HL H0.
      destruct (dbl_loop_ok (length q) q [] x res) as (res' & E & L & H); auto.
      { intros b Hb. destruct b; [|discriminate]. simpl. exact H0. }
      cbn [length app] in *. rewrite E. f_equal.
      apply (list_ext d).
      - rewrite map_length, cube_length. exact L.
      - intros i Hi. rewrite L in Hi.
        rewrite nth_map_lt with (d' := []) by (rewrite cube_length; exact Hi).
        rewrite nth_cube by assumption. rewrite <- H by apply to_bits_length.
        rewrite bits_val_to_bits by assumption. reflexivity.
    Qed.
  End Doubling.

  Lemma chain_field b q (x : F) : length b = length q ->
    chain (fun r y : F => r * y) (fun r y => y - r * y) b q x = chi b q * x.
  Proof.
    revert q x. induction b as [|c b IH]; intros [|r q] x H; simpl in *; try discriminate; [ring|].
    rewrite IH by lia. destruct c; ring.
  Qed.

  Definition eqtab (q : list F) : list F := map (fun b => chi b q) (cube (length q)).

  Lemma eqtab_length q : length (eqtab q) = (2 ^ length q)%nat.
  Proof. unfold eqtab. rewrite map_length, cube_length. reflexivity. Qed.

  Lemma eqtab_nth q b : length b = length q -> nth (bits_val b) (eqtab q) 0 = chi b q.
  Proof.
    intros H. unfold eqtab. rewrite <- H.
    rewrite nth_map_lt with (d' := []) by (rewrite cube_length; apply bits_val_lt).
    rewrite nth_bits_cube. reflexivity.
  Qed.

  Lemma GetFoldedEqTable_spec q : GetFoldedEqTable q = Some (eqtab q).
  Proof.
    unfold GetFoldedEqTable.
    assert (Hp : (0 < 2 ^ length q)%nat) by (pose proof (Nat.pow_nonzero 2 (length q)); lia).
    rewrite set_some by (rewrite repeat_length; exact Hp).
    pose (body := fun (r : F) (res : list F) (J JN : nat) =>
       a <- get res J ;; res <- set res JN (r * a) ;; a <- get res J ;; b <- get res JN ;; set res J (a - b)).
    transitivity (foldM (dbl_step body (length q)) (combine (seq 0 (length q)) q)
                    (upd (repeat 0 (2 ^ length q)) 0 1)).
    { apply foldM_ext. intros s [i r] _. reflexivity. }
    rewrite (dbl_run 0 (fun r y => r * y) (fun r y => y - r * y) (fun _ => True)) with (x := 1); auto.
    - unfold eqtab. f_equal. apply map_ext_in. intros b Hb. apply in_cube in Hb.
      rewrite chain_field by assumption. ring.
    - intros r res J JN HJ HJN Hne _. unfold body.
      rewrite (get_nth res J 0), set_some by assumption.
      rewrite (get_nth (upd res JN _) J 0) by (rewrite upd_length; assumption).
      rewrite (get_nth (upd res JN _) JN 0) by (rewrite upd_length; assumption).
      rewrite nth_upd_other, nth_upd_same by auto.
      rewrite set_some by (rewrite upd_length; assumption). reflexivity.
    - rewrite upd_length, repeat_length. reflexivity.
    - rewrite nth_upd_same by (rewrite repeat_length; exact Hp). reflexivity.
  Qed.

  Lemma eqtab_sum q : suml (eqtab q) (fun x => x) = 1.
  Proof. unfold eqtab. rewrite suml_map. apply chi_sum. Qed.

  Lemma mle_eqtab q h : length q = length h -> mle (eqtab q) h = eqprod q h.
  Proof.
    intros H. unfold mle. rewrite <- H, <- eqprod_sum by assumption.
    apply suml_ext. intros b Hb. apply in_cube in Hb. rewrite eqtab_nth by assumption. reflexivity.
  Qed.

  (** ** EvalEq *)
  Lemma EvalEq_spec q h : (length q <= length h)%nat -> EvalEq q h = Some (eqprod q h).
  Proof.
    intros HL. unfold EvalEq.
    match goal with |- forN ?n ?f ?s0 = _ =>
      destruct (forN_inv (fun k s => s * eqprod (skipn k q) (skipn k h) = eqprod q h) f n s0) as (s' & E & H) end.
    - simpl. ring.
    - intros k s Hk Hs. rewrite (get_nth q k 0), (get_nth h k 0) by lia.
      eexists. split; [reflexivity|]. rewrite <- Hs.
      rewrite (skipn_S_nth q k 0), (skipn_S_nth h k 0) by lia.
      cbn [eqprod]. ring.
    - rewrite E. f_equal. rewrite skipn_all in H. cbn [eqprod] in H. rewrite <- H. ring.
  Qed.

End LPoly.
