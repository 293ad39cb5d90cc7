(** Memory effects of the table operations: results agree with the value-level model and every
    pre-existing cell keeps its content, except for the cells Fold is meant to overwrite. *)
From Coq Require Import List Arith ZArith Lia Bool Ring Field.
From Verif Require Import Field Go Trans MCommon Spec MPoly LSpec LCommon LPoly LPoly2 MForkJoin LForkJoin MHeap SpecHeap LHeap.
Import ListNotations.

Section H.
  Context {F : Field}.
  Add Field FfieldLHeap2 : (f_theory F).
  Open Scope F_scope.
  Implicit Types (m : list F) (s d dst left right : Slice).

  Lemma ext_refl m : ext m m.
  Proof. split; [lia|reflexivity]. Qed.
  Lemma ext_trans m1 m2 m3 : ext m1 m2 -> ext m2 m3 -> ext m1 m3.
  Proof. intros [H1 H2] [H3 H4]. split; [lia|]. intros a Ha. rewrite H4 by lia. apply H2. exact Ha. Qed.
  Lemma ext_swf m m' s : ext m m' -> swf m s -> swf m' s.
  Proof. unfold swf. intros [H _]. lia. Qed.
  Lemma ext_rd m m' s i : ext m m' -> swf m s -> (i < slen s)%nat -> rd m' s i = rd m s i.
  Proof. intros [_ H] [W1 W2] Hi. unfold rd. apply H. lia. Qed.
  Lemma ext_tab m m' s : ext m m' -> swf m s -> tab m' s = tab m s.
  Proof.
    intros E W. unfold tab. apply map_ext_in. intros i Hi. apply in_seq in Hi.
    apply ext_rd; auto. lia.
  Qed.
  Lemma ext_firstn m m' : ext m m' -> firstn (length m) m' = m.
  Proof.
    intros [H1 H2]. apply (list_ext 0).
    - rewrite firstn_length. lia.
    - intros i Hi. rewrite firstn_length in Hi. rewrite nth_firstn by lia. apply H2. lia.
  Qed.
  Lemma ext_app m e : ext m (m ++ e).
  Proof. split; [rewrite app_length; lia|]. intros a Ha. apply app_nth1. exact Ha. Qed.

  (** ** Fold *)
  Lemma HFold_ok m s r : swf m s ->
    exists m' s', HFold m s r = Some (m', s') /\ length m' = length m /\
      s' = MkSlice (base s) (slen s / 2) (scap s) /\ swf m' s' /\
      tab m' s' = foldv (tab m s) r /\
      (forall i, (i < slen s / 2)%nat ->
         rd m' s (slen s / 2 + i) = (rd m s (slen s / 2 + i) - rd m s i) * r) /\
      (forall a, (a < base s \/ base s + 2 * (slen s / 2) <= a)%nat -> nth a m' 0 = nth a m 0).
  Proof.
    intros W. pose proof W as [W1 W2]. pose proof (half_le (slen s)) as Hh. unfold HFold.
    set (mid := (slen s / 2)%nat) in *.
    unfold hslice. cbn [Nat.leb andb]. rewrite (proj2 (Nat.leb_le mid (scap s))) by lia.
    rewrite (proj2 (Nat.leb_le mid (slen s))), (proj2 (Nat.leb_le (slen s) (scap s))) by lia. cbn [andb].
    set (bot := MkSlice (base s + 0) (mid - 0) (scap s - 0)).
    set (top := MkSlice (base s + mid) (slen s - mid) (scap s - mid)).
    pose (low := fun i => rd m s i + (rd m s (mid + i) - rd m s i) * r).
    pose (hig := fun i => (rd m s (mid + i) - rd m s i) * r).
    match goal with |- context [forN mid ?b m] => destruct (forN_inv (fun k m1 =>
       length m1 = length m /\
       (forall i, (i < mid)%nat -> rd m1 s i = if (i <? k)%nat then low i else rd m s i) /\
       (forall i, (i < mid)%nat -> rd m1 s (mid + i) = if (i <? k)%nat then hig i else rd m s (mid + i)) /\
       (forall a, (a < base s \/ base s + 2 * mid <= a)%nat -> nth a m1 0 = nth a m 0)) b mid m)
       as (m' & E & H1 & H2 & H3 & H4) end.
    { repeat split; auto. }
    { intros k m1 Hk (H1 & H2 & H3 & H4).
      assert (Wt : forall mm : list F, length mm = length m -> swf mm top) by (intros mm E; unfold swf, top; cbn [slen scap base]; lia).
      assert (Wb : forall mm : list F, length mm = length m -> swf mm bot) by (intros mm E; unfold swf, bot; cbn [slen scap base]; lia).
      assert (Rt : forall mm : list F, rd mm top k = rd mm s (mid + k)) by (intros; unfold rd, top; cbn [base]; f_equal; lia).
      assert (Rb : forall mm : list F, rd mm bot k = rd mm s k) by (intros; unfold rd, bot; cbn [base]; f_equal; lia).
      assert (Lt : (k < slen top)%nat) by (unfold top; cbn [slen]; lia).
      assert (Lb : (k < slen bot)%nat) by (unfold bot; cbn [slen]; lia).
      assert (At : (base top + k = base s + (mid + k))%nat) by (unfold top; cbn [base]; lia).
      assert (Ab : (base bot + k = base s + k)%nat) by (unfold bot; cbn [base]; lia).
      rewrite (hget_rd m1 top), (hget_rd m1 bot), (hset_upd m1 top) by auto.
      set (m2 := upd m1 (base top + k) (rd m1 top k - rd m1 bot k)).
      assert (L2 : length m2 = length m) by (unfold m2; rewrite upd_length; exact H1).
      rewrite (hget_rd m2 top), (hset_upd m2 top) by auto.
      set (m3 := upd m2 (base top + k) (rd m2 top k * r)).
      assert (L3 : length m3 = length m) by (unfold m3; rewrite upd_length; exact L2).
      rewrite (hget_rd m3 bot), (hget_rd m3 top), (hset_upd m3 bot) by auto.
      set (m4 := upd m3 (base bot + k) (rd m3 bot k + rd m3 top k)).
      assert (V2 : rd m2 top k = rd m1 top k - rd m1 bot k).
      { unfold m2, rd at 1. apply nth_upd_same. lia. }
      assert (V3 : rd m3 top k = (rd m1 top k - rd m1 bot k) * r).
      { unfold m3, rd at 1. rewrite nth_upd_same by lia. rewrite V2. reflexivity. }
      assert (V3b : rd m3 bot k = rd m1 bot k).
      { unfold m3, m2, rd. rewrite !nth_upd_other by lia. reflexivity. }
      assert (B1 : rd m1 top k = rd m s (mid + k)).
      { rewrite Rt, H3 by lia. rewrite Nat.ltb_irrefl. reflexivity. }
      assert (B2 : rd m1 bot k = rd m s k).
      { rewrite Rb, H2 by lia. rewrite Nat.ltb_irrefl. reflexivity. }
      exists m4. split; [reflexivity|]. split; [unfold m4; rewrite upd_length; exact L3|]. split; [|split].
      - intros i Hi. destruct (Nat.eq_dec i k) as [->|Hne].
        + rewrite (proj2 (Nat.ltb_lt k (S k))) by lia. unfold m4, rd at 1. rewrite <- Ab.
          rewrite nth_upd_same by lia. rewrite V3, V3b, B1, B2. reflexivity.
        + unfold m4, m3, m2, rd at 1. rewrite !nth_upd_other by lia. fold (rd m1 s i). rewrite H2 by exact Hi.
          destruct (Nat.ltb_spec i k), (Nat.ltb_spec i (S k)); lia || reflexivity.
      - intros i Hi. destruct (Nat.eq_dec i k) as [->|Hne].
        + rewrite (proj2 (Nat.ltb_lt k (S k))) by lia. unfold m4, rd at 1. rewrite nth_upd_other by lia.
          rewrite <- At. fold (rd m3 top k). rewrite V3, B1, B2. reflexivity.
        + unfold m4, m3, m2, rd at 1. rewrite !nth_upd_other by lia. fold (rd m1 s (mid + i)). rewrite H3 by exact Hi.
          destruct (Nat.ltb_spec i k), (Nat.ltb_spec i (S k)); lia || reflexivity.
      - intros a Ha. unfold m4, m3, m2. rewrite !nth_upd_other by lia. apply H4. exact Ha. }
    rewrite E. eexists. eexists. split; [reflexivity|]. split; [exact H1|].
    assert (Es : bot = MkSlice (base s) mid (scap s)) by (unfold bot; f_equal; lia).
    split; [exact Es|]. split; [rewrite Es; unfold swf; cbn [slen scap base]; lia|].
    split; [|split].
    - rewrite Es. unfold tab at 1, foldv. rewrite tab_length. fold mid. cbn [slen].
      apply map_ext_in. intros i Hi. apply in_seq in Hi.
      rewrite !tab_nth by lia. unfold rd at 1. cbn [base]. fold (rd m' s i).
      rewrite H2 by lia. rewrite (proj2 (Nat.ltb_lt i mid)) by lia. unfold low. ring.
    - intros i Hi. rewrite H3 by exact Hi. rewrite (proj2 (Nat.ltb_lt i mid)) by lia. reflexivity.
    - exact H4.
  Qed.

  (** Folding a fresh slice repeatedly. *)
  Lemma HFoldMany_ok m0 rs : forall m s, ext m0 m -> swf m s -> (length m0 <= base s)%nat ->
    exists m' s', HFoldMany m s rs = Some (m', s') /\ ext m0 m' /\ swf m' s' /\
      tab m' s' = foldsv (tab m s) rs.
  Proof.
    unfold HFoldMany, foldsv. induction rs as [|r rs IH]; intros m s He W Hb.
    - exists m, s. auto.
    - cbn [foldM fold_left].
      destruct (HFold_ok m s r W) as (m1 & s1 & E & L & Es & W1 & T & _ & Fr). rewrite E.
      destruct (IH m1 s1) as (m' & s' & E' & He' & W' & T').
      + destruct He as [He1 He2]. split; [lia|]. intros a Ha. rewrite Fr by lia. apply He2. exact Ha.
      + exact W1.
      + rewrite Es. cbn [base]. exact Hb.
      + exists m', s'. rewrite <- T. auto.
  Qed.

  (** ** DeepCopy *)
  Lemma HDeepCopy_ok m s : swf m s ->
    exists m' d, HDeepCopy m s = Some (m', d) /\ ext m m' /\ swf m' d /\
      base d = length m /\ slen d = slen s /\ tab m' d = tab m s.
  Proof.
    intros W. unfold HDeepCopy, halloc, hcopy. cbn [slen]. rewrite Nat.min_id.
    set (d := MkSlice (length m) (slen s) (slen s)). set (m0 := m ++ repeat 0 (slen s)).
    assert (Wd : swf m0 d) by (unfold swf, m0, d; cbn; rewrite app_length, repeat_length; lia).
    assert (W0 : swf m0 s) by (apply swf_app; exact W). pose proof W as [W1 W2].
    destruct (loop_written 0 m0 (slen s) (fun i => length m + i)%nat (rd m s)
      (fun i m => x <- hget m s i ;; hset m d i x)) as (m' & E & L & H1 & H2).
    - intros i j _ _ H. lia.
    - intros i Hi. unfold m0. rewrite app_length, repeat_length. lia.
    - intros i m1 Hi Hm Hf. rewrite hget_rd; [|apply (swf_len m0); assumption|lia].
      rewrite hset_upd; [|apply (swf_len m0); assumption|exact Hi]. f_equal. f_equal.
      unfold rd. rewrite Hf by (intros j Hj _; lia). unfold m0. apply app_nth1. lia.
    - rewrite E. exists m', d. split; [reflexivity|]. split.
      { split; [rewrite L; unfold m0; rewrite app_length; lia|]. intros a Ha.
        rewrite H2 by (intros; lia). unfold m0. apply app_nth1. exact Ha. }
      split; [apply (swf_len m0); assumption|]. split; [reflexivity|]. split; [reflexivity|].
      unfold tab. cbn [d slen]. apply map_ext_in. intros i Hi. apply in_seq in Hi. apply H1. lia.
  Qed.

  Lemma HEvaluate_ok m s x : swf m s ->
    match HEvaluate m s x with
    | Some (m', v) => ext m m' /\ Evaluate (tab m s) x = Some v
    | None => Evaluate (tab m s) x = None
    end.
  Proof.
    intros W. unfold HEvaluate, Evaluate, DeepCopy. rewrite FoldMany_foldsv.
    destruct (HDeepCopy_ok m s W) as (m1 & d & -> & E1 & W1 & B1 & L1 & T1).
    destruct (HFoldMany_ok m x m1 d E1 W1 ltac:(lia)) as (m2 & s2 & -> & E2 & W2 & T2).
    rewrite <- T1, <- T2. destruct (slen s2) as [|n] eqn:En.
    - unfold hget, tab. rewrite En. reflexivity.
    - rewrite (hget_rd m2 s2) by (assumption || lia).
      split; [exact E2|]. rewrite (get_nth _ 0 0) by (rewrite tab_length; lia).
      rewrite tab_nth by lia. reflexivity.
  Qed.

  Lemma HEvaluateLeftAndRight_ok m s hP hL hR : swf m s ->
    match HEvaluateLeftAndRight m s hP hL hR with
    | Some (m', v) => ext m m' /\ EvaluateLeftAndRight (tab m s) hP hL hR = Some v
    | None => EvaluateLeftAndRight (tab m s) hP hL hR = None
    end.
  Proof.
    intros W. unfold HEvaluateLeftAndRight, EvaluateLeftAndRight, DeepCopy.
    destruct (HDeepCopy_ok m s W) as (m1 & cl & -> & E1 & W1 & B1 & L1 & T1).
    destruct (HDeepCopy_ok m1 s (ext_swf _ _ _ E1 W)) as (m2 & cr & -> & E2 & W2 & B2 & L2 & T2).
    rewrite (ext_tab m m1 s E1 W) in T2.
    pose proof (HEvaluate_ok m2 cl (hL ++ hP) (ext_swf _ _ _ E2 W1)) as Ha.
    rewrite (ext_tab m1 m2 cl E2 W1), T1 in Ha.
    destruct (HEvaluate m2 cl (hL ++ hP)) as [[m3 a]|]; [|rewrite Ha; reflexivity].
    destruct Ha as [E3 ->].
    pose proof (HEvaluate_ok m3 cr (hR ++ hP) (ext_swf _ _ _ E3 W2)) as Hb.
    rewrite (ext_tab m2 m3 cr E3 W2), T2 in Hb.
    destruct (HEvaluate m3 cr (hR ++ hP)) as [[m4 b]|]; [|rewrite Hb; reflexivity].
    destruct Hb as [E4 ->]. split; [|reflexivity].
    eapply ext_trans; [exact E1|]. eapply ext_trans; [exact E2|]. eapply ext_trans; eauto.
  Qed.

  (** ** FunctionEvals *)
  Lemma HFunctionEvals_ok m s : swf m s ->
    exists m' d, HFunctionEvals m s = Some (m', d) /\ ext m m' /\ swf m' d /\
      FunctionEvals (tab m s) = Some (tab m' d).
  Proof.
    intros W. pose proof W as [W1 W2]. rewrite FunctionEvals_spec, tab_length.
    unfold HFunctionEvals, halloc, hslice. set (mid := (slen s / 2)%nat).
    pose proof (half_le (slen s)) as Hh. fold mid in Hh.
    cbn [Nat.leb andb]. rewrite (proj2 (Nat.leb_le mid (scap s))) by lia.
    rewrite (proj2 (Nat.leb_le mid (slen s))), (proj2 (Nat.leb_le (slen s) (scap s))) by lia. cbn [andb].
    set (bot := MkSlice (base s + 0) (mid - 0) (scap s - 0)).
    set (top := MkSlice (base s + mid) (slen s - mid) (scap s - mid)).
    set (d := MkSlice (length m) mid mid). set (m0 := m ++ repeat 0 mid).
    assert (L0 : length m0 = (length m + mid)%nat) by (unfold m0; rewrite app_length, repeat_length; reflexivity).
    destruct (loop_written 0 m0 mid (fun i => length m + i)%nat (fun i => rd m s (mid + i) - rd m s i)
      (fun i m => ti <- hget m top i ;; bi <- hget m bot i ;; hset m d i (ti - bi))) as (m' & E & L & H1 & H2).
    - intros i j _ _ H. lia.
    - intros i Hi. lia.
    - intros i m1 Hi Hm Hf.
      rewrite (hget_rd m1 top) by (unfold swf, top; cbn [slen scap base]; lia).
      rewrite (hget_rd m1 bot) by (unfold swf, bot; cbn [slen scap base]; lia).
      rewrite (hset_upd m1 d) by (unfold swf, d; cbn [slen scap base]; lia).
      f_equal. f_equal. unfold rd. cbn [base top bot].
      rewrite !Hf by (intros j Hj _; lia). unfold m0. rewrite !app_nth1 by lia.
      rewrite Nat.add_0_r. f_equal. f_equal. lia.
    - rewrite E. exists m', d. split; [reflexivity|]. split.
      { split; [lia|]. intros a Ha. rewrite H2 by (intros; lia). unfold m0. apply app_nth1. exact Ha. }
      split; [unfold swf, d; cbn [slen scap base]; lia|].
      f_equal. unfold tab at 3. cbn [d slen]. apply map_ext_in. intros i Hi. apply in_seq in Hi.
      rewrite !tab_nth by lia. symmetry. apply H1. lia.
  Qed.

  (** ** Sub and Mul with goroutines run in order *)
  Lemma HSubSeq_ok m dst left right nCore :
    (0 < nCore)%nat -> swf m dst -> swf m left -> swf m right -> slen right = slen left ->
    compat (slen left) dst left -> compat (slen left) dst right ->
    exists m' dst', HSubSeq m dst left right nCore = Some (m', dst') /\ swf m' dst' /\
      pointwise m dst m' dst' (slen left) (fun i => rd m left i - rd m right i).
  Proof.
    intros Hn Hd Hl Hr Hs Cl Cr. unfold HSubSeq, HSub_start.
    destruct (chunk_prog_concat nCore (slen left) Hn) as (chunks & -> & Hc).
    rewrite Hs, Nat.eqb_refl. cbn [negb].
    destruct (hresize_ok m dst (slen left) Hd) as (e & dst' & -> & HL & Hw & Hb & Hrel). rewrite Hc.
    destruct (loop_written 0 (m ++ e) (slen left) (fun i => base dst' + i)%nat
      (fun i => rd m left i - rd m right i) (sub_exec dst' left right)) as (m' & E & W).
    - intros i j _ _ H. lia.
    - intros i Hi. destruct Hw as [W1 W2]. lia.
    - intros i m1 Hi Hm Hf. unfold sub_exec.
      rewrite (operand_read m e m1 dst' left (slen left) i); auto.
      rewrite (operand_read m e m1 dst' right (slen left) i); auto.
      apply hset_upd; [apply (swf_len (m ++ e)); assumption|lia].
    - unfold forN in E. rewrite E. exists m', dst'. split; [reflexivity|].
      split; [apply (swf_len (m ++ e)); [apply W|exact Hw]|]. eapply written_pointwise; eauto.
  Qed.

  Lemma HMulSeq_ok m dst x lambda nCore :
    (0 < nCore)%nat -> swf m dst -> swf m x -> compat (slen x) dst x ->
    exists m' dst', HMulSeq m dst lambda x nCore = Some (m', dst') /\ swf m' dst' /\
      pointwise m dst m' dst' (slen x) (fun i => rd m x i * lambda).
  Proof.
    intros Hn Hd Hx Cx. unfold HMulSeq, HMul_start.
    destruct (chunk_prog_concat nCore (slen x) Hn) as (chunks & -> & Hc).
    destruct (hresize_ok m dst (slen x) Hd) as (e & dst' & -> & HL & Hw & Hb & Hrel). rewrite Hc.
    destruct (loop_written 0 (m ++ e) (slen x) (fun i => base dst' + i)%nat
      (fun i => rd m x i * lambda) (mul_exec dst' x lambda)) as (m' & E & W).
    - intros i j _ _ H. lia.
    - intros i Hi. destruct Hw as [W1 W2]. lia.
    - intros i m1 Hi Hm Hf. unfold mul_exec.
      rewrite (operand_read m e m1 dst' x (slen x) i); auto.
      apply hset_upd; [apply (swf_len (m ++ e)); assumption|lia].
    - unfold forN in E. rewrite E. exists m', dst'. split; [reflexivity|].
      split; [apply (swf_len (m ++ e)); [apply W|exact Hw]|]. eapply written_pointwise; eauto.
  Qed.

  Lemma HAdd_swf m dst left right m' dst' : HAdd m dst left right = Some (m', dst') ->
    swf m dst -> swf m left -> swf m right -> slen right = slen left ->
    compat (slen left) dst left -> compat (slen left) dst right -> swf m' dst'.
  Proof.
    unfold HAdd. intros E Hd Hl Hr Hs Cl Cr. rewrite Hs, Nat.eqb_refl in E. cbn [negb] in E.
    destruct (hresize_ok m dst (slen left) Hd) as (e & d2 & E2 & HL & Hw & Hb & Hrel).
    rewrite E2 in E. destruct (forN _ _ _) as [m1|] eqn:E3; [|discriminate]. injection E as <- <-.
    apply (swf_len (m ++ e)); [|exact Hw].
    unfold forN in E3. apply (foldM_pres (fun mm => length mm = length (m ++ e))) in E3; auto.
    intros s0 i s1 H1 H2. destruct (hget s0 left i); [|discriminate]. destruct (hget s0 right i); [|discriminate].
    unfold hset in H2. destruct (i <? slen d2)%nat; [|discriminate]. apply set_length in H2. congruence.
  Qed.

  (** a pointwise operation whose destination lies beyond [m0] extends [m0] *)
  Lemma pointwise_ext m0 m dst m' dst' size val : ext m0 m ->
    pointwise m dst m' dst' size val -> (size = 0%nat \/ length m0 <= base dst')%nat -> ext m0 m'.
  Proof.
    intros [E1 E2] (P1 & P2 & P3 & P4 & P5) H. split; [lia|].
    intros a Ha. rewrite P4 by lia. apply E2. exact Ha.
  Qed.

  Lemma pointwise_tab m dst m' dst' size val :
    pointwise m dst m' dst' size val -> tab m' dst' = map val (seq 0 size).
  Proof.
    intros (P1 & P2 & P3 & _). unfold tab. rewrite P1. apply map_ext_in.
    intros i Hi. apply in_seq in Hi. apply P3. lia.
  Qed.

  Lemma swf_nil m : swf m nilSlice.
  Proof. unfold swf, nilSlice. simpl. lia. Qed.

  (** One new table of the recombination. *)
  Lemma recombine_one m hi lo q : swf m hi -> swf m lo ->
    match (' (m, d) <- HSubSeq m nilSlice hi lo 1 ;;
           ' (m, d) <- HMulSeq m d q d 1 ;; HAdd m d d lo) with
    | Some (m', d) => ext m m' /\ swf m' d /\
        (x <- TabSub [] (tab m hi) (tab m lo) 1 ;; x <- TabMul x q x 1 ;; TabAdd x x (tab m lo)) = Some (tab m' d)
    | None => (x <- TabSub [] (tab m hi) (tab m lo) 1 ;; x <- TabMul x q x 1 ;; TabAdd x x (tab m lo)) = None
    end.
  Proof.
    intros Wh Wl. destruct (Nat.eq_dec (slen lo) (slen hi)) as [Heq|Hne].
    2:{ unfold HSubSeq. rewrite HSub_panics by congruence.
        rewrite TabSub_panics by (rewrite !tab_length; exact Hne). reflexivity. }
    assert (Cn : forall s, swf m s -> compat (slen hi) nilSlice s).
    { intros s _. unfold compat, nilSlice. cbn [scap base]. lia. }
    destruct (HSubSeq_ok m nilSlice hi lo 1) as (m1 & d1 & -> & W1 & P1); auto using swf_nil.
    assert (F1 : (slen hi = 0 \/ length m <= base d1)%nat).
    { destruct P1 as (L1 & _ & _ & _ & B). cbn [nilSlice scap] in B.
      destruct (Nat.ltb_spec 0 (slen hi)); [right; lia|left; lia]. }
    assert (L1 : slen d1 = slen hi) by apply P1.
    assert (E1 : ext m m1) by (eapply pointwise_ext; [apply ext_refl|exact P1|exact F1]).
    assert (C1 : forall s, base s = base d1 -> compat (slen d1) d1 s) by (unfold compat; lia).
    destruct (HMulSeq_ok m1 d1 d1 q 1) as (m2 & d2 & -> & W2 & P2); auto.
    assert (L2 : slen d2 = slen hi) by (rewrite <- L1; apply P2).
    assert (B2 : base d2 = base d1).
    { destruct P2 as (_ & _ & _ & _ & B). destruct W1 as [W1 _].
      destruct (Nat.ltb_spec (scap d1) (slen d1)); [lia|exact B]. }
    assert (E2 : ext m m2) by (eapply pointwise_ext; [exact E1|exact P2|lia]).
    assert (Wl2 : swf m2 lo) by (eapply ext_swf; eauto).
    assert (C2 : compat (slen d2) d2 d2) by (unfold compat; lia).
    assert (C3 : compat (slen d2) d2 lo) by (destruct Wl; unfold compat; lia).
    assert (L3 : slen lo = slen d2) by lia.
    destruct (HAdd_ok m2 d2 d2 lo W2 W2 Wl2 L3 C2 C3) as (m3 & d3 & E & P3). rewrite E.
    assert (B3 : base d3 = base d2).
    { destruct P3 as (_ & _ & _ & _ & B). destruct W2 as [W2 _].
      destruct (Nat.ltb_spec (scap d2) (slen d2)); [lia|exact B]. }
    split; [eapply pointwise_ext; [exact E2|exact P3|lia]|].
    split; [eapply HAdd_swf; eauto|].
    rewrite TabSub_spec by (rewrite ?tab_length; lia).
    rewrite TabMul_spec by lia. rewrite TabAdd_spec by (rewrite !map_length, seq_length, !tab_length; lia).
    f_equal. rewrite (pointwise_tab _ _ _ _ _ _ P3), !map_length, seq_length, tab_length, L2.
    apply map_ext_in. intros i Hi. apply in_seq in Hi.
    rewrite nth_map_lt with (d' := 0) by (rewrite map_length, seq_length; lia).
    rewrite nth_map_seq by lia. rewrite !tab_nth by lia.
    rewrite (ext_rd m m2 lo) by (assumption || lia).
    destruct P2 as (_ & _ & V2 & _). rewrite V2 by lia.
    destruct P1 as (_ & _ & V1 & _). rewrite V1 by lia. reflexivity.
  Qed.

  Definition aswf m (l : list Slice) : Prop := forall s, In s l -> swf m s.

  Lemma ext_tabs m m' l : ext m m' -> aswf m l -> map (tab m') l = map (tab m) l.
  Proof. intros E W. apply map_ext_in. intros s Hs. apply ext_tab; auto. Qed.

  Lemma get_map {A B} (f : A -> B) (l : list A) i : get (map f l) i = option_map f (get l i).
  Proof. apply nth_error_map. Qed.

  Lemma HRecombineStep_ok m inp rest q : aswf m inp ->
    match HRecombineStep (m, inp, rest) q with
    | Some (m', inp', res') => inp' = res' /\ ext m m' /\ aswf m' inp' /\ recombine_step (map (tab m) inp, map (tab m) rest) q = Some (map (tab m') inp', map (tab m') inp')
    | None => recombine_step (map (tab m) inp, map (tab m) rest) q = None
    end.
  Proof.
    intros W. unfold HRecombineStep, recombine_step. rewrite map_length.
    set (mid := (length inp / 2)%nat).
    set (G := fun k => hi <- get (map (tab m) inp) (k + mid) ;; lo <- get (map (tab m) inp) k ;;
       d <- TabSub [] hi lo 1 ;; d <- TabMul d q d 1 ;; TabAdd d d lo).
    assert (H : forall l mc res, ext m mc -> aswf mc res ->
      match foldM (fun '(m, res) k =>
          hi <- get inp (k + mid) ;; lo <- get inp k ;;
          ' (m, d) <- HSubSeq m nilSlice hi lo 1 ;;
          ' (m, d) <- HMulSeq m d q d 1 ;;
          ' (m, d) <- HAdd m d d lo ;; Some (m, res ++ [d])) l (mc, res) with
      | Some (m', res') => ext m m' /\ aswf m' res' /\
           exists v, mapM G l = Some v /\ map (tab m') res' = map (tab mc) res ++ v
      | None => mapM G l = None
      end).
    { induction l as [|k l IH]; intros mc res E Wr; cbn [foldM mapM].
      - split; [exact E|]. split; [exact Wr|]. exists []. rewrite app_nil_r. auto.
      - unfold G at 1 3. rewrite !get_map.
        destruct (get inp (k + mid)) as [hi|] eqn:Eh; cbn [option_map]; [|reflexivity].
        destruct (get inp k) as [lo|] eqn:El; cbn [option_map]; [|reflexivity].
        assert (Wh : swf m hi) by (apply W; eapply nth_error_In; exact Eh).
        assert (Wl : swf m lo) by (apply W; eapply nth_error_In; exact El).
        pose proof (recombine_one mc hi lo q (ext_swf _ _ _ E Wh) (ext_swf _ _ _ E Wl)) as R.
        rewrite (ext_tab m mc hi), (ext_tab m mc lo) in R by assumption.
        destruct (HSubSeq mc nilSlice hi lo 1) as [[m1 d1]|]; [|rewrite R; reflexivity].
        destruct (HMulSeq m1 d1 q d1 1) as [[m2 d2]|]; [|rewrite R; reflexivity].
        destruct (HAdd m2 d2 d2 lo) as [[m3 d3]|]; [|rewrite R; reflexivity].
        destruct R as (E3 & W3 & R). rewrite R.
        specialize (IH m3 (res ++ [d3])).
        assert (E' : ext m m3) by (eapply ext_trans; eauto).
        assert (Wr' : aswf m3 (res ++ [d3])).
        { intros s Hs. apply in_app_iff in Hs. destruct Hs as [Hs|[<-|[]]]; [|exact W3].
          eapply ext_swf; [exact E3|]. apply Wr. exact Hs. }
        specialize (IH E' Wr').
        destruct (foldM _ l (m3, res ++ [d3])) as [[m' res']|]; [|rewrite IH; reflexivity].
        destruct IH as (I1 & I2 & v & I3 & I4). split; [exact I1|]. split; [exact I2|].
        rewrite I3. eexists. split; [reflexivity|]. rewrite I4, map_app. cbn [map].
        rewrite <- app_assoc. rewrite (ext_tabs mc m3 res E3 Wr). reflexivity. }
    specialize (H (seq 0 mid) m [] (ext_refl m) ltac:(intros s [])).
    unfold forN. destruct (foldM _ (seq 0 mid) (m, [])) as [[m' res']|].
    - destruct H as (H1 & H2 & v & H3 & H4). fold G. rewrite H3. cbn [map app] in H4. rewrite H4. auto.
    - fold G. rewrite H. reflexivity.
  Qed.

  Lemma HRecombine_ok m bkts qs : aswf m bkts ->
    match HRecombine m bkts qs with
    | Some (m', r) => ext m m' /\ swf m' r /\ chunkedEvalRecombine (map (tab m) bkts) qs = Some (tab m' r)
    | None => chunkedEvalRecombine (map (tab m) bkts) qs = None
    end.
  Proof.
    intros W. unfold HRecombine, chunkedEvalRecombine. rewrite map_length.
    destruct (log2ceil (length bkts) =? length qs)%nat; cbn [negb]; [|reflexivity].
    assert (H : forall qs mc inp res, aswf mc inp -> aswf mc res ->
      match foldM HRecombineStep qs (mc, inp, res) with
      | Some (m', inp', res') => ext mc m' /\ aswf m' res' /\
          foldM recombine_step qs (map (tab mc) inp, map (tab mc) res) = Some (map (tab m') inp', map (tab m') res')
      | None => foldM recombine_step qs (map (tab mc) inp, map (tab mc) res) = None
      end).
    { clear. induction qs as [|q qs IH]; intros mc inp res Wi Wr; cbn [foldM].
      - split; [apply ext_refl|]. auto.
      - pose proof (HRecombineStep_ok mc inp res q Wi) as R.
        destruct (HRecombineStep (mc, inp, res) q) as [[[m1 inp1] res1]|]; [|rewrite R; reflexivity].
        destruct R as (<- & E1 & W1 & R). rewrite R. specialize (IH m1 inp1 inp1 W1 W1).
        destruct (foldM HRecombineStep qs (m1, inp1, inp1)) as [[[m' i'] r']|]; [|exact IH].
        destruct IH as (I1 & I2 & I3). split; [eapply ext_trans; eauto|]. auto. }
    specialize (H qs m bkts [] W ltac:(intros s [])). cbn [map] in H.
    destruct (foldM HRecombineStep qs (m, bkts, [])) as [[[m' i'] r']|]; [|rewrite H; reflexivity].
    destruct H as (H1 & H2 & H3). rewrite H3. cbn [snd]. rewrite get_map.
    destruct (get r' 0) as [r|] eqn:E; cbn [option_map]; [|reflexivity].
    split; [exact H1|]. split; [|reflexivity]. apply H2. eapply nth_error_In. exact E.
  Qed.

  Lemma HEvaluateChunked_ok m bkts q : aswf m bkts ->
    match HEvaluateChunked m bkts q with
    | Some (m', v) => ext m m' /\ EvaluateChunked (map (tab m) bkts) q = Some v
    | None => EvaluateChunked (map (tab m) bkts) q = None
    end.
  Proof.
    intros W. unfold HEvaluateChunked, EvaluateChunked. rewrite map_length.
    destruct (gosub (length q) (log2ceil (length bkts))) as [cut|]; [|reflexivity].
    pose proof (HRecombine_ok m bkts (skipn cut q) W) as R.
    destruct (HRecombine m bkts (skipn cut q)) as [[m1 r]|]; [|rewrite R; reflexivity].
    destruct R as (E1 & W1 & R). rewrite R.
    pose proof (HEvaluate_ok m1 r (firstn cut q) W1) as Ev.
    destruct (HEvaluate m1 r (firstn cut q)) as [[m2 v]|]; [|exact Ev].
    destruct Ev as [E2 Ev]. split; [eapply ext_trans; eauto|exact Ev].
  Qed.

  Lemma HEvaluateMixedChunked_ok m bkts hP hL hR : aswf m bkts ->
    match HEvaluateMixedChunked m bkts hP hL hR with
    | Some (m', v) => ext m m' /\ EvaluateMixedChunked (map (tab m) bkts) hP hL hR = Some v
    | None => EvaluateMixedChunked (map (tab m) bkts) hP hL hR = None
    end.
  Proof.
    intros W. unfold HEvaluateMixedChunked, EvaluateMixedChunked. rewrite map_length.
    destruct (length hP <? log2ceil (length bkts))%nat; [reflexivity|].
    set (cut := (length hP - log2ceil (length bkts))%nat).
    pose proof (HRecombine_ok m bkts (skipn cut hP) W) as R.
    destruct (HRecombine m bkts (skipn cut hP)) as [[m1 r]|]; [|rewrite R; reflexivity].
    destruct R as (E1 & W1 & R). rewrite R.
    pose proof (HEvaluateLeftAndRight_ok m1 r (firstn cut hP) hL hR W1) as Ev.
    destruct (HEvaluateLeftAndRight m1 r (firstn cut hP) hL hR) as [[m2 v]|]; [|exact Ev].
    destruct Ev as [E2 Ev]. split; [eapply ext_trans; eauto|exact Ev].
  Qed.
End H.

Lemma heap_fold (F : Field) (m : list F) (s : Slice) (r : F) : swf m s ->
  exists m' s', HFold m s r = Some (m', s') /\ length m' = length m /\
    s' = MkSlice (base s) (slen s / 2) (scap s) /\ swf m' s' /\
    Fold (tab m s) r = Some (tab m' s') /\
    (forall i, i < slen s / 2 ->
       rd m' s (slen s / 2 + i) = ((rd m s (slen s / 2 + i) - rd m s i) * r)%F) /\
    (forall a, (a < base s \/ base s + 2 * (slen s / 2) <= a) -> nth a m' 0%F = nth a m 0%F).
Proof.
  intros W. destruct (HFold_ok m s r W) as (m' & s' & H1 & H2 & H3 & H4 & H5 & H6 & H7).
  exists m', s'. rewrite Fold_foldv, H5. auto 10.
Qed.
