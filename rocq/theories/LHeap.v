(** Memory lemmas: loops and goroutines writing each cell once; frames. *)
From Coq Require Import List Arith ZArith Lia Bool Ring Field Permutation.
From Verif Require Import Field Go Trans MCommon Spec MPoly LSpec LCommon LPoly MForkJoin LForkJoin MHeap SpecHeap.
Import ListNotations.

Section Writer.
  Context {X : Type} (d : X) (m0 : list X) (size : nat) (tgt : nat -> nat) (g : nat -> X).
  Variable body : nat -> list X -> option (list X).
  Hypothesis tgt_inj : forall i j, i < size -> j < size -> tgt i = tgt j -> i = j.
  Hypothesis tgt_lt : forall i, i < size -> tgt i < length m0.
  Hypothesis body_ok : forall i m, i < size -> length m = length m0 ->
    (forall a, (forall j, j < size -> j <> i -> tgt j <> a) -> nth a m d = nth a m0 d) ->
    body i m = Some (upd m (tgt i) (g i)).

  Definition WInv (P : list nat) (m : list X) : Prop :=
    NoDup P /\ (forall i, In i P -> i < size) /\ length m = length m0 /\
    (forall i, i < size -> ~ In i P -> nth (tgt i) m d = g i) /\
    (forall a, (forall i, i < size -> ~ In i P -> tgt i <> a) -> nth a m d = nth a m0 d).

  Definition written (m : list X) : Prop :=
    length m = length m0 /\ (forall i, i < size -> nth (tgt i) m d = g i) /\
    (forall a, (forall i, i < size -> tgt i <> a) -> nth a m d = nth a m0 d).

  Lemma WInv_init P : P = seq 0 size -> WInv P m0.
  Proof.
    intros ->. repeat split; auto.
    - apply seq_NoDup.
    - intros i Hi. apply in_seq in Hi. lia.
    - intros i Hi Hn. exfalso. apply Hn. apply in_seq. lia.
  Qed.

  Lemma WInv_step l1 a l2 m : WInv (l1 ++ a :: l2) m -> exists m', body a m = Some m' /\ WInv (l1 ++ l2) m'.
  Proof.
    intros (H1 & H2 & H3 & H4 & H5).
    assert (Ha : a < size) by (apply H2, in_or_app; right; left; reflexivity).
    assert (Hna : ~ In a (l1 ++ l2)) by (apply NoDup_remove_2; exact H1).
    assert (Hin : forall i, In i (l1 ++ a :: l2) <-> i = a \/ In i (l1 ++ l2)).
    { intros i. rewrite !in_app_iff. simpl. intuition congruence. }
    exists (upd m (tgt a) (g a)). split.
    - apply body_ok; auto. intros b Hb. apply H5. intros i Hi Hni. apply Hb; [exact Hi|].
      intros ->. apply Hni. apply Hin. left. reflexivity.
    - split; [apply NoDup_remove_1 with a; exact H1|].
      split; [intros i Hi; apply H2, Hin; right; exact Hi|].
      split; [rewrite upd_length; exact H3|]. split.
      + intros i Hi Hni. destruct (Nat.eq_dec i a) as [->|Hne].
        * apply nth_upd_same. rewrite H3. auto.
        * rewrite nth_upd_other by (intros E; apply Hne; symmetry; auto).
          apply H4; [exact Hi|]. rewrite Hin. tauto.
      + intros b Hb. rewrite nth_upd_other by (apply Hb; assumption).
        apply H5. intros i Hi Hni. apply Hb; [exact Hi|]. rewrite Hin in Hni. tauto.
  Qed.

  Lemma WInv_final m : WInv [] m -> written m.
  Proof. intros (_ & _ & H3 & H4 & H5). split; [exact H3|]. split; intros; [apply H4; auto|apply H5; auto]. Qed.

  Lemma loop_written : exists m, forN size (fun m i => body i m) m0 = Some m /\ written m.
  Proof.
    assert (H : forall l m, WInv l m -> exists m', foldM (fun m i => body i m) l m = Some m' /\ WInv [] m').
    { induction l as [|a l IH]; intros m H; [exists m; auto|].
      destruct (WInv_step [] a l m H) as (m' & E & H'). cbn [foldM]. rewrite E. apply IH. exact H'. }
    destruct (H (seq 0 size) m0 (WInv_init _ eq_refl)) as (m & E & Hm).
    exists m. split; [exact E|]. apply WInv_final. exact Hm.
  Qed.

  (** The goroutines [prog], which together handle each index once, in any schedule. *)
  Lemma fork_written (prog : list (list nat)) nTok inMain closes :
    0 < nTok -> concat prog = seq 0 size ->
    must (step body prog nTok inMain closes)
      (fun s => main s = MEnd /\ closed s = closes /\ toks s = nTok /\ written (mem s))
      (init prog nTok inMain m0).
  Proof.
    intros Hn Hc. eapply must_mono; [|apply (fj_must body prog nTok inMain closes WInv WInv_step Hn)].
    - intros s (H1 & H2 & H3 & H4). split; [exact H1|]. split; [exact H2|]. split; [exact H3|].
      apply WInv_final. exact H4.
    - apply WInv_init. exact Hc.
  Qed.
End Writer.

Section H.
  Context {F : Field}.
  Add Field FfieldLHeap : (f_theory F).
  Open Scope F_scope.
  Implicit Types (m : list F) (s dst left right : Slice).

  Lemma hget_rd m s i : swf m s -> (i < slen s)%nat -> hget m s i = Some (rd m s i).
  Proof.
    intros [H1 H2] Hi. unfold hget, rd. destruct (Nat.ltb_spec i (slen s)); [|lia].
    apply get_nth. lia.
  Qed.
  Lemma hset_upd m s i v : swf m s -> (i < slen s)%nat -> hset m s i v = Some (upd m (base s + i) v).
  Proof.
    intros [H1 H2] Hi. unfold hset. destruct (Nat.ltb_spec i (slen s)); [|lia]. apply set_some. lia.
  Qed.
  Lemma swf_len m m' s : length m' = length m -> swf m s -> swf m' s.
  Proof. unfold swf. intros ->. auto. Qed.
  Lemma swf_app m e s : swf m s -> swf (m ++ e) s.
  Proof. unfold swf. rewrite app_length. lia. Qed.
  Lemma rd_app m e s i : (base s + i < length m)%nat -> rd (m ++ e) s i = rd m s i.
  Proof. intros H. unfold rd. apply app_nth1. exact H. Qed.
  Lemma tab_length m s : length (tab m s) = slen s.
  Proof. unfold tab. rewrite map_length, seq_length. reflexivity. Qed.
  Lemma tab_nth m s i : (i < slen s)%nat -> nth i (tab m s) 0 = rd m s i.
  Proof. intros H. unfold tab. apply nth_map_seq. exact H. Qed.
  Lemma tab_app m e s : swf m s -> tab (m ++ e) s = tab m s.
  Proof.
    intros [H1 H2]. unfold tab. apply map_ext_in. intros i Hi. apply in_seq in Hi. apply rd_app. lia.
  Qed.

  (** after resizing: the destination holds [size] cells and relates well to the operands *)
  Lemma hresize_ok m dst size :
    swf m dst -> exists e dst', hresize m dst size = Some (m ++ e, dst') /\
      slen dst' = size /\ swf (m ++ e) dst' /\
      base dst' = (if (scap dst <? size)%nat then length m else base dst) /\
      (forall s, swf m s -> slen s = size -> compat size dst s ->
         base s = base dst' \/ (base s + size <= base dst')%nat \/ (base dst' + size <= base s)%nat).
  Proof.
    intros [H1 H2]. unfold hresize. destruct (Nat.ltb_spec (scap dst) size) as [Hc|Hc].
    - unfold halloc, hslice. cbn [base slen scap]. rewrite Nat.leb_refl. cbn [andb Nat.leb].
      exists (repeat 0 size). eexists. split; [reflexivity|]. cbn [slen base].
      split; [lia|]. split; [unfold swf; cbn [slen scap base]; rewrite app_length, repeat_length; lia|].
      split; [lia|]. intros s [Hs1 Hs2] Hs _. lia.
    - unfold hslice. rewrite (proj2 (Nat.leb_le size (scap dst))) by assumption. cbn [andb Nat.leb].
      exists []. eexists. rewrite app_nil_r. split; [reflexivity|]. cbn [slen base scap].
      split; [lia|]. split; [unfold swf; cbn [slen scap base]; lia|].
      split; [lia|].
      intros s [Hs1 Hs2] Hs Hco. unfold compat in Hco. lia.
  Qed.

  Lemma written_pointwise m e dst dst' size val m' :
    swf (m ++ e) dst' -> slen dst' = size ->
    base dst' = (if (scap dst <? size)%nat then length m else base dst) ->
    written 0 (m ++ e) size (fun i => base dst' + i)%nat val m' ->
    pointwise m dst m' dst' size val.
  Proof.
    intros Hw HL Hb (H1 & H2 & H3). split; [exact HL|]. rewrite app_length in H1.
    split; [lia|]. split; [intros i Hi; apply H2; exact Hi|]. split; [|exact Hb].
    intros a Ha Hout. rewrite H3 by (intros i Hi; lia). apply app_nth1. exact Ha.
  Qed.

  (** an operand cell read at iteration [i] still has its initial value *)
  Lemma operand_read m e m1 dst' s size i :
    swf m s -> slen s = size -> (i < size)%nat ->
    (base s = base dst' \/ (base s + size <= base dst')%nat \/ (base dst' + size <= base s)%nat) ->
    length m1 = length (m ++ e) ->
    (forall a, (forall j, (j < size)%nat -> j <> i -> (base dst' + j)%nat <> a) -> nth a m1 0 = nth a (m ++ e) 0) ->
    hget m1 s i = Some (rd m s i).
  Proof.
    intros Hw HL Hi Hrel Hlen Hfr.
    rewrite hget_rd; [|apply (swf_len (m ++ e)); [exact Hlen|apply swf_app; exact Hw]|lia].
    f_equal. unfold rd. rewrite Hfr by (intros j Hj Hne; lia).
    destruct Hw as [W1 W2]. apply app_nth1. lia.
  Qed.

  Theorem HAdd_ok m dst left right :
    swf m dst -> swf m left -> swf m right -> slen right = slen left ->
    compat (slen left) dst left -> compat (slen left) dst right ->
    exists m' dst', HAdd m dst left right = Some (m', dst') /\
      pointwise m dst m' dst' (slen left) (fun i => rd m left i + rd m right i).
  Proof.
    intros Hd Hl Hr Hs Cl Cr. unfold HAdd. rewrite Hs, Nat.eqb_refl. cbn [negb].
    destruct (hresize_ok m dst (slen left) Hd) as (e & dst' & -> & HL & Hw & Hb & Hrel).
    destruct (loop_written 0 (m ++ e) (slen left) (fun i => base dst' + i)%nat
      (fun i => rd m left i + rd m right i)
      (fun i m => a <- hget m left i ;; b <- hget m right i ;; hset m dst' i (a + b))) as (m' & E & W).
    - intros i j _ _ H. lia.
    - intros i Hi. destruct Hw as [W1 W2]. lia.
    - intros i m1 Hi Hm Hf.
      rewrite (operand_read m e m1 dst' left (slen left) i); auto.
      rewrite (operand_read m e m1 dst' right (slen left) i); auto.
      apply hset_upd; [apply (swf_len (m ++ e)); assumption|lia].
    - rewrite E. exists m', dst'. split; [reflexivity|]. eapply written_pointwise; eauto.
  Qed.

  Lemma HAdd_panics m dst left right : slen left <> slen right -> HAdd m dst left right = None.
  Proof.
    intros H. unfold HAdd. destruct (Nat.eqb_spec (slen right) (slen left)); [congruence|reflexivity].
  Qed.

  Lemma chunk_prog_concat nCore size : (0 < nCore)%nat ->
    exists chunks, IntoChunkRanges (Z.of_nat nCore) (Z.of_nat size) = Some chunks /\
      concat (chunk_prog chunks) = seq 0 size.
  Proof.
    intros Hn. destruct (chunk_ranges_indices (Z.of_nat nCore) (Z.of_nat size)) as (c & E & H); try lia.
    exists c. split; [exact E|]. rewrite Nat2Z.id in H. rewrite <- H, flat_map_concat_map. reflexivity.
  Qed.

  Theorem HSub_ok m dst left right nCore :
    (0 < nCore)%nat -> swf m dst -> swf m left -> swf m right -> slen right = slen left ->
    compat (slen left) dst left -> compat (slen left) dst right ->
    exists m1 dst' prog, HSub_start m dst left right nCore = Some (m1, dst', prog) /\
      must (step (sub_exec dst' left right) prog nCore true false)
        (fun z => main z = MEnd /\
           pointwise m dst (mem z) dst' (slen left) (fun i => rd m left i - rd m right i))
        (init prog nCore true m1).
  Proof.
    intros Hn Hd Hl Hr Hs Cl Cr. unfold HSub_start.
    destruct (chunk_prog_concat nCore (slen left) Hn) as (chunks & -> & Hc).
    rewrite Hs, Nat.eqb_refl. cbn [negb].
    destruct (hresize_ok m dst (slen left) Hd) as (e & dst' & -> & HL & Hw & Hb & Hrel).
    exists (m ++ e), dst', (chunk_prog chunks). split; [reflexivity|].
    eapply must_mono; [|apply (fork_written 0 (m ++ e) (slen left) (fun i => base dst' + i)%nat
      (fun i => rd m left i - rd m right i) (sub_exec dst' left right)); auto].
    - intros s (H1 & _ & _ & H4). split; [exact H1|]. eapply written_pointwise; eauto.
    - intros i j _ _ H. lia.
    - intros i Hi. destruct Hw as [W1 W2]. lia.
    - intros i m1 Hi Hm Hf. unfold sub_exec.
      rewrite (operand_read m e m1 dst' left (slen left) i); auto.
      rewrite (operand_read m e m1 dst' right (slen left) i); auto.
      apply hset_upd; [apply (swf_len (m ++ e)); assumption|lia].
  Qed.

  Lemma HSub_panics m dst left right nCore : slen left <> slen right -> HSub_start m dst left right nCore = None.
  Proof.
    intros H. unfold HSub_start. destruct (IntoChunkRanges _ _); [|reflexivity].
    destruct (Nat.eqb_spec (slen right) (slen left)); [congruence|reflexivity].
  Qed.

  Theorem HMul_ok m dst x lambda nCore :
    (0 < nCore)%nat -> swf m dst -> swf m x -> compat (slen x) dst x ->
    exists m1 dst' prog, HMul_start m dst x nCore = Some (m1, dst', prog) /\
      must (step (mul_exec dst' x lambda) prog nCore true false)
        (fun z => main z = MEnd /\
           pointwise m dst (mem z) dst' (slen x) (fun i => rd m x i * lambda))
        (init prog nCore true m1).
  Proof.
    intros Hn Hd Hx Cx. unfold HMul_start.
    destruct (chunk_prog_concat nCore (slen x) Hn) as (chunks & -> & Hc).
    destruct (hresize_ok m dst (slen x) Hd) as (e & dst' & -> & HL & Hw & Hb & Hrel).
    exists (m ++ e), dst', (chunk_prog chunks). split; [reflexivity|].
    eapply must_mono; [|apply (fork_written 0 (m ++ e) (slen x) (fun i => base dst' + i)%nat
      (fun i => rd m x i * lambda) (mul_exec dst' x lambda)); auto].
    - intros s (H1 & _ & _ & H4). split; [exact H1|]. eapply written_pointwise; eauto.
    - intros i j _ _ H. lia.
    - intros i Hi. destruct Hw as [W1 W2]. lia.
    - intros i m1 Hi Hm Hf. unfold mul_exec.
      rewrite (operand_read m e m1 dst' x (slen x) i); auto.
      apply hset_upd; [apply (swf_len (m ++ e)); assumption|lia].
  Qed.

  Lemma HSub_zero_core m dst left right : HSub_start m dst left right 0 = None.
  Proof. reflexivity. Qed.
  Lemma HMul_zero_core m dst x : HMul_start m dst x 0 = None.
  Proof. reflexivity. Qed.
End H.
