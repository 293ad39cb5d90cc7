(** What the tables of a layer cost (lemmas for PCost3.v). *)
From Coq Require Import List Arith ZArith Lia Bool.
From Verif Require Import Field Go MCommon LCommon MPoly LPoly LDomain MCircuit MSumcheck MSumPar MGkr MCost SpecCost MCost2 MCost3 SpecCost3 LCost LCost2 LCost5 LCost6 LCost7.
Import ListNotations.

(** Loops with an invariant that depends on the index. *)
Lemma c_list_at {A S} (f : S -> nat * A -> W S) (I : nat -> S -> Prop) (k : nat -> nat) : forall l a s,
  (forall s i x, a <= i < a + length l -> I i s -> costs (f s (i, x)) (I (i + 1)) (k i)) -> I a s ->
  costs (foldW f (combine (seq a (length l)) l) s) (I (a + length l)) (list_sum (map k (seq a (length l)))).
Proof.
  induction l as [|x l IH]; intros a s H Hs; cbn [length seq combine foldW map list_sum fold_right].
  - rewrite Nat.add_0_r. apply c_ret, Hs.
  - apply (c_bind _ _ (I (a + 1))); [apply H; [cbn; lia|exact Hs]|]. intros s' Hs'.
    replace (a + Datatypes.S (length l)) with (Datatypes.S a + length l) by lia. apply IH; [|rewrite <- Nat.add_1_r; exact Hs'].
    intros s0 i y Hi. apply H. cbn [length]. lia.
Qed.

Lemma c_seq_at {S} (f : S -> nat -> W S) (I : nat -> S -> Prop) (k : nat) n : forall a s,
  (forall s i, a <= i < a + n -> I i s -> costs (f s i) (I (i + 1)) k) -> I a s -> costs (foldW f (seq a n) s) (I (a + n)) (n * k).
Proof.
  induction n as [|n IH]; intros a s H Hs; cbn [seq foldW Nat.mul].
  - rewrite Nat.add_0_r. apply c_ret, Hs.
  - apply (c_bind _ _ (I (a + 1))); [apply H; [lia|exact Hs]|]. intros s' Hs'.
    replace (a + Datatypes.S n) with (Datatypes.S a + n) by lia. apply IH; [|rewrite <- Nat.add_1_r; exact Hs'].
    intros s0 i Hi. apply H. lia.
Qed.

Lemma geometric L n : list_sum (map (fun i => 2 ^ i * L) (seq 0 n)) = (2 ^ n - 1) * L.
Proof.
  induction n as [|n IH]; [reflexivity|]. rewrite seq_S, map_app, list_sum_app, IH. cbn [map list_sum fold_right Nat.add].
  pose proof (Nat.pow_nonzero 2 n). cbn [Nat.pow]. nia.
Qed.

Section S.
  Context {F : Field}.
  Open Scope F_scope.

  (* ---------------------------------------------------------------- without the counts *)
  Lemma er_Folded (q : list F) : erase (WGetFoldedEqTable q) = GetFoldedEqTable q.
  Proof. unfold WGetFoldedEqTable, GetFoldedEqTable. cbv zeta. er1. er1. destruct a0 as [i r]. unfold Weq_step, eq_step. cbv zeta. repeat er1. Qed.

  Lemma er_Chunked (q : list F) n c : erase (WGetChunkedEqTable q n c) = GetChunkedEqTable q n c.
  Proof.
    unfold WGetChunkedEqTable, GetChunkedEqTable. cbv zeta. er1. apply er_bind'; [apply er_Folded|]. intros t0. er1. er1. destruct a1 as [i r].
    unfold Wchunked_eq_step, chunked_eq_step. cbv zeta. er1. er1. er1. apply er_bind'; [apply er_TabMul|]. intros tN. er1. er1. apply er_last.
  Qed.

  Lemma er_Linear (t0 t1 : list F) a0 a1 : erase (WLinearCombination t0 t1 a0 a1) = LinearCombination t0 t1 a0 a1.
  Proof. unfold WLinearCombination, LinearCombination. er1. destruct s as [b0 b1]. repeat er1. Qed.

  Lemma er_combine (sL sR : list (list F)) a0 a1 : erase (WcombineStatics sL sR a0 a1) = combineStatics sL sR a0 a1.
  Proof. unfold WcombineStatics, combineStatics. er1. er1. er1. apply er_bind'; [apply er_Linear|]. intros [x y]. reflexivity. Qed.

  Lemma er_Initial c (a : Assignment F) qP q n : erase (WInitialRoundSumcheckProver c a qP q n) = InitialRoundSumcheckProver c a qP q n.
  Proof.
    unfold WInitialRoundSumcheckProver, InitialRoundSumcheckProver. er1. er1. apply er_bind'; [apply er_GetStaticTable|]. intros st. er1. er1.
    apply er_bind'; [apply er_Chunked|]. intros eq. reflexivity.
  Qed.

  Lemma er_Intermediate c (a : Assignment F) j qP qL qR a0 a1 n :
    erase (WIntermediateRoundsSumcheckProver c a j qP qL qR a0 a1 n) = IntermediateRoundsSumcheckProver c a j qP qL qR a0 a1 n.
  Proof.
    unfold WIntermediateRoundsSumcheckProver, IntermediateRoundsSumcheckProver. er1. er1. apply er_bind'; [apply er_Chunked|]. intros eq. er1.
    apply er_bind'; [apply er_GetStaticTable|]. intros sL. apply er_bind'; [apply er_GetStaticTable|]. intros sR.
    apply er_bind'; [apply er_combine|]. reflexivity.
  Qed.

  (* ---------------------------------------------------------------- the counts *)
  Lemma c_Folded (q : list F) : costs (WGetFoldedEqTable q) (fun t => length t = (2 ^ length q)%nat) (2 ^ length q - 1).
  Proof.
    unfold WGetFoldedEqTable. cbv zeta. c1. apply set_len in E. rewrite repeat_length in E.
    apply (c_weak _ (fun t => length t = (2 ^ length q)%nat) _ (list_sum (map (fun i => 2 ^ i * 1)%nat (seq 0 (length q))))); [|rewrite geometric; lia|auto].
    apply (c_list_at _ (fun _ t => length t = (2 ^ length q)%nat)); [|exact E]. intros s i r _ Hs. unfold Weq_step. cbv zeta.
    apply c_for_const; [|exact Hs]. intros t j _ Ht. c1. apply (c_mul _ _ _ _ 0). c1. c1. c1. c1. apply c_ret.
    rewrite (set_len _ _ _ _ E4), (set_len _ _ _ _ E1). exact Ht.
  Qed.

  Lemma c_Linear (t0 t1 : list F) a0 a1 : costs (WLinearCombination t0 t1 a0 a1) (fun _ => True) (length t1 * 2).
  Proof.
    unfold WLinearCombination. apply c_for_const; [|exact I]. intros [b0 b1] i _ _. c1. apply (c_mul _ _ _ _ 1). c1. c1. apply (c_mul _ _ _ _ 0).
    c1. c1. c1. c1. apply c_ret. exact I.
  Qed.

  Lemma set_at {A} (l l' : list A) i v p t : set l i v = Some l' -> nth_error l' p = Some t -> t = v \/ nth_error l p = Some t.
  Proof.
    unfold set. destruct (Nat.ltb_spec i (length l)) as [Hi|Hi]; [|discriminate]. intros [= <-] H. destruct (Nat.eq_dec p i) as [->|Hp].
    - left. rewrite (nth_error_nth' _ v) in H by (rewrite upd_length; exact Hi). injection H as <-. apply nth_upd_same. exact Hi.
    - right. assert (Hl : (p < length l)%nat) by (rewrite <- (upd_length l i v); apply nth_error_Some; congruence).
      rewrite (nth_error_nth' _ v) in H by (rewrite upd_length; exact Hl). rewrite nth_upd_other in H by congruence.
      rewrite (nth_error_nth' _ v Hl). exact H.
  Qed.

  (** The chunks that are filled when [i] coordinates are done, [k] in all. *)
  Definition filled (k L i : nat) (res : list (list F)) : Prop := forall j t, (j < 2 ^ i)%nat -> nth_error res (j * 2 ^ (k - i)) = Some t -> length t = L.
  Definition filling (k L i j : nat) (res : list (list F)) : Prop :=
    filled k L i res /\ forall j' t, (j' < j)%nat -> nth_error res (j' * 2 ^ (k - i) + 2 ^ (k - 1 - i)) = Some t -> length t = L.

  Lemma filled_next k L i res : (i < k)%nat -> filling k L i (2 ^ i) res -> filled k L (i + 1) res.
  Proof.
    intros Hi [H1 H2] j t Hj Ht. replace (k - (i + 1))%nat with (k - 1 - i)%nat in Ht by lia.
    assert (E : (2 ^ (k - i) = 2 * 2 ^ (k - 1 - i))%nat) by (replace (k - i)%nat with (S (k - 1 - i)) by lia; reflexivity).
    rewrite Nat.add_1_r in Hj. cbn [Nat.pow] in Hj. pose proof (Nat.div_mod_eq j 2) as D. pose proof (Nat.mod_upper_bound j 2 ltac:(lia)) as M.
    destruct (j mod 2)%nat as [|[|]] eqn:Em; [| |lia].
    - apply (H1 (j / 2)%nat t); [lia|]. rewrite E. rewrite <- Ht. f_equal. nia.
    - apply (H2 (j / 2)%nat t); [lia|]. rewrite E. rewrite <- Ht. f_equal. nia.
  Qed.

  Lemma c_chunked_step k L nCore res i (r : F) : (i < k)%nat -> filled k L i res ->
    costs (Wchunked_eq_step k nCore res (i, r)) (filled k L (i + 1)) (2 ^ i * L).
  Proof.
    intros Hi H. unfold Wchunked_eq_step. cbv zeta. unfold forW.
    apply (c_weak _ (filling k L i (0 + 2 ^ i)) _ (2 ^ i * L)%nat); [|reflexivity|intros s; apply filled_next; exact Hi].
    apply c_seq_at; [|split; [exact H|intros; lia]].
    intros s j Hj [H1 H2]. c1. c1. assert (HL : length a = L) by (apply (H1 j a); [lia|exact E]).
    apply (c_weak _ (filling k L i (j + 1)) _ (L + 0)%nat); [|lia|auto].
    apply (c_bind _ _ (fun _ => True)); [rewrite <- HL; apply c_TabMul|]. intros tN _. c1. c1. c1. apply c_ret.
    destruct (TabSub_inv _ _ _ _ _ E2) as (L1 & L2 & _). split.
    - intros j' t Hj' Ht. destruct (set_at _ _ _ _ _ _ E3 Ht) as [->|Ht1]; [lia|].
      destruct (set_at _ _ _ _ _ _ E1 Ht1) as [->|Ht2]; [lia|]. exact (H1 j' t Hj' Ht2).
    - intros j' t Hj' Ht. destruct (set_at _ _ _ _ _ _ E3 Ht) as [->|Ht1]; [lia|].
      destruct (Nat.eq_dec j' j) as [->|Hne].
      + unfold set in E1. destruct (Nat.ltb_spec (j * 2 ^ (k - i) + 2 ^ (k - 1 - i)) (length s)) as [Hlt|]; [|discriminate E1].
        injection E1 as <-. rewrite (nth_error_nth' _ []) in Ht1 by (rewrite upd_length; exact Hlt). rewrite nth_upd_same in Ht1 by exact Hlt.
        injection Ht1 as <-. lia.
      + destruct (set_at _ _ _ _ _ _ E1 Ht1) as [->|Ht2]; [lia|]. apply (H2 j' t); [lia|exact Ht2].
  Qed.

  Lemma c_Chunked (q : list F) k nCore : costs (WGetChunkedEqTable q (2 ^ k) nCore) (fun _ => True) (2 ^ length q - 1).
  Proof.
    unfold WGetChunkedEqTable. cbv zeta. rewrite log2ceil_pow2. c1. unfold gosub in E. destruct (Nat.leb_spec k (length q)) as [Hk|]; [|discriminate E]. injection E as <-.
    set (m := (length q - k)%nat). assert (Lf : length (firstn m q) = m) by (apply firstn_length_le; lia). assert (Ls : length (skipn m q) = k) by (rewrite skipn_length; lia).
    apply (c_weak _ (fun _ => True) _ ((2 ^ m - 1) + (2 ^ k - 1) * 2 ^ m)%nat); [| |auto].
    - apply (c_bind _ _ (fun t => length t = (2 ^ m)%nat)); [pose proof (c_Folded (firstn m q)) as HF; rewrite Lf in HF; exact HF|]. intros t0 Ht0. c1.
      rewrite <- geometric.
      apply (c_weak _ (filled k (2 ^ m) (0 + length (skipn m q))) _ (list_sum (map (fun i => 2 ^ i * 2 ^ m)%nat (seq 0 (length (skipn m q)))))); [|rewrite Ls; reflexivity|auto].
      apply c_list_at.
      + intros s i r Hi Hs. apply c_chunked_step; [lia|exact Hs].
      + intros j t Hj Ht. cbn in Hj. assert (j = 0)%nat as -> by lia. cbn [Nat.mul] in Ht. unfold set in E. destruct (Nat.ltb_spec 0 (length (repeat (@nil F) (2 ^ k)))) as [Hlt|]; [|discriminate E].
        injection E as <-. rewrite (nth_error_nth' _ []) in Ht by (rewrite upd_length; exact Hlt). rewrite nth_upd_same in Ht by exact Hlt. injection Ht as <-. exact Ht0.
    - replace (length q) with (k + m)%nat by (subst m; lia). rewrite Nat.pow_add_r. pose proof (Nat.pow_nonzero 2 k). pose proof (Nat.pow_nonzero 2 m). nia.
  Qed.

  Lemma c_combine n P (sL sR : list (list F)) a0 a1 : length sL = n -> (forall t, In t sR -> length t = P) ->
    costs (WcombineStatics sL sR a0 a1) (fun _ => True) (n * (2 * P)).
  Proof.
    intros HL HR. unfold WcombineStatics.
    apply (c_weak _ (Forall2 (fun _ _ => True) (seq 0 (length sL))) _ (list_sum (map (fun _ : nat => 2 * P) (seq 0 (length sL)))%nat)); [|rewrite list_sum_const, seq_length, HL; reflexivity|auto].
    apply c_map. intros i _. c1. c1. assert (Ha : length a2 = P) by (apply HR; eapply nth_error_In; exact E0).
    apply (c_weak _ (fun _ => True) _ (P * 2 + 0)%nat); [|lia|auto]. apply (c_bind _ _ (fun _ => True)); [rewrite <- Ha; apply c_Linear|]. intros [x y] _. apply c_ret. exact I.
  Qed.

  Lemma of_costs {A} (m : W A) I k o (a : A) : costs m I k -> erase m = o -> o = Some a -> m = Some (a, k).
  Proof. intros H <- E. destruct m as [[b c]|]; [|discriminate E]. cbn in E. injection E as ->. destruct (H a c eq_refl) as [_ ->]. reflexivity. Qed.

  Lemma folded_count (q t : list F) : GetFoldedEqTable q = Some t -> WGetFoldedEqTable q = Some (t, 2 ^ length q - 1)%nat.
  Proof. apply (of_costs _ _ _ _ _ (c_Folded q) (er_Folded q)). Qed.

  Lemma chunked_count (q : list F) k nCore ts : GetChunkedEqTable q (2 ^ k) nCore = Some ts -> WGetChunkedEqTable q (2 ^ k) nCore = Some (ts, 2 ^ length q - 1)%nat.
  Proof. apply (of_costs _ _ _ _ _ (c_Chunked q k nCore) (er_Chunked q _ nCore)). Qed.

  Lemma linear_count (t0 t1 : list F) a0 a1 r : LinearCombination t0 t1 a0 a1 = Some r -> WLinearCombination t0 t1 a0 a1 = Some (r, 2 * length t1)%nat.
  Proof. rewrite Nat.mul_comm. apply (of_costs _ _ _ _ _ (c_Linear t0 t1 a0 a1) (er_Linear t0 t1 a0 a1)). Qed.

  Lemma static_count (l : Layer F) q ts : length q = lBGOutputs l -> GetStaticTable l q = Some ts -> WGetStaticTable l q = Some (ts, wiring_work l).
  Proof. intros H. apply (of_costs _ _ _ _ _ (c_GetStaticTable l q H) (er_GetStaticTable l q)). Qed.

  Lemma initial_count c (a : Assignment F) qP q nCore l v k p : get c (length c - 1) = Some l -> length q = lBGOutputs l ->
    LayerAsBKTWithCopy a (length c - 1) = Some v -> length v = (2 ^ k)%nat ->
    InitialRoundSumcheckProver c a qP q nCore = Some p -> WInitialRoundSumcheckProver c a qP q nCore = Some (p, first_tables l (length qP)).
  Proof.
    intros Hl Hq Hv Hk. apply (of_costs _ (fun _ => True) _ _ _); [|apply er_Initial]. unfold WInitialRoundSumcheckProver, first_tables.
    c1. unfold gosub in E. destruct (_ <=? _)%nat; [|discriminate E]. injection E as <-. rewrite Hl.
    apply (c_weak _ (fun _ => True) _ (wiring_work l + ((2 ^ length qP - 1) + 0))%nat); [|lia|auto].
    eapply c_bind; [apply c_GetStaticTable; exact Hq|]. intros ts _. rewrite Hv, Hk.
    apply (c_bind _ _ (fun _ => True)); [apply c_Chunked|]. intros; apply c_ret. exact I.
  Qed.

  Lemma intermediate_count c (a : Assignment F) j qP qL qR a0 a1 nCore l v k p : get c j = Some l -> length qL = lBGOutputs l -> length qR = lBGOutputs l ->
    LayerAsBKTWithCopy a j = Some v -> length v = (2 ^ k)%nat ->
    IntermediateRoundsSumcheckProver c a j qP qL qR a0 a1 nCore = Some p ->
    WIntermediateRoundsSumcheckProver c a j qP qL qR a0 a1 nCore = Some (p, inner_tables l (length qP)).
  Proof.
    intros Hl HL HR Hv Hk. apply (of_costs _ (fun _ => True) _ _ _); [|apply er_Intermediate]. unfold WIntermediateRoundsSumcheckProver, inner_tables.
    rewrite Hv, Hk, Hl.
    apply (c_weak _ (fun _ => True) _ ((2 ^ length qP - 1) + (wiring_work l + (wiring_work l + (length (lGates l) * (2 * 2 ^ (2 * lBGInputs l)) + 0))))%nat); [|lia|auto].
    apply (c_bind _ _ (fun _ => True)); [apply c_Chunked|]. intros eq _.
    eapply c_bind; [apply c_GetStaticTable; exact HL|]. intros sL [L1 _]. eapply c_bind; [apply c_GetStaticTable; exact HR|]. intros sR [_ L2].
    apply (c_bind _ _ (fun _ => True)); [apply c_combine; assumption|]. intros; apply c_ret. exact I.
  Qed.
End S.
