(** What the counting model of the GKR verifier counts (lemmas for PCost2.v). *)
From Coq Require Import List Arith ZArith Lia Bool.
From Verif Require Import Field Go MCommon LCommon MPoly LPoly LPoly2 MCircuit SpecCircuit MSumcheck MGkr SpecGkr MHash MCost SpecCost MCost2 SpecCost2 LCost LCost2 LCost5 LCost6.
Import ListNotations.

Lemma inv_bind {A B} (m : W A) (f : A -> W B) b c : bindW m f = Some (b, c) ->
  exists a k1 k2, m = Some (a, k1) /\ f a = Some (b, k2) /\ c = k1 + k2.
Proof.
  unfold bindW. destruct m as [[a k1]|]; [|discriminate]. destruct (f a) as [[b' k2]|] eqn:E; [|discriminate].
  intros [= <- <-]. exists a, k1, k2. auto.
Qed.

Lemma inv_opt {A B} (o : option A) (f : A -> W B) r : match o with Some a => f a | None => None end = Some r ->
  exists a, o = Some a /\ f a = Some r.
Proof. destruct o as [a|]; [|discriminate]. intros H. exists a. auto. Qed.

Ltac c1 := apply c_opt; let a := fresh "a" in let E := fresh "E" in intros a E.

Section S.
  Context {F : Field}.
  Open Scope F_scope.

  (* ---------------------------------------------------------------- hash *)
  Lemma c_SBox (x : F) : costs (WSBox x) (fun _ => True) 4.
  Proof. unfold WSBox. cbv zeta. apply (c_mul _ _ _ _ 3). apply (c_mul _ _ _ _ 2). apply (c_mul _ _ _ _ 1). apply (c_mul _ _ _ _ 0). apply c_ret. exact I. Qed.

  Lemma c_MimcHash (Arks input : list F) : costs (WMimcHash Arks input) (fun _ => True) (length input * 364)%nat.
  Proof.
    unfold WMimcHash. apply c_fold_const; [|exact I]. intros s x _ _. unfold WMimcUpdate. cbv zeta.
    apply (c_bind _ _ (fun _ => True) _ 364 0); [|intros; apply c_ret; exact I].
    unfold WMimcPermutation. change 364%nat with (91 * 4)%nat. apply c_for_const; [|exact I]. intros s' i _ _. cbv zeta. c1. apply c_SBox.
  Qed.

  (* ---------------------------------------------------------------- polynomials *)
  Lemma c_FoldMany n : forall (rs t : list F), length t = (2 ^ (length rs + n))%nat ->
    costs (WFoldMany t rs) (fun t' => length t' = (2 ^ n)%nat) (2 ^ (length rs + n) - 2 ^ n).
  Proof.
    unfold WFoldMany. induction rs as [|r rs IH]; intros t HL.
    { cbn [foldW length Nat.add]. rewrite Nat.sub_diag. apply c_ret. exact HL. }
    cbn [foldW]. assert (HP : (2 ^ n <= 2 ^ (length rs + n))%nat) by (apply Nat.pow_le_mono_r; lia).
    cbn [length Nat.add] in HL |- *. rewrite Nat.pow_succ_r' in HL |- *.
    apply (c_weak _ (fun t' => length t' = (2 ^ n)%nat) _ (2 ^ (length rs + n) + (2 ^ (length rs + n) - 2 ^ n))); [|lia|auto].
    apply (c_bind _ _ (fun t' => length t' = (2 ^ (length rs + n))%nat)); [|exact IH].
    apply (c_weak _ (fun t' => t' = foldv t r) _ (length t / 2)); [apply c_Fold|rewrite HL; apply half2|].
    intros t' ->. rewrite foldv_length, HL. apply half2.
  Qed.

  Lemma c_Evaluate (t x : list F) : length t = (2 ^ length x)%nat -> costs (WEvaluate t x) (fun _ => True) (2 ^ length x - 1).
  Proof.
    intros HL. unfold WEvaluate, DeepCopy. rewrite <- (Nat.add_0_r (_ - 1)). apply (c_bind _ _ (fun t' => length t' = (2 ^ 0)%nat)).
    - rewrite <- (Nat.add_0_r (length x)). apply (c_FoldMany 0). rewrite Nat.add_0_r. exact HL.
    - intros t' _. c1. apply c_ret. exact I.
  Qed.

  Lemma c_LeftRight (t hP hL hR : list F) n : length t = (2 ^ n)%nat -> (length hL + length hP)%nat = n -> length hR = length hL ->
    costs (WEvaluateLeftAndRight t hP hL hR) (fun _ => True) (2 * (2 ^ n - 1)).
  Proof.
    intros HL H1 H2. unfold WEvaluateLeftAndRight, DeepCopy. cbv zeta.
    assert (N1 : length (hL ++ hP) = n) by (rewrite app_length; lia). assert (N2 : length (hR ++ hP) = n) by (rewrite app_length; lia).
    apply (c_weak _ (fun _ => True) _ ((2 ^ n - 1) + ((2 ^ n - 1) + 0))); [|lia|auto].
    apply (c_bind _ _ (fun _ => True)); [rewrite <- N1; apply c_Evaluate; rewrite N1; exact HL|]. intros a _.
    apply (c_bind _ _ (fun _ => True)); [rewrite <- N2; apply c_Evaluate; rewrite N2; exact HL|]. intros b _. apply c_ret. exact I.
  Qed.

  (** The chunks of a range add up to it. *)
  Lemma chunks_sum nCore N chunks : IntoChunkRanges (Z.of_nat nCore) (Z.of_nat N) = Some chunks ->
    list_sum (map (fun c : ChunkRange => (Z.to_nat (snd c) - Z.to_nat (fst c))%nat) chunks) = N.
  Proof.
    destruct nCore as [|k]; [rewrite IntoChunkRanges_zero; discriminate|].
    assert (Hc : Z.of_nat (S k) <> 0%Z) by lia. revert Hc. generalize (Z.of_nat (S k)). intros c Hc.
    rewrite IntoChunkRanges_eq by lia. intros [= <-]. rewrite map_map. cbn [fst snd].
    set (s := chunk_size c (Z.of_nat N)). assert (Hs : (0 < s)%Z) by (subst s; unfold chunk_size; lia).
    assert (G : forall n, list_sum (map (fun i => (Z.to_nat (Z.min (Z.of_nat N) ((Z.of_nat i + 1) * s)) - Z.to_nat (Z.of_nat i * s))%nat) (seq 0 n)) = Z.to_nat (Z.min (Z.of_nat N) (Z.of_nat n * s))).
    { induction n as [|n IH]; [cbn; lia|]. rewrite seq_S, map_app, list_sum_app, IH. cbn [map list_sum fold_right Nat.add].
      replace (Z.of_nat (S n)) with (Z.of_nat n + 1)%Z by lia.
      rewrite Z.mul_add_distr_r, Z.mul_1_l. assert (0 <= Z.of_nat n * s)%Z by nia. revert H. generalize (Z.of_nat n * s)%Z. intros z Hz. clear - Hz Hs. lia. }
    rewrite G. unfold chunk_count. fold s. clearbody s. clear G. rewrite Z.min_l; [lia|]. 
    rewrite Z2Nat.id by (apply Z.div_pos; lia). pose proof (Z.mul_div_le (Z.of_nat N + s - 1) s Hs). pose proof (Z.mod_pos_bound (Z.of_nat N + s - 1) s Hs). 
    pose proof (Z.div_mod (Z.of_nat N + s - 1) s). nia.
  Qed.

  Lemma c_TabMul (dst : list F) a x n : costs (WTabMul dst a x n) (fun _ => True) (length x).
  Proof.
    unfold WTabMul. cbv zeta. c1. c1.
    apply (c_weak _ (fun _ => True) _ (list_sum (map (fun c : ChunkRange => (Z.to_nat (snd c) - Z.to_nat (fst c)) * 1)%nat a0))).
    - apply c_fold; [|exact I]. intros s c _ _. 
      replace ((Z.to_nat (snd c) - Z.to_nat (fst c)) * 1)%nat with (length (seq (Z.to_nat (fst c)) (Z.to_nat (snd c) - Z.to_nat (fst c))) * 1)%nat by (rewrite seq_length; reflexivity).
      apply c_fold_const; [|exact I]. intros s' i _ _. c1. apply (c_mul _ _ _ _ 0). c1. apply c_ret. exact I.
    - rewrite <- (chunks_sum n (length x) a0 E). apply sum_ext. intros. lia.
    - auto.
  Qed.

  (* ---------------------------------------------------------------- chunks *)
  Lemma c_recombine_step m L (inp inp' : list (list F)) q : tabs (2 * m) L inp ->
    costs (Wrecombine_step (inp, inp') q) (fun st => exists r, st = (r, r) /\ tabs m L r) (m * L).
  Proof.
    intros HT st k E. split.
    - destruct (recombine_step_ok inp inp' q L m HT) as (r & Er & Hr & _). exists r. split; [|exact Hr].
      pose proof (er_recombine_step (inp, inp') q) as H. rewrite E, Er in H. cbn in H. injection H as ->. reflexivity.
    - enough (H : costs (Wrecombine_step (inp, inp') q) (fun _ => True) (m * L)) by exact (proj2 (H _ _ E)).
      unfold Wrecombine_step. cbv zeta. destruct HT as [H1 H2]. rewrite H1, half2.
      apply (c_weak _ (fun _ => True) _ (list_sum (map (fun _ : nat => L) (seq 0 m)) + 0)%nat); [|rewrite list_sum_const, seq_length; lia|auto].
      apply (c_bind _ _ (Forall2 (fun _ _ => True) (seq 0 m))); [|intros; apply c_ret; exact I].
      apply c_map. intros i Hi. apply in_seq in Hi. c1. c1. c1.
      assert (HL : length a0 = L).
      { rewrite (get_nth inp i []) in E1 by lia. injection E1 as <-. apply H2. lia. }
      assert (HH : length a = L).
      { rewrite (get_nth inp (i + m) []) in E0 by lia. injection E0 as <-. apply H2. lia. }
      assert (HD : length a1 = L). { rewrite TabSub_spec in E2 by lia. injection E2 as <-. rewrite map_length, seq_length. exact HH. }
      rewrite <- (Nat.add_0_r L). apply (c_bind _ _ (fun _ => True)); [rewrite <- HD; apply c_TabMul|]. intros d _. c1. apply c_ret. exact I.
  Qed.

  Lemma c_recombine_loop L : forall qs (inp inp' : list (list F)), tabs (2 ^ length qs) L inp -> 
    costs (foldW Wrecombine_step qs (inp, inp')) (fun st => qs <> [] -> tabs 1 L (snd st)) ((2 ^ length qs - 1) * L).
  Proof.
    induction qs as [|q qs IH]; intros inp inp' HT.
    { cbn [foldW length Nat.pow]. apply c_ret. intros H. congruence. }
    cbn [foldW]. cbn [length] in HT |- *. rewrite Nat.pow_succ_r' in HT |- *.
    assert (1 <= 2 ^ length qs)%nat by (pose proof (Nat.pow_nonzero 2 (length qs)); lia).
    apply (c_weak _ (fun st => q :: qs <> [] -> tabs 1 L (snd st)) _ (2 ^ length qs * L + (2 ^ length qs - 1) * L)); [|nia|auto].
    apply (c_bind _ _ (fun st => exists r, st = (r, r) /\ tabs (2 ^ length qs) L r)); [apply c_recombine_step; exact HT|].
    intros st (r & -> & Hr). destruct qs as [|q' qs].
    - cbn [foldW length Nat.pow]. apply c_ret. intros _. exact Hr.
    - apply (c_weak _ (fun st => q' :: qs <> [] -> tabs 1 L (snd st)) _ ((2 ^ length (q' :: qs) - 1) * L)); [apply IH; exact Hr|reflexivity|]. intros st H1 _. apply H1. discriminate.
  Qed.

  Lemma c_recombine L qs (b : list (list F)) : tabs (2 ^ length qs) L b ->
    costs (WchunkedEvalRecombine b qs) (fun r => length r = L) ((2 ^ length qs - 1) * L).
  Proof.
    intros HT. unfold WchunkedEvalRecombine. destruct (negb _); [intros r k E; discriminate E|]. rewrite <- (Nat.add_0_r (_ * L)).
    apply (c_bind _ _ (fun st => (qs = [] -> st = (b, [])) /\ (qs <> [] -> tabs 1 L (snd st)))).
    - intros st k E. destruct (c_recombine_loop L qs b [] HT _ _ E) as [H1 H2]. split; [|exact H2]. split; [|exact H1].
      intros ->. cbn in E. injection E as <- _. reflexivity.
    - intros st [H1 H2]. c1. apply c_ret. destruct qs as [|q qs].
      + rewrite (H1 eq_refl) in E. discriminate E.
      + destruct (H2 ltac:(discriminate)) as [T1 T2]. specialize (T2 0%nat ltac:(lia)).
        rewrite (get_nth (snd st) 0 []) in E by (rewrite T1; auto with arith). injection E as <-. exact T2.
  Qed.

  Lemma chunked_tabs k m b (t : list (list F)) : chunked k m b t -> tabs (2 ^ k) (2 ^ (b + m)) t.
  Proof. intros [H1 H2]. split; [exact H1|]. intros i Hi. rewrite Nat.pow_add_r. apply H2. apply nth_In. lia. Qed.

  Lemma c_EvaluateChunked k m b (t : list (list F)) q : chunked k m b t -> length q = (b + (m + k))%nat ->
    costs (WEvaluateChunked t q) (fun _ => True) (2 ^ (b + (m + k)) - 1).
  Proof.
    intros HC Hq. pose proof (chunked_tabs _ _ _ _ HC) as HT. unfold WEvaluateChunked. cbv zeta. destruct HC as [HL _].
    rewrite HL, log2ceil_pow2. c1. assert (Ha : a = (b + m)%nat).
    { rewrite gosub_some in E by lia. injection E as <-. lia. }
    subst a. assert (P : (0 < 2 ^ (b + m))%nat) by (pose proof (Nat.pow_nonzero 2 (b + m)); lia).
    assert (LS : length (skipn (b + m) q) = k) by (rewrite skipn_length; lia). assert (LF : length (firstn (b + m) q) = (b + m)%nat) by (rewrite firstn_length; lia).
    apply (c_weak _ (fun _ => True) _ ((2 ^ k - 1) * 2 ^ (b + m) + (2 ^ (b + m) - 1))); [| |auto].
    - apply (c_bind _ _ (fun r => length r = (2 ^ (b + m))%nat)).
      + eapply c_weak; [apply c_recombine; rewrite LS; exact HT|rewrite LS; reflexivity|auto].
      + intros r Hr. eapply c_weak; [apply c_Evaluate; rewrite LF; exact Hr|rewrite LF; reflexivity|auto].
    - rewrite Nat.add_assoc, (Nat.pow_add_r 2 (b + m) k). assert (0 < 2 ^ k)%nat by (pose proof (Nat.pow_nonzero 2 k); lia). nia.
  Qed.

  Lemma c_Mixed k m b (t : list (list F)) hP hL hR : chunked k m b t -> length hP = (m + k)%nat -> length hL = b -> length hR = b ->
    costs (WEvaluateMixedChunked t hP hL hR) (fun _ => True) (2 ^ (b + (m + k)) + 2 ^ (b + m) - 2).
  Proof.
    intros HC Hq H1 H2. pose proof (chunked_tabs _ _ _ _ HC) as HT. unfold WEvaluateMixedChunked. cbv zeta. destruct HC as [HL _].
    rewrite HL, log2ceil_pow2. destruct (_ <? _)%nat; [intros r c E; discriminate E|]. rewrite Hq, Nat.add_sub.
    assert (P : (0 < 2 ^ (b + m))%nat) by (pose proof (Nat.pow_nonzero 2 (b + m)); lia).
    assert (LS : length (skipn m hP) = k) by (rewrite skipn_length; lia). assert (LF : length (firstn m hP) = m) by (rewrite firstn_length; lia).
    apply (c_weak _ (fun _ => True) _ ((2 ^ k - 1) * 2 ^ (b + m) + 2 * (2 ^ (b + m) - 1))); [| |auto].
    - apply (c_bind _ _ (fun r => length r = (2 ^ (b + m))%nat)).
      + eapply c_weak; [apply c_recombine; rewrite LS; exact HT|rewrite LS; reflexivity|auto].
      + intros r Hr. apply c_LeftRight; [exact Hr|lia|lia].
    - rewrite Nat.add_assoc, (Nat.pow_add_r 2 (b + m) k). assert (0 < 2 ^ k)%nat by (pose proof (Nat.pow_nonzero 2 k); lia). nia.
  Qed.

  Lemma c_EvalEq (q h : list F) : costs (WEvalEq q h) (fun _ => True) (2 * length q).
  Proof.
    rewrite Nat.mul_comm. unfold WEvalEq. apply c_for_const; [|exact I]. intros s i _ _. c1. c1. apply (c_mul _ _ _ _ 1). cbv zeta.
    intros x c E1. injection E1 as <- <-. split; [exact I|reflexivity].
  Qed.

  (* ---------------------------------------------------------------- circuits *)
  Lemma c_Combinator (vL vR eq : F) ws cs sts : Forall2 priced ws cs -> costs (WEvaluateCombinator vL vR eq ws sts) (fun _ => True) (gates_work cs).
  Proof.
    intros HG. unfold WEvaluateCombinator, gates_work. apply (c_bind _ _ (fun _ => True)); [|intros a _ x c [= <- <-]; split; [exact I|reflexivity]].
    apply (c_weak _ (fun _ => True) _ (list_sum (map (fun ig : nat * WGate F => cEval (nth (fst ig) cs AddPrice) + 1)%nat (combine (seq 0 (length ws)) ws)))); [| |auto].
    - apply c_fold; [|exact I]. intros s [i g] Hin _. cbn [fst snd]. destruct (gs_nth ws cs HG i g Hin) as [(P1 & _) _]. rewrite P1.
      apply (c_bind _ _ (fun _ => True) _ _ 1); [intros x c [= <- <-]; split; [exact I|reflexivity]|]. intros x _. c1. apply (c_mul _ _ _ _ 0). apply c_ret. exact I.
    - rewrite (sum_index _ WAddGate). cbn [fst]. rewrite (F2_len _ _ _ HG). clear. induction cs as [|c cs IH]; [reflexivity|].
      cbn [length seq map list_sum fold_right nth]. rewrite <- seq_shift, map_map. f_equal. exact IH.
  Qed.

  Lemma wiring_len (l : Layer F) g t : wiring_table l g = Some t -> length t = (2 ^ (lBGOutputs l + 2 * lBGInputs l))%nat.
  Proof.
    unfold wiring_table. cbv zeta. intros E. apply foldM_len in E.
    - rewrite E, repeat_length, Nat.pow_add_r. reflexivity.
    - intros s w s' H. destruct (id_eqb _ _); [|injection H as <-; reflexivity]. destruct (get s _); [|discriminate]. exact (set_len _ _ _ _ H).
  Qed.

  Lemma c_GetStaticTable (l : Layer F) q : length q = lBGOutputs l ->
    costs (WGetStaticTable l q) (fun ts => length ts = length (lGates l) /\ forall t, In t ts -> length t = (2 ^ (2 * lBGInputs l))%nat)
      (length (lGates l) * (2 ^ (lBGOutputs l + 2 * lBGInputs l) - 2 ^ (2 * lBGInputs l))).
  Proof.
    intros Hq. unfold WGetStaticTable. rewrite <- list_sum_const.
    apply (c_weak _ (Forall2 (fun (_ : Gate F) t => length t = (2 ^ (2 * lBGInputs l))%nat) (lGates l)) _ (list_sum (map (fun _ => 2 ^ (lBGOutputs l + 2 * lBGInputs l) - 2 ^ (2 * lBGInputs l)) (lGates l))%nat)); [|reflexivity|].
    - apply c_map. intros g _. c1. apply wiring_len in E. rewrite <- Hq. apply c_FoldMany. rewrite Hq. exact E.
    - intros ts H. split; [symmetry; exact (F2_len _ _ _ H)|]. clear -H. induction H as [|x y lx ly Hxy _ IH]; intros u Hu; [destruct Hu|]. destruct Hu as [<-|Hu]; [exact Hxy|apply IH; exact Hu].
  Qed.

  Lemma c_static (l : Layer F) q nL nR : length q = lBGOutputs l -> length nL = lBGInputs l -> length nR = lBGInputs l ->
    costs (WevaluateStaticTables l q nL nR) (fun _ => True) (tables_work l).
  Proof.
    intros Hq HL HR. unfold WevaluateStaticTables, tables_work. assert (N : length (nL ++ nR) = (2 * lBGInputs l)%nat) by (rewrite app_length; lia).
    apply (c_weak _ (fun _ => True) _ (length (lGates l) * (2 ^ (lBGOutputs l + 2 * lBGInputs l) - 2 ^ (2 * lBGInputs l)) + length (lGates l) * (2 ^ (2 * lBGInputs l) - 1))); [| |auto].
    - eapply c_bind; [apply c_GetStaticTable; exact Hq|]. intros ts [T1 T2].
      apply (c_weak _ (Forall2 (fun _ _ => True) ts) _ (list_sum (map (fun _ : list F => 2 ^ (2 * lBGInputs l) - 1) ts)%nat)); [|rewrite list_sum_const, T1; reflexivity|auto].
      apply c_map. intros t Ht. rewrite <- N. apply c_Evaluate. rewrite N. apply T2, Ht.
    - rewrite <- Nat.mul_add_distr_l. f_equal. assert (2 ^ (2 * lBGInputs l) <= 2 ^ (lBGOutputs l + 2 * lBGInputs l))%nat by (apply Nat.pow_le_mono_r; lia).
      pose proof (Nat.pow_nonzero 2 (2 * lBGInputs l)). lia.
  Qed.

  Lemma c_statics (l : Layer F) qL qR nL nR a b : length qL = lBGOutputs l -> length qR = lBGOutputs l -> length nL = lBGInputs l -> length nR = lBGInputs l ->
    costs (WevaluateStaticTablesLinCombs l qL qR nL nR a b) (fun _ => True) (2 * (tables_work l + length (lGates l))).
  Proof.
    intros HqL HqR HL HR. unfold WevaluateStaticTablesLinCombs, tables_work. assert (N : length (nL ++ nR) = (2 * lBGInputs l)%nat) by (rewrite app_length; lia).
    set (P := (2 ^ (2 * lBGInputs l))%nat). set (Q := (2 ^ (lBGOutputs l + 2 * lBGInputs l))%nat). set (n := length (lGates l)).
    apply (c_weak _ (fun _ => True) _ (n * (Q - P) + (n * (Q - P) + n * (2 * (P - 1) + 2)))%nat); [| |auto].
    - eapply c_bind; [apply c_GetStaticTable; exact HqL|]. intros tL [T1 T2]. eapply c_bind; [apply c_GetStaticTable; exact HqR|]. intros tR [T3 T4].
      apply (c_weak _ (Forall2 (fun _ _ => True) (seq 0 (length tL))) _ (list_sum (map (fun _ : nat => 2 * (P - 1) + 2) (seq 0 (length tL)))%nat)); [|rewrite list_sum_const, seq_length, T1; reflexivity|auto].
      apply c_map. intros i _. c1. apply (c_weak _ (fun _ => True) _ ((P - 1) + ((P - 1) + 2))%nat); [|lia|auto].
      apply (c_bind _ _ (fun _ => True)).
      + unfold P. rewrite <- N. apply c_Evaluate. rewrite N. apply T2. eapply nth_error_In. exact E.
      + intros x _. c1. apply (c_bind _ _ (fun _ => True)).
        * unfold P. rewrite <- N. apply c_Evaluate. rewrite N. apply T4. eapply nth_error_In. exact E0.
        * intros y _. apply (c_mul _ _ _ _ 1). apply (c_mul _ _ _ _ 0). apply c_ret. exact I.
    - assert (P <= Q)%nat by (apply Nat.pow_le_mono_r; lia). assert (P <> 0)%nat by (apply Nat.pow_nonzero; lia).
      replace (2 * (P - 1) + 2)%nat with (2 * P)%nat by lia. replace (Q - 1)%nat with ((Q - P) + (P - 1))%nat by lia. nia.
  Qed.
End S.
