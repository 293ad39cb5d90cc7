(** Lemmas about the repaired program: gates, layers, assignments, chunked evaluation. *)
From Coq Require Import List Arith ZArith Lia Bool Ring Field.
From Verif Require Import Field Go MCommon Spec MPoly Trans LSpec LCommon LEffect LPoly LPoly2 LPoly3 LHeap MCircuit SpecCircuit LCircuit LCircuit2 LCircuit3
  MSumcheck SpecSumcheck LSumcheck4 SpecGkr MForkJoin LForkJoin LSem MRepair.
Import ListNotations.

Section L.
  Context {F : Field}.
  Add Field FfieldRepair : (f_theory F).
  Open Scope F_scope.

  (** ** Gates *)
  Lemma RGates_first (ws : list (Wire F)) : RGates ws = first_by_id [] (map wGate ws).
  Proof.
    unfold RGates.
    assert (H : forall seen acc, snd (fold_left (fun '(gates, res) wire =>
      if existsb (id_eqb (gid (wGate wire))) gates then (gates, res)
      else (gid (wGate wire) :: gates, res ++ [wGate wire])) ws (seen, acc)) = acc ++ first_by_id seen (map wGate ws)).
    { induction ws as [|w ws IH]; intros seen acc; [cbn; rewrite app_nil_r; reflexivity|].
      cbn [fold_left map first_by_id]. destruct (existsb (id_eqb (gid (wGate w))) seen); rewrite IH; [reflexivity|].
      rewrite <- app_assoc. reflexivity. }
    apply (H [] []).
  Qed.

  Lemma first_by_id_In (gs : list (Gate F)) : forall seen g, In g (first_by_id seen gs) -> In g gs.
  Proof.
    induction gs as [|g gs IH]; intros seen x; cbn [first_by_id]; [auto|].
    destruct (existsb _ seen); [intros H; right; eapply IH; exact H|]. intros [<-|H]; [left; reflexivity|right; eapply IH; exact H].
  Qed.

  (** Gates with the same ID are the same gate. *)
  Lemma RGates_once (ws : list (Wire F)) : (forall w w', In w ws -> In w' ws -> gid (wGate w) = gid (wGate w') -> wGate w = wGate w') ->
    gates_once (RNewLayer ws).
  Proof.
    intros Hid. unfold gates_once. cbn [RNewLayer lGates Wires]. rewrite RGates_first.
    destruct (first_by_id_spec (map wGate ws) []) as [H1 H2]. split; [exact H1|].
    intros w Hw. assert (Hi : In (gid (wGate w)) (map gid (first_by_id [] (map wGate ws)))).
    { apply H2. split; [|intros []]. rewrite map_map. apply (in_map (fun w => gid (wGate w))). exact Hw. }
    apply in_map_iff in Hi. destruct Hi as (g & Eg & Hg). pose proof (first_by_id_In _ _ _ Hg) as Hg'.
    apply in_map_iff in Hg'. destruct Hg' as (w' & <- & Hw'). rewrite (Hid w w' Hw Hw' (eq_sym Eg)). exact Hg.
  Qed.

  Lemma RNewLayer_wf (ws : list (Wire F)) : wf_layer (RNewLayer ws).
  Proof. exact (NewLayer_wf ws). Qed.

  Lemma library_id (g g' : Gate F) : library_gate g -> library_gate g' -> gid g = gid g' -> g = g'.
  Proof. intros [] []; cbn; intros H; try discriminate; try reflexivity. injection H as ->. reflexivity. Qed.

  Lemma list_max_bound (l : list nat) n : (forall x, In x l -> (x <= n)%nat) -> (list_max l <= n)%nat.
  Proof. intros H. apply list_max_le. apply Forall_forall. exact H. Qed.

  Lemma library_degs (g : Gate F) : library_gate g -> (degHL g <= 7 /\ degHR g <= 7 /\ degHPrime g <= 7)%nat.
  Proof. intros []; cbv; lia. Qed.

  Lemma RNewLayer_ok (ws : list (Wire F)) : (forall w, In w ws -> library_gate (wGate w)) -> layer_ok (RNewLayer ws).
  Proof.
    intros H. assert (HG : forall g, In g (lGates (RNewLayer ws)) -> library_gate g).
    { intros g Hg. cbn [RNewLayer lGates] in Hg. rewrite RGates_first in Hg. apply first_by_id_In in Hg.
      apply in_map_iff in Hg. destruct Hg as (w & <- & Hw). auto. }
    split; [apply RNewLayer_wf|]. split; [|split; [|split]].
    - apply RGates_once. intros w w' Hw Hw'. apply library_id; auto.
    - destruct ws as [|w ws]; [left; reflexivity|right]. cbn [RNewLayer lGates]. rewrite RGates_first. discriminate.
    - intros g Hg. apply library_gate_ok, HG, Hg.
    - assert (HD := fun g Hg => library_degs g (HG g Hg)).
      repeat split; unfold maxHL, maxHR, maxHP; apply list_max_bound; intros x Hx; apply in_map_iff in Hx; destruct Hx as (g & <- & Hg);
        specialize (HD g Hg); lia.
  Qed.

  (** The ID of every wire once, in order of first use. *)
  Lemma RGates_full (ws : list (Wire F)) : RGates ws = first_by_id [] (map wGate ws) /\ NoDup (map gid (RGates ws)) /\
    (forall i, In i (map gid (RGates ws)) <-> exists w, In w ws /\ gid (wGate w) = i) /\
    (forall g, In g (RGates ws) -> exists w, In w ws /\ wGate w = g).
  Proof.
    rewrite RGates_first. destruct (first_by_id_spec (map wGate ws) []) as [H1 H2].
    split; [reflexivity|]. split; [exact H1|]. split.
    - intros i. rewrite H2, map_map, in_map_iff. split.
      + intros [(w & E & Hw) _]. exists w. auto.
      + intros (w & Hw & E). split; [exists w; auto|intros []].
    - intros g Hg. apply first_by_id_In in Hg. apply in_map_iff in Hg. destruct Hg as (w & E & Hw). exists w. auto.
  Qed.

  (** ** Evaluation *)
  Lemma reval_chunk_ok (l : Layer F) (N : nat) (inp : list F) : wf_layer l -> length inp = (2 ^ lBGInputs l * N)%nat ->
    exists out, reval_chunk l inp = Some out /\ layer_table l N inp out.
  Proof.
    intros Hwf HL. unfold reval_chunk.
    assert (HN : (length inp / 2 ^ lBGInputs l)%nat = N).
    { rewrite HL, Nat.mul_comm. apply Nat.div_mul. apply Nat.pow_nonzero. lia. }
    rewrite HN.
    destruct (eff1_run (N * 2 ^ lBGOutputs l)
      (fun sub => foldM (fun (subRes : list F) w =>
        forN N (fun subRes h =>
          vL <- get inp (wL w * N + h) ;;
          vR <- get inp (wR w * N + h) ;;
          x <- get subRes (wO w * N + h) ;;
          set subRes (wO w * N + h) (x + geval (wGate w) vL vR)) subRes) (Wires l) sub)
      (fun k => suml (Wires l) (fun w => sumn N (fun h => if Nat.eqb k (wO w * N + h) then
         geval (wGate w) (nth (wL w * N + h) inp 0) (nth (wR w * N + h) inp 0) else 0))))
      as (out & E & HLo & Ho).
    { apply (eff_foldM (wf1 _) rd1 (fun (subRes : list F) w => forN N _ subRes)
        (fun w k => sumn N (fun h => if Nat.eqb k (wO w * N + h) then
         geval (wGate w) (nth (wL w * N + h) inp 0) (nth (wR w * N + h) inp 0) else 0))).
      intros w Hw. destruct (Hwf w Hw) as (H1 & H2 & H3).
      apply (eff_forN (wf1 _) rd1 N _ (fun h k => if Nat.eqb k (wO w * N + h) then
         geval (wGate w) (nth (wL w * N + h) inp 0) (nth (wR w * N + h) inp 0) else 0)).
      intros h Hh.
      assert (HiL : (wL w * N + h < length inp)%nat) by (rewrite HL; apply mul_add_lt; assumption).
      assert (HiR : (wR w * N + h < length inp)%nat) by (rewrite HL; apply mul_add_lt; assumption).
      eapply eff_fun_ext; [|apply (eff_add1 (N * 2 ^ lBGOutputs l) (wO w * N + h))].
      - intros s _. rewrite (get_nth inp (wL w * N + h) 0) by exact HiL.
        rewrite (get_nth inp (wR w * N + h) 0) by exact HiR. reflexivity.
      - rewrite (Nat.mul_comm N). apply mul_add_lt; assumption. }
    exists out. split; [exact E|]. split; [rewrite HLo; lia|].
    intros o h Hoo Hh. unfold layer_value. rewrite Ho, suml_filter. apply suml_ext. intros w Hw.
    destruct (Nat.eqb_spec (wO w) o) as [Heq|Hne].
    - rewrite (sumn_ext _ _ (fun h' => if Nat.eqb h' h then
         geval (wGate w) (nth (wL w * N + h) inp 0) (nth (wR w * N + h) inp 0) else 0)).
      + rewrite sumn_delta by exact Hh. reflexivity.
      + intros h' Hh'. subst o. destruct (Nat.eqb_spec h' h) as [->|Hn].
        * rewrite Nat.eqb_refl. reflexivity.
        * destruct (Nat.eqb_spec (wO w * N + h) (wO w * N + h')); [lia|reflexivity].
    - apply sumn_zero. intros h' Hh'. destruct (Nat.eqb_spec (o * N + h) (wO w * N + h')) as [E'|]; [|reflexivity].
      apply mul_add_inj in E'; [|assumption|assumption]. exfalso. apply Hne. lia.
  Qed.

  Lemma rlayer_evaluate_ok (l : Layer F) (N : nat) (inputs : list (list F)) :
    wf_layer l -> (forall inp, In inp inputs -> length inp = (2 ^ lBGInputs l * N)%nat) ->
    exists outs, RLayerEvaluate l inputs = Some outs /\ length outs = length inputs /\
      forall i, (i < length inputs)%nat -> layer_table l N (nth i inputs []) (nth i outs []).
  Proof.
    intros Hwf HL. unfold RLayerEvaluate. induction inputs as [|inp inputs IH].
    - exists []. split; [reflexivity|]. split; [reflexivity|]. intros i Hi. simpl in Hi. lia.
    - destruct IH as (outs & E & HLo & Ho); [intros; apply HL; right; assumption|].
      destruct (reval_chunk_ok l N inp Hwf (HL inp (or_introl eq_refl))) as (out & E1 & H1).
      exists (out :: outs). cbn [mapM]. rewrite E1, E. split; [reflexivity|]. split; [simpl; lia|].
      intros [|i] Hi; cbn [nth]; [exact H1|]. apply Ho. simpl in Hi. lia.
  Qed.

  Lemma rlayer_concurrent (l : Layer F) (N : nat) (inputs : list (list F)) nCore :
    (0 < nCore)%nat -> wf_layer l -> (forall inp, In inp inputs -> length inp = (2 ^ lBGInputs l * N)%nat) ->
    exists outs, RLayerEvaluate l inputs = Some outs /\
      must (step (rlayer_exec l inputs) (per_chunk (length inputs)) nCore false true)
        (fun z => main z = MEnd /\ closed z = true /\ mem z = outs)
        (init (per_chunk (length inputs)) nCore false (repeat [] (length inputs))).
  Proof.
    intros Hn Hwf HL. destruct (rlayer_evaluate_ok l N inputs Hwf HL) as (outs & E & HLo & _). exists outs. split; [exact E|].
    eapply must_mono; [|apply (fork_written [] (repeat [] (length inputs)) (length inputs) (fun i => i) (fun i => nth i outs []))].
    - intros z (H1 & H2 & H3 & H4 & H5 & H6). split; [exact H1|]. split; [exact H2|].
      apply (list_ext []); [rewrite H4, repeat_length; congruence|].
      intros i Hi. apply H5. rewrite H4, repeat_length in Hi. exact Hi.
    - auto.
    - intros i Hi. rewrite repeat_length. exact Hi.
    - intros i m Hi HLm _. unfold rlayer_exec. rewrite (get_nth inputs i []) by exact Hi.
      unfold RLayerEvaluate in E. apply mapM_Forall2 in E.
      assert (Hc : reval_chunk l (nth i inputs []) = Some (nth i outs [])).
      { apply (Forall2_nth _ _ _ [] [] i E Hi). }
      rewrite Hc. apply set_some. rewrite HLm, repeat_length. exact Hi.
    - exact Hn.
    - apply per_chunk_concat.
  Qed.

  Fixpoint rassign_rec (c : list (Layer F)) (x : list (list F)) : option (list (list (list F))) :=
    match c with
    | [] => Some [x]
    | l :: c' => y <- RLayerEvaluate l x ;; r <- rassign_rec c' y ;; Some (x :: r)
    end.

  Lemma RAssign_rec (c : list (Layer F)) x : RAssign c x = rassign_rec c x.
  Proof.
    unfold RAssign. rewrite Nat.add_1_r. rewrite set_some by (simpl; lia). cbn [repeat upd].
    assert (H : forall c pre x, foldM (fun (assignment : list (list (list F))) (il : nat * Layer F) =>
        cur <- get assignment (fst il) ;;
        nxt <- RLayerEvaluate (snd il) cur ;;
        set assignment (fst il + 1) nxt) (combine (seq (length pre) (length c)) c)
        (pre ++ x :: repeat [] (length c))
      = (r <- rassign_rec c x ;; Some (pre ++ r))).
    { clear. induction c as [|l c IH]; intros pre x; [reflexivity|].
      cbn [length seq combine foldM rassign_rec fst snd repeat].
      unfold get at 1. rewrite nth_error_app2, Nat.sub_diag by lia. cbn [nth_error].
      destruct (RLayerEvaluate l x) as [y|]; [|reflexivity].
      rewrite set_some by (rewrite app_length; simpl; lia).
      replace (upd (pre ++ x :: [] :: repeat [] (length c)) (length pre + 1) y)
        with ((pre ++ [x]) ++ y :: repeat [] (length c)).
      2:{ change (x :: [] :: repeat [] (length c)) with ([x] ++ [] :: repeat [] (length c)).
          rewrite app_assoc. replace (length pre + 1)%nat with (length (pre ++ [x])) by (rewrite app_length; reflexivity).
          rewrite LForkJoin.upd_app_mid. reflexivity. }
      specialize (IH (pre ++ [x]) y). rewrite app_length in IH. cbn [length] in IH.
      rewrite Nat.add_1_r in IH. rewrite IH.
      destruct (rassign_rec c y); [|reflexivity]. rewrite <- app_assoc. reflexivity. }
    specialize (H c [] x). cbn [app length] in H. rewrite H.
    destruct (rassign_rec c x); reflexivity.
  Qed.

  Lemma rassign_ok : forall (c : list (Layer F)) b N inputs,
    (forall l, In l c -> wf_layer l) -> fits b c ->
    (forall inp, In inp inputs -> length inp = (2 ^ b * N)%nat) ->
    exists a, RAssign c inputs = Some a /\ assignment_of c N inputs a.
  Proof.
    intros c b N inputs Hwf Hf HL. rewrite RAssign_rec. revert b inputs Hwf Hf HL.
    induction c as [|l c IH]; intros b inputs Hwf Hf HL.
    - exists [inputs]. split; [reflexivity|]. repeat split; destruct k; discriminate.
    - destruct Hf as [Hb Hf]. cbn [rassign_rec].
      destruct (rlayer_evaluate_ok l N inputs) as (outs & E & HLo & Ho).
      + apply Hwf. left. reflexivity.
      + rewrite Hb. exact HL.
      + rewrite E. destruct (IH (lBGOutputs l) outs) as (a & Ea & Ha1 & Ha2 & Ha3); auto.
        * intros l' Hl'. apply Hwf. right. exact Hl'.
        * intros inp Hi. apply (In_nth _ _ []) in Hi. destruct Hi as (i & Hi & <-). apply Ho. congruence.
        * rewrite Ea. exists (inputs :: a). split; [reflexivity|]. split; [simpl; lia|]. split; [reflexivity|].
          intros [|k] l' Hl'; cbn [nth_error nth] in *.
          -- injection Hl' as <-. rewrite Ha2. split; [exact HLo|]. exact Ho.
          -- rewrite <- HLo. apply Ha3. exact Hl'.
  Qed.

  Lemma rassign_chunks (c : list (Layer F)) b N n (inp : list F) :
    (0 < n)%nat -> (forall l, In l c -> wf_layer l) -> fits b c ->
    length inp = (2 ^ b * (N * n))%nat ->
    exists chunks a a', mapM (fun s => InterleavedChunk inp s n) (seq 0 n) = Some chunks /\
      RAssign c [inp] = Some a /\ RAssign c chunks = Some a' /\
      length a = S (length c) /\ length a' = S (length c) /\
      forall k, (k <= length c)%nat -> exists t, nth k a [] = [t] /\
        mapM (fun s => InterleavedChunk t s n) (seq 0 n) = Some (nth k a' []).
  Proof.
    intros Hn Hwf Hf HL.
    destruct (rassign_ok c b (N * n) [inp]) as (a & Ea & Ha); auto.
    { intros x [<-|[]]. exact HL. }
    assert (Hcl : forall (t : list F) m, length t = (m * n)%nat -> forall s, (s < n)%nat -> length (nth s (chunksOf t n) []) = m).
    { intros t m Ht s Hs. rewrite chunksOf_nth by exact Hs. rewrite map_length, seq_length, Ht.
      apply Nat.div_mul. lia. }
    destruct (rassign_ok c b N (chunksOf inp n)) as (a' & Ea' & Ha'); auto.
    { intros x Hx. apply (In_nth _ _ []) in Hx. rewrite chunksOf_length in Hx. destruct Hx as (s & Hs & <-).
      apply Hcl; [|exact Hs]. rewrite HL. ring. }
    exists (chunksOf inp n), a, a'. rewrite interleaved_chunks_eq by exact Hn. split; [reflexivity|]. split; [exact Ea|]. split; [exact Ea'|].
    assert (Hsh := fun k => assignment_shape c b (N * n) [inp] a k Hf).
    assert (Hlen : forall x, In x [inp] -> length x = (2 ^ b * (N * n))%nat) by (intros x [<-|[]]; exact HL).
    destruct Ha as (H1 & H2 & H3). split; [exact H1|].
    assert (Htab : forall k, (k <= length c)%nat -> nth k a [] = [nth 0 (nth k a []) []]).
    { intros k Hk. destruct (Hsh k Hlen (conj H1 (conj H2 H3)) Hk) as [H4 _]. cbn [length] in H4.
      destruct (nth k a []) as [|t [|]]; try discriminate. reflexivity. }
    set (aa := map (fun k => chunksOf (nth 0 (nth k a []) []) n) (seq 0 (S (length c)))).
    assert (Haa : assignment_of c N (chunksOf inp n) aa).
    { split; [unfold aa; rewrite map_length, seq_length; reflexivity|]. split.
      - unfold aa. rewrite nth_map_seq by lia. rewrite H2. reflexivity.
      - intros k l Hl. assert (Hk : (k < length c)%nat) by (apply nth_error_Some; congruence).
        unfold aa. rewrite !nth_map_seq by lia. rewrite !chunksOf_length. split; [reflexivity|].
        intros s Hs. destruct (H3 k l Hl) as [_ H5]. specialize (H5 0%nat ltac:(simpl; lia)).
        apply chunk_layer_table; auto.
        + apply Hwf. eapply nth_error_In. exact Hl.
        + destruct (Hsh k Hlen (conj H1 (conj H2 H3)) ltac:(lia)) as [_ (bk & H6 & H7)].
          rewrite (H7 l Hl). apply H6. simpl. lia. }
    rewrite (assignment_unique _ _ _ _ _ Ha' Haa).
    split; [unfold aa; rewrite map_length, seq_length; reflexivity|].
    intros k Hk. exists (nth 0 (nth k a []) []). split; [apply Htab; exact Hk|].
    rewrite interleaved_chunks_eq by exact Hn. unfold aa. rewrite nth_map_seq by lia. reflexivity.
  Qed.

  (** ** Chunked evaluation *)
  Lemma interleave_one (t : list F) : interleave (length t) [t] = t.
  Proof.
    apply (list_ext 0); [rewrite interleave_length; cbn; lia|]. intros i Hi. rewrite interleave_length in Hi. cbn [length] in Hi.
    replace i with (i * 1 + 0)%nat at 1 by lia. change 1%nat with (length [t]) at 1. rewrite interleave_nth by (cbn; lia). reflexivity.
  Qed.

  Lemma rRecombine_mle bkts qs (x : list F) : LPoly2.tabs (2 ^ length qs) (2 ^ length x) bkts ->
    exists r, rchunkedEvalRecombine bkts qs = Some r /\ length r = (2 ^ length x)%nat /\
      mle r x = mle (interleave (2 ^ length x) bkts) (x ++ qs).
  Proof.
    intros HT. destruct qs as [|q qs].
    - destruct HT as [T1 T2]. cbn in T1. destruct bkts as [|t [|]]; try discriminate. specialize (T2 0%nat ltac:(cbn; lia)). cbn [nth] in T2.
      exists t. split; [reflexivity|]. split; [exact T2|]. rewrite app_nil_r, <- T2, interleave_one. reflexivity.
    - destruct (chunkedEvalRecombine_mle bkts (q :: qs) x HT ltac:(discriminate)) as (r & E & H1 & H2).
      destruct (recombine_loop_ok (q :: qs) bkts [] _ HT ltac:(discriminate)) as (r' & E' & _).
      unfold chunkedEvalRecombine in E. unfold rchunkedEvalRecombine. destruct HT as [T1 _]. rewrite T1, log2ceil_pow2, Nat.eqb_refl in *.
      cbn [negb] in *. rewrite E' in *. exists r. cbn [snd fst] in *. auto.
  Qed.

  Lemma REvaluateChunked_ok bkts (q : list F) k m : LPoly2.tabs (2 ^ k) (2 ^ m) bkts -> length q = (m + k)%nat ->
    REvaluateChunked bkts q = Some (mle (interleave (2 ^ m) bkts) q).
  Proof.
    intros HT Hq. unfold REvaluateChunked. destruct (HT) as [T1 _]. rewrite T1, log2ceil_pow2.
    rewrite gosub_some by lia. replace (length q - k)%nat with m by lia.
    assert (L1 : length (skipn m q) = k) by (rewrite skipn_length; lia).
    assert (L2 : length (firstn m q) = m) by (rewrite firstn_length; lia).
    destruct (rRecombine_mle bkts (skipn m q) (firstn m q)) as (r & -> & HL & H).
    - rewrite L1, L2. exact HT.
    - rewrite Evaluate_mle by exact HL. rewrite H, L2, firstn_skipn. reflexivity.
  Qed.

  Lemma REvaluateMixedChunked_ok bkts (hP hL hR : list F) k m g :
    LPoly2.tabs (2 ^ k) (2 ^ (g + m)) bkts -> length hP = (m + k)%nat -> length hL = g -> length hR = g ->
    REvaluateMixedChunked bkts hP hL hR =
    Some (mle (interleave (2 ^ (g + m)) bkts) (hL ++ hP), mle (interleave (2 ^ (g + m)) bkts) (hR ++ hP)).
  Proof.
    intros HT Hq HLg HRg. unfold REvaluateMixedChunked. destruct (HT) as [T1 _]. rewrite T1, log2ceil_pow2.
    destruct (Nat.ltb_spec (length hP) k) as [Hlt|_]; [lia|]. replace (length hP - k)%nat with m by lia.
    assert (L1 : length (skipn m hP) = k) by (rewrite skipn_length; lia).
    assert (L2 : length (firstn m hP) = m) by (rewrite firstn_length; lia).
    destruct (rRecombine_mle bkts (skipn m hP) (hL ++ firstn m hP)) as (r & E & HL & H).
    { rewrite app_length, L1, L2, HLg. exact HT. }
    destruct (rRecombine_mle bkts (skipn m hP) (hR ++ firstn m hP)) as (r' & E' & HL' & H').
    { rewrite app_length, L1, L2, HRg. exact HT. }
    rewrite E in E'. injection E' as <-. rewrite E.
    rewrite app_length, L2, HLg in HL, H. rewrite app_length, L2, HRg in H'.
    rewrite <- app_assoc, firstn_skipn in H, H'.
    rewrite EvaluateLeftAndRight_mle by (rewrite ?L2, ?HLg; congruence || auto).
    rewrite H, H'. reflexivity.
  Qed.
End L.
