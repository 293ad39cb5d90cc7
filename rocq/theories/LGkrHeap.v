(** The GKR prover in memory: it gives the proof of the value-level prover and writes to no memory that existed before. *)
From Coq Require Import List Arith Lia Bool.
From Verif Require Import Field Go Trans MCommon Spec MPoly LPoly2 MCircuit SpecCircuit MSumcheck SpecSumcheck MSumPar SpecSumPar LSumPar4 MGkr SpecGkr LGkr2 LGkr4
  MHeap SpecHeap LHeap LHeap2 MSumHeap SpecSumHeap LSumHeap2 LSumHeap3 MGkrHeap SpecGkrHeap.
Import ListNotations.

Lemma fop_app {A} (R : A -> A -> Prop) l k : ForallOrdPairs R l -> ForallOrdPairs R k -> (forall x y, In x l -> In y k -> R x y) ->
  ForallOrdPairs R (l ++ k).
Proof.
  induction 1 as [|a l Ha Hl IH]; intros Hk H; [exact Hk|]. cbn. constructor.
  - rewrite Forall_app. split; [exact Ha|]. rewrite Forall_forall. intros y Hy. apply H; [left; reflexivity|exact Hy].
  - apply IH; [exact Hk|]. intros x y Hx Hy. apply H; [right; exact Hx|exact Hy].
Qed.

Section S.
  Context {F : Field}.
  Open Scope F_scope.
  Implicit Types (M : list F) (s : Slice).

  (** slices made after the memory was [M0], lying in [M] *)
  Definition made M0 M (ds : list Slice) : Prop :=
    (forall d, In d ds -> swf M d /\ (length M0 <= base d)%nat) /\ ForallOrdPairs apart ds.

  Lemma made_ext M0 M M' ds : made M0 M ds -> ext M M' -> made M0 M' ds.
  Proof. intros [H1 H2] X. split; [|exact H2]. intros d Hd. destruct (H1 d Hd). split; [eapply ext_swf; eauto|assumption]. Qed.

  Lemma made_le M0 M1 M ds : made M1 M ds -> (length M0 <= length M1)%nat -> made M0 M ds.
  Proof. intros [H1 H2] X. split; [|exact H2]. intros d Hd. destruct (H1 d Hd). split; [assumption|lia]. Qed.

  Lemma made_app M0 M1 M ds ds' : (length M0 <= length M1)%nat -> made M0 M1 ds -> made M1 M ds' -> ext M1 M -> made M0 M (ds ++ ds').
  Proof.
    intros HL A B X. destruct (made_ext _ _ _ _ A X) as [A1 A2]. destruct (made_le M0 _ _ _ B HL) as [B1 B2]. split.
    - intros d Hd. apply in_app_iff in Hd. destruct Hd; auto.
    - apply fop_app; auto. intros x y Hx Hy z Hz Hz'. destruct A as [A _], B as [B _]. destruct (A x Hx) as [Wx _]. destruct (B y Hy) as [_ Ly].
      pose proof (swf_cell _ _ _ Wx Hz). unfold cell in Hz'. lia.
  Qed.

  Lemma hmake_ok tabs : forall M, exists M' ds, hmake M tabs = (M', ds) /\ ext M M' /\ made M M' ds /\ map (tab M') ds = tabs.
  Proof.
    unfold hmake. assert (H : forall tabs M acc, exists M' ds, fold_left (fun '(m, acc) t => (m ++ t, acc ++ [MkSlice (length m) (length t) (length t)])) tabs (M, acc)
      = (M', acc ++ ds) /\ ext M M' /\ made M M' ds /\ map (tab M') ds = tabs).
    - clear tabs. induction tabs as [|t tabs IH]; intros M acc.
      + exists M, []. rewrite app_nil_r. split; [reflexivity|]. split; [apply ext_refl|]. split; [split; [intros ? []|constructor]|reflexivity].
      + cbn [fold_left]. destruct (IH (M ++ t) (acc ++ [MkSlice (length M) (length t) (length t)])) as (M' & ds & E & X & Md & T).
        assert (X0 : ext M (M ++ t)).
        { split; [rewrite app_length; lia|]. intros a Ha. rewrite app_nth1 by exact Ha. reflexivity. }
        assert (W0 : swf (M ++ t) (MkSlice (length M) (length t) (length t))) by (split; cbn; rewrite ?app_length; lia).
        exists M', (MkSlice (length M) (length t) (length t) :: ds). rewrite E, <- app_assoc. split; [reflexivity|].
        split; [eapply ext_trans; eauto|]. split.
        * change (?x :: ds) with ([x] ++ ds). eapply made_app; [apply X0| |exact Md|exact X].
          split; [intros d [<-|[]]; split; [exact W0|cbn; lia]|repeat constructor].
        * cbn [map]. rewrite T. f_equal. rewrite (ext_tab (M ++ t) M') by assumption. apply (list_ext 0); rewrite tab_length; cbn [slen]; [reflexivity|].
          intros i Hi. rewrite tab_nth by exact Hi. unfold rd. cbn [base]. rewrite app_nth2 by lia. f_equal. lia.
    - intros M. exact (H tabs M []).
  Qed.

  Lemma copy_layer M A layer ss : (forall ss s, In ss A -> In s ss -> swf M s) -> get A layer = Some ss ->
    exists M' ds, HLayerWithCopy M A layer = Some (M', ds) /\ ext M M' /\ made M M' ds /\ map (tab M') ds = map (tab M) ss.
  Proof.
    intros W E. unfold HLayerWithCopy. rewrite E. unfold HCopyAll. destruct (HCopyAll_ok ss M []) as (M' & ds & E' & X & Md & AP & T).
    { intros s Hs. eapply W; [|exact Hs]. eapply nth_error_In. exact E. }
    exists M', ds. rewrite E'. split; [reflexivity|]. split; [exact X|]. split; [split; assumption|exact T].
  Qed.

  Definition awf M (A : HAssignment) : Prop := forall ss s, In ss A -> In s ss -> swf M s.
  Lemma awf_ext M M' A : awf M A -> ext M M' -> awf M' A.
  Proof. intros W X ss s H1 H2. eapply ext_swf; eauto. Qed.
  Lemma viewA_ext M M' A : awf M A -> ext M M' -> viewA M' A = viewA M A.
  Proof.
    intros W X. unfold viewA. apply map_ext_in. intros ss H1. apply map_ext_in. intros s H2. eapply ext_tab; eauto.
  Qed.
  Lemma get_viewA M A i t : get (viewA M A) i = Some t -> exists ss, get A i = Some ss /\ t = map (tab M) ss.
  Proof.
    unfold get, viewA. rewrite nth_error_map. destruct (nth_error A i) as [ss|]; [|discriminate]. cbn. intros [= <-]. exists ss. auto.
  Qed.

  Lemma tabs_ext M M' ds M0 : made M0 M ds -> ext M M' -> map (tab M') ds = map (tab M) ds.
  Proof. intros [H _] X. apply map_ext_in. intros d Hd. apply (ext_tab M M'); [exact X|]. apply H, Hd. Qed.

  (** A prover whose tables are new, with given values. *)
  Definition fresh M M' (P : HMT F) (p : MTProver F) : Prop :=
    ext M M' /\ separateMT M' P /\ viewMT M' P = p /\ (forall s, In s (tablesMT P) -> (length M <= base s)%nat).

  Lemma fresh_intro M M' vl vr eq st g p : ext M M' -> made M M' (vl ++ vr ++ eq) -> made M M' st ->
    (forall s s', In s (vl ++ vr ++ eq) -> In s' st -> apart s s') ->
    MkMT (map (tab M') vl) (map (tab M') vr) (map (tab M') eq) g (map (tab M') st) = p -> fresh M M' (MkHMT vl vr eq g st) p.
  Proof.
    intros X [H1 H2] [H3 _] H4 H5. split; [exact X|]. split; [|split; [exact H5|]].
    - split; [|split].
      + intros s Hs. unfold tablesMT in Hs. cbn [hVL hVR hEq hStatic] in Hs. apply in_app_iff in Hs. destruct Hs as [Hs|Hs]; [apply H1|apply H3]; exact Hs.
      + exact H2.
      + exact H4.
    - intros s Hs. apply H1, Hs.
  Qed.

  Lemma made_apart M0 M1 M2 M ds ds' : made M0 M1 ds -> made M2 M ds' -> (length M1 <= length M2)%nat ->
    forall s s', In s ds -> In s' ds' -> apart s s'.
  Proof.
    intros [A _] [B _] HL s s' Hs Hs' z Hz Hz'. destruct (A s Hs) as [Wx _]. destruct (B s' Hs') as [_ Ly].
    pose proof (swf_cell _ _ _ Wx Hz). unfold cell in Hz'. lia.
  Qed.

  Lemma DeepCopies (l : list (list F)) : map DeepCopy l = l.
  Proof. apply map_id. Qed.

  Lemma init_ok M c A qP q nCore p : awf M A -> InitialRoundSumcheckProver c (viewA M A) qP q nCore = Some p ->
    exists M' P, HInitialRound M c A qP q nCore = Some (M', P) /\ fresh M M' P p.
  Proof.
    intros W. unfold InitialRoundSumcheckProver, HInitialRound. destruct (gosub (length c) 1) as [layer|]; [|discriminate].
    destruct (get c layer) as [l|]; [|discriminate]. destruct (GetStaticTable l q) as [statics|]; [|discriminate].
    unfold LayerAsBKTWithCopy. destruct (get (viewA M A) layer) as [t|] eqn:Et; [|discriminate]. cbv beta iota zeta. rewrite DeepCopies.
    destruct (get_viewA _ _ _ _ Et) as (ss & Es & ->).
    destruct (GetChunkedEqTable _ _ _) as [eq|] eqn:Eq; [|discriminate]. intros [= <-].
    destruct (hmake_ok statics M) as (M1 & st & E1 & X1 & Md1 & T1). rewrite E1.
    destruct (copy_layer M1 A layer ss (awf_ext _ _ _ W X1) Es) as (M2 & vl & E2 & X2 & Md2 & T2). rewrite E2.
    destruct (copy_layer M2 A layer ss (awf_ext _ _ _ (awf_ext _ _ _ W X1) X2) Es) as (M3 & vr & E3 & X3 & Md3 & T3). rewrite E3.
    assert (Ln : length vl = length (map (tab M) ss)).
    { rewrite <- (map_length (tab M2) vl), T2, !map_length. reflexivity. }
    rewrite Ln, Eq. destruct (hmake_ok eq M3) as (M4 & es & E4 & X4 & Md4 & T4). rewrite E4.
    exists M4, (MkHMT vl vr es (lGates l) st). split; [reflexivity|].
    pose proof (ext_trans _ _ _ X1 X2) as X12. pose proof (ext_trans _ _ _ X12 X3) as X13. pose proof (ext_trans _ _ _ X13 X4) as X14.
    pose proof (ext_trans _ _ _ X3 X4) as X34. pose proof (ext_trans _ _ _ X2 X34) as X24. pose proof (ext_trans _ _ _ X2 X3) as X23.
    assert (HS : forall s, In s ss -> swf M s) by (intros s Hs; eapply W; [eapply nth_error_In; exact Es|exact Hs]).
    assert (MA : made M1 M4 (vl ++ vr ++ es)).
    { eapply made_app; [apply X2|exact Md2| |exact X34]. eapply made_app; [apply X3|exact Md3|exact Md4|exact X4]. }
    apply fresh_intro.
    - exact X14.
    - eapply made_le; [exact MA|apply X1].
    - eapply made_ext; [exact Md1|exact X24].
    - intros s s' Hs Hs'. apply apart_sym. eapply (made_apart M M1 M1 M4 st); eauto.
    - rewrite (tabs_ext M2 M4 vl M1 Md2 X34), (tabs_ext M3 M4 vr M2 Md3 X4), (tabs_ext M1 M4 st M Md1 X24), T1, T2, T3, T4. f_equal.
      + apply map_ext_in. intros s Hs. eapply ext_tab; [exact X1|auto].
      + apply map_ext_in. intros s Hs. eapply ext_tab; [exact X12|auto].
  Qed.

  Lemma inter_ok M c A layer qP qL qR lL lR nCore p : awf M A ->
    IntermediateRoundsSumcheckProver c (viewA M A) layer qP qL qR lL lR nCore = Some p ->
    exists M' P, HIntermediateRound M c A layer qP qL qR lL lR nCore = Some (M', P) /\ fresh M M' P p.
  Proof.
    intros W. unfold IntermediateRoundsSumcheckProver, HIntermediateRound.
    unfold LayerAsBKTWithCopy. destruct (get (viewA M A) layer) as [t|] eqn:Et; [|discriminate]. cbv beta iota zeta. rewrite DeepCopies.
    destruct (get_viewA _ _ _ _ Et) as (ss & Es & ->).
    destruct (GetChunkedEqTable _ _ _) as [eq|] eqn:Eq; [|discriminate].
    destruct (get c layer) as [l|]; [|discriminate]. destruct (GetStaticTable l qL) as [sL|]; [|discriminate].
    destruct (GetStaticTable l qR) as [sR|]; [|discriminate]. destruct (combineStatics sL sR lL lR) as [statics|]; [|discriminate]. intros [= <-].
    destruct (copy_layer M A layer ss W Es) as (M2 & vl & E2 & X2 & Md2 & T2). rewrite E2.
    destruct (copy_layer M2 A layer ss (awf_ext _ _ _ W X2) Es) as (M3 & vr & E3 & X3 & Md3 & T3). rewrite E3.
    assert (Ln : length vl = length (map (tab M) ss)).
    { rewrite <- (map_length (tab M2) vl), T2, !map_length. reflexivity. }
    rewrite Ln, Eq. destruct (hmake_ok eq M3) as (M4 & es & E4 & X4 & Md4 & T4). rewrite E4.
    destruct (hmake_ok statics M4) as (M5 & st & E5 & X5 & Md5 & T5). rewrite E5.
    exists M5, (MkHMT vl vr es (lGates l) st). split; [reflexivity|].
    pose proof (ext_trans _ _ _ X2 X3) as X23. pose proof (ext_trans _ _ _ X23 X4) as X24. pose proof (ext_trans _ _ _ X24 X5) as X25.
    pose proof (ext_trans _ _ _ X4 X5) as X45. pose proof (ext_trans _ _ _ X3 X45) as X35. pose proof (ext_trans _ _ _ X3 X4) as X34.
    assert (HS : forall s, In s ss -> swf M s) by (intros s Hs; eapply W; [eapply nth_error_In; exact Es|exact Hs]).
    assert (MA : made M M4 (vl ++ vr ++ es)).
    { eapply made_app; [apply X2|exact Md2| |exact X34]. eapply made_app; [apply X3|exact Md3|exact Md4|exact X4]. }
    apply fresh_intro.
    - exact X25.
    - eapply made_ext; [exact MA|exact X5].
    - eapply made_le; [exact Md5|apply X24].
    - intros s s' Hs Hs'. eapply (made_apart M M4 M4 M5); eauto.
    - rewrite (tabs_ext M2 M5 vl M Md2 X35), (tabs_ext M3 M5 vr M2 Md3 X45), (tabs_ext M4 M5 es M3 Md4 X5), T2, T3, T4, T5. f_equal.
      apply map_ext_in. intros s Hs. eapply ext_tab; [exact X2|auto].
  Qed.

  Section Run.
    Variable ch : list F -> F.
    (** The value-level prover that refuses arguments of the wrong shape. *)
    Definition shape_of (p : MTProver F) : nat * nat :=
      let k := Nat.log2 (length (nth 0 (tEq p) [])) in (k, Nat.log2 (length (nth 0 (tVL p) [])) - k)%nat.
    Definition shape_b (p : MTProver F) : bool :=
      let '(k, b) := shape_of p in
      (0 <? length (tEq p))%nat && (length (tVL p) =? length (tEq p))%nat && (length (tVR p) =? length (tEq p))%nat &&
      forallb (fun c => length c =? 2 ^ k)%nat (tEq p) && forallb (fun c => length c =? 2 ^ (b + k))%nat (tVL p) &&
      forallb (fun c => length c =? 2 ^ (b + k))%nat (tVR p) && (length (tStatic p) =? length (tGates p))%nat &&
      forallb (fun c => length c =? 2 ^ b * 2 ^ b)%nat (tStatic p) &&
      ((b =? 0)%nat || match tGates p with [] => false | _ => true end).
    Definition mtChecked (p : MTProver F) : option (list (list F) * list F * list F * list F * list F) :=
      if shape_b p then mtWhole ch p else None.

    Lemma mt_ok_shape p n k bG : mt_ok p n k bG -> shape_of p = (k, bG).
    Proof.
      intros (H1 & H2 & H3 & _ & H4 & H5 & _). unfold shape_of.
      destruct (tEq p) as [|e te] eqn:Ee; [cbn in H2; lia|]. destruct (tVL p) as [|v tv] eqn:Ev; [cbn in H3; lia|].
      cbn [nth]. rewrite (H4 e) by (left; reflexivity). rewrite (H5 v) by (left; reflexivity).
      rewrite !Nat.log2_pow2 by lia. f_equal. lia.
    Qed.
    Lemma shape_b_ok p : shape_b p = true -> (forall g, In g (tGates p) -> many_ok g) ->
      mt_ok p (length (tEq p)) (fst (shape_of p)) (snd (shape_of p)).
    Proof.
      unfold shape_b. destruct (shape_of p) as [k b] eqn:Es. cbn [fst snd]. rewrite !andb_true_iff, !forallb_forall.
      intros ((((((((A1 & A2) & A3) & A4) & A5) & A6) & A7) & A8) & A9) Hg.
      apply Nat.ltb_lt in A1. apply Nat.eqb_eq in A2, A3, A7. unfold mt_ok.
      repeat (split; [first [assumption | reflexivity | (intros; apply Nat.eqb_eq; auto)]|]). split; [|exact Hg].
      apply orb_true_iff in A9. destruct A9 as [A9|A9]; [left; apply Nat.eqb_eq; exact A9|right]. destruct (tGates p); congruence.
    Qed.
    Lemma shape_b_true p n k bG : mt_ok p n k bG -> shape_b p = true.
    Proof.
      intros H. pose proof (mt_ok_shape _ _ _ _ H) as Es. destruct H as (H1 & H2 & H3 & H4 & H5 & H6 & H7 & H8 & H9 & H10 & _).
      unfold shape_b. rewrite Es. rewrite !andb_true_iff, !forallb_forall, orb_true_iff.
      assert (E10 : (bG =? 0)%nat = true \/ match tGates p with [] => false | _ => true end = true).
      { destruct H10 as [H10|H10]; [left; apply Nat.eqb_eq; exact H10|right; destruct (tGates p); congruence]. }
      split; [|exact E10]. repeat split; try (apply Nat.ltb_lt; lia); try (apply Nat.eqb_eq; congruence); intros; apply Nat.eqb_eq; auto.
    Qed.
    Lemma mtChecked_follows nCore : follows_machine ch nCore mtChecked.
    Proof.
      intros p n k bG K c out H1 H2 H3 H4. unfold mtChecked. rewrite (shape_b_true _ _ _ _ H1). eapply mtWhole_follows; eauto.
    Qed.

    Variable nCore : nat.
    Variable hmtProve : list F -> HMT F -> option (list F * (list (list F) * list F * list F * list F * list F)).
    Hypothesis Hcore : (0 < nCore)%nat.
    Hypothesis Hh : follows_heap ch nCore hmtProve.

    Lemma call_ok M0 M P p out : fresh M0 M P p -> mtChecked p = Some out -> (forall g, In g (tGates p) -> many_ok g) ->
      exists M', hmtProve M P = Some (M', out) /\ ext M0 M'.
    Proof.
      intros (X & Sp & V & Hb) E Hg. unfold mtChecked in E. destruct (shape_b p) eqn:Eb; [|discriminate].
      pose proof (shape_b_ok p Eb Hg) as Hok. rewrite <- V in Hok, E.
      assert (HP : Prove ch (whole (viewMT M P) (fst (shape_of (viewMT M P))) (snd (shape_of (viewMT M P)))) = Some out).
      { exact E. }
      destruct (hmt_same_result ch M P _ _ _ nCore out Sp Hok Hcore HP) as [Hprep Hmust].
      destruct (Hh M P _ _ _ _ _ out Sp Hok HP Hprep) as (M' & E' & O1 & O2).
      { eapply must_mono; [|exact Hmust]. intros sm Hs. split; apply Hs. }
      exists M'. split; [exact E'|]. destruct X as [X1 X2]. split; [lia|]. intros a Ha. rewrite O2, X2; auto; [lia|].
      intros s Hs Hc. specialize (Hb s Hs). unfold cell in Hc. lia.
    Qed.

    Variable c : list (Layer F).
    Variable A : HAssignment.
    Hypothesis Hgates : forall l, In l c -> forall g, In g (lGates l) -> many_ok g.

    Lemma inter_gates a layer qP qL qR lL lR p : IntermediateRoundsSumcheckProver c a layer qP qL qR lL lR nCore = Some p ->
      forall g, In g (tGates p) -> many_ok g.
    Proof.
      unfold IntermediateRoundsSumcheckProver. destruct (LayerAsBKTWithCopy a layer); [|discriminate].
      destruct (GetChunkedEqTable _ _ _); [|discriminate]. destruct (get c layer) as [ly|] eqn:El; [|discriminate].
      destruct (GetStaticTable ly qL); [|discriminate]. destruct (GetStaticTable ly qR); [|discriminate]. destruct (combineStatics _ _ _ _); [|discriminate].
      intros [= <-] g Hg. exact (Hgates ly (nth_error_In _ _ El) g Hg).
    Qed.
    Lemma init_gates a qP q p : InitialRoundSumcheckProver c a qP q nCore = Some p -> forall g, In g (tGates p) -> many_ok g.
    Proof.
      unfold InitialRoundSumcheckProver. destruct (gosub _ _) as [layer|]; [|discriminate].
      destruct (get c layer) as [l|] eqn:El; [|discriminate].
      destruct (GetStaticTable l q); [|discriminate]. destruct (LayerAsBKTWithCopy a layer); [|discriminate].
      destruct (GetChunkedEqTable _ _ _); [|discriminate].
      intros [= <-] g Hg. exact (Hgates l (nth_error_In _ _ El) g Hg).
    Qed.

    Lemma layer_sim M layer pf qP qL qR st' : awf M A ->
      proveLayer ch mtChecked c (viewA M A) nCore layer (pf, qP, qL, qR) = Some st' ->
      exists M', hproveLayer ch hmtProve c A nCore layer (M, pf, qP, qL, qR) =
          Some (M', fst (fst (fst st')), snd (fst (fst st')), snd (fst st'), snd st') /\ ext M M'.
    Proof.
      intros W. unfold proveLayer, hproveLayer. destruct (get (ClaimsLeft pf) _) as [cl|]; [|discriminate].
      destruct (get (ClaimsRight pf) _) as [cr|]; [|discriminate]. cbv beta zeta.
      destruct (IntermediateRoundsSumcheckProver c (viewA M A) layer qP qL qR 1 (ch [cl; cr]) nCore) as [p|] eqn:Ep; [|discriminate].
      destruct (inter_ok _ _ _ _ _ _ _ _ _ _ _ W Ep) as (M1 & P & E1 & Fr1). rewrite E1.
      destruct (mtChecked p) as [out|] eqn:Eo; [|discriminate].
      destruct (call_ok _ _ _ _ _ Fr1 Eo (inter_gates _ _ _ _ _ _ _ _ Ep)) as (M2 & E2 & X2). rewrite E2.
      destruct out as [[[[proof qP'] qL'] qR'] fin]. destruct (set (SumcheckProofs pf) _ _); [|discriminate].
      destruct (get fin 0); [|discriminate]. destruct (get fin 1); [|discriminate].
      destruct (set (ClaimsLeft pf) _ _); [|discriminate]. destruct (set (ClaimsRight pf) _ _); [|discriminate].
      intros [= <-]. exists M2. split; [reflexivity|exact X2].
    Qed.

    Lemma loop_sim ls : forall M pf qP qL qR st', awf M A ->
      foldM (fun st layer => proveLayer ch mtChecked c (viewA M A) nCore layer st) ls (pf, qP, qL, qR) = Some st' ->
      exists M', foldM (fun st layer => hproveLayer ch hmtProve c A nCore layer st) ls (M, pf, qP, qL, qR) =
          Some (M', fst (fst (fst st')), snd (fst (fst st')), snd (fst st'), snd st') /\ ext M M'.
    Proof.
      induction ls as [|layer ls IH]; intros M pf qP qL qR st' W; cbn [foldM].
      - intros [= <-]. exists M. split; [reflexivity|apply ext_refl].
      - destruct (proveLayer _ _ _ _ _ _ _) as [[[[pf1 qP1] qL1] qR1]|] eqn:E; [|discriminate].
        destruct (layer_sim M layer pf qP qL qR _ W E) as (M1 & E1 & X1). rewrite E1. cbn [fst snd].
        rewrite <- (viewA_ext M M1 A W X1). intros E'.
        destruct (IH M1 pf1 qP1 qL1 qR1 st' (awf_ext _ _ _ W X1) E') as (M2 & E2 & X2). exists M2. split; [exact E2|].
        eapply ext_trans; eauto.
    Qed.

    Lemma prove_sim M pf : awf M A -> GkrProve ch mtChecked c (viewA M A) nCore = Some pf ->
      exists M', HGkrProve ch hmtProve M c A nCore = Some (M', pf) /\ ext M M'.
    Proof.
      intros W. unfold GkrProve, HGkrProve.
      assert (Eb : hproverBN c A = proverBN c (viewA M A)).
      { unfold hproverBN, proverBN, get, viewA. rewrite nth_error_map. destruct (nth_error A 0) as [v0|]; [|reflexivity]. cbn [option_map].
        rewrite nth_error_map, map_length. destruct (nth_error v0 0) as [v00|]; [|reflexivity]. cbn [option_map]. rewrite tab_length. reflexivity. }
      rewrite Eb. destruct (proverBN c (viewA M A)) as [bN|]; [|discriminate]. destruct (gosub (length c) 1) as [last|]; [|discriminate].
      destruct (get c last) as [l|]; [|discriminate]. destruct (GetInitialQPrimeAndQ bN (lBGOutputs l)) as [qP q].
      destruct (InitialRoundSumcheckProver c (viewA M A) qP q nCore) as [p|] eqn:Ep; [|discriminate].
      destruct (init_ok _ _ _ _ _ _ _ W Ep) as (M1 & P & E1 & Fr1). rewrite E1.
      destruct (mtChecked p) as [out|] eqn:Eo; [|discriminate].
      destruct (call_ok _ _ _ _ _ Fr1 Eo (init_gates _ _ _ _ Ep)) as (M2 & E2 & X2). rewrite E2.
      destruct out as [[[[proof qP'] qL'] qR'] fin]. destruct (set (repeat [] _) _ _) as [sps|]; [|discriminate].
      destruct (get fin 0) as [f0|]; [|discriminate]. destruct (get fin 1) as [f1|]; [|discriminate].
      destruct (set _ _ f0) as [cls|]; [|discriminate]. destruct (set _ _ f1) as [crs|]; [|discriminate].
      destruct (foldM _ _ _) as [[[[pf1 qP1] qL1] qR1]|] eqn:E; [|discriminate]. intros [= <-].
      rewrite <- (viewA_ext M M2 A W X2) in E.
      destruct (loop_sim _ M2 _ _ _ _ _ (awf_ext _ _ _ W X2) E) as (M3 & E3 & X3). rewrite E3. cbn [fst snd].
      exists M3. split; [reflexivity|]. eapply ext_trans; eauto.
    Qed.

    (** [mtChecked] only restricts [mtWhole]. *)
    Lemma checked_whole p out : mtChecked p = Some out -> mtWhole ch p = Some out.
    Proof. unfold mtChecked. destruct (shape_b p); [auto|discriminate]. Qed.
    Lemma layer_whole a layer st st' : proveLayer ch mtChecked c a nCore layer st = Some st' -> proveLayer ch (mtWhole ch) c a nCore layer st = Some st'.
    Proof.
      unfold proveLayer. destruct st as [[[pf qP] qL] qR]. destruct (get _ _); [|discriminate]. destruct (get _ _); [|discriminate]. cbv beta zeta.
      destruct (IntermediateRoundsSumcheckProver _ _ _ _ _ _ _ _ _) as [p|]; [|discriminate].
      destruct (mtChecked p) as [out|] eqn:E; [|discriminate]. rewrite (checked_whole _ _ E). auto.
    Qed.
    Lemma loop_whole a ls : forall st st', foldM (fun st layer => proveLayer ch mtChecked c a nCore layer st) ls st = Some st' ->
      foldM (fun st layer => proveLayer ch (mtWhole ch) c a nCore layer st) ls st = Some st'.
    Proof.
      induction ls as [|layer ls IH]; intros st st'; cbn [foldM]; [auto|].
      destruct (proveLayer ch mtChecked _ _ _ _ _) as [st1|] eqn:E; [|discriminate]. rewrite (layer_whole _ _ _ _ E). apply IH.
    Qed.
    Lemma prove_whole a pf : GkrProve ch mtChecked c a nCore = Some pf -> GkrProve ch (mtWhole ch) c a nCore = Some pf.
    Proof.
      unfold GkrProve. destruct (proverBN c a); [|discriminate]. destruct (gosub _ _); [|discriminate]. destruct (get c _); [|discriminate].
      destruct (GetInitialQPrimeAndQ _ _). destruct (InitialRoundSumcheckProver _ _ _ _ _) as [p|]; [|discriminate].
      destruct (mtChecked p) as [out|] eqn:E; [|discriminate]. rewrite (checked_whole _ _ E).
      destruct out as [[[[? ?] ?] ?] fin]. destruct (set _ _ _); [|discriminate]. destruct (get fin 0); [|discriminate].
      destruct (get fin 1); [|discriminate]. destruct (set _ _ _); [|discriminate]. destruct (set _ _ _); [|discriminate].
      destruct (foldM _ _ _) as [st|] eqn:E2; [|discriminate]. rewrite (loop_whole _ _ _ _ E2). auto.
    Qed.
  End Run.

  Lemma layer_many_ok (l : Layer F) : layer_ok l -> forall g, In g (lGates l) -> many_ok g.
  Proof. intros (_ & _ & _ & H & _) g Hg. apply (H g Hg). Qed.

  Lemma gkr_unchanged ch nCore hmtProve c b m k M A inputs : distinct_upto (F:=F) 12 -> (0 < nCore)%nat -> follows_heap ch nCore hmtProve ->
    c <> [] -> (forall l, In l c -> layer_ok l) -> fits b c -> awf M A ->
    chunked k m b inputs -> assignment_of c (2 ^ m) inputs (viewA M A) ->
    exists M' pf, HGkrProve ch hmtProve M c A nCore = Some (M', pf) /\ ext M M' /\ GkrProve ch (mtWhole ch) c (viewA M A) nCore = Some pf /\
      exists M'', HGkrProve ch hmtProve M' c A nCore = Some (M'', pf) /\ ext M' M''.
  Proof.
    intros Hd Hc Hh Hne Hl Hf W [I1 I2] Ha.
    destruct (nth_error c (length c - 1)) as [l|] eqn:El.
    2:{ apply nth_error_None in El. destruct c; [congruence|cbn in El; lia]. }
    destruct (gkr_complete_from ch nCore (mtChecked ch) Hd Hc (mtChecked_follows ch nCore) m k c b inputs (viewA M A) Hl Hf I2 I1 Ha Hne l El)
      as (pf & E & _). assert (Hg : forall l, In l c -> forall g, In g (lGates l) -> many_ok g) by (intros l' Hl'; apply layer_many_ok; auto).
    destruct (prove_sim ch nCore hmtProve Hc Hh c A Hg M pf W E) as (M' & E' & X). exists M', pf. split; [exact E'|]. split; [exact X|].
    split; [eapply prove_whole; exact E|]. rewrite <- (viewA_ext M M' A W X) in E.
    exact (prove_sim ch nCore hmtProve Hc Hh c A Hg M' pf (awf_ext _ _ _ W X) E).
  Qed.

  (** Any tables can be laid out in memory. *)
  Lemma store_ok (a : list (list (list F))) : forall M, exists M' A, ext M M' /\ awf M' A /\ viewA M' A = a.
  Proof.
    induction a as [|t a IH]; intros M.
    - exists M, []. split; [apply ext_refl|]. split; [intros ? ? []|reflexivity].
    - destruct (hmake_ok t M) as (M1 & ds & _ & X1 & Md & T). destruct (IH M1) as (M2 & A & X2 & W & V).
      exists M2, (ds :: A). split; [eapply ext_trans; eauto|]. split.
      + intros ss s [<-|H] Hs; [|eapply W; eauto]. eapply ext_swf; [exact X2|]. apply Md, Hs.
      + cbn [viewA map]. unfold viewA in V. rewrite V. f_equal. rewrite (tabs_ext M1 M2 ds M Md X2). exact T.
  Qed.

  (** The hypothesis on [hmtProve] can be met. *)
  Lemma hmtWhole_follows ch nCore : follows_heap ch nCore (fun (m : list F) (p : HMT F) => out <- mtWhole ch (viewMT m p) ;; Some (m, out)).
  Proof.
    intros m p n k bG K c out _ Hok HP _ _. pose proof (mt_ok_shape _ _ _ _ Hok) as Es.
    assert (E : mtWhole ch (viewMT m p) = Some out).
    { change (Prove ch (whole (viewMT m p) (fst (shape_of (viewMT m p))) (snd (shape_of (viewMT m p)))) = Some out). rewrite Es. exact HP. }
    exists m. rewrite E. split; [reflexivity|]. split; auto.
  Qed.
End S.

From Verif Require Import FrPrime Fr LPoly3.
Lemma gkr_unchanged_Fr (ch : list Fr -> Fr) nCore hmtProve c b m k M A inputs : 0 < nCore -> follows_heap ch nCore hmtProve ->
  c <> [] -> (forall l, In l c -> layer_ok l) -> fits b c -> (forall ss s, In ss A -> In s ss -> swf M s) ->
  chunked k m b inputs -> assignment_of c (2 ^ m) inputs (viewA M A) ->
  exists M' pf, HGkrProve ch hmtProve M c A nCore = Some (M', pf) /\ ext M M' /\ viewA M' A = viewA M A /\
    GkrProve ch (mtWhole ch) c (viewA M A) nCore = Some pf /\
    exists M'', HGkrProve ch hmtProve M' c A nCore = Some (M'', pf) /\ ext M' M''.
Proof.
  intros H1 H2 H3 H4 H5 H6 H7 H8.
  destruct (gkr_unchanged ch nCore hmtProve c b m k M A inputs (Fr_distinct_le 12 ltac:(lia)) H1 H2 H3 H4 H5 H6 H7 H8) as (M' & pf & E1 & X & E2 & M'' & E3 & X').
  exists M', pf. split; [exact E1|]. split; [exact X|]. split; [exact (viewA_ext M M' A H6 X)|]. split; [exact E2|]. exists M''. auto.
Qed.
