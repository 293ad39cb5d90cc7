(** The honest proof is right in every layer; right proofs of the same lengths are equal. *)
From Coq Require Import List Arith ZArith Lia Bool Ring Field.
From Verif Require Import Field FrPrime Fr Go Trans MCommon Spec MPoly LSpec LCommon LPoly LEffect LPoly2 LPoly3 MCircuit SpecCircuit LCircuit LCircuit2 LCircuit3 MSumcheck SpecSumcheck
  LSumcheck LSumcheck2 LSumcheck3 LSumcheck4 LSumcheck5 MSumPar SpecSumPar MGkr SpecGkr LGkr LGkr2 LGkr3 SpecProof LProof SpecUnique LUnique LUnique2.
Import ListNotations.

Section L.
  Context {F : Field}.
  Add Field FfieldLUnique3 : (f_theory F).
  Open Scope F_scope.
  Variable ch : list F -> F.
  Hypothesis Hdist : distinct_upto (F:=F) 12.

  Lemma plain_sc_right (l : Layer F) st weight qP V bN : layer_ok l -> weights_of l st weight ->
    (forall tab, In tab st -> length tab = (2 ^ lBGInputs l * 2 ^ lBGInputs l)%nat) ->
    length qP = bN -> length V = (2 ^ (lBGInputs l + bN))%nat ->
    exists proof qP' qL' qR' rest,
      plain_sc ch l V qP st = Some (proof, qP', qL', qR', mle V (qL' ++ qP') :: mle V (qR' ++ qP') :: rest) /\
      length qL' = lBGInputs l /\ length qR' = lBGInputs l /\ length qP' = bN /\ map ch proof = qL' ++ qR' ++ qP' /\
      length proof = (2 * lBGInputs l + bN)%nat /\ right_rounds ch (layer_poly l weight qP V) (2 * lBGInputs l + bN) proof.
  Proof.
    intros (Hwf & Hg & Hne & Hok & Hmax) HW Sst LqP LV. pose proof HW as [Lst _].
    assert (HT : tables_ok (lBGInputs l) (lBGInputs l) bN (lGates l) st (eqtab qP) V V).
    { unfold tables_ok. rewrite eqtab_length, LqP. repeat split; auto.
      intros tab Ht. rewrite Sst, <- Nat.pow_add_r by exact Ht. reflexivity. }
    destruct (complete ch bN (lBGInputs l) (lGates l) st (eqtab qP) V V Hdist HT Hne Hok Hmax) as (proof & qP' & qL' & qR' & H).
    cbn zeta in H. destruct H as (HP & _ & HV & _ & Lp & LL & LR & LP & _).
    apply Verify_accept in HV. destruct HV as (_ & _ & _ & Em).
    exists proof, qP', qL', qR', (mle (eqtab qP) qP' :: map (fun t => mle t (qL' ++ qR')) st).
    split; [exact HP|]. split; [exact LL|]. split; [exact LR|]. split; [exact LP|]. split; [exact Em|]. split; [exact Lp|].
    edestruct (Prove_right ch Hdist bN (lBGInputs l) (NewSingleThreadedProver V V (eqtab qP) (lGates l) st) proof qP' qL' qR') as [HTp _]; [| | |exact HP|].
    - rewrite New_eq. exact Hne.
    - split; [|split].
      + unfold manys. rewrite New_eq. intros g Hgi. apply (Hok g Hgi).
      + apply New_degs. intros g Hgi. apply (Hok g Hgi).
      + rewrite New_eq. cbn [dHL dHR dHPrime]. lia.
    - exact (tables_shape _ _ _ _ _ _ _ _ HT).
    - intros i c t Hi. rewrite (tp_nth ch _ 0 proof [] i c t HTp Hi), Lp, Nat.add_0_r. cbn [app].
      apply (cube_sum_ext_len _ _ (2 * lBGInputs l + bN)).
      + intros y Hy. unfold comb. rewrite New_eq. cbn [sGates sStatic sEq sVL sVR]. apply combinator_layer_poly; auto. lia.
      + assert (i < length proof)%nat by (apply nth_error_Some; congruence).
        rewrite app_length, map_length, firstn_length. cbn [length]. lia.
  Qed.

  Section Circ.
    Variables m k b : nat.
    Variable c : list (Layer F).
    Variable inputs : list (list F).
    Variable a : list (list (list F)).
    Hypothesis Hlayers : forall l, In l c -> layer_ok l.
    Hypothesis Hfits : fits b c.
    Hypothesis Hin : chunked k m b inputs.
    Hypothesis Ha : assignment_of c (2 ^ m) inputs a.
    Variables q qP0 : list F.

    Lemma weak : forall l, In l c -> wf_layer l /\ gates_once l.
    Proof. intros l Hl. destruct (Hlayers l Hl) as (A & B & _). auto. Qed.

    Lemma right_agree j pf pf' : (forall i, (j <= i)%nat -> nth_error (SumcheckProofs pf') i = nth_error (SumcheckProofs pf) i /\
          nth_error (ClaimsLeft pf') i = nth_error (ClaimsLeft pf) i /\ nth_error (ClaimsRight pf') i = nth_error (ClaimsRight pf) i) ->
      forall i, (j <= i)%nat -> right_layer ch pf c m k a q qP0 i -> right_layer ch pf' c m k a q qP0 i.
    Proof.
      intros HA i Hi (l & Hl & sp & E1 & E2 & E3 & E4 & E5). exists l. split; [exact Hl|]. cbv zeta in *.
      assert (Hch : forall x, (j <= x)%nat -> chal ch pf' x = chal ch pf x).
      { intros x Hx. destruct (HA x Hx) as (X & _). unfold chal. f_equal.
        destruct (nth_error (SumcheckProofs pf) x) as [y|] eqn:Ex.
        - rewrite (nth_error_nth _ _ [] X), (nth_error_nth _ _ [] Ex). reflexivity.
        - apply nth_error_None in X. apply nth_error_None in Ex. rewrite !nth_overflow by assumption. reflexivity. }
      assert (Hcl : forall x, (j <= x)%nat -> nth x (ClaimsLeft pf') 0 = nth x (ClaimsLeft pf) 0).
      { intros x Hx. destruct (HA x Hx) as (_ & X & _).
        destruct (nth_error (ClaimsLeft pf) x) as [y|] eqn:Ex.
        - rewrite (nth_error_nth _ _ 0 X), (nth_error_nth _ _ 0 Ex). reflexivity.
        - apply nth_error_None in X. apply nth_error_None in Ex. rewrite !nth_overflow by assumption. reflexivity. }
      assert (Hcr : forall x, (j <= x)%nat -> nth x (ClaimsRight pf') 0 = nth x (ClaimsRight pf) 0).
      { intros x Hx. destruct (HA x Hx) as (_ & _ & X).
        destruct (nth_error (ClaimsRight pf) x) as [y|] eqn:Ex.
        - rewrite (nth_error_nth _ _ 0 X), (nth_error_nth _ _ 0 Ex). reflexivity.
        - apply nth_error_None in X. apply nth_error_None in Ex. rewrite !nth_overflow by assumption. reflexivity. }
      destruct (HA i Hi) as (X1 & X2 & X3). exists sp. rewrite X1, X2, X3. split; [exact E1|]. split; [exact E2|].
      unfold ptL, ptR, ptP, run_poly_from in *. unfold ptL, ptR, ptP in *.
      rewrite (Hch i Hi), (Hch (S i) ltac:(lia)), (Hcl (S i) ltac:(lia)), (Hcr (S i) ltac:(lia)). auto.
    Qed.

    Definition hon (j : nat) (st : Proof F * list F * list F * list F) : Prop :=
      let '(pf, qP, qL, qR) := st in
      length (SumcheckProofs pf) = length c /\ length (ClaimsLeft pf) = length c /\ length (ClaimsRight pf) = length c /\
      (exists l, nth_error c j = Some l /\ length qP = (m + k)%nat /\ length qL = lBGInputs l /\ length qR = lBGInputs l /\
        qL = ptL ch pf (lBGInputs l) j /\ qR = ptR ch pf (lBGInputs l) j /\ qP = ptP ch pf (lBGInputs l) j) /\
      forall i, (j <= i < length c)%nat -> right_layer ch pf c m k a q qP0 i.

    Lemma nth_error_upd_ne {A} (l : list A) i j v : i <> j -> nth_error (upd l i v) j = nth_error l j.
    Proof. revert i j. induction l as [|x l IH]; intros i j H; destruct i, j; simpl; auto; try congruence. Qed.

    Lemma step_right j st : hon (S j) st -> exists st', plain_layer ch c (tabs m c a j) j st = Some st' /\ hon j st'.
    Proof.
      destruct st as [[[pf qP] qL] qR]. intros (P1 & P2 & P3 & (l' & Hl' & LqP & LqL & LqR & PL & PR & PP) & HR).
      assert (Hj : (S j < length c)%nat) by (apply nth_error_Some; congruence).
      destruct (nth_error c j) as [l|] eqn:Hl; [|apply nth_error_None in Hl; lia].
      pose proof (fits_next c b j l l' Hfits Hl Hl') as Hbb. pose proof LqL as LqL0. pose proof LqR as LqR0. rewrite Hbb in LqL, LqR.
      pose proof (Hlayers l (nth_error_In _ _ Hl)) as Hok. pose proof Hok as (Hwf & Hg & _).
      destruct (statics_ok l qL Hwf LqL) as (tL & EL & LtL & StL).
      destruct (statics_ok l qR Hwf LqR) as (tR & ER & LtR & StR).
      destruct (HR (S j) ltac:(lia)) as (l2 & Hl2 & sp2 & _ & _ & _ & CL & CR).
      rewrite Hl' in Hl2. injection Hl2 as <-. cbv zeta in CL, CR. rewrite <- PL, <- PP in CL. rewrite <- PR, <- PP in CR.
      set (cl := mle (glued (lBGInputs l') m (nth (S j) a [])) (qL ++ qP)) in *.
      set (cr := mle (glued (lBGInputs l') m (nth (S j) a [])) (qR ++ qP)) in *.
      set (lam := ch [cl; cr]).
      set (st := map (fun i => lincomb lam (nth i tL []) (nth i tR [])) (seq 0 (length (lGates l)))).
      destruct (tv_layer m k b c inputs a weak Hfits Hin Ha j l Hl) as [_ LT].
      destruct (plain_sc_right l st (fun o => chi (to_bits (lBGOutputs l) o) qL + lam * chi (to_bits (lBGOutputs l) o) qR)
        qP (glued (lBGInputs l) m (nth j a [])) (m + k) Hok) as (proof & qP' & qL' & qR' & rest & EP & LL & LR & LP & Em & Lp & Hright).
      { apply (weights_lincomb l tL tR (fun o => chi (to_bits (lBGOutputs l) o) qL) (fun o => chi (to_bits (lBGOutputs l) o) qR)); auto using weights_static. }
      { intros tab Ht. apply in_map_iff in Ht. destruct Ht as (i & <- & Hi). apply in_seq in Hi.
        unfold lincomb. rewrite map_length, seq_length. apply StR. lia. }
      { exact LqP. } { exact LT. }
      set (pf' := MkProof (upd (SumcheckProofs pf) j proof) (upd (ClaimsLeft pf) j (mle (glued (lBGInputs l) m (nth j a [])) (qL' ++ qP')))
        (upd (ClaimsRight pf) j (mle (glued (lBGInputs l) m (nth j a [])) (qR' ++ qP')))).
      exists (pf', qP', qL', qR'). split.
      - unfold plain_layer. replace (j + 1)%nat with (S j) by lia. unfold get at 1 2 3. rewrite CL, CR, Hl, EL, ER. cbv beta iota zeta.
        fold lam. rewrite (combineStatics_ok tL tR lam _ _ LtL LtR StL StR). fold st. unfold tabs. rewrite Hl, EP.
        rewrite set_some by lia. unfold get. cbn [nth_error]. rewrite !set_some by lia. reflexivity.
      - assert (Esp : nth_error (SumcheckProofs pf') j = Some proof) by (unfold pf'; cbn [SumcheckProofs]; apply nth_error_upd_eq; lia).
        destruct (chal_parts ch pf' j proof (lBGInputs l) qL' qR' qP' Esp LL LR Em) as (PL' & PR' & PP').
        assert (HAg : forall i, (S j <= i)%nat -> nth_error (SumcheckProofs pf') i = nth_error (SumcheckProofs pf) i /\
          nth_error (ClaimsLeft pf') i = nth_error (ClaimsLeft pf) i /\ nth_error (ClaimsRight pf') i = nth_error (ClaimsRight pf) i).
        { intros i Hi. unfold pf'. cbn [SumcheckProofs ClaimsLeft ClaimsRight]. rewrite !nth_error_upd_ne by lia. auto. }
        unfold hon. split; [unfold pf'; cbn [SumcheckProofs]; rewrite upd_length; exact P1|].
        split; [unfold pf'; cbn [ClaimsLeft]; rewrite upd_length; exact P2|].
        split; [unfold pf'; cbn [ClaimsRight]; rewrite upd_length; exact P3|]. split.
        + exists l. rewrite PL', PR', PP'. auto 10.
        + intros i Hi. destruct (Nat.eq_dec i j) as [->|Hij].
          2: { apply (right_agree (S j) pf pf' HAg); [lia|]. apply HR. lia. }
          exists l. split; [exact Hl|]. cbv zeta. exists proof. split; [exact Esp|]. split; [exact Lp|].
          rewrite PL', PR', PP'. split.
          * unfold run_poly_from. destruct (Nat.eqb_spec (S j) (length c)); [lia|]. cbv zeta.
            destruct (HAg (S j) (Nat.le_refl _)) as (X1 & X2 & X3).
            rewrite CL in X2. rewrite CR in X3. rewrite (nth_error_nth _ _ 0 X2), (nth_error_nth _ _ 0 X3). fold lam.
            assert (Ech : chal ch pf' (S j) = chal ch pf (S j)).
            { unfold chal. f_equal. destruct (nth_error (SumcheckProofs pf) (S j)) as [y|] eqn:Ex.
              - rewrite (nth_error_nth _ _ [] X1), (nth_error_nth _ _ [] Ex). reflexivity.
              - apply nth_error_None in X1. apply nth_error_None in Ex. rewrite !nth_overflow by assumption. reflexivity. }
            unfold ptL, ptR, ptP in PL, PR, PP |- *. rewrite Ech, <- Hbb, <- PL, <- PR, <- PP. rewrite Hbb. exact Hright.
          * unfold pf'. cbn [ClaimsLeft ClaimsRight]. rewrite !nth_error_upd_eq by lia. auto.
    Qed.

    Lemma loop_right j : forall st, hon j st ->
      exists st', foldM (fun st layer => plain_layer ch c (tabs m c a layer) layer st) (rev (seq 0 j)) st = Some st' /\ hon 0 st'.
    Proof.
      induction j as [|j IH]; intros st H; [exists st; split; [reflexivity|exact H]|].
      destruct (step_right j st H) as (st1 & E1 & H1). destruct (IH st1 H1) as (st' & E2 & H2).
      exists st'. rewrite seq_S, rev_app_distr. cbn [rev app foldM Nat.add]. rewrite E1. auto.
    Qed.
  End Circ.

  Lemma plain_right m k b (c : list (Layer F)) inputs a llast : (forall l, In l c -> layer_ok l) -> fits b c -> chunked k m b inputs ->
    assignment_of c (2 ^ m) inputs a -> nth_error c (length c - 1) = Some llast ->
    exists pf, plain_prove ch (m + k) c (tabs m c a) = Some pf /\
      forall j, (j < length c)%nat -> right_layer ch pf c m k a (count (lBGOutputs llast)) (count (m + k)) j.
  Proof.
    intros Hlayers Hfits Hin Ha Hlast.
    assert (Hc : (0 < length c)%nat) by (destruct c; [discriminate|cbn; lia]).
    set (last := (length c - 1)%nat) in *. set (q := count (F:=F) (lBGOutputs llast)). set (qP := count (F:=F) (m + k)).
    assert (Lq : length q = lBGOutputs llast) by (unfold q, count; rewrite map_length, seq_length; reflexivity).
    assert (LqP : length qP = (m + k)%nat) by (unfold qP, count; rewrite map_length, seq_length; reflexivity).
    pose proof (Hlayers llast (nth_error_In _ _ Hlast)) as Hok. pose proof Hok as (Hwf & Hg & _).
    destruct (statics_ok llast q Hwf Lq) as (st & Est & Lst & Sst).
    destruct (tv_layer m k b c inputs a (weak c Hlayers) Hfits Hin Ha last llast Hlast) as [_ LT].
    set (V := glued (lBGInputs llast) m (nth last a [])) in *.
    destruct (plain_sc_right llast st (fun o => chi (to_bits (lBGOutputs llast) o) q) qP V (m + k) Hok)
      as (proof & qP' & qL' & qR' & rest & EP & LL & LR & LP & Em & Lp & Hright); auto using weights_static.
    { intros tab Ht. apply (In_nth _ _ []) in Ht. destruct Ht as (i & Hi & <-). apply Sst. lia. }
    set (pf0 := MkProof (upd (repeat [] (length c)) last proof) (upd (repeat 0 (length c)) last (mle V (qL' ++ qP')))
      (upd (repeat 0 (length c)) last (mle V (qR' ++ qP')))).
    assert (Esp : nth_error (SumcheckProofs pf0) last = Some proof)
      by (unfold pf0; cbn [SumcheckProofs]; apply nth_error_upd_eq; rewrite repeat_length; lia).
    destruct (chal_parts ch pf0 last proof (lBGInputs llast) qL' qR' qP' Esp LL LR Em) as (PL' & PR' & PP').
    destruct (loop_right m k b c inputs a Hlayers Hfits Hin Ha q qP last (pf0, qP', qL', qR')) as ([[[pf x] y] z] & E & H).
    - unfold hon. unfold pf0 at 1 2 3. cbn [SumcheckProofs ClaimsLeft ClaimsRight]. rewrite !upd_length, !repeat_length.
      repeat (split; [reflexivity|]). split.
      + exists llast. rewrite PL', PR', PP'. auto 10.
      + intros i Hi. assert (i = last) by lia. subst i. exists llast. split; [exact Hlast|]. cbv zeta. exists proof.
        split; [exact Esp|]. split; [exact Lp|]. rewrite PL', PR', PP'. split.
        * unfold run_poly_from. replace (S last) with (length c) by lia. rewrite Nat.eqb_refl. exact Hright.
        * unfold pf0. cbn [ClaimsLeft ClaimsRight]. rewrite !nth_error_upd_eq by (rewrite repeat_length; lia). auto.
    - exists pf. split.
      + unfold plain_prove. assert (Hg1 : gosub (length c) 1 = Some last) by (unfold gosub; destruct (Nat.leb_spec 1 (length c)); [reflexivity|lia]).
        rewrite Hg1. unfold get at 1. rewrite Hlast. fold q qP. rewrite Est. unfold tabs at 1. rewrite Hlast. fold V. rewrite EP.
        rewrite set_some by (rewrite repeat_length; lia). unfold get. cbn [nth_error].
        rewrite !set_some by (rewrite repeat_length; lia). fold pf0. rewrite E. reflexivity.
      + intros j Hj. apply H. lia.
  Qed.
End L.
