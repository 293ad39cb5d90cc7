(** Accepted proofs without collisions are right. *)
From Coq Require Import List Arith ZArith Lia Bool Ring Field.
From Verif Require Import Field Go MCommon Spec MPoly LSpec LCommon LPoly LEffect LPoly2 MCircuit SpecCircuit LCircuit LCircuit2 LCircuit3 MSumcheck SpecSumcheck
  LSumcheck LSumcheck2 LSumcheck3 LSumcheck4 LSumcheck5 MSumPar SpecSumPar MGkr SpecGkr LGkr LGkr2 LGkr3 SpecUnique.
Import ListNotations.

Section L.
  Context {F : Field}.
  Add Field FfieldLUnique : (f_theory F).
  Open Scope F_scope.
  Variable ch : list F -> F.

  Lemma rounds_right (f : list F -> F) cs : forall x v fin, answers ch v cs fin -> fin = f (x ++ map ch cs) ->
    (forall i c, nth_error cs i = Some c ->
      peval c (ch c) = cube_sum f (length cs - S i) (x ++ map ch (firstn i cs) ++ [ch c]) ->
      forall t, peval c t = cube_sum f (length cs - S i) (x ++ map ch (firstn i cs) ++ [t])) ->
    v = cube_sum f (length cs) x /\
    forall i c t, nth_error cs i = Some c -> peval c t = cube_sum f (length cs - S i) (x ++ map ch (firstn i cs) ++ [t]).
  Proof.
    induction cs as [|c cs IH]; intros x v fin HA Hf HN; cbn [answers map length] in *.
    - split; [|intros [|i] c t H; discriminate]. unfold cube_sum. cbn [cube suml bpoint map]. rewrite <- HA, Hf. ring.
    - destruct HA as (_ & Hsum & HA).
      destruct (IH (x ++ [ch c]) (peval c (ch c)) fin HA) as [Hv HR].
      + rewrite <- app_assoc. exact Hf.
      + intros i c' Hi. specialize (HN (S i) c' Hi). rewrite Nat.sub_succ in HN. cbn [firstn map app] in HN.
        intros H t. rewrite <- app_assoc in H |- *. apply HN. exact H.
      + pose proof (HN 0%nat c eq_refl) as H0. rewrite Nat.sub_succ, Nat.sub_0_r in H0. cbn [firstn map app] in H0.
        specialize (H0 Hv). split.
        * rewrite Hsum, !H0, cube_sum_S. reflexivity.
        * intros [|i] c' t Hi.
          -- injection Hi as <-. rewrite Nat.sub_succ, Nat.sub_0_r. cbn [firstn map app]. apply H0.
          -- rewrite Nat.sub_succ. cbn [firstn map app]. rewrite (HR i c' t Hi), <- app_assoc. reflexivity.
  Qed.

  (** Without a collision, right final claims make every polynomial right. *)
  Lemma layer_right (l : Layer F) st weight qP V claim sp bN qP' qL' qR' tot :
    wf_layer l -> gates_once l -> weights_of l st weight ->
    (forall tab, In tab st -> length tab = (2 ^ lBGInputs l * 2 ^ lBGInputs l)%nat) ->
    length qP = bN -> length qP' = bN -> length V = (2 ^ (lBGInputs l + bN))%nat ->
    Verify ch claim sp bN (lBGInputs l) = Some (Accept qP' qL' qR' tot) ->
    EvaluateCombinator (mle V (qL' ++ qP')) (mle V (qR' ++ qP')) (eqprod qP qP') (lGates l)
      (map (fun t => mle t (qL' ++ qR')) st) = Some tot ->
    ~ sumcheck_collision ch (layer_poly l weight qP V) (2 * lBGInputs l + bN) sp ->
    length sp = (2 * lBGInputs l + bN)%nat /\ right_rounds ch (layer_poly l weight qP V) (2 * lBGInputs l + bN) sp.
  Proof.
    intros Hwf Hg HW Hst LqP LqP' LV HV HC HN. apply Verify_accept in HV. destruct HV as (HA & LL & LR & E).
    assert (Lp : length sp = (2 * lBGInputs l + bN)%nat).
    { rewrite <- (map_length ch sp), E, !app_length. lia. }
    split; [exact Lp|].
    pose proof HW as [HW1 HW2].
    pose proof (claims_combinator (lGates l) st (eqtab qP) V V qL' qR' qP' HW1) as HCC.
    rewrite mle_eqtab in HCC by congruence. rewrite HC, LL, LR in HCC.
    rewrite (combinator_layer_poly l st weight qP V (qL' ++ qR' ++ qP') Hwf Hg HW) in HCC by (rewrite !app_length; lia).
    injection HCC as HCC. rewrite <- E in HCC.
    destruct (rounds_right (layer_poly l weight qP V) sp [] claim tot HA HCC) as [_ HR].
    - intros i c Hi Heq t. destruct (f_eq_dec (peval c t) (cube_sum (layer_poly l weight qP V) (length sp - S i) ([] ++ map ch (firstn i sp) ++ [t]))) as [|Hne];
        [assumption|].
      exfalso. apply HN. exists i, c. rewrite <- Lp. split; [apply nth_error_Some; congruence|]. split; [exact Hi|].
      cbv zeta. split; [exists t; exact Hne|exact Heq].
    - intros i c t Hi. rewrite (HR i c t Hi), Lp. reflexivity.
  Qed.

  Section Circ.
    Variables m k b : nat.
    Variable c : list (Layer F).
    Variable inputs : list (list F).
    Variable a : list (list (list F)).
    Variable pf : Proof F.
    Hypothesis Hlayers : forall l, In l c -> wf_layer l /\ gates_once l.
    Hypothesis Hfits : fits b c.
    Hypothesis Hin : chunked k m b inputs.
    Hypothesis Ha : assignment_of c (2 ^ m) inputs a.
    Variables q qP : list F.
    Hypothesis Hno : forall j, ~ collision_from ch pf c m k a q qP j.

    Local Notation TV l j := (glued (lBGInputs l) m (nth j a [])).

    Lemma pair_eq_dec (x y x' y' : F) : (x, y) = (x', y') \/ (x, y) <> (x', y').
    Proof. destruct (f_eq_dec x x') as [->|]; [destruct (f_eq_dec y y') as [->|]; [auto|]|]; right; congruence. Qed.

    Lemma claims_right zP zL zR l0 : nth_error c 0 = Some l0 -> length zP = (m + k)%nat ->
      nth_error (ClaimsLeft pf) 0 = Some (mle (TV l0 0) (zL ++ zP)) -> nth_error (ClaimsRight pf) 0 = Some (mle (TV l0 0) (zR ++ zP)) ->
      forall j xP xL xR l vl vr, (j < length c)%nat ->
      nth_error c j = Some l -> length xP = (m + k)%nat -> length xL = lBGInputs l -> length xR = lBGInputs l ->
      xL = ptL ch pf (lBGInputs l) j -> xR = ptR ch pf (lBGInputs l) j -> xP = ptP ch pf (lBGInputs l) j ->
      verifyLayers ch false c (m + k) pf j xP xL xR = Some (inr (zP, zL, zR)) ->
      nth_error (ClaimsLeft pf) j = Some vl -> nth_error (ClaimsRight pf) j = Some vr ->
      vl = mle (TV l j) (xL ++ xP) /\ vr = mle (TV l j) (xR ++ xP).
    Proof.
      intros Hl0 HzP HzL HzR j xP xL xR l vl vr Hj Hl LP LL LR PL PR PP HV E1 E2.
      destruct (pair_eq_dec vl vr (mle (TV l j) (xL ++ xP)) (mle (TV l j) (xR ++ xP))) as [E|E]; [injection E as -> ->; auto|].
      exfalso. destruct (sound_loop ch m k b c inputs a pf Hlayers Hfits Hin Ha zP zL zR l0 q qP Hl0 HzP HzL HzR
        j xP xL xR l Hj Hl LP LL LR PL PR PP HV) as (i & Hi).
      - rewrite (nth_error_nth _ _ 0 E1), (nth_error_nth _ _ 0 E2). exact E.
      - exact (Hno i Hi).
    Qed.

    Lemma loop_right zP zL zR l0 : nth_error c 0 = Some l0 -> length zP = (m + k)%nat ->
      nth_error (ClaimsLeft pf) 0 = Some (mle (TV l0 0) (zL ++ zP)) -> nth_error (ClaimsRight pf) 0 = Some (mle (TV l0 0) (zR ++ zP)) ->
      forall j xP xL xR l, (j < length c)%nat ->
      nth_error c j = Some l -> length xP = (m + k)%nat -> length xL = lBGInputs l -> length xR = lBGInputs l ->
      xL = ptL ch pf (lBGInputs l) j -> xR = ptR ch pf (lBGInputs l) j -> xP = ptP ch pf (lBGInputs l) j ->
      verifyLayers ch false c (m + k) pf j xP xL xR = Some (inr (zP, zL, zR)) ->
      forall i, (i < j)%nat -> right_layer ch pf c m k a q qP i.
    Proof.
      intros Hl0 HzP HzL HzR. induction j as [|j IH]; intros xP xL xR l Hj Hl LP LL LR PL PR PP HV i Hi; [lia|].
      pose proof (verifyLayers_inv _ _ _ _ _ _ _ _ _ _ HV) as
        (cl & cr & sp & l' & qP' & qL' & qR' & tot & vl & vr & sts & E1 & E2 & E3 & E4 & E5 & E6 & E7 & E8 & E9 & E10 & E11).
      pose proof (fits_next c b j l' l Hfits E4 Hl) as Hbb.
      pose proof (verifyLayers_grow _ _ _ _ _ _ _ _ _ _ _ _ E11) as Hgrow.
      assert (LP' : length qP' = (m + k)%nat) by lia.
      pose proof E5 as HVer. apply Verify_accept in HVer. destruct HVer as (_ & LL' & LR' & Em).
      destruct (chal_parts ch pf j sp (lBGInputs l') qL' qR' qP' E3 LL' LR' Em) as (PL' & PR' & PP').
      destruct (Nat.eq_dec i j) as [->|Hij].
      2: { apply (IH qP' qL' qR' l'); auto; lia. }
      destruct (claims_right zP zL zR l0 Hl0 HzP HzL HzR j qP' qL' qR' l' vl vr) as [-> ->]; auto; [lia|].
      exists l'. split; [exact E4|]. cbv zeta. exists sp. split; [exact E3|].
      rewrite PL', PR', PP'. set (lam := ch [cl; cr]) in *.
      destruct (Hlayers l' (nth_error_In _ _ E4)) as [Hwf Hg].
      pose proof LL as LL0. pose proof LR as LR0. rewrite Hbb in LL0, LR0.
      destruct (statics_ok l' xL Hwf LL0) as (tL & EL & LtL & StL).
      destruct (statics_ok l' xR Hwf LR0) as (tR & ER & LtR & StR).
      rewrite (evaluateStaticTablesLinCombs_ok l' xL xR tL tR qL' qR' lam) in E9 by assumption.
      injection E9 as <-.
      destruct (tv_layer m k b c inputs a Hlayers Hfits Hin Ha j l' E4) as [HT LT].
      destruct (layer_right l' (map (fun i => lincomb lam (nth i tL []) (nth i tR [])) (seq 0 (length (lGates l'))))
        (fun o => chi (to_bits (lBGInputs l) o) xL + lam * chi (to_bits (lBGInputs l) o) xR)
        xP (TV l' j) (cr * lam + cl) sp (m + k) qP' qL' qR' tot) as [Lsp HR]; auto.
      - rewrite Hbb. apply (weights_lincomb l' tL tR (fun o => chi (to_bits (lBGOutputs l') o) xL) (fun o => chi (to_bits (lBGOutputs l') o) xR)); auto using weights_static.
      - intros tab Ht. apply in_map_iff in Ht. destruct Ht as (x & <- & Hx). apply in_seq in Hx.
        unfold lincomb. rewrite map_length, seq_length. apply StR. lia.
      - intros Hcol. apply (Hno j). exists l'. split; [exact E4|]. cbv zeta. left. unfold run_poly_from.
        destruct (Nat.eqb_spec (S j) (length c)); [lia|].
        rewrite (nth_error_nth _ _ 0 E1), (nth_error_nth _ _ 0 E2), (nth_error_nth _ _ [] E3). cbv zeta. fold lam.
        rewrite <- Hbb, <- PL, <- PR, <- PP. exact Hcol.
      - split; [exact Lsp|]. split; [|split; assumption]. unfold run_poly_from.
        destruct (Nat.eqb_spec (S j) (length c)); [lia|].
        rewrite (nth_error_nth _ _ 0 E1), (nth_error_nth _ _ 0 E2). cbv zeta. fold lam.
        rewrite <- Hbb, <- PL, <- PR, <- PP. exact HR.
    Qed.

    Lemma all_right llast out : c <> [] -> nth_error c (length c - 1) = Some llast ->
      length q = lBGOutputs llast -> length qP = (m + k)%nat ->
      accepted ch false c (m + k) pf q qP out (glued b m inputs) ->
      mle out (q ++ qP) = mle (glued (lBGOutputs llast) m (nth (length c) a [])) (q ++ qP) /\
      forall j, (j < length c)%nat -> right_layer ch pf c m k a q qP j.
    Proof.
      intros Hc Hlast Lq LqP HAcc. split.
      { destruct (f_eq_dec (mle out (q ++ qP)) (mle (glued (lBGOutputs llast) m (nth (length c) a [])) (q ++ qP))) as [|Hne]; [assumption|].
        exfalso. destruct (gkr_sound_from ch m k b c inputs a pf Hlayers Hfits Hin Ha llast q qP out Hc Hlast Lq LqP HAcc Hne) as (j & Hj).
        exact (Hno j Hj). }
      destruct HAcc as (l & sp & qP' & qL' & qR' & tot & vl & vr & sts & zP & zL & zR &
        E1 & E3 & E4 & E5 & E6 & E7 & E8 & E9 & E10 & LzP & LzLR & LI & E12 & E13).
      rewrite Hlast in E1. injection E1 as <-. set (last := (length c - 1)%nat) in *.
      assert (Hlen : length c = S last) by (destruct c; [congruence|unfold last; cbn; lia]).
      destruct (Hlayers llast (nth_error_In _ _ Hlast)) as [Hwf Hg].
      destruct (nth_error c 0) as [l0|] eqn:Hl0; [|apply nth_error_None in Hl0; lia].
      assert (Hb0 : lBGInputs l0 = b) by (destruct c; [discriminate|]; injection Hl0 as ->; exact (proj1 Hfits)).
      pose proof (verifyLayers_grow _ _ _ _ _ _ _ _ _ _ _ _ E10) as Hgrow.
      pose proof E4 as HVer. apply Verify_accept in HVer. destruct HVer as (_ & LL' & LR' & Em).
      assert (LP' : length qP' = (m + k)%nat) by lia.
      assert (HA0 : glued b m (nth 0 a []) = glued b m inputs) by (destruct Ha as (_ & -> & _); reflexivity).
      rewrite <- HA0, <- Hb0 in E12, E13.
      destruct (chal_parts ch pf last sp (lBGInputs llast) qL' qR' qP' E3 LL' LR' Em) as (PL' & PR' & PP').
      intros j Hj. destruct (Nat.eq_dec j last) as [->|Hjl].
      2: { apply (loop_right zP zL zR l0 Hl0 LzP E12 E13 last qP' qL' qR' llast); auto; lia. }
      destruct (claims_right zP zL zR l0 Hl0 LzP E12 E13 last qP' qL' qR' llast vl vr) as [-> ->]; auto.
      exists llast. split; [exact Hlast|]. cbv zeta. exists sp. split; [exact E3|]. rewrite PL', PR', PP'.
      destruct (statics_ok llast q Hwf Lq) as (st & Est & Lst & Sst).
      rewrite (evaluateStaticTables_ok llast q st qL' qR' Hwf Lq Est LL' LR') in E8. injection E8 as <-.
      destruct (tv_layer m k b c inputs a Hlayers Hfits Hin Ha last llast Hlast) as [HT LT].
      destruct (layer_right llast st (fun o => chi (to_bits (lBGOutputs llast) o) q) qP (TV llast last) (mle out (q ++ qP)) sp (m + k) qP' qL' qR' tot)
        as [Lsp HR]; auto using weights_static.
      - intros tab Ht. apply (In_nth _ _ []) in Ht. destruct Ht as (i & Hi & <-). apply Sst. lia.
      - intros Hcol. apply (Hno last). exists llast. split; [exact Hlast|]. cbv zeta. left. unfold run_poly_from.
        rewrite Hlen, Nat.eqb_refl, (nth_error_nth _ _ [] E3). exact Hcol.
      - split; [exact Lsp|]. split; [|split; assumption]. unfold run_poly_from. rewrite Hlen, Nat.eqb_refl. exact HR.
    Qed.
  End Circ.
End L.
