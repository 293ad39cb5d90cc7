(** The GKR gadget on any circuit of 91 layers (lemmas for PGadget.v). *)
From Coq Require Import List Arith Lia Bool Ring Field.
From Verif Require Import Field Go MCommon Spec LSpec LCommon MPoly LPoly LPoly2 LPoly3 MHash SpecHash LHash MCircuit SpecCircuit LCircuit LCircuit2 LCircuit3
  MSumcheck LSumcheck SpecSumcheck LSumcheck4 MSumPar MGkr SpecGkr LGkr LGkr2 LGkr3 LHash2 LHash3 MSnark SpecSnark LSnark LSnark2 LSnark3 LSnark4 LSnark5 LSnark6 LSnark7 LSnark8
  SpecProof MRepair SpecRepair LRepair LRepair2 MGadget SpecGadget LGadget.
Import ListNotations.

Section L.
  Context {F : Field}.
  Add Field FfieldGadget2 : (f_theory F).
  Open Scope F_scope.

  Lemma glued_one b m (t : list F) : length t = (2 ^ b * 2 ^ m)%nat -> glued b m [t] = t.
  Proof. intros H. unfold glued. apply LPoly3.interleave_one. rewrite Nat.pow_add_r. exact H. Qed.

  Lemma verify_accepted' (ch : list F -> F) m k b (c : list (Layer F)) pf inputs outputs llast : fits b c -> chunked k m b inputs ->
    c <> [] -> (0 < k)%nat -> nth_error c (length c - 1) = Some llast -> chunked k m (lBGOutputs llast) outputs ->
    GkrVerifyWith ch false (m + k) c pf inputs outputs = Some true ->
    accepted ch false c (m + k) pf (count (lBGOutputs llast)) (count (m + k)) (glued (lBGOutputs llast) m outputs) (glued b m inputs).
  Proof.
    intros Hfits Hin Hc Hk Hlast Hout HV.
    apply GkrVerify_inv in HV; [|exact Hc|reflexivity].
    destruct HV as (l & claim & sp & qP' & qL' & qR' & tot & vl & vr & sts & zP & zL & zR & al & ar &
      E1 & E2 & E3 & E4 & E5 & E6 & E7 & E8 & E9 & E10 & E11 & E12 & E13).
    rewrite Hlast in E1. injection E1 as <-.
    assert (Lq : forall n, length (count (F:=F) n) = n) by (intros n; unfold count; rewrite map_length, seq_length; reflexivity).
    destruct Hout as [O1 O2].
    destruct (evaluate_chunked_spec F outputs (count (lBGOutputs llast) ++ count (m + k)) k (lBGOutputs llast + m) Hk O1) as [_ EC].
    { intros t Ht. rewrite Nat.pow_add_r. auto. } { rewrite app_length, !Lq. lia. }
    rewrite EC in E2.
    destruct (nth_error c 0) as [l0|] eqn:Hl0; [|apply nth_error_None in Hl0; destruct c; [congruence|cbn in Hl0; lia]].
    assert (Hb0 : lBGInputs l0 = b) by (destruct c; [discriminate|]; injection Hl0 as ->; exact (proj1 Hfits)).
    pose proof (verifyLayers_grow _ _ _ _ _ _ _ _ _ _ _ _ E10) as Hgrow.
    pose proof E4 as HVer. apply Verify_accept in HVer. destruct HVer as (_ & LL' & LR' & Em).
    destruct (layers_lengths ch m k c pf l0 Hl0 _ _ _ _ _ _ _ _ E10 Hlast LL' LR') as [LzL LzR].
    rewrite Hb0 in LzL, LzR.
    assert (LzP : length zP = (m + k)%nat).
    { destruct (le_lt_dec (length zP) (m + k)) as [|Hlt]; [lia|].
      rewrite (mixed_long inputs k m b zP zL zR Hk Hin LzL Hlt) in E11. discriminate. }
    destruct Hin as [I1 I2].
    destruct (evaluate_mixed_chunked_spec F inputs zP zL zR k m b Hk I1) as [_ EM]; auto.
    { intros t Ht. rewrite Nat.pow_add_r. auto. }
    rewrite EM in E11. injection E11 as <- <-.
    exists llast, sp, qP', qL', qR', tot, vl, vr, sts, zP, zL, zR.
    assert (Ec : claim = mle (glued (lBGOutputs llast) m outputs) (count (lBGOutputs llast) ++ count (m + k))) by (unfold glued; congruence).
    rewrite <- Ec, !Lq. unfold glued at 1. rewrite interleave_length, I1, <- Nat.pow_add_r.
    repeat (split; [first [assumption|congruence|f_equal; lia]|]). assumption.
  Qed.

  Section Circuit.
    Variable arks : list F.
    Hypothesis HA : (91 <= length arks)%nat.
    Variable sc : list (SLayer F).
    Variable c : list (Layer F).
    Variable b : nat.
    Variable l : Layer F.
    Hypothesis Hdesc : Forall2 describes sc c.
    Hypothesis Hwf : forall l, In l c -> wf_layer l.
    Hypothesis Hfits : fits b c.
    Hypothesis Hlen : length c = 91%nat.
    Hypothesis Hl : nth_error c 90 = Some l.

    Lemma c_ne : c <> [].
    Proof. intros H. rewrite H in Hlen. discriminate. Qed.
    Lemma c_last : nth_error c (length c - 1) = Some l.
    Proof. rewrite Hlen. exact Hl. Qed.

    Variable bN : nat.
    Variable p : SProof nat.
    Variable cs : CS F.
    Variables qI qPI vIn vOut : list nat.

    Notation gadget_inputs := (gadget_vars sc b l bN p cs qI qPI vIn vOut).

    Lemma any_accepted : gadget_inputs -> exists cs', SGkrAssertValid arks p sc qI qPI vIn vOut cs = Some (tt, cs') /\
      imposes cs cs' (fun w => accepted (challenge arks) false c bN (read_proof w p) (map w qI) (map w qPI) (map w vOut) (map w vIn)).
    Proof.
      intros (HO & Hp & HV & L1 & L2 & L3 & L4).
      apply (gadget_accepted arks sc c bN b p cs l qI qPI vIn vOut HA Hdesc Hwf Hfits Hlen Hl HO Hp HV L1 L2 L4 L3).
    Qed.

    (** The native verifier without the early [return true]. *)
    Lemma any_native : gadget_inputs -> exists cs', SGkrAssertValid arks p sc qI qPI vIn vOut cs = Some (tt, cs') /\ cs_ok cs' /\ grows cs cs' /\
      forall m k inputs outputs w, bN = (m + k)%nat -> (0 < k)%nat -> chunked k m b inputs -> chunked k m (lBGOutputs l) outputs ->
        gates_ok w cs' -> map w qI = count (lBGOutputs l) -> map w qPI = count bN -> map w vIn = glued b m inputs -> map w vOut = glued (lBGOutputs l) m outputs ->
        (asserts_ok w cs' <-> asserts_ok w cs /\ GkrVerifyWith (challenge arks) false bN c (read_proof w p) inputs outputs = Some true).
    Proof.
      intros HG. destruct (any_accepted HG) as (cs' & E & HO' & HGr & HI). exists cs'. split; [exact E|]. split; [exact HO'|]. split; [exact HGr|].
      intros m k inputs outputs w -> Hk Hi Ho Hw EI Eq Ein Eout. rewrite (HI w Hw), EI, Eq, Ein, Eout.
      split; intros [H1 H2]; (split; [exact H1|]).
      - apply (accepted_verify (challenge arks) false m k b c l _ inputs outputs Hk c_ne c_last Hi Ho H2).
      - exact (verify_accepted' (challenge arks) m k b c _ inputs outputs l Hfits Hi c_ne Hk c_last Ho H2).
    Qed.

    Hypothesis Hdeg : Forall2 degrees_fit sc c.

    Lemma any_shape w : proof_vars cs bN sc p -> exact_shape c bN (read_proof w p).
    Proof.
      intros Hp. destruct (shape_lengths bN sc c p cs Hdesc Hp) as (S1 & S2 & S3). unfold exact_shape, read_proof. cbn [SumcheckProofs ClaimsLeft ClaimsRight].
      rewrite !map_length. split; [exact S3|]. split; [exact S1|]. split; [exact S2|].
      intros j l' Hj. destruct Hp as (_ & HS & _ & _).
      assert (Hjc : (j < length c)%nat) by (apply nth_error_Some; congruence).
      destruct (nth_error sc j) as [sl|] eqn:Esl.
      2:{ apply nth_error_None in Esl. rewrite (Forall2_len _ _ _ Hdesc) in Esl. lia. }
      destruct (Forall2_nth _ _ _ _ _ Hdesc Esl) as (l2 & El2 & Hd). rewrite Hj in El2. injection El2 as <-.
      destruct (Forall2_nth _ _ _ _ _ Hdeg Esl) as (l2 & El2 & D1 & D2 & D3). rewrite Hj in El2. injection El2 as <-.
      rewrite (nth_map_lt _ _ _ _ []) by lia. rewrite map_map. rewrite (map_ext (fun x => length (map w x)) (@length nat)) by (intros x; apply map_length).
      apply (f_equal (fun l => nth j l [])) in HS. rewrite (nth_map_lt _ _ _ _ []) in HS by lia. rewrite HS.
      unfold SAllocateProof. cbn [sSumchecks]. rewrite map_map, (nth_error_nth (map _ sc) j [] (map_nth_error _ _ _ Esl)).
      rewrite (alloc_lengths bN l' sl Hd), D1, D2, D3. unfold coefficients. rewrite <- !Nat.add_assoc. reflexivity.
    Qed.

    (** The repaired verifier, at any initial point, on any chunks. *)
    Lemma any_repaired : gadget_inputs -> exists cs', SGkrAssertValid arks p sc qI qPI vIn vOut cs = Some (tt, cs') /\ cs_ok cs' /\ grows cs cs' /\
      forall m k inputs outputs w, bN = (m + k)%nat -> chunked k m b inputs -> chunked k m (lBGOutputs l) outputs ->
        gates_ok w cs' -> map w vIn = glued b m inputs -> map w vOut = glued (lBGOutputs l) m outputs ->
        (asserts_ok w cs' <-> asserts_ok w cs /\ RGkrVerify (challenge arks) (map w qPI) (map w qI) bN c (read_proof w p) inputs outputs = Some true).
    Proof.
      intros HG. destruct (any_accepted HG) as (cs' & E & HO' & HGr & HI). exists cs'. split; [exact E|]. split; [exact HO'|]. split; [exact HGr|].
      destruct HG as (HO & Hp & HV & L1 & L2 & L3 & L4).
      intros m k inputs outputs w EbN Hi Ho Hw Ein Eout. rewrite (HI w Hw), Ein, Eout. rewrite EbN.
      destruct (rverify_iff (challenge arks) m k b c l (read_proof w p) inputs outputs (map w qI) (map w qPI) Hwf Hfits c_last Hi Ho) as (v & -> & Hv);
        [rewrite map_length; exact L1|rewrite map_length; lia|].
      split; intros [H1 H2]; (split; [exact H1|]).
      - f_equal. apply Hv. split; [|exact H2]. rewrite <- EbN. apply any_shape. exact Hp.
      - injection H2 as ->. apply Hv. reflexivity.
    Qed.
  End Circuit.

  (** Soundness. *)
  Lemma any_sound (arks : list F) sc c b l bN p (cs : CS F) qI qPI vIn vOut : (91 <= length arks)%nat ->
    Forall2 describes sc c -> (forall l, In l c -> wf_layer l /\ gates_once l) -> fits b c -> length c = 91%nat -> nth_error c 90 = Some l ->
    gadget_vars sc b l bN p cs qI qPI vIn vOut ->
    exists cs', SGkrAssertValid arks p sc qI qPI vIn vOut cs = Some (tt, cs') /\
      forall w, satisfied w cs' ->
      exists a, RAssign c [map w vIn] = Some a /\ assignment_of c (2 ^ bN) [map w vIn] a /\
        (mle (map w vOut) (map w (qI ++ qPI)) = mle (nth 0 (nth 91 a []) []) (map w (qI ++ qPI)) \/
         exists j, collision_from (challenge arks) (read_proof w p) c bN 0 a (map w qI) (map w qPI) j).
  Proof.
    intros HA Hdesc Hlay Hfits Hlen Hl HG.
    assert (Hwf : forall l, In l c -> wf_layer l) by (intros x Hx; apply Hlay; exact Hx).
    destruct (any_accepted arks HA sc c b l Hdesc Hwf Hfits Hlen Hl bN p cs qI qPI vIn vOut HG) as (cs' & E & HO' & HGr & HI).
    exists cs'. split; [exact E|]. intros w [Hw1 Hw2]. apply (HI w Hw1) in Hw2. destruct Hw2 as [_ Hacc].
    destruct HG as (HO & Hp & HV & L1 & L2 & L3 & L4).
    assert (Hch : chunked 0 bN b [map w vIn]).
    { split; [reflexivity|]. intros t [<-|[]]. rewrite map_length, L3. apply Nat.pow_add_r. }
    destruct (rassign_ok c b (2 ^ bN) [map w vIn] Hwf Hfits (proj2 Hch)) as (a & EA & Ha).
    exists a. split; [exact EA|]. split; [exact Ha|].
    pose proof Ha as (A1 & A2 & A3). destruct (A3 90%nat l Hl) as [A4 A5].
    assert (A6 : length (nth 91 a []) = 1%nat) by (rewrite A4; reflexivity).
    assert (Eout : glued (lBGOutputs l) bN (nth 91 a []) = nth 0 (nth 91 a []) []).
    { destruct (nth 91 a []) as [|t [|t' r]] eqn:Ea; cbn [length] in A6; try lia.
      apply glued_one. pose proof (proj1 (A5 0%nat Nat.lt_0_1)) as HL. exact HL. }
    rewrite !map_app.
    destruct (f_eq_dec (mle (map w vOut) (map w qI ++ map w qPI)) (mle (nth 0 (nth 91 a []) []) (map w qI ++ map w qPI))) as [Eq|Ne]; [left; exact Eq|right].
    assert (HL : nth_error c (length c - 1) = Some l) by (rewrite Hlen; exact Hl).
    refine (gkr_sound_from (challenge arks) bN 0 b c [map w vIn] a (read_proof w p) Hlay Hfits Hch Ha l (map w qI) (map w qPI) (map w vOut) _ HL _ _ _ _).
    - intros H. rewrite H in Hlen. discriminate.
    - rewrite map_length. exact L1.
    - rewrite map_length. lia.
    - rewrite Nat.add_0_r, glued_one by (apply (proj2 Hch); left; reflexivity). exact Hacc.
    - rewrite Hlen, Eout. exact Ne.
  Qed.

  (** Completeness. *)
  Lemma any_pshape sc c m k (pf : Proof F) : Forall2 describes sc c -> Forall2 degrees_fit sc c -> plen c pf -> pshape m k c 0 pf ->
    same_lengths (SumcheckProofs pf) (sSumchecks (SAllocateProof (F:=F) (m + k) sc)).
  Proof.
    intros Hdesc Hdeg (P1 & _ & _) HS. unfold same_lengths, SAllocateProof. cbn [sSumchecks].
    pose proof (Forall2_len _ _ _ Hdesc) as LS.
    apply (list_ext []); [rewrite !map_length; rewrite P1, LS; reflexivity|].
    intros i Hi. rewrite map_length, P1 in Hi.
    rewrite (nth_map_lt _ _ _ _ []) by (rewrite P1; exact Hi).
    destruct (nth_error c i) as [l|] eqn:El; [|apply nth_error_None in El; lia].
    rewrite (HS i l ltac:(lia) El). rewrite map_map.
    destruct (nth_error sc i) as [sl|] eqn:Esl; [|apply nth_error_None in Esl; lia].
    rewrite (nth_error_nth (map _ sc) i [] (map_nth_error _ _ _ Esl)).
    destruct (Forall2_nth _ _ _ _ _ Hdesc Esl) as (l2 & El2 & Hd). rewrite El in El2. injection El2 as <-.
    destruct (Forall2_nth _ _ _ _ _ Hdeg Esl) as (l2 & El2 & D1 & D2 & D3). rewrite El in El2. injection El2 as <-.
    rewrite (alloc_lengths _ l sl Hd), D1, D2, D3. rewrite <- !Nat.add_assoc. reflexivity.
  Qed.

  Lemma read_filled w p (pf : Proof F) :
    map (map (map (fun v => Some (w v)))) (sSumchecks p) = sSumchecks (filled pf) ->
    map (fun v => Some (w v)) (sLeft p) = sLeft (filled pf) -> map (fun v => Some (w v)) (sRight p) = sRight (filled pf) -> read_proof w p = pf.
  Proof.
    intros E1 E2 E3. unfold filled in E1, E2, E3. cbn [sSumchecks sLeft sRight] in E1, E2, E3. apply map_some_inj in E2. apply map_some_inj in E3.
    assert (E1' : map (map (map w)) (sSumchecks p) = SumcheckProofs pf).
    { revert E1. generalize (sSumchecks p) as x. generalize (SumcheckProofs pf) as y. clear.
      intros y x. revert y. induction x as [|x0 x IH]; intros [|y0 y] E; cbn in *; try discriminate; [reflexivity|].
      injection E as E0 E. f_equal; [|auto]. clear - E0. revert y0 E0. induction x0 as [|x1 x0 IH]; intros [|y1 y0] E; cbn in *; try discriminate; [reflexivity|].
      injection E as E0 E. f_equal; [|auto]. apply map_some_inj. exact E0. }
    unfold read_proof. rewrite E1', E2, E3. destruct pf; reflexivity.
  Qed.

  Lemma any_complete (arks : list F) sc c b l nCore mtProve m k inputs a : (91 <= length arks)%nat ->
    Forall2 describes sc c -> Forall2 degrees_fit sc c -> (forall l, In l c -> layer_ok l) -> fits b c -> length c = 91%nat -> nth_error c 90 = Some l ->
    distinct_upto (F:=F) 12 -> (0 < nCore)%nat -> follows_machine (challenge arks) nCore mtProve ->
    chunked k m b inputs -> assignment_of c (2 ^ m) inputs a ->
    exists pf sp,
      GkrProve (challenge arks) mtProve c a nCore = Some pf /\ SAssign (SAllocateProof (m + k) sc) pf = Some sp /\
      forall p (cs : CS F) qI qPI vIn vOut w, gadget_vars sc b l (m + k) p cs qI qPI vIn vOut -> satisfied w cs ->
        map (map (map (fun v => Some (w v)))) (sSumchecks p) = sSumchecks sp ->
        map (fun v => Some (w v)) (sLeft p) = sLeft sp -> map (fun v => Some (w v)) (sRight p) = sRight sp ->
        map w vIn = glued b m inputs -> map w vOut = glued (lBGOutputs l) m (nth 91 a []) ->
        map w qI = count (lBGOutputs l) -> map w qPI = count (m + k) ->
        exists cs' w', SGkrAssertValid arks p sc qI qPI vIn vOut cs = Some (tt, cs') /\ agree_below (nbWires cs) w w' /\ satisfied w' cs'.
  Proof.
    intros HA Hdesc Hdeg Hlay Hfits Hlen Hl Hd Hc Hmt [I1 I2] Ha.
    assert (Hwf : forall l, In l c -> wf_layer l) by (intros x Hx; apply (Hlay x Hx)).
    assert (HL : nth_error c (length c - 1) = Some l) by (rewrite Hlen; exact Hl).
    assert (Hne : c <> []) by (intros H; rewrite H in Hlen; discriminate).
    destruct (gkr_complete_from (challenge arks) nCore mtProve Hd Hc Hmt m k c b inputs a Hlay Hfits I2 I1 Ha Hne l HL) as (pf & EP & P1 & P2 & Hacc).
    specialize (Hacc false). rewrite Hlen in Hacc.
    pose proof (Forall2_len _ _ _ Hdesc) as LS. pose proof P1 as (Q1 & Q2 & Q3).
    exists pf, (filled pf). split; [exact EP|]. split; [apply SAssign_ok; [apply (any_pshape sc c); assumption|rewrite LS; exact Q2|rewrite LS; exact Q3]|].
    intros p cs qI qPI vIn vOut w HG [Hg Has] E1 E2 E3 E4 E5 E6 E7.
    pose proof (read_filled w p pf E1 E2 E3) as Er.
    pose proof HG as (HO & Hp & HV & L1 & L2 & L3 & L4).
    destruct (any_accepted arks HA sc c b l Hdesc Hwf Hfits Hlen Hl (m + k) p cs qI qPI vIn vOut HG) as (cs' & E & HO' & HGr & HI).
    pose proof HGr as (_ & _ & _ & HX & _). destruct (HX w Hg) as (w' & Hag & Hg').
    exists cs', w'. split; [exact E|]. split; [exact Hag|]. split; [exact Hg'|]. apply (HI w' Hg').
    split; [apply (asserts_ext cs w w' HO Hag); exact Has|].
    assert (Hm : forall l, vars cs l -> map w' l = map w l).
    { intros l' Hl'. apply map_ext_in. intros v Hv. symmetry. apply Hag, Hl', Hv. }
    rewrite !vars_app in HV. destruct HV as (V1 & V2 & V3 & V4). rewrite (Hm qI V1), (Hm qPI V2), (Hm vIn V3), (Hm vOut V4), E4, E5, E6, E7.
    assert (Er' : read_proof w' p = pf).
    { rewrite <- Er. unfold read_proof. destruct Hp as (HV & _). rewrite !vars_app in HV. destruct HV as (W1 & W2 & W3). rewrite (Hm _ W2), (Hm _ W3).
      f_equal. apply map_ext_in. intros x Hx. apply map_ext_in. intros y Hy. apply Hm. intros v Hv. apply W1.
      apply in_concat. exists y. split; [apply in_concat; exists x; auto|exact Hv]. }
    rewrite Er'. exact Hacc.
  Qed.
End L.
