(** GKR for MiMC in the constraint system: completeness, soundness, agreement with the native verifier. *)
From Coq Require Import List Arith Lia Bool Ring Field.
From Verif Require Import Field Go MCommon Spec LSpec LCommon MPoly LPoly LPoly2 LPoly3 MHash SpecHash LHash MCircuit SpecCircuit LCircuit LCircuit2 LCircuit3
  MSumcheck LSumcheck SpecSumcheck LSumcheck4 MSumPar MGkr SpecGkr LGkr LGkr2 LGkr3 LHash2 LHash3 MSnark SpecSnark LSnark LSnark2 LSnark3 LSnark4 LSnark5 LSnark6 LSnark7.
Import ListNotations.

Section L.
  Context {F : Field}.
  Add Field FfieldSnark8 : (f_theory F).
  Open Scope F_scope.

  Lemma vars_app (cs : CS F) l l' : vars cs (l ++ l') <-> vars cs l /\ vars cs l'.
  Proof.
    unfold vars. split.
    - intros H. split; intros v Hv; apply H, in_app_iff; auto.
    - intros [H1 H2] v Hv. apply in_app_iff in Hv. destruct Hv; auto.
  Qed.
  Lemma vars_concat (cs : CS F) ls : vars cs (concat ls) <-> Forall (vars cs) ls.
  Proof.
    induction ls as [|l ls IH]; cbn [concat]; [split; [constructor|intros _ v []]|].
    rewrite vars_app, IH. split; [intros [H1 H2]; constructor; auto|intros H; inversion H; auto].
  Qed.

  Lemma map_len_in {A B} (l : list (list A)) (l' : list (list B)) : map (@length _) l = map (@length _) l' -> In [] l -> In [] l'.
  Proof.
    revert l'. induction l as [|x l IH]; intros [|y l'] E H; cbn in E; try discriminate; [destruct H|].
    injection E as E1 E2. destruct H as [->|H]; [left; destruct y; [reflexivity|discriminate]|right; auto].
  Qed.

  Lemma map_repeat' {A B} (f : A -> B) x n : map f (repeat x n) = repeat (f x) n.
  Proof. induction n as [|n IH]; cbn [repeat map]; [reflexivity|]. rewrite IH. reflexivity. Qed.

  Section Shape.
    Variable bN : nat.
    Variable sc : list (SLayer F).
    Variable c : list (Layer F).
    Variable p : SProof nat.
    Variable cs : CS F.
    Hypothesis Hdesc : Forall2 describes sc c.
    Hypothesis Hp : proof_vars cs bN sc p.

    Lemma shape_lengths : length (sLeft p) = length c /\ length (sRight p) = length c /\ length (sSumchecks p) = length c.
    Proof.
      destruct Hp as (_ & HS & HL & HR). rewrite <- (Forall2_len _ _ _ Hdesc). split; [exact HL|]. split; [exact HR|].
      apply (f_equal (@length _)) in HS. unfold SAllocateProof in HS. cbn [sSumchecks] in HS. rewrite !map_length in HS. exact HS.
    Qed.
    Lemma alloc_lengths (l : Layer F) (sl : SLayer F) : describes sl l -> map (@length _) (SAllocateSumcheck (F:=F) bN (sBG sl) (sDegHL sl) (sDegHR sl) (sDegHPrime sl)) =
      repeat (sDegHL sl + 1)%nat (lBGInputs l) ++ repeat (sDegHR sl + 1)%nat (lBGInputs l) ++ repeat (sDegHPrime sl + 1)%nat bN.
    Proof.
      intros (<- & _). unfold SAllocateSumcheck. rewrite !map_app, !map_repeat', !repeat_length. reflexivity.
    Qed.
    Lemma shape_polys j l sp : nth_error c j = Some l -> nth_error (sSumchecks p) j = Some sp ->
      length sp = (2 * lBGInputs l + bN)%nat /\ ~ In [] sp.
    Proof.
      intros El Esp. destruct Hp as (_ & HS & _ & _).
      destruct (nth_error sc j) as [sl|] eqn:Esl.
      2:{ apply nth_error_None in Esl. rewrite (Forall2_len _ _ _ Hdesc) in Esl. apply nth_error_None in Esl. congruence. }
      destruct (Forall2_nth _ _ _ _ _ Hdesc Esl) as (l2 & El2 & Hd). rewrite El in El2. injection El2 as <-.
      apply (f_equal (fun l => nth_error l j)) in HS. rewrite (map_nth_error _ _ _ Esp) in HS.
      unfold SAllocateProof in HS. cbn [sSumchecks] in HS. rewrite map_map, (map_nth_error _ _ _ Esl) in HS. injection HS as HS.
      pose proof (alloc_lengths l sl Hd) as HA. split.
      - apply (f_equal (@length _)) in HS. rewrite map_length in HS. rewrite HS, HA, !app_length, !repeat_length. lia.
      - intros HI. apply (map_len_in _ _ HS) in HI. unfold SAllocateSumcheck in HI. rewrite !in_app_iff in HI.
        rewrite !Nat.add_1_r in HI. destruct HI as [H|[H|H]]; apply repeat_spec in H; discriminate.
    Qed.
    Lemma shape_pvars : pvars p cs.
    Proof.
      destruct Hp as (HV & _). rewrite !vars_app in HV. destruct HV as (H1 & H2 & H3). split; [exact H2|]. split; [exact H3|].
      intros sp Hsp. rewrite vars_concat in H1. rewrite Forall_forall in H1. rewrite Forall_forall. intros l Hl. apply H1.
      apply in_concat. exists sp. auto.
    Qed.
  End Shape.

  (** ** The gadget on any circuit of 91 layers *)
  Lemma gadget_accepted (Arks : list F) sc c bN b p (cs : CS F) l qI qPI vIn vOut : (91 <= length Arks)%nat ->
    Forall2 describes sc c -> (forall l, In l c -> wf_layer l) -> fits b c -> length c = 91%nat -> nth_error c 90 = Some l ->
    cs_ok cs -> proof_vars cs bN sc p -> vars cs (qI ++ qPI ++ vIn ++ vOut) ->
    length qI = lBGOutputs l -> length qPI = bN -> length vOut = (2 ^ (lBGOutputs l + bN))%nat -> length vIn = (2 ^ (b + bN))%nat ->
    exists cs', SGkrAssertValid Arks p sc qI qPI vIn vOut cs = Some (tt, cs') /\
      imposes cs cs' (fun w => accepted (challenge Arks) false c bN (read_proof w p) (map w qI) (map w qPI) (map w vOut) (map w vIn)).
  Proof.
    intros HA HD Hwf Hf HL El HO Hp HV L1 L2 L3 L4. rewrite !vars_app in HV. destruct HV as (V1 & V2 & V3 & V4).
    destruct (shape_lengths bN sc c p cs HD Hp) as (S1 & S2 & S3).
    exact (SGkr_ok Arks HA sc c bN p HD Hwf b Hf S1 S2 S3 (shape_polys bN sc c p cs HD Hp) cs l qI qPI vIn vOut HL El HO
      (shape_pvars bN sc p cs Hp) V1 V2 V3 V4 L1 L2 L3 L4).
  Qed.

  (** ** MiMC *)
  Section Mimc.
    Variable arks : list F.
    Hypothesis HA : (91 <= length arks)%nat.
    Notation C := (mimc_layers (firstn 90 arks) (nth 90 arks 0)).
    Notation SC := (smimc (firstn 90 arks) (nth 90 arks 0)).

    Lemma mimc_len : length C = 91%nat.
    Proof. unfold mimc_layers. rewrite app_length, map_length, firstn_length. cbn [length]. lia. Qed.
    Lemma mimc_ne : C <> [].
    Proof. intros H. pose proof mimc_len as HL. rewrite H in HL. discriminate. Qed.
    Lemma mimc_last_nth : nth_error C 90 = Some (mimc_last (nth 90 arks 0)).
    Proof.
      assert (L90 : length (firstn 90 arks) = 90%nat) by (rewrite firstn_length; lia).
      unfold mimc_layers. rewrite nth_error_app2 by (rewrite map_length; lia). rewrite map_length, L90. reflexivity.
    Qed.
    Lemma mimc_last_nth' : nth_error C (length C - 1) = Some (mimc_last (nth 90 arks 0)).
    Proof. rewrite mimc_len. exact mimc_last_nth. Qed.
    Lemma mimc_wf l : In l C -> wf_layer l.
    Proof. intros H. apply (mimc_layer_ok _ _ l H). Qed.
    Lemma last_out : lBGOutputs (mimc_last (nth 90 arks 0)) = 0%nat.
    Proof. reflexivity. Qed.

    Lemma mimc_gadget bN p (cs : CS F) qPI vIn vOut : cs_ok cs -> proof_vars cs bN SC p -> vars cs (qPI ++ vIn ++ vOut) ->
      length qPI = bN -> length vIn = (2 * 2 ^ bN)%nat -> length vOut = (2 ^ bN)%nat ->
      exists cs', SGkrAssertValid arks p SC [] qPI vIn vOut cs = Some (tt, cs') /\
        imposes cs cs' (fun w => accepted (challenge arks) false C bN (read_proof w p) [] (map w qPI) (map w vOut) (map w vIn)).
    Proof.
      intros HO Hp HV L1 L2 L3.
      apply (gadget_accepted arks SC C bN 1 p cs _ [] qPI vIn vOut HA (smimc_describes _ _) mimc_wf (mimc_fits _ _) mimc_len mimc_last_nth HO Hp HV);
        auto.
    Qed.

    Lemma mimc_assign bN inputs k m : bN = (m + k)%nat -> chunked k m 1 inputs -> exists a, Assign C inputs = Some a /\ assignment_of C (2 ^ m) inputs a /\
      chunked k m 0 (nth 91 a []).
    Proof.
      intros E [H1 H2]. destruct (assign_ok C 1 (2 ^ m) inputs) as (a & EA & Ha); auto using mimc_wf, mimc_fits, mimc_right.
      exists a. split; [exact EA|]. split; [exact Ha|].
      destruct Ha as (_ & _ & A3). destruct (A3 90%nat _ mimc_last_nth) as [A4 A5]. split; [rewrite A4; exact H1|].
      intros t Ht. apply (In_nth _ _ []) in Ht. destruct Ht as (i & Hi & <-). rewrite A4 in Hi. apply (A5 i Hi).
    Qed.

    (** The gadget accepts what the native verifier without the early [return true] accepts. *)
    Lemma mimc_gadget_native bN p (cs : CS F) qPI vIn vOut : cs_ok cs -> proof_vars cs bN SC p -> vars cs (qPI ++ vIn ++ vOut) ->
      length qPI = bN -> length vIn = (2 * 2 ^ bN)%nat -> length vOut = (2 ^ bN)%nat ->
      exists cs', SGkrAssertValid arks p SC [] qPI vIn vOut cs = Some (tt, cs') /\ cs_ok cs' /\ grows cs cs' /\
        forall m k inputs outputs w, bN = (m + k)%nat -> (0 < k)%nat -> chunked k m 1 inputs -> chunked k m 0 outputs ->
          gates_ok w cs' -> map w qPI = count bN -> map w vIn = glued 1 m inputs -> map w vOut = glued 0 m outputs ->
          (asserts_ok w cs' <-> asserts_ok w cs /\
             GkrVerifyWith (challenge arks) false bN C (read_proof w p) inputs outputs = Some true).
    Proof.
      intros HO Hp HV L1 L2 L3. destruct (mimc_gadget bN p cs qPI vIn vOut HO Hp HV L1 L2 L3) as (cs' & E & HO' & HG & HI).
      exists cs'. split; [exact E|]. split; [exact HO'|]. split; [exact HG|].
      intros m k inputs outputs w -> Hk Hi Ho Hw Eq Ein Eout. rewrite (HI w Hw), Eq, Ein, Eout.
      destruct (mimc_assign (m + k) inputs k m eq_refl Hi) as (a & _ & Ha & _).
      pose proof mimc_last_nth' as HL.
      split; intros [H1 H2]; (split; [exact H1|]).
      - apply (accepted_verify (challenge arks) false m k 1 C _ _ inputs outputs Hk mimc_ne HL Hi Ho). exact H2.
      - refine (verify_accepted (challenge arks) m k 1 C inputs a _ _ (mimc_fits _ _) Hi Ha outputs _ mimc_ne Hk HL Ho H2).
        intros l Hl. destruct (mimc_layer_ok _ _ l Hl) as (X1 & X2 & _). auto.
    Qed.

    (** Soundness. *)
    Lemma mimc_gadget_sound bN p (cs : CS F) qPI vIn vOut : cs_ok cs -> proof_vars cs bN SC p -> vars cs (qPI ++ vIn ++ vOut) ->
      length qPI = bN -> length vIn = (2 * 2 ^ bN)%nat -> length vOut = (2 ^ bN)%nat ->
      exists cs', SGkrAssertValid arks p SC [] qPI vIn vOut cs = Some (tt, cs') /\
        forall w, satisfied w cs' ->
        exists a, Assign C [map w vIn] = Some a /\
          let outs := nth 0 (nth 91 a []) [] in
          length outs = (2 ^ bN)%nat /\
          (forall h, (h < 2 ^ bN)%nat ->
             let x := w (nth h vIn 0%nat) in let k := w (nth (2 ^ bN + h) vIn 0%nat) in
             exists y, MimcPermutation arks (x - k) k = Some y /\ nth h outs 0 = y + k) /\
          (mle (map w vOut) (map w qPI) = mle outs (map w qPI) \/
           exists j, collision_from (challenge arks) (read_proof w p) C bN 0 a [] (map w qPI) j).
    Proof.
      intros HO Hp HV L1 L2 L3. destruct (mimc_gadget bN p cs qPI vIn vOut HO Hp HV L1 L2 L3) as (cs' & E & HO' & HG & HI).
      exists cs'. split; [exact E|]. intros w [Hw1 Hw2]. apply (HI w Hw1) in Hw2. destruct Hw2 as [_ Hacc].
      assert (Hch : chunked 0 bN 1 [map w vIn]).
      { split; [reflexivity|]. intros t [<-|[]]. rewrite map_length, L2. reflexivity. }
      destruct (mimc_assign bN [map w vIn] 0 bN ltac:(lia) Hch) as (a & EA & Ha & [O1 O2]). exists a. split; [exact EA|]. cbv zeta.
      pose proof (mimc_assignment _ _ (2 ^ bN) [map w vIn] a Ha 0 Nat.lt_0_1) as HM. cbv zeta in HM.
      assert (L90 : length (firstn 90 arks) = 90%nat) by (rewrite firstn_length; lia). rewrite L90, firstn_91 in HM by exact HA.
      change (nth 0 [map w vIn] []) with (map w vIn) in HM. destruct HM as [M1 M2]. split; [exact M1|]. split.
      { intros h Hh. eexists. split; [apply MimcPermutation_ok; exact HA|].
        rewrite M2 by exact Hh. rewrite !(nth_map_lt w vIn _ 0 0%nat) by lia. reflexivity. }
      set (outs := nth 0 (nth 91 a []) []) in *.
      assert (Eout : glued 0 bN (nth 91 a []) = outs).
      { unfold glued. destruct (nth 91 a []) as [|t [|t' r]] eqn:Ea; cbn [length] in O1; try (cbn in O1; lia).
        unfold outs. cbn [nth]. apply interleave_one. exact M1. }
      destruct (f_eq_dec (mle (map w vOut) (map w qPI)) (mle outs (map w qPI))) as [Eq|Ne]; [left; exact Eq|right].
      pose proof mimc_last_nth' as HL.
      refine (gkr_sound_from (challenge arks) bN 0 1 C [map w vIn] a (read_proof w p) _ (mimc_fits _ _) Hch Ha _ [] (map w qPI) (map w vOut) mimc_ne HL eq_refl _ _ _).
      - intros l Hl. destruct (mimc_layer_ok _ _ l Hl) as (X1 & X2 & _). auto.
      - rewrite map_length. lia.
      - rewrite Nat.add_0_r. unfold glued. rewrite interleave_one by (rewrite map_length, L2; reflexivity). exact Hacc.
      - rewrite mimc_len. change (lBGOutputs (mimc_last (nth 90 arks 0))) with 0%nat. rewrite Eout. exact Ne.
    Qed.

    (** Completeness. *)
    Lemma mimc_shape m k (pf : Proof F) : plen C pf -> pshape m k C 0 pf -> same_lengths (SumcheckProofs pf) (sSumchecks (SAllocateProof (F:=F) (m + k) SC)).
    Proof.
      intros (P1 & _ & _) HS. unfold same_lengths, SAllocateProof. cbn [sSumchecks].
      assert (LS : length SC = 91%nat) by (rewrite (Forall2_len _ _ _ (smimc_describes _ _)); apply mimc_len).
      apply (list_ext []); [rewrite !map_length; rewrite P1, mimc_len, LS; reflexivity|].
      intros i Hi. rewrite map_length, P1, mimc_len in Hi.
      rewrite (nth_map_lt _ _ _ _ []) by (rewrite P1, mimc_len; exact Hi).
      destruct (nth_error C i) as [l|] eqn:El; [|apply nth_error_None in El; rewrite mimc_len in El; lia].
      rewrite (HS i l ltac:(lia) El). rewrite map_map.
      destruct (nth_error SC i) as [sl|] eqn:Esl; [|apply nth_error_None in Esl; lia].
      rewrite (nth_error_nth (map _ SC) i [] (map_nth_error _ _ _ Esl)).
      destruct (Forall2_nth _ _ _ _ _ (smimc_describes _ _) Esl) as (l2 & El2 & Hd). rewrite El in El2. injection El2 as <-.
      rewrite (alloc_lengths _ l sl Hd).
      assert (Hs : sDegHL sl = 2%nat /\ sDegHR sl = 8%nat /\ sDegHPrime sl = 8%nat).
      { apply nth_error_In in Esl. unfold smimc in Esl. apply in_app_or in Esl. destruct Esl as [H|[<-|[]]]; [|auto].
        apply in_map_iff in H. destruct H as (x & <- & _). auto. }
      assert (Hl : maxHL (lGates l) = 1%nat /\ maxHR (lGates l) = 7%nat /\ maxHP (lGates l) = 7%nat).
      { apply nth_error_In in El. destruct (mimc_layer_cases _ _ l El) as [[a' ->]| ->]; vm_compute; auto. }
      destruct Hs as (-> & -> & ->). destruct Hl as (-> & -> & ->). reflexivity.
    Qed.

    Lemma map_some_inj {A B} (f : A -> B) l l' : map (fun v => Some (f v)) l = map Some l' -> map f l = l'.
    Proof.
      revert l'. induction l as [|x l IH]; intros [|y l'] E; cbn in *; try discriminate; [reflexivity|].
      injection E as -> E. f_equal. auto.
    Qed.

    Lemma mimc_gadget_complete nCore mtProve m k inputs : distinct_upto (F:=F) 12 -> (0 < nCore)%nat ->
      follows_machine (challenge arks) nCore mtProve -> chunked k m 1 inputs ->
      exists a pf sp si so,
        Assign C inputs = Some a /\ GkrProve (challenge arks) mtProve C a nCore = Some pf /\
        SAssign (SAllocateProof (m + k) SC) pf = Some sp /\
        SAssignFromChunkedBKT (SAllocateMultilinear (m + k + 1)) inputs = Some si /\
        SAssignFromChunkedBKT (SAllocateMultilinear (m + k)) (nth 91 a []) = Some so /\
        forall (cs : CS F) w p qPI vIn vOut, cs_ok cs -> satisfied w cs -> proof_vars cs (m + k) SC p -> vars cs (qPI ++ vIn ++ vOut) ->
          map (map (map (fun v => Some (w v)))) (sSumchecks p) = sSumchecks sp ->
          map (fun v => Some (w v)) (sLeft p) = sLeft sp -> map (fun v => Some (w v)) (sRight p) = sRight sp ->
          map (fun v => Some (w v)) vIn = si -> map (fun v => Some (w v)) vOut = so ->
          map w qPI = count (m + k) ->
          exists cs' w', SGkrAssertValid arks p SC [] qPI vIn vOut cs = Some (tt, cs') /\
            agree_below (nbWires cs) w w' /\ satisfied w' cs'.
    Proof.
      intros Hd Hc Hmt Hch. destruct (mimc_assign (m + k) inputs k m eq_refl Hch) as (a & EA & Ha & Hout).
      pose proof mimc_last_nth' as HL.
      pose proof Hch as [I1 I2].
      destruct (gkr_complete_from (challenge arks) nCore mtProve Hd Hc Hmt m k C 1 inputs a (mimc_layer_ok _ _) (mimc_fits _ _) I2 I1 Ha mimc_ne _ HL)
        as (pf & EP & P1 & P2 & Hacc). specialize (Hacc false). rewrite mimc_len in Hacc. change (lBGOutputs (mimc_last (nth 90 arks 0))) with 0%nat in Hacc.
      assert (LS : length SC = 91%nat) by (rewrite (Forall2_len _ _ _ (smimc_describes _ _)); apply mimc_len).
      pose proof P1 as (Q1 & Q2 & Q3). rewrite mimc_len in Q1, Q2, Q3.
      exists a, pf, (filled pf), (map Some (glued 1 m inputs)), (map Some (glued 0 m (nth 91 a []))).
      split; [exact EA|]. split; [exact EP|].
      split; [apply SAssign_ok; [apply mimc_shape; assumption|rewrite LS; exact Q2|rewrite LS; exact Q3]|].
      split.
      { apply SAssignFromChunked_ok; [rewrite I1, <- Nat.pow_add_r; f_equal; lia|]. intros v Hv. rewrite (I2 v Hv), <- Nat.pow_add_r. f_equal; lia. }
      split.
      { destruct Hout as [O1 O2]. apply SAssignFromChunked_ok; [rewrite O1, <- Nat.pow_add_r; f_equal; lia|]. intros v Hv. rewrite (O2 v Hv), <- Nat.pow_add_r. f_equal; lia. }
      intros cs w p qPI vIn vOut HO [Hg Has] Hp HV E1 E2 E3 E4 E5 E6.
      apply map_some_inj in E4. apply map_some_inj in E5. unfold filled in E1, E2, E3. cbn [sSumchecks sLeft sRight] in E1, E2, E3.
      apply map_some_inj in E2. apply map_some_inj in E3.
      assert (E1' : map (map (map w)) (sSumchecks p) = SumcheckProofs pf).
      { revert E1. generalize (sSumchecks p) as x. generalize (SumcheckProofs pf) as y. clear.
        intros y x. revert y. induction x as [|x0 x IH]; intros [|y0 y] E; cbn in *; try discriminate; [reflexivity|].
        injection E as E0 E. f_equal; [|auto]. clear - E0. revert y0 E0. induction x0 as [|x1 x0 IH]; intros [|y1 y0] E; cbn in *; try discriminate; [reflexivity|].
        injection E as E0 E. f_equal; [|auto]. apply map_some_inj. exact E0. }
      assert (Er : read_proof w p = pf) by (unfold read_proof; rewrite E1', E2, E3; destruct pf; reflexivity).
      assert (L1 : length qPI = (m + k)%nat) by (rewrite <- (map_length w), E6; unfold count; rewrite map_length, seq_length; reflexivity).
      assert (L2 : length vIn = (2 * 2 ^ (m + k))%nat).
      { rewrite <- (map_length w), E4. unfold glued. rewrite interleave_length, I1. rewrite !Nat.pow_add_r. cbn. lia. }
      assert (L3 : length vOut = (2 ^ (m + k))%nat).
      { rewrite <- (map_length w), E5. unfold glued. rewrite interleave_length, (proj1 Hout), !Nat.pow_add_r. cbn. lia. }
      destruct (mimc_gadget (m + k) p cs qPI vIn vOut HO Hp HV L1 L2 L3) as (cs' & E & HO' & HG & HI).
      pose proof HG as (_ & _ & _ & HX & _). destruct (HX w Hg) as (w' & Hag & Hg').
      exists cs', w'. split; [exact E|]. split; [exact Hag|]. split; [exact Hg'|]. apply (HI w' Hg').
      split; [apply (asserts_ext cs w w' HO Hag); exact Has|].
      assert (Hm : forall l, vars cs l -> map w' l = map w l).
      { intros l Hl. apply map_ext_in. intros v Hv. symmetry. apply Hag, Hl, Hv. }
      rewrite !vars_app in HV. destruct HV as (V1 & V2 & V3). rewrite (Hm qPI V1), (Hm vIn V2), (Hm vOut V3), E4, E5, E6.
      assert (Er' : read_proof w' p = pf).
      { rewrite <- Er. unfold read_proof. destruct Hp as (HV & _). rewrite !vars_app in HV. destruct HV as (W1 & W2 & W3). rewrite (Hm _ W2), (Hm _ W3).
        f_equal. apply map_ext_in. intros x Hx. apply map_ext_in. intros y Hy. apply Hm. intros v Hv. apply W1.
        apply in_concat. exists y. split; [apply in_concat; exists x; auto|exact Hv]. }
      rewrite Er'. exact Hacc.
    Qed.
  End Mimc.
End L.
