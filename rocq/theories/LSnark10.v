(** The gadgets beside the native functions; the compiled test circuit (statements for PSnark.v). *)
From Coq Require Import List Arith Lia Bool Ring Field.
From Verif Require Import Field Go Spec Trans MPoly LPoly LPoly2 LPoly3 LSpec LCircuit LCircuit2 LCircuit3 LGkr LGkr2 LGkr3 MCircuit SpecCircuit MSumcheck SpecSumcheck LSumcheck LSumcheck4
  MSumPar SpecSumPar MGkr SpecGkr
  MHash SpecHash LHash LHash3 LHash4 LGkr4 MSnark SpecSnark LSnark LSnark2 LSnark3 LSnark4 LSnark5 LSnark6 LSnark7 LSnark8 LSnark9.
Import ListNotations.

Section L.
  Context {F : Field}.
  Add Field Ffields10 : (f_theory F).
  Open Scope F_scope.

  Lemma vals_id (cs : CS F) l : vars cs l -> vals cs l (fun w => map w l).
  Proof. intros H. split; [exact H|reflexivity]. Qed.

  Lemma SEvalMixed_native (cs : CS F) t qL qR qP : cs_ok cs -> vars cs t -> vars cs qL -> vars cs qR -> vars cs qP ->
    length qR = length qL -> length t = (2 ^ (length qL + length qP))%nat ->
    exists vL vR cs', SEvalMixed t qL qR qP cs = Some ((vL, vR), cs') /\ computes cs cs' /\ vars cs' [vL; vR] /\
      forall w, gates_ok w cs' -> EvaluateLeftAndRight (map w t) (map w qP) (map w qL) (map w qR) = Some (w vL, w vR).
  Proof.
    intros HO V1 V2 V3 V4 HL HT.
    destruct (SEvalMixed_ok cs t qL qR qP _ _ _ _ HO (vals_id _ _ V1) (vals_id _ _ V2) (vals_id _ _ V3) (vals_id _ _ V4) HL HT)
      as (vL & vR & cs' & E & HC & [B1 W1] & [B2 W2]).
    exists vL, vR, cs'. split; [exact E|]. split; [exact HC|]. split; [intros v [<-|[<-|[]]]; assumption|].
    intros w Hw. rewrite EvaluateLeftAndRight_mle by (rewrite !map_length; congruence). rewrite (W1 w Hw), (W2 w Hw). reflexivity.
  Qed.

  Lemma SUniEval_native (cs : CS F) c x : cs_ok cs -> vars cs c -> vars cs [x] ->
    exists r cs', SUniEval c x cs = Some (r, cs') /\ computes cs cs' /\ vars cs' [r] /\
      forall w, gates_ok w cs' ->
        EvaluatePolynomial (map w c) (w x) = (match c with [] => None | _ => Some (w r) end) /\ (c = [] -> w r = 0).
  Proof.
    intros HO V1 V2.
    destruct (SUniEval_ok cs c x _ _ HO (vals_id _ _ V1) (val1_id _ _ (V2 x (or_introl eq_refl)))) as (r & cs' & E & HC & [B W]).
    exists r, cs'. split; [exact E|]. split; [exact HC|]. split; [intros v [<-|[]]; exact B|].
    intros w Hw. rewrite (W w Hw). destruct c as [|c0 c].
    - split; [reflexivity|]. intros _. apply peval_nil.
    - split; [|discriminate]. apply EvaluatePolynomial_spec. discriminate.
  Qed.

  Lemma SZeroAndOne_native (cs : CS F) c : cs_ok cs -> vars cs c -> c <> [] ->
    exists r cs', SZeroAndOne c cs = Some (r, cs') /\ computes cs cs' /\ vars cs' [r] /\
      forall w, gates_ok w cs' -> exists p0 p1,
        EvaluatePolynomial (map w c) 0 = Some p0 /\ EvaluatePolynomial (map w c) 1 = Some p1 /\ w r = p0 + p1.
  Proof.
    intros HO V HN. destruct (SZeroAndOne_ok cs c _ HO (vals_id _ _ V) HN) as (r & cs' & E & HC & [B W]).
    exists r, cs'. split; [exact E|]. split; [exact HC|]. split; [intros v [<-|[]]; exact B|].
    intros w Hw. assert (HN' : map w c <> []) by (destruct c; [tauto|discriminate]).
    exists (peval (map w c) 0), (peval (map w c) 1). rewrite !EvaluatePolynomial_spec by exact HN'. rewrite (W w Hw). auto.
  Qed.

  Lemma SEqEval_native (cs : CS F) q h : cs_ok cs -> vars cs q -> vars cs h ->
    ((length h < length q)%nat /\ SEqEval q h cs = None /\ forall w : nat -> F, EvalEq (map w q) (map w h) = None) \/
    ((length q <= length h)%nat /\ exists r cs', SEqEval q h cs = Some (r, cs') /\ computes cs cs' /\ vars cs' [r] /\
       forall w, gates_ok w cs' -> EvalEq (map w q) (map w h) = Some (w r)).
  Proof.
    intros HO V1 V2. destruct (Nat.lt_ge_cases (length h) (length q)) as [H|H]; [left|right]; (split; [exact H|]).
    - split; [apply SEqEval_short; assumption|]. intros w. apply EvalEq_panics. rewrite !map_length. exact H.
    - destruct (SEqEval_ok cs q h _ _ HO (vals_id _ _ V1) (vals_id _ _ V2) H) as (r & cs' & E & HC & [B W]).
      exists r, cs'. split; [exact E|]. split; [exact HC|]. split; [intros v [<-|[]]; exact B|].
      intros w Hw. rewrite EvalEq_spec by (rewrite !map_length; exact H). rewrite (W w Hw). reflexivity.
  Qed.

  Lemma challenge_MimcHash (arks m : list F) : (91 <= length arks)%nat -> MimcHash arks m = Some (challenge arks m).
  Proof. intros H. apply (MimcHash_ok arks H). Qed.

  Lemma SMimcHash_native (arks : list F) (cs : CS F) ms : (91 <= length arks)%nat -> cs_ok cs -> vars cs ms ->
    exists r cs', SMimcHash arks ms cs = Some (r, cs') /\ computes cs cs' /\ vars cs' [r] /\
      forall w, gates_ok w cs' -> MimcHash arks (map w ms) = Some (w r).
  Proof.
    intros HA HO V. destruct (SMimcHash_ok arks HA cs ms _ HO (vals_id _ _ V)) as (r & cs' & E & HC & [B W]).
    exists r, cs'. split; [exact E|]. split; [exact HC|]. split; [intros v [<-|[]]; exact B|].
    intros w Hw. rewrite (challenge_MimcHash _ _ HA), (W w Hw). reflexivity.
  Qed.

  Lemma mfold_none {S A} (f : S -> A -> @M F S) (l : list A) a : In a l -> (forall x cs, f x a cs = None) ->
    forall x cs, mfold f l x cs = None.
  Proof.
    intros Hin H. induction l as [|b l IH]; [contradiction|]. intros x cs. cbn [mfold]. destruct Hin as [->|Hin].
    - apply bind_none, H.
    - unfold mbind. destruct (f x b cs) as [[y cs1]|]; [|reflexivity]. apply IH. exact Hin.
  Qed.

  Lemma slice_none {A} (l : list A) a b : (length l < b)%nat -> slice l a b = None.
  Proof. intros H. unfold slice. replace (b <=? length l)%nat with false by (symmetry; apply Nat.leb_gt; exact H). rewrite andb_false_r. reflexivity. Qed.

  Lemma SSumcheck_panics (arks : list F) (cs : CS F) polys claim bG : (91 <= length arks)%nat -> cs_ok cs -> vars cs [claim] ->
    Forall (vars cs) polys -> In [] polys \/ (length polys < 2 * bG)%nat -> SSumcheckAssertValid arks polys claim bG cs = None.
  Proof.
    intros HA HO Vc HP H.
    assert (Hdec : In [] polys \/ ~ In [] polys).
    { clear. induction polys as [|[|p0 p] l [IH|IH]]; [right; tauto|left; left; reflexivity|left; left; reflexivity|left; right; exact IH|].
      right. intros [X|X]; [discriminate|tauto]. }
    destruct Hdec as [Hin|Hn].
    - unfold SSumcheckAssertValid. apply bind_none. apply (mfold_none _ _ [] Hin).
      intros [hs c] cs1. apply bind_none. unfold SZeroAndOne. apply bind_lift_none. reflexivity.
    - destruct H as [H|H]; [tauto|].
      destruct (sumcheck_loop arks HA polys cs [] claim (fun _ => []) (fun w => w claim) HO) as (hs & c' & cs' & E & _ & L & _).
      { split; [intros v []|reflexivity]. }
      { apply val1_id, Vc. left. reflexivity. }
      { exact HP. } { exact Hn. }
      unfold SSumcheckAssertValid. rewrite (bind_eq _ _ _ _ _ E). cbn [length Nat.add] in L.
      assert (ES : slice hs 0 bG = None \/ slice hs bG (2 * bG) = None).
      { destruct (Nat.lt_ge_cases (length hs) bG) as [HL|HL]; [left|right]; apply slice_none; lia. }
      destruct ES as [ES|ES]; [apply bind_lift_none; exact ES|].
      destruct (slice hs 0 bG) as [hL|] eqn:E0; [|apply bind_lift_none; reflexivity].
      rewrite (bind_lift _ _ _ _ eq_refl). apply bind_lift_none. exact ES.
  Qed.

  (** ** The MiMC description *)
  Lemma mimc_description (arks : list F) : (91 <= length arks)%nat ->
    exists sc c, SCreateMimcCircuit arks = Some sc /\ CreateMimcCircuit arks = Some c /\ length sc = 91%nat /\ Forall2 describes sc c.
  Proof.
    intros H. eexists _, _. split; [apply SCreateMimcCircuit_ok; exact H|]. split; [apply CreateMimcCircuit_ok; exact H|].
    split; [|apply smimc_describes]. rewrite (Forall2_len _ _ _ (smimc_describes _ _)). apply mimc_len. exact H.
  Qed.

  Lemma assign_iff bN sc (pf : Proof F) : length (SumcheckProofs pf) = length sc -> length (ClaimsLeft pf) = length sc -> length (ClaimsRight pf) = length sc ->
    SAssign (SAllocateProof bN sc) pf = None /\ ~ same_lengths (SumcheckProofs pf) (sSumchecks (SAllocateProof (F:=F) bN sc)) \/
    SAssign (SAllocateProof bN sc) pf = Some (filled pf) /\ same_lengths (SumcheckProofs pf) (sSumchecks (SAllocateProof (F:=F) bN sc)).
  Proof.
    intros H1 H2 H3. destruct (SAssign (SAllocateProof bN sc) pf) as [r|] eqn:E.
    - right. pose proof (SAssign_inv _ _ _ _ E) as (HS & _). rewrite <- H1, firstn_all in HS. split; [|exact HS].
      rewrite <- E. apply SAssign_ok; assumption.
    - left. split; [reflexivity|]. intros HS. rewrite (SAssign_ok _ _ _ HS H2 H3) in E. discriminate.
  Qed.

  (** ** The compiled test circuit *)
  Lemma test_circuit_complete (arks : list F) nCore mtProve m k inputs : (91 <= length arks)%nat -> distinct_upto (F:=F) 12 -> (0 < nCore)%nat ->
    follows_machine (challenge arks) nCore mtProve -> chunked k m 1 inputs ->
    exists c sc a pf sp si so,
      CreateMimcCircuit arks = Some c /\ SCreateMimcCircuit arks = Some sc /\
      Assign c inputs = Some a /\ GkrProve (challenge arks) mtProve c a nCore = Some pf /\
      SAssign (SAllocateProof (m + k) sc) pf = Some sp /\
      SAssignFromChunkedBKT (SAllocateMultilinear (m + k + 1)) inputs = Some si /\
      SAssignFromChunkedBKT (SAllocateMultilinear (m + k)) (nth 91 a []) = Some so /\
      forall cs p qP vIn vOut, AllocateGKRMimcTestCircuit (m + k) sc = (cs, (p, qP, vIn, vOut)) ->
        exists cs' w, SGkrAssertValid arks p sc [] qP vIn vOut cs = Some (tt, cs') /\ satisfied w cs' /\
          map (map (map (fun v => Some (w v)))) (sSumchecks p) = sSumchecks sp /\
          map (fun v => Some (w v)) (sLeft p) = sLeft sp /\ map (fun v => Some (w v)) (sRight p) = sRight sp /\
          map (fun v => Some (w v)) vIn = si /\ map (fun v => Some (w v)) vOut = so /\
          map w qP = count (m + k).
  Proof.
    intros HA Hd Hc Hmt Hch.
    destruct (mimc_gadget_complete arks HA nCore mtProve m k inputs Hd Hc Hmt Hch) as (a & pf & sp & si & so & E1 & E2 & E3 & E4 & E5 & H).
    eexists _, _, a, pf, sp, si, so. split; [apply CreateMimcCircuit_ok; exact HA|]. split; [apply SCreateMimcCircuit_ok; exact HA|].
    do 5 (split; [eassumption|]). intros cs p qP vIn vOut EC.
    pose proof (test_circuit_ok _ _ _ _ _ _ _ EC) as (HO & HP & HV & L1 & L2 & L3).
    set (sc := smimc (firstn 90 arks) (nth 90 arks 0)) in *.
    assert (LS : length sc = 91%nat). { unfold sc. rewrite (Forall2_len _ _ _ (smimc_describes _ _)). apply mimc_len. exact HA. }
    destruct Hch as [I1 I2].
    assert (Ei : si = map Some (interleave (2 ^ (1 + m)) inputs)).
    { rewrite SAssignFromChunked_ok with (s := (2 ^ (1 + m))%nat) in E4; [congruence| |].
      - rewrite I1, <- Nat.pow_add_r. f_equal. lia.
      - intros v Hv. rewrite (I2 v Hv), <- Nat.pow_add_r. reflexivity. }
    destruct (mimc_assign arks HA (m + k) inputs k m eq_refl (conj I1 I2)) as (a' & EA & _ & [O1 O2]).
    rewrite E1 in EA. injection EA as <-.
    assert (Eo : so = map Some (interleave (2 ^ (0 + m)) (nth 91 a []))).
    { rewrite SAssignFromChunked_ok with (s := (2 ^ (0 + m))%nat) in E5; [congruence| |].
      - rewrite O1, <- Nat.pow_add_r. f_equal; lia.
      - intros v Hv. rewrite (O2 v Hv), <- Nat.pow_add_r. reflexivity. }
    pose proof (mimc_assign arks HA (m + k) inputs k m eq_refl (conj I1 I2)) as (a' & EA & Ha & _). rewrite E1 in EA. injection EA as <-.
    destruct (gkr_complete_from (challenge arks) nCore mtProve Hd Hc Hmt m k _ 1 inputs a (mimc_layer_ok _ _) (mimc_fits _ _) I2 I1 Ha (mimc_ne arks HA) _ (mimc_last_nth' arks HA))
      as (pf' & EP & P1 & P2 & _). rewrite E2 in EP. injection EP as <-.
    pose proof P1 as (_ & Q2 & Q3). rewrite (mimc_len arks HA) in Q2, Q3.
    pose proof (mimc_shape arks HA m k pf P1 P2) as HS. fold sc in HS.
    assert (Es : sp = filled pf). { rewrite SAssign_ok in E3; [congruence|exact HS| |]; rewrite LS; assumption. }
    destruct (test_circuit_witness (m + k) sc cs p qP vIn vOut pf (count (m + k)) (interleave (2 ^ (1 + m)) inputs) (interleave (2 ^ (0 + m)) (nth 91 a [])) EC HS)
      as (w & Hw & W1 & W2 & W3 & W4).
    { rewrite LS. exact Q2. } { rewrite LS. exact Q3. }
    { unfold count. rewrite map_length, seq_length. reflexivity. }
    { rewrite interleave_length, I1, <- Nat.pow_add_r. f_equal; lia. }
    { rewrite interleave_length, O1, <- Nat.pow_add_r. f_equal; lia. }
    assert (M3 : forall (x : list nat) y, map w x = y -> map (fun v => Some (w v)) x = map Some y) by (intros x y <-; rewrite map_map; reflexivity).
    unfold read_proof in W1. destruct pf as [ps cl cr]. injection W1 as W1 W5 W6. unfold filled in Es. cbn [SumcheckProofs ClaimsLeft ClaimsRight] in *.
    assert (R1 : map (map (map (fun v => Some (w v)))) (sSumchecks p) = sSumchecks sp).
    { rewrite Es, <- W1. cbn [sSumchecks]. rewrite map_map. apply map_ext. intros x. rewrite map_map. apply map_ext. intros y. rewrite map_map. reflexivity. }
    assert (R2 : map (fun v => Some (w v)) (sLeft p) = sLeft sp) by (rewrite Es; apply M3; exact W5).
    assert (R3 : map (fun v => Some (w v)) (sRight p) = sRight sp) by (rewrite Es; apply M3; exact W6).
    assert (R4 : map (fun v => Some (w v)) vIn = si) by (rewrite Ei; apply M3; exact W3).
    assert (R5 : map (fun v => Some (w v)) vOut = so) by (rewrite Eo; apply M3; exact W4).
    destruct (H cs w p qP vIn vOut HO Hw HP HV R1 R2 R3 R4 R5 W2) as (cs' & w' & E & Hag & Hw').
    exists cs', w'. split; [exact E|]. split; [exact Hw'|].
    assert (Hm : forall {B} (g : F -> B) l, vars cs l -> map (fun v => g (w' v)) l = map (fun v => g (w v)) l).
    { intros B g l Hl. apply map_ext_in. intros v Hv. f_equal. symmetry. apply Hag, Hl, Hv. }
    destruct HP as (HV' & _). rewrite !vars_app in HV, HV'. destruct HV as (V1 & V2 & V3). destruct HV' as (V4 & V5 & V6).
    rewrite <- R2, <- R3, <- R4, <- R5, <- W2, <- R1.
    split; [|repeat split; apply Hm with (g := Some) || apply Hm with (g := fun x => x); assumption].
    apply map_ext_in. intros x Hx. apply map_ext_in. intros y Hy. apply Hm with (g := Some). intros v Hv. apply V4.
    apply in_concat. exists y. split; [apply in_concat; exists x; auto|exact Hv].
  Qed.

  Lemma test_circuit_sound (arks : list F) bN : (91 <= length arks)%nat ->
    exists c sc, CreateMimcCircuit arks = Some c /\ SCreateMimcCircuit arks = Some sc /\
    forall cs p qP vIn vOut, AllocateGKRMimcTestCircuit bN sc = (cs, (p, qP, vIn, vOut)) ->
    exists cs', SGkrAssertValid arks p sc [] qP vIn vOut cs = Some (tt, cs') /\
      forall w, satisfied w cs' ->
      exists a, Assign c [map w vIn] = Some a /\
        let outs := nth 0 (nth 91 a []) [] in
        length outs = (2 ^ bN)%nat /\
        (forall h, (h < 2 ^ bN)%nat ->
           let x := w (nth h vIn 0%nat) in let k := w (nth (2 ^ bN + h) vIn 0%nat) in
           exists y, MimcPermutation arks (x - k) k = Some y /\ nth h outs 0 = y + k) /\
        (mle (map w vOut) (map w qP) = mle outs (map w qP) \/
         exists j, collision_from (challenge arks) (read_proof w p) c bN 0 a [] (map w qP) j).
  Proof.
    intros HA. eexists _, _. split; [apply CreateMimcCircuit_ok; exact HA|]. split; [apply SCreateMimcCircuit_ok; exact HA|].
    intros cs p qP vIn vOut EC. pose proof (test_circuit_ok _ _ _ _ _ _ _ EC) as (HO & HP & HV & L1 & L2 & L3).
    apply (mimc_gadget_sound arks HA bN p cs qP vIn vOut HO HP HV L1 L2 L3).
  Qed.
End L.
