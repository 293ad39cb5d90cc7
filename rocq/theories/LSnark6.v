(** The MiMC circuit in the constraint system: its description, the shape of its proofs. *)
From Coq Require Import List Arith Lia Bool Ring Field.
From Verif Require Import Field Go MCommon Spec LSpec LCommon MPoly LPoly LPoly2 MHash SpecHash LHash MCircuit SpecCircuit LCircuit LCircuit2 LCircuit3
  MSumcheck LSumcheck SpecSumcheck LSumcheck4 MSumPar MGkr SpecGkr LGkr LGkr2 LGkr3 LHash3 MSnark SpecSnark LSnark LSnark2 LSnark3 LSnark4 LSnark5.
Import ListNotations.

Section L.
  Context {F : Field}.
  Add Field FfieldSnark6 : (f_theory F).
  Open Scope F_scope.

  Definition smid (a : F) : SLayer F := MkSLayer 2 8 8 1 [SCipherGate a; SCopyGate] [GetCipherTable; GetCopyTable].
  Definition slast (a : F) : SLayer F := MkSLayer 2 8 8 1 [SCipherGate a] [GetFinalCipherTable].
  Definition smimc (cs : list F) (a : F) : list (SLayer F) := map smid cs ++ [slast a].

  Lemma SCreateMimcCircuit_ok (arks : list F) : (91 <= length arks)%nat ->
    SCreateMimcCircuit arks = Some (smimc (firstn 90 arks) (nth 90 arks 0)).
  Proof.
    intros H. unfold SCreateMimcCircuit. cbv zeta. change (MimcRounds - 1)%nat with 90%nat.
    rewrite (mapM_some _ (fun i => smid (nth i arks 0))).
    - rewrite (get_nth arks 90 0) by lia. f_equal. unfold smimc. f_equal.
      assert (E : firstn 90 arks = map (fun i => nth i arks 0) (seq 0 90)).
      { apply (map_seq_ext 0); [rewrite firstn_length; lia|]. intros i Hi. apply nth_firstn. exact Hi. }
      rewrite E, map_map. reflexivity.
    - intros i Hi. apply in_seq in Hi. rewrite (get_nth arks i 0) by lia. reflexivity.
  Qed.
  Lemma SCreateMimcCircuit_short (arks : list F) : (length arks < 91)%nat -> SCreateMimcCircuit arks = None.
  Proof.
    intros H. unfold SCreateMimcCircuit. cbv zeta. change (MimcRounds - 1)%nat with 90%nat.
    destruct (mapM _ (seq 0 90)) as [l|] eqn:E; [|reflexivity]. rewrite get_none by lia. reflexivity.
  Qed.

  (** gates *)
  Lemma SCipherGate_ok (a : F) : gate_gadget (SCipherGate a) (CipherGate a).
  Proof.
    intros cs vL vR HO HV. pose proof (computes_refl _ HO) as HC.
    assert (VL : val1 cs vL (fun w => w vL)) by (apply val1_id, HV; left; reflexivity).
    assert (VR : val1 cs vR (fun w => w vR)) by (apply val1_id, HV; right; left; reflexivity).
    unfold SCipherGate.
    step (cConstant_ok cs a HO) as k Vk.
    step (cAdd2_ok _ _ _ _ _ HO VR Vk) as tmp Vt.
    step (cMul_ok _ _ _ _ _ HO Vt Vt) as c1 V1.
    step (cMul_ok _ _ _ _ _ HO V1 Vt) as c2 V2.
    step (cMul_ok _ _ _ _ _ HO V2 V2) as c3 V3.
    step (cMul_ok _ _ _ _ _ HO V3 Vt) as c4 V4.
    last_step (cAdd2_ok _ _ _ _ _ HO V4 VL) as r V.
    split; [intros v [<-|[]]; apply V|]. intros w Hw. rewrite (proj2 V w Hw). cbn. ring.
  Qed.
  Lemma SCopyGate_ok : gate_gadget (F:=F) SCopyGate CopyGate.
  Proof.
    intros cs vL vR HO HV. exists vL, cs. split; [reflexivity|]. split; [apply computes_refl; exact HO|].
    split; [intros v [<-|[]]; apply HV; left; reflexivity|]. reflexivity.
  Qed.

  (** tables *)
  Ltac lists := repeat match goal with |- Some _ = Some _ => apply f_equal | |- _ :: _ = _ :: _ => apply f_equal2 end; try reflexivity; try ring.
  Lemma mid_table (a x : F) : GetStaticTable (mimc_mid a) [x] = Some [[0; 0; 1 - x; 0]; [0; 0; x; 0]].
  Proof.
    lazy -[feqb fadd fmul fsub fzero fone carrier]. rewrite !feqb_refl. lists.
  Qed.
  Lemma last_table (a : F) : GetStaticTable (mimc_last a) [] = Some [[0; 0; 1; 0]].
  Proof. lazy -[feqb fadd fmul fsub fzero fone carrier]. rewrite !feqb_refl. lists. Qed.
  Lemma len1 {A} (l : list A) : length l = 1%nat -> exists x, l = [x].
  Proof. destruct l as [|x [|y l]]; try discriminate. eauto. Qed.

  Lemma cipher_table_ok (a : F) : table_gadget GetCipherTable (mimc_mid a) 0.
  Proof.
    intros cs q HO Hq Lq. change (lBGOutputs (mimc_mid a)) with 1%nat in Lq. destruct (len1 q Lq) as [x ->].
    assert (Vx : val1 cs x (fun w => w x)) by (apply val1_id, Hq; left; reflexivity).
    pose proof (computes_refl _ HO) as HC. unfold GetCipherTable.
    step (cConstant_ok cs 0 HO) as z0 V0. step (cConstant_ok _ 0 HO) as z1 V1.
    rewrite (bind_lift _ _ _ x) by reflexivity.
    step (cSubConst_ok _ 1 x _ HO Vx) as c Vc. step (cConstant_ok _ 0 HO) as z3 V3.
    eexists _, _. split; [reflexivity|]. split; [exact HC|].
    split; [intros v [<-|[<-|[<-|[<-|[]]]]]; [apply V0|apply V1|apply Vc|apply V3]|]. split; [reflexivity|].
    intros w Hw. cbn [map]. rewrite mid_table. eexists. split; [reflexivity|]. cbn [nth_error].
    rewrite (proj2 V0 w Hw), (proj2 V1 w Hw), (proj2 Vc w Hw), (proj2 V3 w Hw). reflexivity.
  Qed.
  Lemma copy_table_ok (a : F) : table_gadget GetCopyTable (mimc_mid a) 1.
  Proof.
    intros cs q HO Hq Lq. change (lBGOutputs (mimc_mid a)) with 1%nat in Lq. destruct (len1 q Lq) as [x ->].
    assert (Vx : val1 cs x (fun w => w x)) by (apply val1_id, Hq; left; reflexivity).
    pose proof (computes_refl _ HO) as HC. unfold GetCopyTable.
    step (cConstant_ok cs 0 HO) as z0 V0. step (cConstant_ok _ 0 HO) as z1 V1.
    rewrite (bind_lift _ _ _ x) by reflexivity.
    step (cConstant_ok _ 0 HO) as z3 V3.
    eexists _, _. split; [reflexivity|]. split; [exact HC|].
    split; [intros v [<-|[<-|[<-|[<-|[]]]]]; [apply V0|apply V1|apply Vx|apply V3]|]. split; [reflexivity|].
    intros w Hw. cbn [map]. rewrite mid_table. eexists. split; [reflexivity|]. cbn [nth_error].
    rewrite (proj2 V0 w Hw), (proj2 V1 w Hw), (proj2 V3 w Hw). reflexivity.
  Qed.
  Lemma final_table_ok (a : F) : table_gadget GetFinalCipherTable (mimc_last a) 0.
  Proof.
    intros cs q HO Hq Lq. change (lBGOutputs (mimc_last a)) with 0%nat in Lq. destruct q; [|discriminate].
    pose proof (computes_refl _ HO) as HC. unfold GetFinalCipherTable.
    step (cConstant_ok cs 0 HO) as z0 V0. step (cConstant_ok _ 0 HO) as z1 V1.
    step (cConstant_ok _ 1 HO) as c Vc. step (cConstant_ok _ 0 HO) as z3 V3.
    eexists _, _. split; [reflexivity|]. split; [exact HC|].
    split; [intros v [<-|[<-|[<-|[<-|[]]]]]; [apply V0|apply V1|apply Vc|apply V3]|]. split; [reflexivity|].
    intros w Hw. cbn [map]. rewrite last_table. eexists. split; [reflexivity|]. cbn [nth_error].
    rewrite (proj2 V0 w Hw), (proj2 V1 w Hw), (proj2 Vc w Hw), (proj2 V3 w Hw). reflexivity.
  Qed.

  Lemma smid_describes (a : F) : describes (smid a) (mimc_mid a).
  Proof.
    split; [reflexivity|]. split; [constructor; [apply SCipherGate_ok|constructor; [apply SCopyGate_ok|constructor]]|].
    split; [reflexivity|]. intros [|[|[|i]]] gen E; cbn in E; try discriminate; injection E as <-.
    - apply cipher_table_ok.
    - apply copy_table_ok.
  Qed.
  Lemma slast_describes (a : F) : describes (slast a) (mimc_last a).
  Proof.
    split; [reflexivity|]. split; [constructor; [apply SCipherGate_ok|constructor]|].
    split; [reflexivity|]. intros [|[|i]] gen E; cbn in E; try discriminate; injection E as <-. apply final_table_ok.
  Qed.
  Lemma smimc_describes cs (a : F) : Forall2 describes (smimc cs a) (mimc_layers cs a).
  Proof.
    unfold smimc, mimc_layers. apply Forall2_app; [|constructor; [apply slast_describes|constructor]].
    induction cs as [|x cs IH]; constructor; [apply smid_describes|exact IH].
  Qed.
End L.
