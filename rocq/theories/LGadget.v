(** GnarkEval, static tables of any layer, circuits of any length (lemmas for PGadget.v). *)
From Coq Require Import List Arith Lia Bool Ring Field.
From Verif Require Import Field Go MCommon Spec LSpec LCommon MPoly LPoly LPoly2 LPoly3 MHash SpecHash LHash MCircuit SpecCircuit LCircuit LCircuit2 LCircuit3
  MSumcheck LSumcheck SpecSumcheck LSumcheck4 MSumPar MGkr SpecGkr LGkr LGkr2 LGkr3 LHash2 LHash3 MSnark SpecSnark LSnark LSnark2 LSnark3 LSnark4 LSnark5 LSnark6 LSnark7 LSnark8
  MGadget SpecGadget.
Import ListNotations.

Section L.
  Context {F : Field}.
  Add Field FfieldGadget : (f_theory F).
  Open Scope F_scope.

  (** ** Gates *)
  Lemma GnarkAdd_ok : gate_gadget (F:=F) GnarkAdd AddGate.
  Proof.
    intros cs vL vR HO HV. pose proof (computes_refl _ HO) as HC.
    assert (VL : val1 cs vL (fun w => w vL)) by (apply val1_id, HV; left; reflexivity).
    assert (VR : val1 cs vR (fun w => w vR)) by (apply val1_id, HV; right; left; reflexivity).
    unfold GnarkAdd. last_step (cAdd2_ok _ _ _ _ _ HO VL VR) as r V.
    split; [intros v [<-|[]]; apply V|]. intros w Hw. rewrite (proj2 V w Hw). cbn. ring.
  Qed.
  Lemma GnarkMul_ok : gate_gadget (F:=F) GnarkMul MulGate.
  Proof.
    intros cs vL vR HO HV. pose proof (computes_refl _ HO) as HC.
    assert (VL : val1 cs vL (fun w => w vL)) by (apply val1_id, HV; left; reflexivity).
    assert (VR : val1 cs vR (fun w => w vR)) by (apply val1_id, HV; right; left; reflexivity).
    unfold GnarkMul. last_step (cMul_ok _ _ _ _ _ HO VL VR) as r V.
    split; [intros v [<-|[]]; apply V|]. intros w Hw. rewrite (proj2 V w Hw). cbn. ring.
  Qed.
  Lemma gnark_gates : gate_gadget (F:=F) GnarkAdd AddGate /\ gate_gadget (F:=F) GnarkMul MulGate /\ gate_gadget (F:=F) GnarkCopy CopyGate /\
    (forall ark : F, gate_gadget (GnarkCipher ark) (CipherGate ark)) /\ (forall ark : F, GnarkCipher ark = SCipherGate ark).
  Proof.
    split; [apply GnarkAdd_ok|]. split; [apply GnarkMul_ok|]. split; [exact SCopyGate_ok|]. split; [exact SCipherGate_ok|]. reflexivity.
  Qed.

  Lemma library_gadget (g : Gate F) : library_gate g -> exists sg, gate_gadget sg g.
  Proof.
    intros [| | |ark]; eexists; [apply GnarkAdd_ok|apply GnarkMul_ok|apply SCopyGate_ok|apply SCipherGate_ok].
  Qed.
  Lemma library_gadgets (gs : list (Gate F)) : (forall g, In g gs -> library_gate g) -> exists sgs, Forall2 gate_gadget sgs gs.
  Proof.
    induction gs as [|g gs IH]; intros H; [exists []; constructor|].
    destruct (library_gadget g (H g (or_introl eq_refl))) as [sg Hsg]. destruct IH as [sgs Hs]; [intros x Hx; apply H; right; exact Hx|].
    exists (sg :: sgs). constructor; assumption.
  Qed.

  (** ** The static table of a gate: the wiring as constants, folded at [Q] *)
  Definition table_gen (t : list F) : StaticTableGenerator (F:=F) := fun Q =>
    mbind (mmap cConstant t) (fun tab => mfold SFold Q tab).

  Lemma table_gen_ok (l : Layer F) i g t : wf_layer l -> nth_error (lGates l) i = Some g -> wiring_table l g = Some t -> table_gadget (table_gen t) l i.
  Proof.
    intros Hwf Hg Ht cs q HO Hq Lq.
    destruct (mmap_ok cConstant t 0 (fun i _ => nth i t 0) cs HO) as (tab & cs1 & E1 & C1 & L1 & V1).
    { intros j cs1 _ C. apply cConstant_ok. apply C. }
    destruct (SFolds_ok q cs1 tab _ (fun w => map w q) (proj1 C1) V1) as (r & cs2 & E2 & C2 & V2).
    { apply (vals_grows cs); [apply C1|apply vals_map; exact Hq]. }
    exists r, cs2. split; [unfold table_gen; rewrite (bind_eq _ _ _ _ _ E1); exact E2|].
    split; [eapply computes_trans; eassumption|]. split; [apply V2|].
    destruct (wiring_table_spec l g Hwf) as (t' & Et & Lt & _). rewrite Ht in Et. injection Et as <-.
    split.
    { rewrite (SFolds_length _ _ _ _ _ E2), L1, Lt, Lq, Nat.mul_comm. apply Nat.div_mul. apply Nat.pow_nonzero. lia. }
    intros w Hw. destruct (static_table_spec l (map w q) Hwf) as (tabs & ET & LT & _); [rewrite map_length; exact Lq|].
    exists tabs. split; [exact ET|]. unfold GetStaticTable in ET.
    assert (Hi : (i < length (lGates l))%nat) by (apply nth_error_Some; congruence).
    destruct (nth_error tabs i) as [x|] eqn:Ex; [|apply nth_error_None in Ex; lia]. f_equal.
    rewrite (proj2 V2 w Hw).
    apply mapM_Forall2 in ET. destruct (Forall2_nth _ _ _ _ _ ET Hg) as (x' & Ex' & Ef). rewrite Ex in Ex'. injection Ex' as <-.
    cbv beta in Ef. rewrite Ht, FoldMany_foldsv in Ef. injection Ef as <-.
    f_equal. symmetry. apply (list_ext 0); [rewrite map_length, seq_length; reflexivity|].
    intros j Hj. rewrite map_length, seq_length in Hj. rewrite nth_map_seq by exact Hj. reflexivity.
  Qed.

  Lemma describable (l : Layer F) : wf_layer l -> (forall g, In g (lGates l) -> library_gate g) -> exists sl, describes sl l /\ degrees_fit sl l.
  Proof.
    intros Hwf Hg. destruct (library_gadgets _ Hg) as [sgs Hs].
    exists (MkSLayer (maxHL (lGates l) + 1) (maxHR (lGates l) + 1) (maxHP (lGates l) + 1) (lBGInputs l) sgs
      (map (fun g => table_gen (match wiring_table l g with Some t => t | None => [] end)) (lGates l))).
    split; [|repeat split]. split; [reflexivity|]. split; [exact Hs|]. cbn [sTables sGates]. split; [rewrite map_length; symmetry; exact (Forall2_len _ _ _ Hs)|].
    intros i gen E. rewrite nth_error_map in E. destruct (nth_error (lGates l) i) as [g|] eqn:Eg; [|discriminate]. injection E as <-.
    destruct (wiring_table_spec l g Hwf) as (t & Et & _). rewrite Et. apply (table_gen_ok l i g t Hwf Eg Et).
  Qed.

  (** ** The number of layers *)
  Lemma too_few_layers (Arks : list F) p sc qI qPI vIn vOut cs : (length sc < 91)%nat -> SGkrAssertValid (F:=F) Arks p sc qI qPI vIn vOut cs = None.
  Proof.
    intros H. unfold SGkrAssertValid. cbv zeta. change (MimcRounds - 1)%nat with 90%nat.
    unfold mbind at 1. destruct (SEval _ _ cs) as [[c1 cs1]|]; [|reflexivity].
    unfold mbind at 1. destruct (lift _ cs1) as [[sp cs2]|]; [|reflexivity].
    rewrite (get_none sc 90) by lia. reflexivity.
  Qed.

  Lemma mfold_ext_in {S A} (f g : S -> A -> M (F:=F) S) l : (forall a x cs, In a l -> f x a cs = g x a cs) -> forall x cs, mfold f l x cs = mfold g l x cs.
  Proof.
    induction l as [|a l IH]; intros H x cs; [reflexivity|]. cbn [mfold]. unfold mbind. rewrite (H a x cs (or_introl eq_refl)).
    destruct (g x a cs) as [[y cs1]|]; [|reflexivity]. apply IH. intros b z cs2 Hb. apply H. right. exact Hb.
  Qed.
  Lemma get_firstn' {A} (l : list A) n i : (i < n)%nat -> get (firstn n l) i = get l i.
  Proof. unfold get. revert n i. induction l as [|x l IH]; intros [|n] [|i] H; cbn; try lia; try reflexivity. apply IH. lia. Qed.

  Lemma further_layers (Arks : list F) p sc qI qPI vIn vOut cs :
    SGkrAssertValid (F:=F) Arks p sc qI qPI vIn vOut cs = SGkrAssertValid Arks (first_layers 91 p) (firstn 91 sc) qI qPI vIn vOut cs.
  Proof.
    unfold SGkrAssertValid. cbv zeta. change (MimcRounds - 1)%nat with 90%nat. unfold first_layers. cbn [sSumchecks sLeft sRight].
    rewrite !get_firstn' by lia.
    assert (HL : forall st x, mfold (SAssertLayer Arks sc p) (rev (seq 0 90)) st x =
      mfold (SAssertLayer Arks (firstn 91 sc) (MkSProof (firstn 91 (sSumchecks p)) (firstn 91 (sLeft p)) (firstn 91 (sRight p)))) (rev (seq 0 90)) st x).
    { apply mfold_ext_in. intros a [[hL hR] hP] x Ha. apply in_rev, in_seq in Ha. unfold SAssertLayer. cbn [sSumchecks sLeft sRight].
      rewrite !get_firstn' by lia. reflexivity. }
    unfold mbind. 
    destruct (SEval vOut (qI ++ qPI) cs) as [[claim cs1]|]; [|reflexivity]. destruct (lift (get (sSumchecks p) 90) cs1) as [[sp cs2]|]; [|reflexivity].
    destruct (lift (get sc 90) cs2) as [[l cs3]|]; [|reflexivity]. destruct (SSumcheckAssertValid Arks sp claim (sBG l) cs3) as [[[[[hL hR] hP] e] cs4]|]; [|reflexivity].
    destruct (lift (get (sLeft p) 90) cs4) as [[vl cs5]|]; [|reflexivity]. destruct (lift (get (sRight p) 90) cs5) as [[vr cs6]|]; [|reflexivity].
    destruct (SCombine l qI qPI hL hR hP vl vr cs6) as [[act cs7]|]; [|reflexivity]. destruct (cAssertIsEqual e act cs7) as [[u cs8]|]; [|reflexivity].
    rewrite HL. reflexivity.
  Qed.
End L.
