(** Circuits of 92 layers (lemmas for PGadget.v). *)
From Coq Require Import List Arith Lia Bool Ring Field.
From Verif Require Import Field Go MCommon Spec LSpec LCommon MPoly LPoly LPoly2 LPoly3 MHash SpecHash LHash MCircuit SpecCircuit LCircuit LCircuit2 LCircuit3
  MSumcheck LSumcheck SpecSumcheck LSumcheck4 MSumPar MGkr SpecGkr LGkr LGkr2 LGkr3 LHash2 LHash3 MSnark SpecSnark LSnark LSnark2 LSnark3 LSnark4 LSnark5 LSnark6 LSnark7 LSnark8
  SpecProof MRepair SpecRepair LRepair LRepair2 MGadget SpecGadget LGadget LGadget2.
Import ListNotations.

Section L.
  Context {F : Field}.
  Add Field FfieldGadget3 : (f_theory F).
  Open Scope F_scope.

  Definition one_gate (g : Gate F) : Layer F := NewLayer [MkWire 0 0 0 g].

  Lemma one_gate_bg g : lBGInputs (one_gate g) = 0%nat /\ lBGOutputs (one_gate g) = 0%nat /\ lGates (one_gate g) = [g].
  Proof. split; [reflexivity|]. split; reflexivity. Qed.
  Lemma one_gate_wf g : wf_layer (one_gate g).
  Proof. intros w [<-|[]]. cbn. lia. Qed.

  Definition same_proof n (x : F) : Proof F := MkProof (repeat [] n) (repeat x n) (repeat x n).

  Lemma copy_lincomb (lam : F) : evaluateStaticTablesLinCombs (one_gate CopyGate) [] [] [] [] 1 lam = Some [(0 + 1) * 1 + (0 + 1) * lam].
  Proof. reflexivity. Qed.
  Lemma copy_static : evaluateStaticTables (one_gate CopyGate) [] [] [] = Some [0 + 1 : F].
  Proof. reflexivity. Qed.
  Lemma copy_combine (x s : F) : EvaluateCombinator x x 1 [CopyGate] [s] = Some (s * x).
  Proof. unfold EvaluateCombinator. cbn. f_equal. ring. Qed.
  Lemma verify_nil (ch : list F -> F) x : Verify ch x [] 0 0 = Some (Accept [] [] [] x).
  Proof. reflexivity. Qed.

  Lemma copy_layers ch (x : F) n : forall j, (j < n)%nat ->
    verifyLayers ch false (repeat (one_gate CopyGate) n) 0 (same_proof n x) j [] [] [] = Some (inr ([], [], [])).
  Proof.
    induction j as [|j IH]; intros Hj; [reflexivity|]. specialize (IH ltac:(lia)). cbn [verifyLayers].
    unfold same_proof in IH |- *. cbn [SumcheckProofs ClaimsLeft ClaimsRight].
    unfold get. rewrite !nth_error_repeat by lia. cbv zeta. change (lBGInputs (one_gate CopyGate)) with 0%nat.
    rewrite verify_nil. rewrite EvalEq_spec by reflexivity. rewrite copy_lincomb.
    change (lGates (one_gate CopyGate)) with [CopyGate (F:=F)]. change (eqprod [] []) with (1 : F). rewrite copy_combine.
    match goal with |- (if ?a =? ?b then _ else _) = _ => replace b with a by ring end. rewrite feqb_refl. exact IH.
  Qed.

  Lemma copy_accepted ch (x : F) n : (0 < n)%nat -> accepted ch false (repeat (one_gate CopyGate) n) 0 (same_proof n x) [] [] [x] [x].
  Proof.
    intros Hn. exists (one_gate CopyGate), [], [], [], [], x, x, x, [0 + 1], [], [], [].
    rewrite repeat_length. unfold same_proof at 1 2 3 5 6. cbn [SumcheckProofs ClaimsLeft ClaimsRight]. rewrite !nth_error_repeat by lia.
    assert (Hm : mle [x] [] = x) by (cbn; ring). rewrite !app_nil_l, Hm.
    split; [reflexivity|]. split; [reflexivity|]. split; [reflexivity|]. split; [reflexivity|]. split; [reflexivity|]. split; [reflexivity|].
    split; [reflexivity|]. split.
    { change (lGates (one_gate CopyGate)) with [CopyGate (F:=F)]. change (eqprod [] []) with (1 : F). rewrite copy_combine. f_equal. ring. }
    split; [apply copy_layers; lia|]. repeat split.
  Qed.

  (** ** A layer after the 91st *)
  Lemma copy_table (x : F) out : layer_table (one_gate CopyGate) 1 [x] out -> out = [x].
  Proof.
    intros [HL HV]. change (lBGOutputs (one_gate CopyGate)) with 0%nat in *. cbn in HL. destruct out as [|y [|y' r]]; cbn in HL; try lia.
    specialize (HV 0%nat 0%nat ltac:(cbn; lia) Nat.lt_0_1). cbn in HV. rewrite HV. f_equal. ring.
  Qed.
  Lemma add_table (x : F) out : layer_table (one_gate AddGate) 1 [x] out -> out = [x + x].
  Proof.
    intros [HL HV]. change (lBGOutputs (one_gate AddGate)) with 0%nat in *. cbn in HL. destruct out as [|y [|y' r]]; cbn in HL; try lia.
    specialize (HV 0%nat 0%nat ltac:(cbn; lia) Nat.lt_0_1). cbn in HV. rewrite HV. f_equal. ring.
  Qed.

  Definition copies92 : list (Layer F) := repeat (one_gate CopyGate) 91 ++ [one_gate AddGate].
  Lemma copies_nth k : (k < 91)%nat -> nth_error copies92 k = Some (one_gate CopyGate).
  Proof. intros H. unfold copies92. rewrite nth_error_app1 by (rewrite repeat_length; exact H). apply nth_error_repeat. exact H. Qed.
  Lemma copies_last : nth_error copies92 91 = Some (one_gate AddGate).
  Proof. reflexivity. Qed.
  Lemma copies_in l : In l copies92 -> l = one_gate CopyGate \/ l = one_gate AddGate.
  Proof. intros H. apply in_app_or in H. destruct H as [H|[<-|[]]]; [left; eapply repeat_spec; exact H|right; reflexivity]. Qed.
  Lemma copies_fits : fits 0 copies92.
  Proof.
    unfold copies92. generalize 91%nat as n. intros n. induction n as [|n IH]; [split; [reflexivity|exact I]|]. split; [reflexivity|exact IH].
  Qed.

  Lemma copies_values (x : F) a : assignment_of copies92 1 [[x]] a -> nth 92 a [] = [[x + x]].
  Proof.
    intros (A1 & A2 & A3).
    assert (H : forall k, (k <= 91)%nat -> nth k a [] = [[x]]).
    { induction k as [|k IH]; intros Hk; [exact A2|]. destruct (A3 k _ (copies_nth k ltac:(lia))) as [B1 B2].
      specialize (B2 0%nat Nat.lt_0_1). rewrite IH in B2 by lia. cbn [nth] in B2. apply copy_table in B2.
      destruct (nth (S k) a []) as [|t [|t' r]]; cbn in B1; try lia. cbn [nth] in B2. rewrite B2. reflexivity. }
    destruct (A3 91%nat _ copies_last) as [B1 B2]. specialize (B2 0%nat Nat.lt_0_1). rewrite H in B2 by lia. cbn [nth] in B2. apply add_table in B2.
    change (S 91) with 92%nat in *. destruct (nth 92 a []) as [|t [|t' r]]; cbn in B1; try lia. cbn [nth] in B2. rewrite B2. reflexivity.
  Qed.

  Lemma Forall2_repeat' {A B} (R : A -> B -> Prop) x y n : R x y -> Forall2 R (repeat x n) (repeat y n).
  Proof. intros H. induction n; constructor; assumption. Qed.

  Lemma ignored_layer (arks : list F) : (91 <= length arks)%nat ->
    exists sc cs' w a,
      let c := repeat (NewLayer [MkWire 0 0 0 CopyGate]) 91 ++ [NewLayer [MkWire 0 0 0 AddGate]] in
      let p := MkSProof (repeat [] 92) (repeat 1%nat 92) (repeat 1%nat 92) in
      let cs := MkCS 2 [] [] in
      Forall2 describes sc c /\ Forall2 degrees_fit sc c /\ (forall l, In l c -> wf_layer l) /\ fits 0 c /\
      gadget_vars sc 0 (NewLayer [MkWire 0 0 0 AddGate]) 0 p cs [] [] [1%nat] [1%nat] /\
      SGkrAssertValid arks p sc [] [] [1%nat] [1%nat] cs = Some (tt, cs') /\ satisfied w cs' /\
      w 1%nat = 1 /\ Assign c [[1]] = Some a /\ nth 92 a [] = [[1 + 1]] /\ 1 + 1 <> (1 : F).
  Proof.
    intros HA.
    destruct (describable (one_gate CopyGate) (one_gate_wf _)) as (sl1 & D1 & G1).
    { rewrite (proj2 (proj2 (one_gate_bg _))). intros g [<-|[]]. constructor. }
    destruct (describable (one_gate AddGate) (one_gate_wf _)) as (sl2 & D2 & G2).
    { rewrite (proj2 (proj2 (one_gate_bg _))). intros g [<-|[]]. constructor. }
    set (sc := repeat sl1 91 ++ [sl2]).
    set (p91 := MkSProof (repeat (@nil (list nat)) 91) (repeat 1%nat 91) (repeat 1%nat 91)).
    assert (B1 : sBG sl1 = 0%nat) by (rewrite (proj1 D1); apply one_gate_bg).
    assert (B2 : sBG sl2 = 0%nat) by (rewrite (proj1 D2); apply one_gate_bg).
    assert (HS : forall n, map (map (@length nat)) (repeat [] n) = map (map (@length (option F))) (sSumchecks (SAllocateProof (F:=F) 0 (repeat sl1 n)))).
    { intros n. unfold SAllocateProof. cbn [sSumchecks]. rewrite !map_repeat', B1. reflexivity. }
    assert (HV : forall n, vars (MkCS (F:=F) 2 [] []) (repeat 1%nat n)).
    { intros n v Hv. apply repeat_spec in Hv. subst v. cbn. lia. }
    assert (HC : forall n, concat (concat (repeat (@nil (list nat)) n)) = []).
    { intros n. induction n as [|n IH]; [reflexivity|exact IH]. }
    assert (HO : cs_ok (MkCS (F:=F) 2 [] [])) by (split; [cbn; lia|split; constructor]).
    assert (H1 : vars (MkCS (F:=F) 2 [] []) [1%nat; 1%nat]) by (intros v [<-|[<-|[]]]; cbn; lia).
    assert (E91 : gadget_vars (repeat sl1 91) 0 (one_gate CopyGate) 0 p91 (MkCS 2 [] []) [] [] [1%nat] [1%nat]).
    { split; [exact HO|]. split; [|split; [exact H1|repeat split]].
      split; [unfold p91; cbn [sSumchecks sLeft sRight]; rewrite HC, !vars_app; split; [intros v []|split; apply HV]|].
      split; [apply HS|]. split; reflexivity. }
    destruct (any_accepted arks HA (repeat sl1 91) (repeat (one_gate CopyGate) 91) 0 (one_gate CopyGate)) with (bN := 0%nat) (p := p91) (cs := MkCS (F:=F) 2 [] [])
      (qI := @nil nat) (qPI := @nil nat) (vIn := [1%nat]) (vOut := [1%nat]) as (cs' & E & HO' & HGr & HI).
    { apply Forall2_repeat'. exact D1. }
    { intros l Hl. apply repeat_spec in Hl. subst l. apply one_gate_wf. }
    { generalize 91%nat as n. intros n. induction n; [exact I|split; [reflexivity|assumption]]. }
    { apply repeat_length. } { apply nth_error_repeat. lia. } { exact E91. }
    pose proof HGr as (_ & _ & _ & HX & _).
    destruct (HX (fun _ => 1)) as (w & Hag & Hg); [split; [reflexivity|constructor]|].
    assert (Hw1 : w 1%nat = 1) by (symmetry; apply Hag; cbn; lia).
    destruct (assign_ok copies92 0 1 [[1]]) as (a & EA & Ha).
    { intros l Hl. destruct (copies_in l Hl) as [-> | ->]; apply one_gate_wf. }
    { exact copies_fits. } { left. reflexivity. } { intros t [<-|[]]. reflexivity. }
    exists sc, cs', w, a. cbv zeta. fold (one_gate CopyGate) (one_gate AddGate). fold copies92.
    split; [apply Forall2_app; [apply Forall2_repeat'; exact D1|constructor; [exact D2|constructor]]|].
    split; [apply Forall2_app; [apply Forall2_repeat'; exact G1|constructor; [exact G2|constructor]]|].
    split; [intros l Hl; destruct (copies_in l Hl) as [-> | ->]; apply one_gate_wf|].
    split; [exact copies_fits|].
    split.
    { split; [exact HO|]. split; [|split; [exact H1|repeat split]].
      split; [cbn [sSumchecks sLeft sRight]; rewrite HC, !vars_app; split; [intros v []|split; apply HV]|].
      cbn [sSumchecks sLeft sRight]. split; [|split; reflexivity].
      pose proof (HS 91%nat) as HS'. unfold SAllocateProof in HS' |- *. cbn [sSumchecks] in HS' |- *.
      unfold sc. rewrite map_app, map_app, <- HS'. cbn [map]. rewrite B2. reflexivity. }
    split; [rewrite further_layers; exact E|].
    split.
    { split; [exact Hg|]. apply (HI w Hg). split; [constructor|]. cbn [map]. rewrite Hw1.
      assert (Er : read_proof w p91 = same_proof 91 1).
      { unfold read_proof, p91, same_proof. cbn [sSumchecks sLeft sRight]. rewrite !map_repeat', Hw1. reflexivity. }
      rewrite Er. apply copy_accepted. lia. }
    split; [exact Hw1|]. split; [exact EA|]. split; [exact (copies_values 1 a Ha)|].
    intros H. assert (H0 : (1 : F) = 0) by (transitivity (1 + 1 - (1 : F)); [ring|rewrite H; ring]).
    exact (f_1_neq_0 H0).
  Qed.

  Lemma describable_circuit (c : list (Layer F)) : (forall l, In l c -> wf_layer l /\ forall g, In g (lGates l) -> library_gate g) ->
    exists sc, Forall2 describes sc c /\ Forall2 degrees_fit sc c.
  Proof.
    induction c as [|l c IH]; intros H; [exists []; split; constructor|].
    destruct (H l (or_introl eq_refl)) as [Hwf Hg]. destruct (describable l Hwf Hg) as (sl & D & G).
    destruct IH as (sc & Ds & Gs); [intros x Hx; apply H; right; exact Hx|]. exists (sl :: sc). split; constructor; assumption.
  Qed.

  (** Variables exist for every circuit. *)
  Lemma some_vars sc b (l : Layer F) bN :
    gadget_vars sc b l bN (MkSProof (map (map (map (fun _ => 1%nat))) (sSumchecks (SAllocateProof (F:=F) bN sc))) (repeat 1%nat (length sc)) (repeat 1%nat (length sc)))
      (MkCS 2 [] []) (repeat 1%nat (lBGOutputs l)) (repeat 1%nat bN) (repeat 1%nat (2 ^ (b + bN))) (repeat 1%nat (2 ^ (lBGOutputs l + bN))).
  Proof.
    assert (HV : forall n, vars (MkCS (F:=F) 2 [] []) (repeat 1%nat n)).
    { intros n v Hv. apply repeat_spec in Hv. subst v. cbn. lia. }
    split; [split; [cbn; lia|split; constructor]|]. split.
    { split.
      - cbn [sSumchecks sLeft sRight]. rewrite !vars_app. split; [|split; apply HV].
        intros v Hv. apply in_concat in Hv. destruct Hv as (x & Hx & Hv). apply in_concat in Hx. destruct Hx as (y & Hy & Hx).
        apply in_map_iff in Hy. destruct Hy as (z & <- & _). apply in_map_iff in Hx. destruct Hx as (z' & <- & _).
        apply in_map_iff in Hv. destruct Hv as (z2 & <- & _). cbn. lia.
      - cbn [sSumchecks sLeft sRight]. rewrite !repeat_length. split; [|split; reflexivity].
        rewrite map_map. apply map_ext. intros x. rewrite map_map. apply map_ext. intros y. apply map_length. }
    split; [rewrite !vars_app; repeat split; apply HV|]. rewrite !repeat_length. repeat split.
  Qed.
End L.
