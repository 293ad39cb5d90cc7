(** Equivalence of the constraints, and what it gives for the GKR gadget. *)
From Coq Require Import List Arith NArith Lia Bool Ring Field.
From Verif Require Import Field Go LSpec Spec SpecHash MPoly LPoly2 MCircuit SpecCircuit MSumPar SpecSumPar MHash MGkr MSnark MFront SpecGkr SpecSnark SpecSize SpecFront LSnark MSumcheck SpecSumcheck LSnark9 LSnark10 LSnark11 LSize2 LFront LFront2.
Import ListNotations.

Section L.
  Context {F : Field}.
  Add Field FfieldFront3 : (f_theory F).
  Open Scope F_scope.
  Variable fe : Frontend F.
  Hypothesis FE : faithful fe.
  Variable Arks : list F.

  Definition start (cs : CS F) : list nat := seq 0 (nbWires cs).

  Lemma at_start cs (w : nat -> F) v : (v < nbWires cs)%nat -> at_ (start cs) w v = w v.
  Proof. intros H. unfold at_, start. rewrite seq_nth by exact H. reflexivity. Qed.

  Lemma world_start cs : cs_ok cs -> World fe cs cs cs (start cs).
  Proof.
    intros O. split; [exact O|]. split; [exact O|]. split; [apply grows_refl|]. split; [apply grows_refl|]. split; [apply seq_length|].
    split; [intros v Hv; apply in_seq in Hv; lia|]. split; [intros i Hi; unfold start; rewrite seq_nth by exact Hi; reflexivity|]. split.
    - intros w Hw. assert (A : agree_below (nbWires cs) w (at_ (start cs) w)) by (intros v Hv; rewrite at_start by exact Hv; reflexivity).
      split; [apply (gates_ext cs _ _ O A); exact Hw|apply (asserts_ext cs _ _ O A)].
    - split; [reflexivity|]. split; [lia|intros _; lia].
  Qed.

  Lemma sim_same {A B} cs (m : M A) (m' : M B) R va vb : cs_ok cs -> sim fe cs cs (start cs) m m' R ->
    (forall c1 c1' f1 a b, World fe cs c1 c1' f1 -> R c1 f1 a b -> forall w w', gates_ok w c1 -> agree_below (nbWires c1') (at_ f1 w) w' -> va w a = vb w' b) ->
    same_gadget fe cs va vb m m'.
  Proof.
    intros O HS HV. specialize (HS cs (world_start cs O)). unfold same_gadget.
    destruct (m cs) as [[a c1]|], (m' cs) as [[b c1']|]; try contradiction; [|exact I].
    destruct HS as (f1 & HW & _ & HR). pose proof HW as (O1 & O2 & G1 & G2 & LF & BF & ID & HWW & AS & LE & EQ).
    split; [exact O2|]. split; [exact G2|]. split; [|split; [exact AS|split; [exact LE|exact EQ]]].
    intros w w' Hw Hw' Ha. destruct (HWW w Hw) as [H1 H2].
    assert (AG : agree_below (nbWires c1') (at_ f1 w) w').
    { destruct G2 as (_ & _ & _ & _ & U). apply U; [exact H1|exact Hw'|]. intros v Hv. unfold at_. rewrite (ID v Hv). apply Ha. exact Hv. }
    split; [eapply HV; eassumption|]. rewrite H2. apply (asserts_ext c1' _ _ O2 AG).
  Qed.

  Lemma RV_val c1 c1' f1 v a w w' cs : World fe cs c1 c1' f1 -> RV c1 f1 v a -> gates_ok w c1 -> agree_below (nbWires c1') (at_ f1 w) w' -> w v = lc_val w' a.
  Proof.
    intros (_ & _ & _ & _ & LF & _) (V & B & E) Hw AG. rewrite <- (E w Hw). apply lc_val_ext. intros t Ht. apply AG. rewrite <- LF. auto.
  Qed.
  Lemma each_val c1 c1' f1 l l' w w' cs : World fe cs c1 c1' f1 -> each RV c1 f1 l l' -> gates_ok w c1 -> agree_below (nbWires c1') (at_ f1 w) w' ->
    map w l = map (lc_val w') l'.
  Proof.
    intros HW H Hw AG. induction H as [|? ? ? ? H1 H2 IH]; cbn [map]; [reflexivity|]. rewrite IH. f_equal. eapply RV_val; eassumption.
  Qed.

  Lemma start_wire cs v : (0 < v < nbWires cs)%nat -> RV cs (start cs) v (wire v).
  Proof.
    intros H. split; [exact H|]. split; [intros t [<-|[]]; unfold start; rewrite seq_length; cbn; lia|].
    intros w _. unfold wire, lc_val. cbn [suml fst snd]. rewrite at_start by lia. ring.
  Qed.
  Lemma start_wires cs l : wires cs l -> each RV cs (start cs) l (map wire l).
  Proof.
    intros [V P]. unfold each. induction l as [|v l IH]; cbn [map]; [constructor|]. constructor.
    - apply start_wire. split; [|apply V; left; reflexivity]. destruct v; [|lia]. exfalso. apply P. left. reflexivity.
    - apply IH; [intros u Hu; apply V; right; exact Hu|intros Hu; apply P; right; exact Hu].
  Qed.
  Lemma wires_app (cs : CS F) l l' : wires cs (l ++ l') <-> wires cs l /\ wires cs l'.
  Proof.
    unfold wires, vars, proper. split.
    - intros [V P]. split; (split; [intros v Hv; apply V, in_app_iff; auto|intros Hv; apply P, in_app_iff; auto]).
    - intros [[V P] [V' P']]. split; [intros v Hv; apply in_app_iff in Hv; destruct Hv; auto|intros Hv; apply in_app_iff in Hv; destruct Hv; auto].
  Qed.
  Lemma start_wires2 cs l : wires cs (concat l) -> each (each RV) cs (start cs) l (map (map wire) l).
  Proof.
    unfold each. induction l as [|x l IH]; cbn [map concat]; intros H; [constructor|]. apply wires_app in H. constructor; [apply start_wires; tauto|apply IH; tauto].
  Qed.
  Lemma start_wires3 cs l : wires cs (concat (concat l)) -> each (each (each RV)) cs (start cs) l (map (map (map wire)) l).
  Proof.
    unfold each. induction l as [|x l IH]; cbn [map concat]; intros H; [constructor|]. rewrite concat_app in H. apply wires_app in H.
    constructor; [apply start_wires2; tauto|apply IH; tauto].
  Qed.

  (* ------------------------------------------------------------- gadgets *)
  Definition one_wire (w : nat -> F) (v : nat) : list F := [w v].
  Definition one_lc (w : nat -> F) (a : lc) : list F := [lc_val w a].

  Ltac by_sim l := eapply sim_same; [assumption|l|].
  Ltac values := intros c1 c1' f1 a b HW HR w w' Hw AG.

  Lemma same_eval cs t xs : cs_ok cs -> wires cs (t ++ xs) ->
    same_gadget fe cs (fun w v => [w v]) (fun w a => [lc_val w a]) (SEval t xs) (FEval fe (map wire t) (map wire xs)).
  Proof.
    intros O H. apply wires_app in H. destruct H as [H1 H2]. by_sim ltac:(apply sim_Eval; [exact FE|apply start_wires, H1|apply start_wires, H2]).
    values. f_equal. eapply RV_val; eassumption.
  Qed.

  Lemma same_eval_mixed cs t qL qR qP : cs_ok cs -> wires cs (t ++ qL ++ qR ++ qP) ->
    same_gadget fe cs (fun w v => [w (fst v); w (snd v)]) (fun w a => [lc_val w (fst a); lc_val w (snd a)])
      (SEvalMixed t qL qR qP) (FEvalMixed fe (map wire t) (map wire qL) (map wire qR) (map wire qP)).
  Proof.
    intros O H. rewrite !wires_app in H. destruct H as (H1 & H2 & H3 & H4).
    by_sim ltac:(apply sim_EvalMixed; [exact FE|apply start_wires, H1|apply start_wires, H2|apply start_wires, H3|apply start_wires, H4]).
    values. destruct HR as [A B]. f_equal; [|f_equal]; eapply RV_val; eassumption.
  Qed.

  Lemma same_eq cs q h : cs_ok cs -> wires cs (q ++ h) ->
    same_gadget fe cs (fun w v => [w v]) (fun w a => [lc_val w a]) (SEqEval q h) (FEqEval fe (map wire q) (map wire h)).
  Proof.
    intros O H. apply wires_app in H. destruct H as [H1 H2]. by_sim ltac:(apply sim_EqEval; [exact FE|apply start_wires, H1|apply start_wires, H2]).
    values. f_equal. eapply RV_val; eassumption.
  Qed.

  Lemma same_univariate cs c x : cs_ok cs -> wires cs (x :: c) ->
    same_gadget fe cs (fun w v => [w v]) (fun w a => [lc_val w a]) (SUniEval c x) (FUniEval fe (map wire c) (wire x)).
  Proof.
    intros O H. apply start_wires in H. inversion H; subst. by_sim ltac:(apply sim_UniEval; [exact FE|eassumption|eassumption]).
    values. f_equal. eapply RV_val; eassumption.
  Qed.

  Lemma same_zero_one cs c : cs_ok cs -> wires cs c ->
    same_gadget fe cs (fun w v => [w v]) (fun w a => [lc_val w a]) (SZeroAndOne c) (FZeroAndOne fe (map wire c)).
  Proof.
    intros O H. by_sim ltac:(apply sim_ZeroAndOne; [exact FE|apply start_wires, H]). values. f_equal. eapply RV_val; eassumption.
  Qed.

  Lemma same_hash cs l : cs_ok cs -> wires cs l ->
    same_gadget fe cs (fun w v => [w v]) (fun w a => [lc_val w a]) (SMimcHash Arks l) (FMimcHash fe Arks (map wire l)).
  Proof.
    intros O H. by_sim ltac:(apply sim_MimcHash; [exact FE|apply start_wires, H]). values. f_equal. eapply RV_val; eassumption.
  Qed.

  Lemma same_sumcheck cs ps cl bG : cs_ok cs -> wires cs (cl :: concat ps) ->
    same_gadget fe cs (fun w r => let '(hL, hR, hP, e) := r in map w (hL ++ hR ++ hP ++ [e])) (fun w r => let '(hL, hR, hP, e) := r in map (lc_val w) (hL ++ hR ++ hP ++ [e]))
      (SSumcheckAssertValid Arks ps cl bG) (FSumcheckAssertValid fe Arks (map (map wire) ps) (wire cl) bG).
  Proof.
    intros O H. change (cl :: concat ps) with ([cl] ++ concat ps) in H. apply wires_app in H. destruct H as [H1 H2].
    by_sim ltac:(apply sim_SumcheckAssertValid; [exact FE|apply start_wires2, H2|]).
    - apply start_wires in H1. inversion H1; subst. assumption.
    - values. destruct a as [[[hL hR] hP] e], b as [[[hL' hR'] hP'] e']. destruct HR as [[[A B] C] D]. cbn in A, B, C, D.
      rewrite !map_app. f_equal; [eapply each_val; eassumption|]. f_equal; [eapply each_val; eassumption|]. f_equal; [eapply each_val; eassumption|].
      cbn [map]. f_equal. eapply RV_val; eassumption.
  Qed.

  Lemma create_same : match SCreateMimcCircuit Arks, FCreateMimcCircuit fe Arks with
    | Some sc, Some fc => length fc = length sc | None, None => True | _, _ => False end.
  Proof.
    assert (H := related_mimc fe FE Arks (MkCS 0 [] [])). destruct (SCreateMimcCircuit Arks), (FCreateMimcCircuit fe Arks); try contradiction; [|exact I].
    clear - H. induction H; cbn; congruence.
  Qed.

  Lemma same_gkr sc fc cs p qI qPI vIn vOut : SCreateMimcCircuit Arks = Some sc -> FCreateMimcCircuit fe Arks = Some fc ->
    cs_ok cs -> wires cs (concat (concat (sSumchecks p)) ++ sLeft p ++ sRight p ++ qI ++ qPI ++ vIn ++ vOut) ->
    same_gadget fe cs (fun _ _ => []) (fun _ _ => []) (SGkrAssertValid Arks p sc qI qPI vIn vOut)
      (FGkrAssertValid fe Arks (wire_proof p) fc (map wire qI) (map wire qPI) (map wire vIn) (map wire vOut)).
  Proof.
    intros ES EF O H. rewrite !wires_app in H. destruct H as (H1 & H2 & H3 & H4 & H5 & H6 & H7).
    assert (C := related_mimc fe FE Arks cs). rewrite ES, EF in C.
    by_sim ltac:(apply sim_GkrAssertValid; [exact FE|exact C| |apply start_wires, H4|apply start_wires, H5|apply start_wires, H6|apply start_wires, H7]).
    - split; [apply start_wires3, H1|]. split; [apply start_wires, H2|apply start_wires, H3].
    - reflexivity.
  Qed.

  (* ------------------------------------------------------------- consequences *)
  Lemma same_satisfied {A B} cs va vb (m : M A) (m' : M B) a c1 b c1' : same_gadget fe cs va vb m m' -> m cs = Some (a, c1) -> m' cs = Some (b, c1') ->
    grows cs c1 -> forall w', satisfied w' c1' -> exists w, agree_below (nbWires cs) w' w /\ satisfied w c1 /\ va w a = vb w' b.
  Proof.
    intros S E E' G1 w' [Hg Ha]. unfold same_gadget in S. rewrite E, E' in S. destruct S as (O2 & G2 & HV & _).
    assert (W0 := grows_gates _ _ _ G2 Hg). destruct G1 as (_ & _ & _ & X1 & _). destruct (X1 w' W0) as (w & Y1 & Y2).
    destruct (HV w w' Y2 Hg) as [V1 V2]; [intros v Hv; symmetry; apply Y1, Hv|]. exists w. split; [exact Y1|]. split; [|exact V1].
    split; [exact Y2|apply V2; exact Ha].
  Qed.
  Lemma same_satisfied_back {A B} cs va vb (m : M A) (m' : M B) a c1 b c1' : same_gadget fe cs va vb m m' -> m cs = Some (a, c1) -> m' cs = Some (b, c1') ->
    grows cs c1 -> forall w, satisfied w c1 -> exists w', agree_below (nbWires cs) w w' /\ satisfied w' c1' /\ va w a = vb w' b.
  Proof.
    intros S E E' G1 w [Hg Ha]. unfold same_gadget in S. rewrite E, E' in S. destruct S as (O2 & G2 & HV & _).
    assert (W0 := grows_gates _ _ _ G1 Hg). destruct G2 as (_ & _ & _ & X1 & _). destruct (X1 w W0) as (w' & Y1 & Y2).
    destruct (HV w w' Hg Y2 Y1) as [V1 V2]. exists w'. split; [exact Y1|]. split; [|exact V1].
    split; [exact Y2|apply V2; exact Ha].
  Qed.

  Lemma same_extends A B cs va vb (m : M A) (m' : M B) a c1 b c1' : same_gadget fe cs va vb m m' -> m cs = Some (a, c1) -> m' cs = Some (b, c1') ->
    grows cs c1 -> forall w, extends_to cs c1 w <-> extends_to cs c1' w.
  Proof.
    intros S E E' G1 w. split; intros (w1 & A1 & S1).
    - destruct (same_satisfied_back _ _ _ _ _ _ _ _ _ S E E' G1 w1 S1) as (w2 & A2 & S2 & _). exists w2. split; [|exact S2].
      intros v Hv. rewrite (A1 v Hv). apply A2, Hv.
    - destruct (same_satisfied _ _ _ _ _ _ _ _ _ S E E' G1 w1 S1) as (w2 & A2 & S2 & _). exists w2. split; [|exact S2].
      intros v Hv. rewrite (A1 v Hv). apply A2, Hv.
  Qed.

  Lemma same_runs {A B} cs va vb (m : M A) (m' : M B) a c1 : same_gadget fe cs va vb m m' -> m cs = Some (a, c1) -> exists b c1', m' cs = Some (b, c1').
  Proof. intros S E. unfold same_gadget in S. rewrite E in S. destruct (m' cs) as [[b c1']|]; [eauto|contradiction]. Qed.

  Lemma agree_map (cs : CS F) (w w' : nat -> F) l : vars cs l -> agree_below (nbWires cs) w w' -> map w l = map w' l.
  Proof. intros V A. apply map_ext_in. intros v Hv. apply A, V, Hv. Qed.
  Lemma vars_app_l (cs : CS F) l l' : vars cs (l ++ l') -> vars cs l /\ vars cs l'.
  Proof. intros V. split; intros v Hv; apply V, in_app_iff; auto. Qed.
  Lemma agree_map2 (cs : CS F) (w w' : nat -> F) l : vars cs (concat l) -> agree_below (nbWires cs) w w' -> map (map w) l = map (map w') l.
  Proof.
    intros V A. induction l as [|x l IH]; cbn [map concat] in *; [reflexivity|]. apply vars_app_l in V. rewrite IH by tauto. f_equal. apply (agree_map cs); tauto.
  Qed.
  Lemma agree_proof (cs : CS F) (w w' : nat -> F) p : vars cs (concat (concat (sSumchecks p)) ++ sLeft p ++ sRight p) -> agree_below (nbWires cs) w w' ->
    read_proof w p = read_proof w' p.
  Proof.
    intros V A. apply vars_app_l in V. destruct V as [V1 V]. apply vars_app_l in V. destruct V as [V2 V3]. unfold read_proof. f_equal.
    - revert V1. generalize (sSumchecks p). induction l as [|x l IH]; cbn [map concat]; intros V1; [reflexivity|]. rewrite concat_app in V1.
      apply vars_app_l in V1. rewrite IH by tauto. f_equal. apply (agree_map2 cs); tauto.
    - apply (agree_map cs); assumption.
    - apply (agree_map cs); assumption.
  Qed.

  Hypothesis HA : (91 <= length Arks)%nat.

  Lemma front_native sc c fc bN p cs qPI vIn vOut : SCreateMimcCircuit Arks = Some sc -> CreateMimcCircuit Arks = Some c -> FCreateMimcCircuit fe Arks = Some fc ->
    cs_ok cs -> proof_vars cs bN sc p -> vars cs (qPI ++ vIn ++ vOut) -> proper (concat (concat (sSumchecks p)) ++ sLeft p ++ sRight p ++ qPI ++ vIn ++ vOut) ->
    length qPI = bN -> length vIn = (2 * 2 ^ bN)%nat -> length vOut = (2 ^ bN)%nat ->
    exists cs', FGkrAssertValid fe Arks (wire_proof p) fc [] (map wire qPI) (map wire vIn) (map wire vOut) cs = Some (tt, cs') /\ cs_ok cs' /\ grows cs cs' /\
      forall m k inputs outputs w, bN = (m + k)%nat -> (0 < k)%nat -> chunked k m 1 inputs -> chunked k m 0 outputs ->
        gates_ok w cs' -> map w qPI = count bN -> map w vIn = glued 1 m inputs -> map w vOut = glued 0 m outputs ->
        (asserts_ok w cs' <-> asserts_ok w cs /\ GkrVerifyWith (challenge Arks) false bN c (read_proof w p) inputs outputs = Some true).
  Proof.
    intros ES EC EF O PV V P L1 L2 L3.
    destruct (gadget_native Arks sc c bN p cs qPI vIn vOut HA ES EC O PV V L1 L2 L3) as (c1 & E1 & O1 & G1 & H1).
    assert (W : wires cs (concat (concat (sSumchecks p)) ++ sLeft p ++ sRight p ++ [] ++ qPI ++ vIn ++ vOut)).
    { split; [|exact P]. destruct PV as [PV _]. intros v Hv. rewrite !in_app_iff in Hv. cbn [In] in Hv.
      specialize (PV v). specialize (V v). rewrite !in_app_iff in PV, V. tauto. }
    assert (S := same_gkr sc fc cs p [] qPI vIn vOut ES EF O W). cbn [map] in S. unfold same_gadget in S. rewrite E1 in S.
    destruct (FGkrAssertValid fe Arks (wire_proof p) fc [] (map wire qPI) (map wire vIn) (map wire vOut) cs) as [[[] c1']|]; [|contradiction].
    destruct S as (O2 & G2 & HV & _). exists c1'. split; [reflexivity|]. split; [exact O2|]. split; [exact G2|].
    intros m k inputs outputs w' HB Hk CI CO Hw' Q I0 O0. assert (W0 := grows_gates _ _ _ G2 Hw').
    pose proof G1 as (_ & _ & _ & X1 & _). destruct (X1 w' W0) as (w & Y1 & Y2).
    destruct (HV w w' Y2 Hw') as [_ V2]; [intros v Hv; symmetry; apply Y1, Hv|]. rewrite <- V2.
    pose proof V as VV. apply vars_app_l in VV. destruct VV as [Va VV]. apply vars_app_l in VV. destruct VV as [Vb Vc].
    rewrite (H1 m k inputs outputs w HB Hk CI CO Y2).
    - rewrite <- (agree_proof cs w' w p (proj1 PV) Y1). rewrite (asserts_ext cs w' w O Y1). tauto.
    - rewrite <- (agree_map cs w' w qPI Va Y1). exact Q.
    - rewrite <- (agree_map cs w' w vIn Vb Y1). exact I0.
    - rewrite <- (agree_map cs w' w vOut Vc Y1). exact O0.
  Qed.

  Lemma front_sound sc c fc bN p cs qPI vIn vOut : SCreateMimcCircuit Arks = Some sc -> CreateMimcCircuit Arks = Some c -> FCreateMimcCircuit fe Arks = Some fc ->
    cs_ok cs -> proof_vars cs bN sc p -> vars cs (qPI ++ vIn ++ vOut) -> proper (concat (concat (sSumchecks p)) ++ sLeft p ++ sRight p ++ qPI ++ vIn ++ vOut) ->
    length qPI = bN -> length vIn = (2 * 2 ^ bN)%nat -> length vOut = (2 ^ bN)%nat ->
    exists cs', FGkrAssertValid fe Arks (wire_proof p) fc [] (map wire qPI) (map wire vIn) (map wire vOut) cs = Some (tt, cs') /\
      forall w, satisfied w cs' ->
      exists a, Assign c [map w vIn] = Some a /\
        let outs := nth 0 (nth 91 a []) [] in
        length outs = (2 ^ bN)%nat /\
        (forall h, (h < 2 ^ bN)%nat ->
           let x := w (nth h vIn 0%nat) in let k := w (nth (2 ^ bN + h) vIn 0%nat) in
           exists y, MimcPermutation Arks (x - k) k = Some y /\ nth h outs 0 = (y + k)) /\
        (mle (map w vOut) (map w qPI) = mle outs (map w qPI) \/
         exists j, collision_from (challenge Arks) (read_proof w p) c bN 0 a [] (map w qPI) j).
  Proof.
    intros ES EC EF O PV V P L1 L2 L3.
    destruct (gadget_native Arks sc c bN p cs qPI vIn vOut HA ES EC O PV V L1 L2 L3) as (c1 & E1 & O1 & G1 & _).
    destruct (gadget_sound Arks sc c bN p cs qPI vIn vOut HA ES EC O PV V L1 L2 L3) as (c1s & E1s & H1). rewrite E1 in E1s. injection E1s as <-.
    assert (W : wires cs (concat (concat (sSumchecks p)) ++ sLeft p ++ sRight p ++ [] ++ qPI ++ vIn ++ vOut)).
    { split; [|exact P]. destruct PV as [PV _]. intros v Hv. rewrite !in_app_iff in Hv. cbn [In] in Hv.
      specialize (PV v). specialize (V v). rewrite !in_app_iff in PV, V. tauto. }
    assert (S := same_gkr sc fc cs p [] qPI vIn vOut ES EF O W). cbn [map] in S.
    destruct (same_runs _ _ _ _ _ _ _ S E1) as ([] & c1' & E1'). exists c1'. split; [exact E1'|].
    intros w' Hw'. destruct (same_satisfied _ _ _ _ _ _ _ _ _ S E1 E1' G1 w' Hw') as (w & Y1 & Y2 & _).
    pose proof V as VV. apply vars_app_l in VV. destruct VV as [Va VV]. apply vars_app_l in VV. destruct VV as [Vb Vc].
    rewrite (agree_map cs w' w qPI Va Y1), (agree_map cs w' w vIn Vb Y1), (agree_map cs w' w vOut Vc Y1), (agree_proof cs w' w p (proj1 PV) Y1).
    destruct (H1 w Y2) as (a & Ea & Ho & Hh & Hc). exists a. split; [exact Ea|]. split; [exact Ho|]. split; [|exact Hc].
    intros h Hh'. specialize (Hh h Hh'). cbv zeta in Hh |- *.
    assert (forall i, (i < length vIn)%nat -> w' (nth i vIn 0%nat) = w (nth i vIn 0%nat)) as HI by (intros i Hi; apply Y1, Vb, nth_In, Hi).
    rewrite !HI by (rewrite L2; lia). exact Hh.
  Qed.

  Lemma front_size sc fc bN p cs qPI vIn vOut : SCreateMimcCircuit Arks = Some sc -> FCreateMimcCircuit fe Arks = Some fc ->
    cs_ok cs -> proof_vars cs bN sc p -> vars cs (qPI ++ vIn ++ vOut) -> proper (concat (concat (sSumchecks p)) ++ sLeft p ++ sRight p ++ qPI ++ vIn ++ vOut) ->
    length qPI = bN -> length vIn = (2 * 2 ^ bN)%nat -> length vOut = (2 ^ bN)%nat ->
    exists cs', FGkrAssertValid fe Arks (wire_proof p) fc [] (map wire qPI) (map wire vIn) (map wire vOut) cs = Some (tt, cs') /\
      asserts cs' = (asserts cs + 91 * bN + 275)%nat /\
      (N.of_nat (length (gates cs')) <= N.of_nat (length (gates cs)) + 3 * 2 ^ N.of_nat bN + 299208 * N.of_nat bN + 466268)%N /\
      (never_folds fe -> N.of_nat (length (gates cs')) = (N.of_nat (length (gates cs)) + 3 * 2 ^ N.of_nat bN + 299208 * N.of_nat bN + 466268)%N).
  Proof.
    intros ES EF O PV V P L1 L2 L3.
    assert (P' : proper (sLeft p ++ sRight p ++ qPI ++ vIn ++ vOut)) by (intros H; apply P, in_app_iff; right; exact H).
    destruct (gadget_size Arks sc bN p cs qPI vIn vOut HA ES O PV V L1 L2 L3 P') as (c1 & E1 & M1 & A1).
    assert (W : wires cs (concat (concat (sSumchecks p)) ++ sLeft p ++ sRight p ++ [] ++ qPI ++ vIn ++ vOut)).
    { split; [|exact P]. destruct PV as [PV _]. intros v Hv. rewrite !in_app_iff in Hv. cbn [In] in Hv.
      specialize (PV v). specialize (V v). rewrite !in_app_iff in PV, V. tauto. }
    assert (S := same_gkr sc fc cs p [] qPI vIn vOut ES EF O W). cbn [map] in S. unfold same_gadget in S. rewrite E1 in S.
    destruct (FGkrAssertValid fe Arks (wire_proof p) fc [] (map wire qPI) (map wire vIn) (map wire vOut) cs) as [[[] c1']|]; [|contradiction].
    destruct S as (_ & _ & _ & AS & LE & EQ). exists c1'. split; [reflexivity|]. split; [rewrite AS; exact A1|]. split; [lia|].
    intros NF. specialize (EQ NF). lia.
  Qed.

  (* ------------------------------------------------------------- the circuit of the test *)
  Lemma wires2_from {V} (l : list (list V)) : forall s v, In v (concat (wires2 s l)) -> (s <= v)%nat.
  Proof.
    induction l as [|x l IH]; intros s v; cbn [wires2 concat]; [intros []|]. rewrite in_app_iff. intros [H|H].
    - unfold wires1 in H. apply in_seq in H. lia.
    - apply IH in H. lia.
  Qed.
  Lemma wires3_from {V} (l : list (list (list V))) : forall s v, In v (concat (concat (wires3 s l))) -> (s <= v)%nat.
  Proof.
    induction l as [|x l IH]; intros s v; cbn [wires3 concat]; [intros []|]. rewrite concat_app, in_app_iff. intros [H|H].
    - apply wires2_from in H. exact H.
    - apply IH in H. lia.
  Qed.

  Lemma test_proper bN sc cs p qP vIn vOut : SCreateMimcCircuit Arks = Some sc -> AllocateGKRMimcTestCircuit bN sc = (cs, (p, qP, vIn, vOut)) ->
    proper (concat (concat (sSumchecks p)) ++ sLeft p ++ sRight p ++ qP ++ vIn ++ vOut).
  Proof.
    intros ES E. destruct (test_circuit_vars Arks sc bN cs p qP vIn vOut HA ES E) as (_ & _ & _ & P). intros H. apply in_app_iff in H.
    destruct H as [H|H]; [|exact (P H)]. assert (E1 : sSumchecks p = sSumchecks (fst (fst (fst (snd (cs, (p, qP, vIn, vOut))))))) by reflexivity.
    rewrite <- E in E1. unfold AllocateGKRMimcTestCircuit in E1. cbv zeta in E1. cbn [fst snd] in E1. rewrite E1 in H. apply wires3_from in H. lia.
  Qed.

  Lemma front_test_size sc fc bN cs p qP vIn vOut : SCreateMimcCircuit Arks = Some sc -> FCreateMimcCircuit fe Arks = Some fc ->
    AllocateGKRMimcTestCircuit bN sc = (cs, (p, qP, vIn, vOut)) ->
    exists cs', FGkrAssertValid fe Arks (wire_proof p) fc [] (map wire qP) (map wire vIn) (map wire vOut) cs = Some (tt, cs') /\
      asserts cs' = (91 * bN + 275)%nat /\
      (N.of_nat (length (gates cs')) <= 3 * 2 ^ N.of_nat bN + 299208 * N.of_nat bN + 466268)%N /\
      (never_folds fe -> N.of_nat (length (gates cs')) = (3 * 2 ^ N.of_nat bN + 299208 * N.of_nat bN + 466268)%N).
  Proof.
    intros ES EF E. destruct (test_circuit_ok bN sc cs p qP vIn vOut E) as (O & PV & V & L1 & L2 & L3).
    assert (P := test_proper bN sc cs p qP vIn vOut ES E).
    destruct (front_size sc fc bN p cs qP vIn vOut ES EF O PV V P L1 L2 L3) as (cs' & E1 & E2 & E3 & E4). exists cs'. split; [exact E1|].
    assert (C0 : gates cs = [] /\ assertions cs = []).
    { assert (C : cs = fst (cs, (p, qP, vIn, vOut))) by reflexivity. rewrite <- E in C. unfold AllocateGKRMimcTestCircuit in C. cbv zeta in C. cbn [fst] in C.
      rewrite C. split; reflexivity. }
    destruct C0 as [C1 C2]. unfold asserts at 2 in E2. rewrite C2 in E2. rewrite C1 in E3, E4. cbn [length] in *.
    split; [lia|]. split; [lia|]. intros NF. rewrite (E4 NF). lia.
  Qed.

  Lemma front_complete nCore mtProve m k inputs : distinct_upto (F:=F) 12 -> (0 < nCore)%nat ->
    follows_machine (challenge Arks) nCore mtProve -> chunked k m 1 inputs ->
    exists c sc fc a pf sp si so,
      CreateMimcCircuit Arks = Some c /\ SCreateMimcCircuit Arks = Some sc /\ FCreateMimcCircuit fe Arks = Some fc /\
      Assign c inputs = Some a /\ GkrProve (challenge Arks) mtProve c a nCore = Some pf /\
      SAssign (SAllocateProof (m + k) sc) pf = Some sp /\
      SAssignFromChunkedBKT (SAllocateMultilinear (m + k + 1)) inputs = Some si /\
      SAssignFromChunkedBKT (SAllocateMultilinear (m + k)) (nth 91 a []) = Some so /\
      forall cs p qP vIn vOut, AllocateGKRMimcTestCircuit (m + k) sc = (cs, (p, qP, vIn, vOut)) ->
        exists cs' w, FGkrAssertValid fe Arks (wire_proof p) fc [] (map wire qP) (map wire vIn) (map wire vOut) cs = Some (tt, cs') /\ satisfied w cs' /\
          map (map (map (fun v => Some (w v)))) (sSumchecks p) = sSumchecks sp /\
          map (fun v => Some (w v)) (sLeft p) = sLeft sp /\ map (fun v => Some (w v)) (sRight p) = sRight sp /\
          map (fun v => Some (w v)) vIn = si /\ map (fun v => Some (w v)) vOut = so /\
          map w qP = count (m + k).
  Proof.
    intros D HN HF HC. destruct (test_circuit_complete Arks nCore mtProve m k inputs HA D HN HF HC) as (c & sc & a & pf & sp & si & so & EC & ES & EA & EP & EX & EI & EO & H).
    assert (CS0 := create_same). rewrite ES in CS0. destruct (FCreateMimcCircuit fe Arks) as [fc|] eqn:EF; [|contradiction]. clear CS0.
    exists c, sc, fc, a, pf, sp, si, so. repeat (split; [first [assumption|reflexivity]|]). intros cs p qP vIn vOut E.
    destruct (H cs p qP vIn vOut E) as (c1 & w & E1 & W1 & S1 & S2 & S3 & S4 & S5 & S6). clear H.
    destruct (test_circuit_ok (m + k) sc cs p qP vIn vOut E) as (O & PV & V & L1 & L2 & L3).
    assert (P := test_proper (m + k) sc cs p qP vIn vOut ES E).
    destruct (gadget_native Arks sc c (m + k) p cs qP vIn vOut HA ES EC O PV V L1 L2 L3) as (c1s & E1s & O1 & G1 & _).
    assert (Q := eq_trans (eq_sym E1) E1s). injection Q as Q. subst c1s.
    assert (W : wires cs (concat (concat (sSumchecks p)) ++ sLeft p ++ sRight p ++ [] ++ qP ++ vIn ++ vOut)).
    { split; [|exact P]. destruct PV as [PV _]. intros v Hv. rewrite !in_app_iff in Hv. cbn [In] in Hv.
      specialize (PV v). specialize (V v). rewrite !in_app_iff in PV, V. tauto. }
    assert (S := same_gkr sc fc cs p [] qP vIn vOut ES EF O W). cbn [map] in S.
    destruct (same_runs _ _ _ _ _ _ _ S E1) as ([] & c1' & E1').
    destruct (same_satisfied_back _ _ _ _ _ _ _ _ _ S E1 E1' G1 w W1) as (w' & Y1 & Y2 & _).
    exists c1', w'. split; [exact E1'|]. split; [exact Y2|]. destruct PV as [PV _].
    assert (K : read_proof w p = read_proof w' p) by (apply (agree_proof cs); assumption). unfold read_proof in K. injection K as K1 K2 K3.
    pose proof V as VV. apply vars_app_l in VV. destruct VV as [Va VV]. apply vars_app_l in VV. destruct VV as [Vb Vc].
    assert (MS : forall l, map (fun v => Some (w' v)) l = map Some (map w' l)) by (intros; rewrite map_map; reflexivity).
    assert (MS0 : forall l, map (fun v => Some (w v)) l = map Some (map w l)) by (intros; rewrite map_map; reflexivity).
    rewrite !MS. rewrite <- K2, <- K3, <- (agree_map cs w w' vIn Vb Y1), <- (agree_map cs w w' vOut Vc Y1), <- (agree_map cs w w' qP Va Y1), <- !MS0.
    split; [|repeat (split; [assumption|]); assumption]. rewrite <- S1. clear - K1. revert K1. generalize (sSumchecks p). intros l K1.
    assert (X : forall (u : nat -> F), map (map (map (fun v => Some (u v)))) l = map (map (map Some)) (map (map (map u)) l)).
    { intros u. rewrite map_map. apply map_ext. intros x. rewrite map_map. apply map_ext. intros y. rewrite map_map. reflexivity. }
    rewrite (X w'), (X w), K1. reflexivity.
  Qed.

  (* ------------------------------------------------------------- the two frontends *)
  Lemma plain_faithful : faithful (plain (F:=F)) /\ never_folds (plain (F:=F)).
  Proof.
    split; [|intros l; reflexivity]. split; [reflexivity|]. split; [intros t l Ht; right; apply in_map; exact Ht|discriminate].
  Qed.

  Lemma addTerm_val (w : nat -> F) t l : lc_val w (addTerm t l) = fst t * w (snd t) + lc_val w l.
  Proof.
    unfold lc_val. induction l as [|u l IH]; cbn [addTerm suml]; [ring|]. destruct (Nat.eqb_spec (snd t) (snd u)) as [E|E]; cbn [suml fst snd].
    - rewrite E. ring.
    - rewrite IH. ring.
  Qed.
  Lemma addTerm_in (t u : F * nat) l : In u (addTerm t l) -> snd u = snd t \/ In (snd u) (map snd l).
  Proof.
    induction l as [|x l IH]; cbn [addTerm]; [intros [<-|[]]; auto|]. destruct (Nat.eqb_spec (snd t) (snd x)) as [E|E]; cbn [In map].
    - intros [<-|H]; [left; symmetry; exact E|right; right; apply in_map, H].
    - intros [<-|H]; [auto|]. destruct (IH H); auto.
  Qed.
  Lemma folding_faithful : faithful (folding (F:=F)).
  Proof.
    split; [|split].
    - intros w l _. cbn [reduce folding]. unfold merge. transitivity (lc_val w (fold_right addTerm [] l)).
      + unfold lc_val. generalize (fold_right addTerm [] l). clear. induction l as [|u l IH]; cbn [filter suml]; [reflexivity|].
        destruct (feqb (fst u) 0) eqn:E; cbn [negb suml].
        * apply feqb_eq in E. rewrite IH, E. ring.
        * rewrite IH. reflexivity.
      + induction l as [|u l IH]; cbn [fold_right]; [reflexivity|]. rewrite addTerm_val, IH. reflexivity.
    - intros t l Ht. right. cbn [reduce folding] in Ht. unfold merge in Ht. apply filter_In in Ht. destruct Ht as [Ht _].
      revert t Ht. induction l as [|u l IH]; cbn [fold_right map In]; [intros t []|]. intros t H. apply addTerm_in in H.
      destruct H as [H|H]; [left; symmetry; exact H|]. right. apply in_map_iff in H. destruct H as (x & <- & H). apply IH. exact H.
    - intros w l c H1. cbn [constantOf folding]. unfold isConstant. destruct (forallb _ l) eqn:E; [|discriminate]. intros H. injection H as <-.
      unfold lc_val. induction l as [|u l IH]; cbn [suml fold_right forallb] in *; [reflexivity|]. apply andb_prop in E. destruct E as [E1 E2].
      apply Nat.eqb_eq in E1. rewrite (IH E2), E1, H1. ring.
  Qed.
End L.
