(** The GKR verifier in a circuit. *)
From Coq Require Import List Arith Lia Bool Ring Field.
From Verif Require Import Field Go MCommon Spec LSpec LCommon MPoly LPoly LPoly2 MHash SpecHash LHash MCircuit SpecCircuit LCircuit LCircuit2 LCircuit3
  MSumcheck LSumcheck SpecSumcheck LSumcheck4 MSumPar MGkr SpecGkr LGkr LGkr2 LGkr3 MSnark SpecSnark LSnark LSnark2 LSnark3.
Import ListNotations.

Section L.
  Context {F : Field}.
  Add Field FfieldSnark4 : (f_theory F).
  Open Scope F_scope.

  (** The static tables of a layer as a function. *)
  Definition stab (l : Layer F) (q : list F) : list (list F) := match GetStaticTable l q with Some t => t | None => [] end.

  Lemma stab_ok l q : wf_layer l -> length q = lBGOutputs l -> GetStaticTable l q = Some (stab l q) /\
    length (stab l q) = length (lGates l) /\ forall i, (i < length (lGates l))%nat -> length (nth i (stab l q) []) = (2 ^ (lBGInputs l + lBGInputs l))%nat.
  Proof.
    intros H1 H2. destruct (statics_ok l q H1 H2) as (t & E & HL & HS). unfold stab. rewrite E. split; [reflexivity|].
    split; [exact HL|]. intros i Hi. rewrite HS, Nat.pow_add_r by exact Hi. reflexivity.
  Qed.

  Lemma table_ok gen l i : table_gadget gen l i -> forall (cs : CS F) q fq, cs_ok cs -> vals cs q fq -> length q = lBGOutputs l ->
    exists tab cs', gen q cs = Some (tab, cs') /\ computes cs cs' /\
      (length tab = (2 ^ (lBGInputs l + lBGInputs l))%nat /\ vals cs' tab (fun w => nth i (stab l (fq w)) [])).
  Proof.
    intros HG cs q fq HO Vq Lq. destruct (HG cs q HO (proj1 Vq) Lq) as (tab & cs' & E & C & Wt & Lt & Ht).
    exists tab, cs'. split; [exact E|]. split; [exact C|]. split; [rewrite Lt; f_equal; lia|].
    split; [exact Wt|]. intros w Hw. destruct (Ht w Hw) as (ts & Ets & Hn). adv C.
    unfold stab. rewrite <- (proj2 Vq w Hw), Ets. rewrite (nth_error_nth _ _ [] Hn). reflexivity.
  Qed.

  Lemma gate_ok' sg g : gate_gadget sg g -> forall (cs : CS F) vL vR fL fR, cs_ok cs -> val1 cs vL fL -> val1 cs vR fR ->
    exists r cs', sg vL vR cs = Some (r, cs') /\ computes cs cs' /\ val1 cs' r (fun w => geval g (fL w) (fR w)).
  Proof.
    intros HG cs vL vR fL fR HO VL VR. destruct (HG cs vL vR HO) as (r & cs' & E & C & W & H).
    { intros v [<-|[<-|[]]]; [apply VL|apply VR]. }
    exists r, cs'. split; [exact E|]. split; [exact C|]. split; [apply W; left; reflexivity|]. adv C.
    intros w Hw. rewrite (H w Hw), (proj2 VL w Hw), (proj2 VR w Hw). reflexivity.
  Qed.

  Lemma Forall2_nth {A B} (P : A -> B -> Prop) la lb i a : Forall2 P la lb -> nth_error la i = Some a ->
    exists b, nth_error lb i = Some b /\ P a b.
  Proof.
    intros H. revert i. induction H as [|x y la lb Hxy H IH]; intros [|i] E; cbn in *; try discriminate.
    - injection E as <-. eauto.
    - auto.
  Qed.

  Lemma Forall2_len {A B} (P : A -> B -> Prop) la lb : Forall2 P la lb -> length la = length lb.
  Proof. intros H. induction H; cbn [length]; congruence. Qed.

  Section Layer.
    Variable sl : SLayer F.
    Variable l : Layer F.
    Hypothesis Hwf : wf_layer l.
    Hypothesis Hd : describes sl l.
    Let n := length (lGates l).

    Lemma desc_gates : length (sGates sl) = n /\ length (sTables sl) = n.
    Proof.
      destruct Hd as (_ & HG & HT & _). pose proof (Forall2_len _ _ _ HG) as H. unfold n. lia.
    Qed.

    Lemma desc_gate i : (i < n)%nat -> exists sg, get (sGates sl) i = Some sg /\ gate_gadget sg (nth i (lGates l) agate).
    Proof.
      intros Hi. destruct desc_gates as [L1 L2]. destruct Hd as (_ & HG & _ & _).
      destruct (nth_error (sGates sl) i) as [sg|] eqn:E; [|apply nth_error_None in E; lia].
      destruct (Forall2_nth _ _ _ _ _ HG E) as (g & Eg & Hg). exists sg. split; [exact E|]. rewrite (nth_error_nth _ _ agate Eg). exact Hg.
    Qed.

    Lemma desc_table i : (i < n)%nat -> exists gen, get (sTables sl) i = Some gen /\ table_gadget gen l i.
    Proof.
      intros Hi. destruct desc_gates as [L1 L2]. destruct Hd as (_ & _ & _ & HT).
      destruct (nth_error (sTables sl) i) as [gen|] eqn:E; [|apply nth_error_None in E; lia].
      exists gen. split; [exact E|]. apply HT. exact E.
    Qed.

    Lemma SCombine_ok (cs : CS F) q qP hL hR hP vL vR fq fqP fL fR fP fvL fvR : cs_ok cs ->
      vals cs q fq -> vals cs qP fqP -> vals cs hL fL -> vals cs hR fR -> vals cs hP fP -> val1 cs vL fvL -> val1 cs vR fvR ->
      length q = lBGOutputs l -> length hL = lBGInputs l -> length hR = lBGInputs l -> (length qP <= length hP)%nat ->
      exists r cs', SCombine sl q qP hL hR hP vL vR cs = Some (r, cs') /\ computes cs cs' /\
        val1 cs' r (fun w => sumn n (fun i => mle (nth i (stab l (fq w)) []) (fL w ++ fR w) * geval (nth i (lGates l) agate) (fvL w) (fvR w))
          * eqprod (fqP w) (fP w)).
    Proof.
      intros HO Vq VqP VhL VhR VhP VvL VvR Lq LhL LhR LP. pose proof (computes_refl _ HO) as HC. unfold SCombine.
      destruct desc_gates as [LG LT].
      step (cConstant_ok cs 0 HO) as res0 V0.
      pose proof (vals_app _ _ _ _ _ VhL VhR) as VhLR.
      match goal with |- context [mbind (mfold ?f _ _)] => destruct (mfold_ok f (seq 0 (length (sGates sl))) 0%nat
        (fun i r c => val1 c r (fun w => sumn i (fun i => mle (nth i (stab l (fq w)) []) (fL w ++ fR w) * geval (nth i (lGates l) agate) (fvL w) (fvR w)))) res0 s HO)
        as (res & s1 & E & C & V) end.
      - exact V0.
      - intros i res cs1 Hi C1 V1. rewrite seq_length, LG in Hi. rewrite seq_nth by lia. cbn [Nat.add]. adv C1.
        pose proof (computes_refl _ HO) as HC1.
        destruct (desc_table i Hi) as (gen & Eg & Hg). rewrite (bind_lift _ _ _ _ Eg).
        destruct (table_ok gen l i Hg _ _ _ HO Vq Lq) as (tab & s2 & E2 & C2 & Lt & Vt). rewrite (bind_eq _ _ _ _ _ E2). adv C2.
        assert (LE : length tab = (2 ^ length (hL ++ hR))%nat) by (rewrite Lt, app_length, LhL, LhR; reflexivity).
        step (SEval_mle _ _ _ _ _ HO Vt VhLR LE) as t Vt'.
        destruct (desc_gate i Hi) as (sg & Es & Hs). rewrite (bind_lift _ _ _ _ Es).
        step (gate_ok' sg _ Hs _ _ _ _ _ HO VvL VvR) as g Vg.
        step (cMul_ok _ _ _ _ _ HO Vt' Vg) as p Vp.
        last_step (cAdd2_ok _ _ _ _ _ HO V1 Vp) as r V. apply (val1_iff _ _ _ _ V). intros w _. rewrite sumn_S. reflexivity.
      - rewrite (bind_eq _ _ _ _ _ E). adv C. rewrite seq_length, LG in V.
        step (SEqEval_ok _ _ _ _ _ HO VqP VhP LP) as e Ve.
        last_step (cMul_ok _ _ _ _ _ HO V Ve) as r V'. exact V'.
    Qed.

    Lemma SCombineLC_ok (cs : CS F) qL qR qP hL hR hP lamL lamR vL vR fqL fqR fqP fL fR fP flL flR fvL fvR : cs_ok cs ->
      vals cs qL fqL -> vals cs qR fqR -> vals cs qP fqP -> vals cs hL fL -> vals cs hR fR -> vals cs hP fP ->
      val1 cs lamL flL -> val1 cs lamR flR -> val1 cs vL fvL -> val1 cs vR fvR ->
      length qL = lBGOutputs l -> length qR = lBGOutputs l -> length hL = lBGInputs l -> length hR = lBGInputs l -> (length qP <= length hP)%nat ->
      exists r cs', SCombineWithLinearComb sl qL qR qP hL hR hP lamL lamR vL vR cs = Some (r, cs') /\ computes cs cs' /\
        val1 cs' r (fun w => sumn n (fun i => (flL w * mle (nth i (stab l (fqL w)) []) (fL w ++ fR w) + flR w * mle (nth i (stab l (fqR w)) []) (fL w ++ fR w))
            * geval (nth i (lGates l) agate) (fvL w) (fvR w)) * eqprod (fqP w) (fP w)).
    Proof.
      intros HO VqL VqR VqP VhL VhR VhP VlL VlR VvL VvR LqL LqR LhL LhR LP. pose proof (computes_refl _ HO) as HC. unfold SCombineWithLinearComb.
      destruct desc_gates as [LG LT].
      step (cConstant_ok cs 0 HO) as res0 V0.
      pose proof (vals_app _ _ _ _ _ VhL VhR) as VhLR.
      match goal with |- context [mbind (mfold ?f _ _)] => destruct (mfold_ok f (seq 0 (length (sGates sl))) 0%nat
        (fun i r c => val1 c r (fun w => sumn i (fun i => (flL w * mle (nth i (stab l (fqL w)) []) (fL w ++ fR w) + flR w * mle (nth i (stab l (fqR w)) []) (fL w ++ fR w))
            * geval (nth i (lGates l) agate) (fvL w) (fvR w)))) res0 s HO)
        as (res & s1 & E & C & V) end.
      - exact V0.
      - intros i res cs1 Hi C1 V1. rewrite seq_length, LG in Hi. rewrite seq_nth by lia. cbn [Nat.add]. adv C1.
        pose proof (computes_refl _ HO) as HC1.
        destruct (desc_table i Hi) as (gen & Eg & Hg). rewrite (bind_lift _ _ _ _ Eg).
        destruct (table_ok gen l i Hg _ _ _ HO VqL LqL) as (tabL & s2 & E2 & C2 & LtL & VtL). rewrite (bind_eq _ _ _ _ _ E2). adv C2.
        destruct (table_ok gen l i Hg _ _ _ HO VqR LqR) as (tabR & s3 & E3 & C3 & LtR & VtR). rewrite (bind_eq _ _ _ _ _ E3). adv C3.
        assert (LEL : length tabL = (2 ^ length (hL ++ hR))%nat) by (rewrite LtL, app_length, LhL, LhR; reflexivity).
        assert (LER : length tabR = (2 ^ length (hL ++ hR))%nat) by (rewrite LtR, app_length, LhL, LhR; reflexivity).
        step (SEval_mle _ _ _ _ _ HO VtL VhLR LEL) as tL VtL'.
        step (cMul_ok _ _ _ _ _ HO VlL VtL') as aL VaL.
        step (SEval_mle _ _ _ _ _ HO VtR VhLR LER) as tR VtR'.
        step (cMul_ok _ _ _ _ _ HO VlR VtR') as aR VaR.
        step (cAdd2_ok _ _ _ _ _ HO VaL VaR) as te Vte.
        destruct (desc_gate i Hi) as (sg & Es & Hs). rewrite (bind_lift _ _ _ _ Es).
        step (gate_ok' sg _ Hs _ _ _ _ _ HO VvL VvR) as g Vg.
        step (cMul_ok _ _ _ _ _ HO Vte Vg) as p Vp.
        last_step (cAdd2_ok _ _ _ _ _ HO V1 Vp) as r V. apply (val1_iff _ _ _ _ V). intros w _. rewrite sumn_S. reflexivity.
      - rewrite (bind_eq _ _ _ _ _ E). adv C. rewrite seq_length, LG in V.
        step (SEqEval_ok _ _ _ _ _ HO VqP VhP LP) as e Ve.
        last_step (cMul_ok _ _ _ _ _ HO V Ve) as r V'. exact V'.
    Qed.

    (** The native values. *)
    Lemma native_combine q x y vl vr e : length q = lBGOutputs l -> length x = lBGInputs l -> length y = lBGInputs l ->
      exists sts, evaluateStaticTables l q x y = Some sts /\
        EvaluateCombinator vl vr e (lGates l) sts =
        Some (sumn n (fun i => mle (nth i (stab l q) []) (x ++ y) * geval (nth i (lGates l) agate) vl vr) * e).
    Proof.
      intros Hq Hx Hy. destruct (stab_ok l q Hwf Hq) as (E & HL & HS). eexists.
      split; [apply (evaluateStaticTables_ok l q _ x y Hwf Hq E Hx Hy)|].
      rewrite combinator_sum by (rewrite map_length; lia). f_equal.
      rewrite (suml_combine _ _ _ 0 agate) by (rewrite map_length; lia). rewrite map_length, HL. fold n.
      transitivity (e * sumn n (fun i => mle (nth i (stab l q) []) (x ++ y) * geval (nth i (lGates l) agate) vl vr)); [|ring].
      f_equal. apply sumn_ext. intros i Hi. cbn [fst snd].
      rewrite (nth_map_lt _ _ _ _ []) by (rewrite HL; exact Hi). reflexivity.
    Qed.

    Lemma native_combineLC qL qR x y lam vl vr e : length qL = lBGOutputs l -> length qR = lBGOutputs l -> length x = lBGInputs l -> length y = lBGInputs l ->
      exists sts, evaluateStaticTablesLinCombs l qL qR x y 1 lam = Some sts /\
        EvaluateCombinator vl vr e (lGates l) sts =
        Some (sumn n (fun i => (1 * mle (nth i (stab l qL) []) (x ++ y) + lam * mle (nth i (stab l qR) []) (x ++ y)) * geval (nth i (lGates l) agate) vl vr) * e).
    Proof.
      intros HqL HqR Hx Hy. destruct (stab_ok l qL Hwf HqL) as (EL & HLL & HSL). destruct (stab_ok l qR Hwf HqR) as (ER & HLR & HSR). eexists.
      split; [apply (evaluateStaticTablesLinCombs_ok l qL qR _ _ x y lam Hwf HqL HqR EL ER Hx Hy)|]. rewrite map_map.
      rewrite combinator_sum by (rewrite map_length, seq_length; lia). f_equal.
      rewrite (suml_combine _ _ _ 0 agate) by (rewrite map_length, seq_length; lia). rewrite map_length, seq_length. fold n.
      match goal with |- _ = ?s * e => transitivity (e * s); [|ring] end.
      f_equal. apply sumn_ext. intros i Hi. cbn [fst snd].
      rewrite nth_map_seq by exact Hi. cbn [Nat.add]. rewrite mle_lincomb; [ring|].
      rewrite HSR by exact Hi. rewrite app_length, Hx, Hy. reflexivity.
    Qed.
  End Layer.
End L.
