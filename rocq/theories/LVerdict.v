(** The verdict of the GKR verifier on every proof object (lemmas for PVerdict.v). *)
From Coq Require Import List Arith Lia Bool Ring Field.
From Verif Require Import Field Go MCommon Spec LSpec LCommon MPoly LPoly LPoly2 LPoly3 MCircuit SpecCircuit LCircuit LCircuit2
  LCircuit3 MSumcheck LSumcheck SpecSumcheck LSumcheck4 LSumcheck5 MGkr SpecGkr LGkr LGkr2 LGkr3 LGkr4 SpecDomain LDomain SpecHonest LHonest SpecVerdict.
Import ListNotations.

Section L.
  Context {F : Field}.
  Add Field FfieldVer : (f_theory F).
  Open Scope F_scope.
  Variable ch : list F -> F.

  (** The value of the combinator on claims that need not come from a table. *)
  Lemma combinator_wires (l : Layer F) tabs weight qL qR vl vr e : wf_layer l -> weights_of l tabs weight ->
    length qL = lBGInputs l -> length qR = lBGInputs l ->
    EvaluateCombinator vl vr e (lGates l) (map (fun t => mle t (qL ++ qR)) tabs) =
    Some (e * suml (Wires l) (fun w => weight (wO w) *
      (chi (to_bits (lBGInputs l) (wL w)) qL * chi (to_bits (lBGInputs l) (wR w)) qR) * suml (listed l w) (fun g => geval g vl vr))).
  Proof.
    intros Hwf HW LL LR. pose proof HW as [HL _].
    rewrite combinator_sum by (rewrite map_length; lia). do 2 f_equal.
    set (b := lBGInputs l) in *.
    rewrite (suml_ext (Wires l) _ (fun w => weight (wO w) * suml (listed l w) (fun g => chi (to_bits b (wL w)) qL * chi (to_bits b (wR w)) qR *
      geval g vl vr))) by (intros; rewrite suml_scal_l; ring).
    rewrite <- (weights_sum_any l tabs weight (fun i j g => chi (to_bits b i) qL * chi (to_bits b j) qR * geval g vl vr)) by assumption.
    fold b.
    rewrite (sumn_ext (2 ^ b) _ (fun i => suml (combine (lGates l) tabs) (fun gs => sumn (2 ^ b) (fun j =>
      nth (i * 2 ^ b + j) (snd gs) 0 * (chi (to_bits b i) qL * chi (to_bits b j) qR * geval (fst gs) vl vr)))))
      by (intros; apply sumn_suml_swap).
    rewrite sumn_suml_swap.
    rewrite (suml_combine _ (map _ _) (lGates l) 0 agate) by (rewrite map_length; lia).
    rewrite (suml_combine _ (lGates l) tabs agate []) by exact HL. rewrite map_length, HL.
    apply sumn_ext. intros i Hi. cbn [fst snd]. rewrite nth_map_lt with (d' := []) by lia.
    rewrite mle_app, LL, LR, sum_cube, <- sumn_scal_r. apply sumn_ext. intros i0 Hi0.
    rewrite sum_cube, <- sumn_scal_r. apply sumn_ext. intros j Hj.
    rewrite !bits_val_to_bits by assumption. ring.
  Qed.

  (** One layer, with whatever follows its check. *)
  Definition step {A} (pf : Proof F) (j bN : nat) (l : Layer F) claim qP (sts : list F -> list F -> option (list F))
      (rej bad : option A) (ok : list F -> list F -> list F -> option A) : option A :=
    sp <- get (SumcheckProofs pf) j ;;
    res <- Verify ch claim sp bN (lBGInputs l) ;;
    match res with
    | Reject => rej
    | Accept qP' qL' qR' tot =>
      e <- EvalEq qP qP' ;; vl <- get (ClaimsLeft pf) j ;; vr <- get (ClaimsRight pf) j ;;
      s <- sts qL' qR' ;; ev <- EvaluateCombinator vl vr e (lGates l) s ;;
      if tot =? ev then ok qP' qL' qR' else bad
    end.

  Section V.
    Variables (c : list (Layer F)) (bN : nat) (pf : Proof F) (out : F) (b0 : nat).
    Hypothesis Hwf : forall l, In l c -> wf_layer l.
    Hypothesis Hfits : fits b0 c.
    Notation claim_at := (claim_at ch c pf out).
    Notation instance_at := (instance_at ch c bN pf).
    Notation weight_at := (weight_at ch c pf).
    Notation value_at := (value_at ch c bN pf).
    Notation passes := (passes ch c bN pf out).
    Notation mismatch := (mismatch ch c bN pf out).
    Notation turned_down := (turned_down ch c pf out).
    Notation crashes := (crashes ch c bN pf out).
    Notation answered := (answered ch c bN pf out).

    (** the static tables of layer [j], evaluated at two points *)
    Definition statics_right (l : Layer F) (j : nat) (sts : list F -> list F -> option (list F)) : Prop :=
      exists tabs, weights_of l tabs (weight_at l j) /\
        forall x y, length x = lBGInputs l -> length y = lBGInputs l -> sts x y = Some (map (fun t => mle t (x ++ y)) tabs).

    Lemma split3 (b : nat) (sp : list (list F)) : (2 * b <= length sp)%nat ->
      map ch sp = firstn b (map ch sp) ++ firstn b (skipn b (map ch sp)) ++ skipn (b + b) (map ch sp) /\
      length (firstn b (map ch sp)) = b /\ length (firstn b (skipn b (map ch sp))) = b.
    Proof.
      intros H. split; [|rewrite !firstn_length, skipn_length, map_length; lia].
      rewrite <- (firstn_skipn b (map ch sp)) at 1. f_equal.
      rewrite <- (firstn_skipn b (skipn b (map ch sp))) at 1. f_equal.
      rewrite skipn_add. reflexivity.
    Qed.

    Section Layer.
      Variables (A : Type) (j : nat) (l : Layer F) (sts : list F -> list F -> option (list F)).
      Variables (rej bad : option A) (ok : list F -> list F -> list F -> option A).
      Hypothesis Hl : nth_error c j = Some l.
      Hypothesis Hst : statics_right l j sts.
      Notation run := (step pf j bN l (claim_at j) (instance_at l j) sts rej bad ok).

      Lemma run_answered fin : answered j l fin ->
        run = if fin =? value_at l j then ok (ptP ch pf (lBGInputs l) j) (ptL ch pf (lBGInputs l) j) (ptR ch pf (lBGInputs l) j) else bad.
      Proof.
        intros (_ & sp & Hsp & Ha & HL & HcL & HcR). unfold step. unfold get at 1. rewrite Hsp.
        destruct (split3 (lBGInputs l) sp ltac:(lia)) as (E & E1 & E2).
        assert (EV : Verify ch (claim_at j) sp bN (lBGInputs l) =
          Some (Accept (ptP ch pf (lBGInputs l) j) (ptL ch pf (lBGInputs l) j) (ptR ch pf (lBGInputs l) j) fin)).
        { apply Verify_accept. split; [exact Ha|]. unfold ptL, ptR, ptP, chal. rewrite (nth_error_nth _ _ [] Hsp). auto. }
        rewrite EV. cbv beta iota zeta.
        assert (LP : (length (instance_at l j) <= length (ptP ch pf (lBGInputs l) j))%nat).
        { unfold ptP, chal. rewrite (nth_error_nth _ _ [] Hsp), skipn_length, map_length. lia. }
        rewrite EvalEq_spec by exact LP.
        rewrite (get_nth (ClaimsLeft pf) j 0), (get_nth (ClaimsRight pf) j 0) by assumption.
        destruct Hst as (tabs & HW & Hs).
        assert (LL : length (ptL ch pf (lBGInputs l) j) = lBGInputs l)
          by (unfold ptL, chal; rewrite (nth_error_nth _ _ [] Hsp); exact E1).
        assert (LR : length (ptR ch pf (lBGInputs l) j) = lBGInputs l)
          by (unfold ptR, chal; rewrite (nth_error_nth _ _ [] Hsp); exact E2).
        rewrite Hs by assumption.
        pose proof (Hwf l (nth_error_In _ _ Hl)) as W1.
        rewrite (combinator_wires l tabs (weight_at l j)) by assumption. reflexivity.
      Qed.

      Lemma run_turned_down : turned_down j -> run = rej.
      Proof.
        intros (sp & pre & p & post & e & Hsp & H). unfold step. unfold get at 1. rewrite Hsp.
        rewrite (proj2 (Verify_reject ch (claim_at j) sp bN (lBGInputs l))) by (exists pre, p, post, e; exact H). reflexivity.
      Qed.

      Lemma run_crashes : crashes j -> run = None.
      Proof.
        intros [Hn|(l' & sp & Hl' & Hsp & H)]; unfold step; unfold get at 1.
        - rewrite Hn. reflexivity.
        - rewrite Hl in Hl'. injection Hl' as <-. rewrite Hsp. destruct H as [He|(fin & Ha & H)].
          + rewrite (proj2 (Verify_panic ch (claim_at j) sp bN (lBGInputs l))) by (left; exact He). reflexivity.
          + destruct (Nat.lt_ge_cases (length sp) (2 * lBGInputs l)) as [Hlt|Hge].
            { rewrite (proj2 (Verify_panic ch (claim_at j) sp bN (lBGInputs l))) by (right; eauto). reflexivity. }
            destruct (split3 (lBGInputs l) sp Hge) as (E & E1 & E2).
            assert (EV : Verify ch (claim_at j) sp bN (lBGInputs l) =
              Some (Accept (ptP ch pf (lBGInputs l) j) (ptL ch pf (lBGInputs l) j) (ptR ch pf (lBGInputs l) j) fin)).
            { apply Verify_accept. split; [exact Ha|]. unfold ptL, ptR, ptP, chal. rewrite (nth_error_nth _ _ [] Hsp). auto. }
            rewrite EV. cbv beta iota zeta.
            assert (LP : length (ptP ch pf (lBGInputs l) j) = (length sp - 2 * lBGInputs l)%nat).
            { unfold ptP, chal. rewrite (nth_error_nth _ _ [] Hsp), skipn_length, map_length. lia. }
            destruct (Nat.lt_ge_cases (length sp) (2 * lBGInputs l + length (instance_at l j))) as [Hs|Hs].
            { rewrite EvalEq_panics by lia. reflexivity. }
            rewrite EvalEq_spec by lia. unfold get.
            destruct (nth_error (ClaimsLeft pf) j) eqn:EL; [|reflexivity].
            destruct (nth_error (ClaimsRight pf) j) eqn:ER; [|reflexivity].
            assert (nth_error (ClaimsLeft pf) j <> None) as NL by congruence. apply nth_error_Some in NL.
            assert (nth_error (ClaimsRight pf) j <> None) as NR by congruence. apply nth_error_Some in NR. lia.
      Qed.

      Lemma four_cases : (exists fin, answered j l fin) \/ turned_down j \/ crashes j.
      Proof.
        destruct (nth_error (SumcheckProofs pf) j) as [sp|] eqn:Hsp; [|right; right; left; exact Hsp].
        destruct (Verify ch (claim_at j) sp bN (lBGInputs l)) as [[|qP qL qR fin]|] eqn:E.
        - apply Verify_reject in E. destruct E as (pre & p & post & e & H).
          right; left. exists sp, pre, p, post, e. auto.
        - apply Verify_accept in E. destruct E as (Ha & LL & LR & Em).
          destruct (Nat.lt_ge_cases (length sp) (2 * lBGInputs l + length (instance_at l j))) as [Hs|Hs];
            [right; right; right; exists l, sp; split; [exact Hl|]; split; [exact Hsp|]; right; exists fin; auto|].
          destruct (Nat.lt_ge_cases j (length (ClaimsLeft pf))) as [HcL|HcL];
            [|right; right; right; exists l, sp; split; [exact Hl|]; split; [exact Hsp|]; right; exists fin; auto].
          destruct (Nat.lt_ge_cases j (length (ClaimsRight pf))) as [HcR|HcR];
            [|right; right; right; exists l, sp; split; [exact Hl|]; split; [exact Hsp|]; right; exists fin; auto].
          left. exists fin. split; [exact Hl|]. exists sp. auto.
        - apply Verify_panic in E. right; right; right. exists l, sp. split; [exact Hl|]. split; [exact Hsp|].
          destruct E as [E|(Hs & fin & Ha)]; [left; exact E|]. right. exists fin. split; [exact Ha|]. left. lia.
      Qed.
    End Layer.

    Lemma layer_cases j : (j < length c)%nat -> passes j \/ mismatch j \/ turned_down j \/ crashes j.
    Proof.
      intros Hj. destruct (nth_error c j) as [l|] eqn:Hl; [|apply nth_error_None in Hl; lia].
      destruct (four_cases j l Hl) as [(fin & H)|[H|H]]; [|auto|auto].
      destruct (fin =? value_at l j) eqn:E.
      - apply feqb_eq in E. subst fin. left. exists l. exact H.
      - right; left. exists l, fin. split; [exact H|]. intros ->. rewrite feqb_refl in E. discriminate E.
    Qed.

    (** ** The loop over the lower layers *)
    Lemma loop_step mm j l l' : nth_error c j = Some l -> nth_error c (S j) = Some l' -> passes (S j) ->
      exists sts, statics_right l j sts /\
      verifyLayers ch mm c bN pf (S j) (ptP ch pf (lBGInputs l') (S j)) (ptL ch pf (lBGInputs l') (S j)) (ptR ch pf (lBGInputs l') (S j)) =
      step pf j bN l (claim_at j) (instance_at l j) sts (Some (inl false)) (Some (inl mm))
        (fun qP qL qR => verifyLayers ch mm c bN pf j qP qL qR).
    Proof.
      intros Hl Hl' (l2 & Hl2 & sp & Hsp & _ & Hlen & HcL & HcR).
      rewrite Hl' in Hl2. injection Hl2 as <-.
      assert (Hjn : (S j < length c)%nat) by (apply nth_error_Some; congruence).
      pose proof (fits_next c b0 j l l' Hfits Hl Hl') as Hbb.
      pose proof (Hwf l (nth_error_In _ _ Hl)) as W1.
      destruct (split3 (lBGInputs l') sp ltac:(lia)) as (_ & E1 & E2).
      assert (LL : length (ptL ch pf (lBGInputs l') (S j)) = lBGOutputs l)
        by (unfold ptL, chal; rewrite (nth_error_nth _ _ [] Hsp), E1; exact Hbb).
      assert (LR : length (ptR ch pf (lBGInputs l') (S j)) = lBGOutputs l)
        by (unfold ptR, chal; rewrite (nth_error_nth _ _ [] Hsp), E2; exact Hbb).
      set (cl := nth (S j) (ClaimsLeft pf) 0). set (cr := nth (S j) (ClaimsRight pf) 0).
      exists (fun x y => evaluateStaticTablesLinCombs l (ptL ch pf (lBGInputs l') (S j)) (ptR ch pf (lBGInputs l') (S j)) x y 1 (ch [cl; cr])).
      assert (Hneq : (S j =? length c)%nat = false) by (apply Nat.eqb_neq; lia).
      split.
      - destruct (statics_ok l _ W1 LL) as (tL & EL & LtL & SL). destruct (statics_ok l _ W1 LR) as (tR & ER & LtR & SR).
        exists (map (fun i => lincomb (ch [cl; cr]) (nth i tL []) (nth i tR [])) (seq 0 (length (lGates l)))). split.
        + pose proof (weights_lincomb l tL tR _ _ (ch [cl; cr]) (weights_static l _ tL W1 LL EL) (weights_static l _ tR W1 LR ER) SR) as H.
          destruct H as [H1 H2]. split; [exact H1|]. intros i a b Hi Ha Hb. rewrite H2 by assumption.
          apply suml_ext. intros w _. unfold SpecVerdict.weight_at. rewrite Hneq, <- Hbb. reflexivity.
        + intros x y Hx Hy. apply evaluateStaticTablesLinCombs_ok; assumption.
      - cbn [verifyLayers]. replace (j + 1)%nat with (S j) by lia.
        rewrite (get_nth (ClaimsLeft pf) (S j) 0), (get_nth (ClaimsRight pf) (S j) 0) by assumption.
        cbv zeta. fold cl cr. unfold step. unfold get at 2. rewrite Hl.
        unfold SpecVerdict.claim_at, SpecVerdict.instance_at. rewrite Hneq. fold cl cr. rewrite <- Hbb.
        replace (cl + ch [cl; cr] * cr) with (cr * ch [cl; cr] + cl) by ring. reflexivity.
    Qed.

    (** the loop stops at the first layer from the top that does not pass *)
    Lemma loop_passes mm j l : nth_error c j = Some l -> pass_from ch c bN pf out 0 ->
      verifyLayers ch mm c bN pf j (ptP ch pf (lBGInputs l) j) (ptL ch pf (lBGInputs l) j) (ptR ch pf (lBGInputs l) j)
      = Some (inr (ptP ch pf b0 0, ptL ch pf b0 0, ptR ch pf b0 0)).
    Proof.
      intros Hl Hp. revert l Hl. induction j as [|j IH]; intros l Hl.
      - assert (lBGInputs l = b0) by (destruct c; [discriminate|]; injection Hl as ->; exact (proj1 Hfits)).
        cbn [verifyLayers]. subst b0. reflexivity.
      - assert (Hj : (S j < length c)%nat) by (apply nth_error_Some; congruence).
        destruct (nth_error c j) as [l1|] eqn:Hl1; [|apply nth_error_None in Hl1; lia].
        destruct (loop_step mm j l1 l Hl1 Hl (Hp (S j) ltac:(lia))) as (sts & Hst & ->).
        destruct (Hp j ltac:(lia)) as (l2 & Ha). pose proof (proj1 Ha) as Hl2. rewrite Hl1 in Hl2. injection Hl2 as <-.
        rewrite (run_answered _ j l1 sts _ _ _ Hl1 Hst _ Ha), feqb_refl. apply IH. reflexivity.
    Qed.

    Lemma loop_stops mm j i l : (j < i)%nat -> nth_error c i = Some l -> pass_from ch c bN pf out (S j) ->
      let r := verifyLayers ch mm c bN pf i (ptP ch pf (lBGInputs l) i) (ptL ch pf (lBGInputs l) i) (ptR ch pf (lBGInputs l) i) in
      (mismatch j -> r = Some (inl mm)) /\ (turned_down j -> r = Some (inl false)) /\ (crashes j -> r = None).
    Proof.
      intros Hji Hl Hp. revert l Hl. induction i as [|i IH]; intros l Hl r; [lia|].
      assert (Hi : (S i < length c)%nat) by (apply nth_error_Some; congruence).
      destruct (nth_error c i) as [l1|] eqn:Hl1; [|apply nth_error_None in Hl1; lia].
      destruct (loop_step mm i l1 l Hl1 Hl (Hp (S i) ltac:(lia))) as (sts & Hst & E).
      unfold r. rewrite E. destruct (Nat.eq_dec j i) as [->|Hne].
      - split; [|split].
        + intros (l2 & fin & Ha & Hf). pose proof (proj1 Ha) as Hl2. rewrite Hl1 in Hl2. injection Hl2 as <-.
          rewrite (run_answered _ i l1 sts _ _ _ Hl1 Hst _ Ha). destruct (fin =? value_at l1 i) eqn:Ef; [|reflexivity].
          apply feqb_eq in Ef. contradiction.
        + apply run_turned_down.
        + apply run_crashes; assumption.
      - destruct (Hp i ltac:(lia)) as (l2 & Ha). pose proof (proj1 Ha) as Hl2. rewrite Hl1 in Hl2. injection Hl2 as <-.
        rewrite (run_answered _ i l1 sts _ _ _ Hl1 Hst _ Ha), feqb_refl. apply (IH ltac:(lia) l1 eq_refl).
    Qed.

    (** either all layers pass, or there is a first one from the top that does not *)
    Lemma first_stop : pass_from ch c bN pf out 0 \/
      exists j, (j < length c)%nat /\ pass_from ch c bN pf out (S j) /\ (mismatch j \/ turned_down j \/ crashes j).
    Proof.
      assert (H : forall d, (d <= length c)%nat -> pass_from ch c bN pf out (length c - d) \/
        exists j, (j < length c)%nat /\ pass_from ch c bN pf out (S j) /\ (mismatch j \/ turned_down j \/ crashes j)).
      { induction d as [|d IH]; intros Hd.
        - left. intros i Hi. lia.
        - destruct (IH ltac:(lia)) as [H|H]; [|right; exact H].
          destruct (layer_cases (length c - S d) ltac:(lia)) as [Hp|Hq].
          + left. intros i Hi. destruct (Nat.eq_dec i (length c - S d)) as [->|]; [exact Hp|apply H; lia].
          + right. exists (length c - S d)%nat. split; [lia|]. split; [|exact Hq].
            intros i Hi. apply H. lia. }
      specialize (H (length c) ltac:(lia)). rewrite Nat.sub_diag in H. exact H.
    Qed.
  End V.

  (** ** The whole verifier *)
  Section Whole.
    Variables (mm : bool) (bN b : nat) (c : list (Layer F)) (l : Layer F) (pf : Proof F) (inputs outputs : list (list F)).
    Hypothesis Hwf : forall l, In l c -> wf_layer l.
    Hypothesis Hfits : fits b c.
    Hypothesis Hl : nth_error c (length c - 1) = Some l.
    Variable out : F.
    Hypothesis Hout : EvaluateChunked outputs (count (lBGOutputs l) ++ count bN) = Some out.

    Lemma Hc : (0 < length c)%nat.
    Proof. assert (length c - 1 < length c)%nat by (apply nth_error_Some; congruence). lia. Qed.

    Definition finish (r : bool + list F * list F * list F) : option bool :=
      match r with
      | inl v => Some v
      | inr (zP, zL, zR) =>
        '(al, ar) <- EvaluateMixedChunked inputs zP zL zR ;;
        vl0 <- get (ClaimsLeft pf) 0 ;; vr0 <- get (ClaimsRight pf) 0 ;;
        Some ((al =? vl0) && (ar =? vr0))
      end.

    Lemma top_step : exists sts, statics_right c pf l (length c - 1) sts /\
      GkrVerifyWith ch mm bN c pf inputs outputs =
      step pf (length c - 1) bN l (claim_at ch c pf out (length c - 1)) (instance_at ch c bN pf l (length c - 1)) sts
        (Some false) (Some false)
        (fun qP qL qR => r <- verifyLayers ch mm c bN pf (length c - 1) qP qL qR ;; finish r).
    Proof.
      pose proof Hc as Hn.
      assert (Heq : (S (length c - 1) =? length c)%nat = true) by (apply Nat.eqb_eq; lia).
      pose proof (Hwf l (nth_error_In _ _ Hl)) as W1.
      exists (fun x y => evaluateStaticTables l (count (lBGOutputs l)) x y). split.
      - destruct (statics_ok l (count (lBGOutputs l)) W1 (count_length _)) as (t & Et & Lt & _).
        exists t. split.
        + destruct (weights_static l _ t W1 (count_length _) Et) as [H1 H2]. split; [exact H1|].
          intros i x y Hi Hx Hy. rewrite H2 by assumption. apply suml_ext. intros w _. unfold weight_at. rewrite Heq. reflexivity.
        + intros x y Hx Hy. apply evaluateStaticTables_ok; auto. apply count_length.
      - unfold GkrVerifyWith, gosub. destruct (Nat.leb_spec 1 (length c)); [|lia].
        unfold get at 1. rewrite Hl.
        change (GetInitialQPrimeAndQ bN (lBGOutputs l)) with (count (F:=F) bN, count (F:=F) (lBGOutputs l)). cbv beta iota zeta.
        rewrite Hout. unfold step, claim_at, instance_at. rewrite Heq.
        destruct (get (SumcheckProofs pf) (length c - 1)) as [sp|]; [|reflexivity].
        destruct (Verify _ _ _ _ _) as [[|qP qL qR tot]|]; [reflexivity| |reflexivity].
        destruct (EvalEq _ _); [|reflexivity]. destruct (get _ _); [|reflexivity]. destruct (get _ _); [|reflexivity].
        destruct (evaluateStaticTables _ _ _ _); [|reflexivity]. destruct (EvaluateCombinator _ _ _ _ _); [|reflexivity].
        destruct (_ =? _); [|reflexivity].
        destruct (verifyLayers _ _ _ _ _ _ _ _ _) as [[|[[zP zL] zR]]|]; reflexivity.
    Qed.

    Lemma pts_length j l' : passes ch c bN pf out j -> nth_error c j = Some l' ->
      length (ptL ch pf (lBGInputs l') j) = lBGInputs l' /\ length (ptR ch pf (lBGInputs l') j) = lBGInputs l' /\
      (j < length (ClaimsLeft pf))%nat /\ (j < length (ClaimsRight pf))%nat /\
      (length (instance_at ch c bN pf l' j) <= length (ptP ch pf (lBGInputs l') j))%nat.
    Proof.
      intros (l2 & Hl2 & sp & Hsp & _ & Hlen & HcL & HcR) Hl'. rewrite Hl' in Hl2. injection Hl2 as <-.
      destruct (split3 (lBGInputs l') sp ltac:(lia)) as (_ & E1 & E2).
      unfold ptL, ptR, ptP, chal. rewrite (nth_error_nth _ _ [] Hsp).
      repeat split; auto. rewrite skipn_length, map_length. lia.
    Qed.

    Lemma ptP_long j l' : pass_from ch c bN pf out j -> nth_error c j = Some l' ->
      (bN <= length (ptP ch pf (lBGInputs l') j))%nat.
    Proof.
      pose proof Hc as Hn. intros Hp Hj. assert (Hlt : (j < length c)%nat) by (apply nth_error_Some; congruence).
      remember (length c - 1 - j)%nat as d eqn:Ed. revert j l' Hp Hj Hlt Ed. induction d as [|d IH]; intros j l' Hp Hj Hlt Ed.
      - destruct (pts_length j l' (Hp j ltac:(lia)) Hj) as (_ & _ & _ & _ & H).
        unfold instance_at in H. replace (S j =? length c)%nat with true in H by (symmetry; apply Nat.eqb_eq; lia).
        rewrite count_length in H. exact H.
      - destruct (pts_length j l' (Hp j ltac:(lia)) Hj) as (_ & _ & _ & _ & H).
        unfold instance_at in H. replace (S j =? length c)%nat with false in H by (symmetry; apply Nat.eqb_neq; lia).
        destruct (nth_error c (S j)) as [l2|] eqn:Hl2; [|apply nth_error_None in Hl2; lia].
        specialize (IH (S j) l2 ltac:(intros i Hi; apply Hp; lia) Hl2 ltac:(lia) ltac:(lia)).
        rewrite (fits_next c b j l' l2 Hfits Hj Hl2) in IH. lia.
    Qed.

    Lemma verdict_all : pass_from ch c bN pf out 0 ->
      GkrVerifyWith ch mm bN c pf inputs outputs =
      match EvaluateMixedChunked inputs (ptP ch pf b 0) (ptL ch pf b 0) (ptR ch pf b 0) with
      | Some (v, w) => Some ((v =? nth 0 (ClaimsLeft pf) 0) && (w =? nth 0 (ClaimsRight pf) 0))
      | None => None
      end.
    Proof.
      intros Hp. pose proof Hc as Hn. destruct top_step as (sts & Hst & ->).
      destruct (Hp (length c - 1)%nat ltac:(lia)) as (l2 & Ha). pose proof (proj1 Ha) as Hl2. rewrite Hl in Hl2. injection Hl2 as <-.
      rewrite (run_answered c bN pf out Hwf _ _ l sts _ _ _ Hl Hst _ Ha), feqb_refl.
      rewrite (loop_passes c bN pf out b Hwf Hfits mm _ l Hl Hp). cbn [finish].
      destruct (nth_error c 0) as [l0|] eqn:Hl0; [|apply nth_error_None in Hl0; lia].
      destruct (pts_length 0 l0 (Hp 0%nat ltac:(lia)) Hl0) as (_ & _ & P3 & P4 & _).
      rewrite (get_nth (ClaimsLeft pf) 0 0), (get_nth (ClaimsRight pf) 0 0) by assumption.
      destruct (EvaluateMixedChunked _ _ _ _) as [[v w]|]; reflexivity.
    Qed.

    Lemma verdict_stop j : (j < length c)%nat -> pass_from ch c bN pf out (S j) ->
      (mismatch ch c bN pf out j ->
         GkrVerifyWith ch mm bN c pf inputs outputs = Some (if (S j =? length c)%nat then false else mm)) /\
      (turned_down ch c pf out j -> GkrVerifyWith ch mm bN c pf inputs outputs = Some false) /\
      (crashes ch c bN pf out j -> GkrVerifyWith ch mm bN c pf inputs outputs = None).
    Proof.
      intros Hj Hp. pose proof Hc as Hn. destruct top_step as (sts & Hst & ->).
      destruct (Nat.eqb_spec (S j) (length c)) as [He|He].
      - replace j with (length c - 1)%nat in * by lia. split; [|split].
        + intros (l2 & fin & Ha & Hf). pose proof (proj1 Ha) as Hl2. rewrite Hl in Hl2. injection Hl2 as <-.
          rewrite (run_answered c bN pf out Hwf _ _ l sts _ _ _ Hl Hst _ Ha).
          destruct (fin =? value_at ch c bN pf l (length c - 1)) eqn:Ef; [|reflexivity].
          apply feqb_eq in Ef. contradiction.
        + apply run_turned_down.
        + apply run_crashes; assumption.
      - destruct (Hp (length c - 1)%nat ltac:(lia)) as (l2 & Ha). pose proof (proj1 Ha) as Hl2. rewrite Hl in Hl2. injection Hl2 as <-.
        rewrite (run_answered c bN pf out Hwf _ _ l sts _ _ _ Hl Hst _ Ha), feqb_refl.
        destruct (loop_stops c bN pf out b Hwf Hfits mm j (length c - 1) l ltac:(lia) Hl Hp) as (H1 & H2 & H3).
        split; [|split]; intros H; [rewrite (H1 H)|rewrite (H2 H)|rewrite (H3 H)]; reflexivity.
    Qed.

    Lemma values_exact v w : inputs_value ch pf b inputs v w <->
      EvaluateMixedChunked inputs (ptP ch pf b 0) (ptL ch pf b 0) (ptR ch pf b 0) = Some (v, w).
    Proof. symmetry. apply EvaluateMixedChunked_exact. Qed.

    Notation accepts := (accepts_any ch c bN pf out b inputs).
    Notation early := (early ch c bN pf out).
    Notation refuses := (refuses_any ch c bN pf out b inputs).
    Notation panics := (panics_any ch c bN pf out b inputs).

    Lemma verdict_cases :
      (accepts -> GkrVerifyWith ch mm bN c pf inputs outputs = Some true) /\
      (early -> GkrVerifyWith ch mm bN c pf inputs outputs = Some mm) /\
      (refuses -> GkrVerifyWith ch mm bN c pf inputs outputs = Some false) /\
      (panics -> GkrVerifyWith ch mm bN c pf inputs outputs = None) /\
      (accepts \/ early \/ refuses \/ panics).
    Proof.
      pose proof Hc as Hn. repeat split.
      - intros (Hp & H1). apply values_exact in H1. rewrite (verdict_all Hp), H1, !feqb_refl. reflexivity.
      - intros (j & Hj & Hp & H). destruct (verdict_stop j ltac:(lia) Hp) as (H1 & _). rewrite (H1 H).
        destruct (Nat.eqb_spec (S j) (length c)); [lia|reflexivity].
      - intros [H|[(j & Hj & Hp & H)|(Hp & v & w & H1 & H2)]].
        + destruct (verdict_stop (length c - 1) ltac:(lia)) as (H1 & _); [intros i Hi; lia|]. rewrite (H1 H).
          destruct (Nat.eqb_spec (S (length c - 1)) (length c)); [reflexivity|lia].
        + apply (verdict_stop j Hj Hp). exact H.
        + apply values_exact in H1. rewrite (verdict_all Hp), H1.
          destruct (v =? nth 0 (ClaimsLeft pf) 0) eqn:E1; [|reflexivity]. destruct (w =? nth 0 (ClaimsRight pf) 0) eqn:E2; [|reflexivity].
          apply feqb_eq in E1. apply feqb_eq in E2. exfalso. destruct H2 as [H2|H2]; contradiction.
      - intros [(j & Hj & Hp & H)|(Hp & H1)]; [apply (verdict_stop j Hj Hp); exact H|]. rewrite (verdict_all Hp).
        destruct (EvaluateMixedChunked _ _ _ _) as [[v w]|] eqn:E; [|reflexivity]. exfalso. apply H1. exists v, w. apply values_exact. exact E.
      - destruct (first_stop c bN pf out) as [Hp|(j & Hj & Hp & [H|[H|H]])].
        + destruct (EvaluateMixedChunked inputs (ptP ch pf b 0) (ptL ch pf b 0) (ptR ch pf b 0)) as [[v w]|] eqn:E.
          * destruct (f_eq_dec v (nth 0 (ClaimsLeft pf) 0)) as [E1|E1]; [destruct (f_eq_dec w (nth 0 (ClaimsRight pf) 0)) as [E2|E2]|].
            { left. split; [exact Hp|]. apply values_exact. congruence. }
            all: right; right; left; right; right; (split; [exact Hp|]); exists v, w; (split; [apply values_exact; exact E|auto]).
          * right; right; right; right. split; [exact Hp|]. intros (v & w & H). apply values_exact in H. congruence.
        + destruct (Nat.eq_dec (S j) (length c)) as [E|E].
          * right; right; left; left. replace (length c - 1)%nat with j by lia. exact H.
          * right; left. exists j. split; [lia|auto].
        + right; right; left; right; left. exists j. auto.
        + right; right; right; left. exists j. auto.
    Qed.
  End Whole.

  Section Any.
    Variables (bN b : nat) (c : list (Layer F)) (l : Layer F) (pf : Proof F) (inputs outputs : list (list F)).
    Hypothesis Hwf : forall l, In l c -> wf_layer l.
    Hypothesis Hfits : fits b c.
    Hypothesis Hl : nth_error c (length c - 1) = Some l.

    Lemma no_output_claim mm : (forall out, ~ chunk_value outputs (count (lBGOutputs l) ++ count bN) out) ->
      GkrVerifyWith ch mm bN c pf inputs outputs = None.
    Proof.
      intros H. unfold GkrVerifyWith, gosub.
      assert (length c - 1 < length c)%nat by (apply nth_error_Some; congruence).
      destruct (Nat.leb_spec 1 (length c)); [|lia]. unfold get at 1. rewrite Hl.
      change (GetInitialQPrimeAndQ bN (lBGOutputs l)) with (count (F:=F) bN, count (F:=F) (lBGOutputs l)). cbv beta iota zeta.
      destruct (EvaluateChunked _ _) as [out|] eqn:E; [|reflexivity]. exfalso. apply (H out). apply EvaluateChunked_exact. exact E.
    Qed.

    Variable out : F.
    Hypothesis Hout : chunk_value outputs (count (lBGOutputs l) ++ count bN) out.

    Lemma any_code :
      (GkrVerify ch bN c pf inputs outputs = Some true <-> accepts_any ch c bN pf out b inputs \/ early ch c bN pf out) /\
      (GkrVerify ch bN c pf inputs outputs = Some false <-> refuses_any ch c bN pf out b inputs) /\
      (GkrVerify ch bN c pf inputs outputs = None <-> panics_any ch c bN pf out b inputs).
    Proof.
      assert (Ho : EvaluateChunked outputs (count (lBGOutputs l) ++ count bN) = Some out) by (apply EvaluateChunked_exact; exact Hout).
      destruct (verdict_cases true bN b c l pf inputs outputs Hwf Hfits Hl out Ho) as (H1 & H2 & H3 & H4 & H5).
      unfold GkrVerify.
      destruct H5 as [H|[H|[H|H]]];
        [pose proof (H1 H) as E|pose proof (H2 H) as E|pose proof (H3 H) as E|pose proof (H4 H) as E]; rewrite E in *;
        (split; [|split]); (split; [intros H0; (auto || discriminate H0)|]); intros H0; auto;
        try (destruct H0 as [H0|H0]; [discriminate (H1 H0)|discriminate (H2 H0)]);
        try discriminate (H3 H0); try discriminate (H4 H0).
    Qed.

    Lemma any_variant :
      (GkrVerifyWith ch false bN c pf inputs outputs = Some true <-> accepts_any ch c bN pf out b inputs) /\
      (GkrVerifyWith ch false bN c pf inputs outputs = Some false <-> refuses_any ch c bN pf out b inputs \/ early ch c bN pf out) /\
      (GkrVerifyWith ch false bN c pf inputs outputs = None <-> panics_any ch c bN pf out b inputs).
    Proof.
      assert (Ho : EvaluateChunked outputs (count (lBGOutputs l) ++ count bN) = Some out) by (apply EvaluateChunked_exact; exact Hout).
      destruct (verdict_cases false bN b c l pf inputs outputs Hwf Hfits Hl out Ho) as (H1 & H2 & H3 & H4 & H5).
      destruct H5 as [H|[H|[H|H]]];
        [pose proof (H1 H) as E|pose proof (H2 H) as E|pose proof (H3 H) as E|pose proof (H4 H) as E]; rewrite E in *;
        (split; [|split]); (split; [intros H0; (auto || discriminate H0)|]); intros H0; auto;
        try (destruct H0 as [H0|H0]; [discriminate (H3 H0)|discriminate (H2 H0)]);
        try discriminate (H1 H0); try discriminate (H4 H0).
    Qed.
  End Any.

  Section Code.
    Variables (m k b : nat) (c : list (Layer F)) (l : Layer F) (pf : Proof F) (inputs outputs : list (list F)).
    Hypothesis Hk : (0 < k)%nat.
    Hypothesis Hwf : forall l, In l c -> wf_layer l.
    Hypothesis Hfits : fits b c.
    Hypothesis Hl : nth_error c (length c - 1) = Some l.
    Hypothesis Hin : chunked k m b inputs.
    Hypothesis Hout : chunked k m (lBGOutputs l) outputs.
    Let out := output_claim (m + k) m l outputs.
    Let V := glued b m inputs.

    Lemma out_value : chunk_value outputs (count (lBGOutputs l) ++ count (m + k)) out.
    Proof.
      apply EvaluateChunked_exact. destruct Hout as [O1 O2].
      destruct (evaluate_chunked_spec F outputs (count (lBGOutputs l) ++ count (m + k)) k (lBGOutputs l + m) Hk O1) as [_ EC].
      { intros t Ht. rewrite Nat.pow_add_r. auto. } { rewrite app_length, !count_length. lia. }
      exact EC.
    Qed.

    Lemma in_values v w : pass_from ch c (m + k) pf out 0 -> (inputs_value ch pf b inputs v w <->
      length (ptP ch pf b 0) = (m + k)%nat /\ v = mle V (ptL ch pf b 0 ++ ptP ch pf b 0) /\ w = mle V (ptR ch pf b 0 ++ ptP ch pf b 0)).
    Proof.
      intros Hp. assert (Hn : (0 < length c)%nat) by (assert (length c - 1 < length c)%nat by (apply nth_error_Some; congruence); lia).
      destruct (nth_error c 0) as [l0|] eqn:Hl0; [|apply nth_error_None in Hl0; lia].
      assert (Hb : lBGInputs l0 = b) by (destruct c; [discriminate|]; injection Hl0 as ->; exact (proj1 Hfits)).
      destruct (pts_length (m + k) c pf out 0 l0 (Hp 0%nat ltac:(lia)) Hl0) as (P1 & P2 & P3 & P4 & _). rewrite Hb in *.
      pose proof (ptP_long (m + k) b c l pf Hfits Hl out 0 l0 Hp Hl0) as Hlong. rewrite Hb in Hlong.
      assert (E : length (ptP ch pf b 0) = (m + k)%nat ->
          EvaluateMixedChunked inputs (ptP ch pf b 0) (ptL ch pf b 0) (ptR ch pf b 0) =
          Some (mle V (ptL ch pf b 0 ++ ptP ch pf b 0), mle V (ptR ch pf b 0 ++ ptP ch pf b 0))).
      { intros Hlen. destruct Hin as [I1 I2].
        destruct (evaluate_mixed_chunked_spec F inputs (ptP ch pf b 0) (ptL ch pf b 0) (ptR ch pf b 0) k m b Hk I1) as [_ EM]; auto.
        intros u Hu. rewrite Nat.pow_add_r. auto. }
      rewrite values_exact. destruct (Nat.eq_dec (length (ptP ch pf b 0)) (m + k)) as [Hlen|Hne].
      - rewrite (E Hlen). split; [intros H; injection H as <- <-; auto|intros (_ & -> & ->); reflexivity].
      - rewrite (mixed_long inputs k m b) by (auto; lia). split; [discriminate|intros (H & _); contradiction].
    Qed.

    Lemma same_accepts : accepts_any ch c (m + k) pf out b inputs <-> accepts ch c (m + k) pf out b V.
    Proof.
      unfold accepts_any, accepts, inputs_right. split.
      - intros (Hp & H). apply (in_values _ _ Hp) in H. auto.
      - intros (Hp & H). split; [exact Hp|]. apply (in_values _ _ Hp). exact H.
    Qed.

    Lemma same_refuses : refuses_any ch c (m + k) pf out b inputs <-> refuses ch c (m + k) pf out b V.
    Proof.
      unfold refuses_any, refuses, inputs_right. split; (intros [H|[H|(Hp & H)]]; [left; exact H|right; left; exact H|]); right; right; (split; [exact Hp|]).
      - destruct H as (v & w & H & Hv). apply (in_values _ _ Hp) in H. destruct H as (H1 & -> & ->). split; [exact H1|].
        intros [E1 E2]. destruct Hv as [Hv|Hv]; congruence.
      - destruct H as (H1 & H2). exists (mle V (ptL ch pf b 0 ++ ptP ch pf b 0)), (mle V (ptR ch pf b 0 ++ ptP ch pf b 0)).
        split; [apply (in_values _ _ Hp); auto|].
        destruct (f_eq_dec (mle V (ptL ch pf b 0 ++ ptP ch pf b 0)) (nth 0 (ClaimsLeft pf) 0)) as [E1|E1]; [right|left; exact E1].
        intros E2. apply H2. auto.
    Qed.

    Lemma same_panics : panics_any ch c (m + k) pf out b inputs <-> panics ch c (m + k) pf out b.
    Proof.
      unfold panics_any, panics. split; (intros [H|(Hp & H)]; [left; exact H|]); right; (split; [exact Hp|]).
      - intros E. apply H. exists (mle V (ptL ch pf b 0 ++ ptP ch pf b 0)), (mle V (ptR ch pf b 0 ++ ptP ch pf b 0)). apply (in_values _ _ Hp). auto.
      - intros (v & w & E). apply (in_values _ _ Hp) in E. apply H. apply E.
    Qed.

    Lemma code_verdict :
      (GkrVerify ch (m + k) c pf inputs outputs = Some true <-> accepts ch c (m + k) pf out b V \/ early ch c (m + k) pf out) /\
      (GkrVerify ch (m + k) c pf inputs outputs = Some false <-> refuses ch c (m + k) pf out b V) /\
      (GkrVerify ch (m + k) c pf inputs outputs = None <-> panics ch c (m + k) pf out b).
    Proof. rewrite <- same_accepts, <- same_refuses, <- same_panics. apply (any_code _ _ _ l); [exact Hwf|exact Hfits|exact Hl|exact out_value]. Qed.

    Lemma variant_verdict :
      (GkrVerifyWith ch false (m + k) c pf inputs outputs = Some true <-> accepts ch c (m + k) pf out b V) /\
      (GkrVerifyWith ch false (m + k) c pf inputs outputs = Some false <-> refuses ch c (m + k) pf out b V \/ early ch c (m + k) pf out) /\
      (GkrVerifyWith ch false (m + k) c pf inputs outputs = None <-> panics ch c (m + k) pf out b).
    Proof. rewrite <- same_accepts, <- same_refuses, <- same_panics. apply (any_variant _ _ _ l); [exact Hwf|exact Hfits|exact Hl|exact out_value]. Qed.
  End Code.
End L.
