(** What the prover makes of any assignment (lemmas for PHonest.v). *)
From Coq Require Import List Arith Lia Bool.
From Verif Require Import Field Go MCommon Spec LSpec LCommon MPoly LPoly LPoly2 LPoly3 Trans MCircuit SpecCircuit LCircuit LCircuit2
  LCircuit3 MSumcheck LSumcheck SpecSumcheck LSumcheck4 LSumcheck5 MSumPar SpecSumPar LSumPar4 SpecEnds MGkr SpecGkr LGkr LGkr2 LGkr3 LGkr4 SpecHonest.
Import ListNotations.

Section L.
  Context {F : Field}.
  Add Field FfieldHonest : (f_theory F).
  Open Scope F_scope.

  Lemma weights_sum_any (l : Layer F) tabs weight (X : nat -> nat -> Gate F -> F) : wf_layer l ->
    weights_of l tabs weight ->
    sumn (2 ^ lBGInputs l) (fun a => sumn (2 ^ lBGInputs l) (fun b =>
      suml (combine (lGates l) tabs) (fun gs => nth (a * 2 ^ lBGInputs l + b) (snd gs) 0 * X a b (fst gs))))
    = suml (Wires l) (fun w => weight (wO w) * suml (listed l w) (fun g => X (wL w) (wR w) g)).
  Proof.
    intros Hwf [HL HS].
    set (n := (2 ^ lBGInputs l)%nat) in *.
    transitivity (suml (Wires l) (fun w => suml (lGates l) (fun g => if id_eqb (gid (wGate w)) (gid g)
       then weight (wO w) * X (wL w) (wR w) g else 0))).
    2: { apply suml_ext. intros w Hw. unfold listed. rewrite suml_filter, <- suml_scal_l. apply suml_ext. intros g _.
         destruct (id_eqb _ _); ring. }
    transitivity (sumn n (fun a => sumn n (fun b => suml (Wires l) (fun w => suml (lGates l) (fun g =>
       if (wL w * n + wR w =? a * n + b)%nat then (if id_eqb (gid (wGate w)) (gid g) then weight (wO w) * X a b g else 0) else 0))))).
    - apply sumn_ext. intros a Ha. apply sumn_ext. intros b Hb.
      rewrite (suml_combine _ (lGates l) tabs agate []) by exact HL.
      rewrite suml_swap. rewrite (suml_nth (lGates l) agate). apply sumn_ext. intros i Hi. cbn [fst snd].
      rewrite (HS i a b Hi Ha Hb), suml_filter, <- suml_scal_r.
      apply suml_ext. intros w Hw. destruct (Hwf w Hw) as (W1 & W2 & W3). fold n in W1, W2.
      assert (Eb : ((wL w * n + wR w =? a * n + b) = (wL w =? a) && (wR w =? b))%nat).
      { destruct (Nat.eqb_spec (wL w) a), (Nat.eqb_spec (wR w) b); cbn [andb].
        - subst. apply Nat.eqb_refl.
        - apply Nat.eqb_neq. lia.
        - apply Nat.eqb_neq. intros H. apply mul_add_inj in H; lia.
        - apply Nat.eqb_neq. intros H. apply mul_add_inj in H; lia. }
      rewrite Eb. destruct (id_eqb _ _), (wL w =? a)%nat, (wR w =? b)%nat; cbn [andb]; ring.
    - rewrite (sumn_ext n _ (fun a => suml (Wires l) (fun w => sumn n (fun b => suml (lGates l) (fun g =>
       if (wL w * n + wR w =? a * n + b)%nat then (if id_eqb (gid (wGate w)) (gid g) then weight (wO w) * X a b g else 0) else 0)))))
       by (intros; apply sumn_suml_swap).
      rewrite sumn_suml_swap. apply suml_ext. intros w Hw. destruct (Hwf w Hw) as (W1 & W2 & W3).
      rewrite <- (sumn_delta2 n n (wL w) (wR w) (fun a b => suml (lGates l) (fun g =>
        if id_eqb (gid (wGate w)) (gid g) then weight (wO w) * X a b g else 0))) by assumption.
      apply sumn_ext. intros a Ha. apply sumn_ext. intros b Hb.
      destruct (_ =? _)%nat; [reflexivity|]. apply suml_zero. reflexivity.
  Qed.

  Lemma listed_length (l : Layer F) N V : length (listed_table l N V) = (2 ^ lBGOutputs l * N)%nat.
  Proof. unfold listed_table. rewrite map_length, seq_length. reflexivity. Qed.

  Lemma listed_nth (l : Layer F) N V o h : (o < 2 ^ lBGOutputs l)%nat -> (h < N)%nat ->
    nth (o * N + h) (listed_table l N V) 0 = listed_value l N V o h.
  Proof.
    intros Ho Hh. unfold listed_table. rewrite nth_map_seq by (apply mul_add_lt; assumption).
    rewrite Nat.div_add_l, Nat.div_small, Nat.add_0_r by lia.
    rewrite Nat.add_comm, Nat.mod_add, Nat.mod_small by lia. reflexivity.
  Qed.

  (** The sum that the prover proves, whatever the list of gates. *)
  Lemma any_sum (l : Layer F) q x tabs V : wf_layer l -> length q = lBGOutputs l -> GetStaticTable l q = Some tabs ->
    table_sum (2 ^ length x) (2 ^ lBGInputs l) (lGates l) tabs (eqtab x) V V = mle (listed_table l (2 ^ length x) V) (q ++ x).
  Proof.
    intros Hwf Hq E. set (n := (2 ^ length x)%nat) in *. pose proof (weights_static l q tabs Hwf Hq E) as HW.
    rewrite mle_app, Hq.
    transitivity (sumn n (fun h => nth h (eqtab x) 0 * suml (Wires l) (fun w =>
       chi (to_bits (lBGOutputs l) (wO w)) q * suml (listed l w) (fun g => geval g (nth (wL w * n + h) V 0) (nth (wR w * n + h) V 0))))).
    - unfold table_sum. apply sumn_ext. intros h Hh.
      rewrite <- (weights_sum_any l tabs _ (fun a b g => geval g (nth (a * n + h) V 0) (nth (b * n + h) V 0)) Hwf HW).
      rewrite <- sumn_scal_l. apply sumn_ext. intros a Ha. rewrite <- sumn_scal_l. reflexivity.
    - rewrite suml_swap, sum_cube. fold n. apply sumn_ext. intros h Hh.
      rewrite <- (bits_val_to_bits (length x) h Hh) at 1.
      rewrite eqtab_nth by apply to_bits_length. rewrite sum_cube.
      rewrite bits_val_to_bits by exact Hh.
      rewrite (sumn_ext _ _ (fun o => chi (to_bits (length x) h) x * suml (Wires l) (fun w =>
        if (o =? wO w)%nat then chi (to_bits (lBGOutputs l) (wO w)) q * suml (listed l w) (fun g => geval g (nth (wL w * n + h) V 0) (nth (wR w * n + h) V 0)) else 0))).
      + rewrite sumn_scal_l. f_equal. rewrite sumn_suml_swap. apply suml_ext. intros w Hw.
        destruct (Hwf w Hw) as (W1 & W2 & W3).
        rewrite (sumn_delta _ (wO w) (fun o => chi (to_bits (lBGOutputs l) (wO w)) q * suml (listed l w) (fun g => geval g (nth (wL w * n + h) V 0) (nth (wR w * n + h) V 0)))); [reflexivity|exact W3].
      + intros o Ho. rewrite bits_val_to_bits by exact Ho. fold n.
        rewrite listed_nth by assumption. unfold listed_value. rewrite suml_filter, <- suml_scal_r, <- suml_scal_l.
        apply suml_ext. intros w Hw. rewrite (Nat.eqb_sym o). destruct (Nat.eqb_spec (wO w) o) as [->|]; ring.
  Qed.

  Lemma any_sum2 (l : Layer F) qL qR x tL tR V lam : wf_layer l -> length qL = lBGOutputs l -> length qR = lBGOutputs l ->
    GetStaticTable l qL = Some tL -> GetStaticTable l qR = Some tR ->
    table_sum (2 ^ length x) (2 ^ lBGInputs l) (lGates l)
      (map (fun i => lincomb lam (nth i tL []) (nth i tR [])) (seq 0 (length (lGates l)))) (eqtab x) V V
    = mle (listed_table l (2 ^ length x) V) (qL ++ x) + lam * mle (listed_table l (2 ^ length x) V) (qR ++ x).
  Proof.
    intros Hwf HqL HqR EL ER.
    destruct (statics_ok l qL Hwf HqL) as (tL' & EL' & LL & SL). rewrite EL in EL'. injection EL' as <-.
    destruct (statics_ok l qR Hwf HqR) as (tR' & ER' & LR & SR). rewrite ER in ER'. injection ER' as <-.
    rewrite (table_sum_linear _ _ _ tL tR _ _ _ _ lam LL LR).
    - rewrite (any_sum l qL x tL), (any_sum l qR x tR) by assumption. reflexivity.
    - rewrite map_length, seq_length. reflexivity.
    - intros i j Hi Hj. rewrite (nth_map_seq _ _ _ []) by exact Hi. unfold lincomb.
      rewrite nth_map_seq by (rewrite SR by exact Hi; exact Hj). ring.
  Qed.

  (** The rounds that answer one claim turn another one down. *)
  Lemma other_claim ch (v v' : F) sp bN bG qP qL qR fin : (0 < length sp)%nat ->
    Verify ch v sp bN bG = Some (Accept qP qL qR fin) -> v' <> v -> Verify ch v' sp bN bG = Some Reject.
  Proof.
    intros Hl H Hne. apply Verify_accept in H. destruct H as (HA & _). destruct sp as [|p sp]; [cbn in Hl; lia|].
    cbn [answers] in HA. destruct HA as (Hp & Hs & _). apply Verify_reject. exists [], p, sp, v'.
    split; [reflexivity|]. split; [reflexivity|]. split; [exact Hp|]. congruence.
  Qed.
End L.
