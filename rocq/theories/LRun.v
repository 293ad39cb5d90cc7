(** Whole runs of package gkr (lemmas for PRun.v). *)
From Coq Require Import List Arith ZArith Lia Bool.
From Verif Require Import Field Go MCommon Spec LSpec LCommon MPoly LPoly LPoly2 LPoly3 Trans MCircuit SpecCircuit LCircuit LCircuit2
  LCircuit3 MSumcheck SpecSumcheck LSumcheck4 MSumPar SpecSumPar MGkr SpecGkr LGkr LGkr2 LGkr3 SpecHonest LHonest LHonest2 LHonest3 LHonest4
  SpecLayers LLayers SpecRun FrPrime Fr.
Import ListNotations.

Section G.
  Context {F : Field}.
  Add Field FfieldRun : (f_theory F).
  Open Scope F_scope.

  Lemma scaled_shifted (ws : list (Wire F)) s N V W : (0 < N)%nat -> layer_table (scaled s (NewLayer ws)) N V W -> W = shifted_table ws s N V.
  Proof.
    intros HN [H1 H2]. cbn [scaled lBGOutputs NewLayer Wires] in *. apply (list_ext 0); [unfold shifted_table; rewrite map_length, seq_length; exact H1|].
    rewrite H1. intros i Hi. unfold shifted_table. rewrite nth_map_seq by exact Hi.
    pose proof (Nat.div_mod i N ltac:(lia)) as E. assert (Hh : (i mod N < N)%nat) by (apply Nat.mod_upper_bound; lia).
    assert (Ho : (i / N < 2 ^ BGOutputs ws)%nat) by (apply Nat.div_lt_upper_bound; lia).
    rewrite E at 1. rewrite (Nat.mul_comm N), H2 by assumption. unfold layer_value, shifted_value.
    generalize (i / N)%nat (i mod N)%nat. intros o h. clear. induction ws as [|w ws IH]; [reflexivity|]. cbn [map filter wO].
    destruct (wO w =? o)%nat; [|exact IH]. cbn [suml wGate wL wR]. rewrite IH. reflexivity.
  Qed.

  Lemma listed_counted_table (ws : list (Wire F)) N V : ids_ok ws -> listed_table (NewLayer ws) N V = counted_table ws N V.
  Proof. intros H. unfold listed_table, counted_table. cbn [lBGOutputs NewLayer]. apply map_ext. intros i. apply listed_counted. exact H. Qed.

  Lemma level_step (wiring : list (list (Wire F))) s N : forall T j ws, nth_error wiring j = Some ws ->
    level s N wiring T (S j) = shifted_table ws s N (level s N wiring T j).
  Proof.
    induction wiring as [|w wiring IH]; intros T [|j] ws H; try discriminate H; cbn in H.
    - injection H as ->. cbn [level]. destruct wiring; reflexivity.
    - cbn [level]. apply IH. exact H.
  Qed.

  Lemma fits_scaled N (c : list (Layer F)) : forall b, fits b c -> fits b (map (scaled N) c).
  Proof. induction c as [|l c IH]; intros b; cbn [fits map scaled lBGInputs lBGOutputs]; [auto|]. intros [H1 H2]. auto. Qed.

  Section A.
    Variables (wiring : list (list (Wire F))) (b m k : nat) (inputs : list (list F)) (a : list (list (list F))).
    Let c := NewCircuit wiring.
    Hypothesis Hfits : fits b c.
    Hypothesis Hin : chunked k m b inputs.
    Hypothesis Ha : Assign c inputs = Some a.

    Lemma rows_exist l w : In l c -> In w (Wires l) -> (wR w * 2 ^ m < 2 ^ lBGInputs l)%nat.
    Proof.
      assert (Hwf : forall l, In l c -> wf_layer l) by (intros l' H; apply in_map_iff in H; destruct H as (ws & <- & _); apply NewLayer_wf).
      apply (assignable_shape c b (2 ^ m) Hwf Hfits (pow_pos m)).
      destruct Hin as [I1 I2]. destruct inputs as [|t ts]; [cbn in I1; pose proof (pow_pos k); lia|].
      rewrite <- (I2 t (or_introl eq_refl)). apply (proj1 (assign_returns c (t :: ts))); [congruence|left; reflexivity].
    Qed.

    Lemma run_assignment : assignment_of (map (scaled (2 ^ m)) c) (2 ^ m) inputs a.
    Proof. apply (assign_scaled c b); [exact Hfits|apply Hin|exact Ha]. Qed.

    Lemma run_step j ws : nth_error wiring j = Some ws ->
      glued (BGOutputs ws) m (nth (S j) a []) = shifted_table ws (2 ^ m) (2 ^ (m + k)) (glued (BGInputs ws) m (nth j a [])).
    Proof.
      intros Hj. assert (Hl : nth_error c j = Some (NewLayer ws)) by (unfold c, NewCircuit; rewrite nth_error_map, Hj; reflexivity).
      assert (Hl' : nth_error (map (scaled (2 ^ m)) c) j = Some (scaled (2 ^ m) (NewLayer ws))) by (rewrite nth_error_map, Hl; reflexivity).
      apply scaled_shifted; [apply pow_pos|]. destruct Hin as [I1 I2].
      destruct (a_chunks 1 Nat.lt_0_1 m k _ b inputs a (fits_scaled (2 ^ m) c b Hfits) I2 I1 run_assignment j _ Hl') as [L1 L2].
      destruct run_assignment as (A1 & A2 & A3). destruct (A3 j _ Hl') as [A4 A5].
      unfold glued. rewrite !Nat.pow_add_r, <- L1. change (BGOutputs ws) with (lBGOutputs (scaled (2 ^ m) (NewLayer ws))). change (BGInputs ws) with (lBGInputs (scaled (2 ^ m) (NewLayer ws))).
      apply glue_layer; rewrite ?L1, ?A4; auto using pow_pos.
      - intros w Hw. cbn [scaled Wires lBGInputs lBGOutputs] in *. apply in_map_iff in Hw. destruct Hw as (w' & <- & Hw). cbn [wL wR wO].
        pose proof (rows_exist _ _ (nth_error_In _ _ Hl) Hw) as HR. destruct (NewLayer_wf ws w' Hw) as (X1 & _ & X3). cbn [NewLayer lBGInputs lBGOutputs] in *. auto.
      - rewrite <- I1. exact A5.
    Qed.

    Lemma run_level j : forall ws, nth_error wiring j = Some ws -> glued (BGInputs ws) m (nth j a []) = level (2 ^ m) (2 ^ (m + k)) wiring (glued b m inputs) j.
    Proof.
      induction j as [|j IH]; intros ws Hj.
      - destruct run_assignment as (_ & A2 & _). rewrite A2. replace (BGInputs ws) with b; [destruct wiring; reflexivity|].
        unfold c, NewCircuit in Hfits. destruct wiring as [|w r]; [discriminate|]. cbn in Hj. injection Hj as ->. symmetry. apply Hfits.
      - assert (Hlt : (j < length wiring)%nat) by (apply Nat.lt_succ_l, nth_error_Some; congruence).
        destruct (nth_error wiring j) as [ws'|] eqn:E; [|apply nth_error_None in E; lia].
        rewrite (level_step _ _ _ _ _ _ E), <- (IH ws' eq_refl), <- (run_step j ws' E). f_equal.
        assert (E1 : nth_error c j = Some (NewLayer ws')) by (unfold c, NewCircuit; rewrite nth_error_map, E; reflexivity).
        assert (E2 : nth_error c (S j) = Some (NewLayer ws)) by (unfold c, NewCircuit; rewrite nth_error_map, Hj; reflexivity).
        exact (fits_next c b j _ _ Hfits E1 E2).
    Qed.

    Lemma run_shaped : shaped k m c a.
    Proof.
      intros j l Hj. assert (Hl' : nth_error (map (scaled (2 ^ m)) c) j = Some (scaled (2 ^ m) l)) by (rewrite nth_error_map, Hj; reflexivity).
      destruct Hin as [I1 I2].
      destruct (a_chunks 1 Nat.lt_0_1 m k _ b inputs a (fits_scaled (2 ^ m) c b Hfits) I2 I1 run_assignment j _ Hl') as [L1 L2].
      split; [exact L1|]. intros t Ht. rewrite L2, Nat.pow_add_r by exact Ht. reflexivity.
    Qed.

    Lemma run_outputs l : nth_error c (length c - 1) = Some l -> chunked k m (lBGOutputs l) (nth (length c) a []).
    Proof.
      intros Hl. assert (Hl' : nth_error (map (scaled (2 ^ m)) c) (length c - 1) = Some (scaled (2 ^ m) l)) by (rewrite nth_error_map, Hl; reflexivity).
      destruct run_assignment as (A1 & A2 & A3). destruct (A3 _ _ Hl') as [LO SO]. destruct Hin as [I1 I2].
      replace (S (length c - 1)) with (length c) in LO, SO by (assert (length c - 1 < length c)%nat by (apply nth_error_Some; congruence); lia).
      split; [congruence|]. intros t Ht. apply (In_nth _ _ []) in Ht. destruct Ht as (i & Hi & <-). apply SO. congruence.
    Qed.

    Lemma run_in_line ch pf : (forall ws, In ws wiring -> ids_ok ws) ->
      (all_in_line ch c m k pf a (nth (length c) a []) <-> agrees ch wiring m k pf (glued b m inputs)).
    Proof.
      intros Hid. assert (Lc : length c = length wiring) by apply map_length.
      assert (K : forall j ws, nth_error wiring j = Some ws ->
        (in_line ch c (m + k) pf j (NewLayer ws) (glued (lBGInputs (NewLayer ws)) m (nth j a []))
           (glued (lBGOutputs (NewLayer ws)) m (if (S j =? length c)%nat then nth (length c) a [] else nth (S j) a [])) <->
         let V := level (2 ^ m) (2 ^ (m + k)) wiring (glued b m inputs) j in
         let W := shifted_table ws (2 ^ m) (2 ^ (m + k)) V in
         let b := BGOutputs ws in
         let lam := ch [mle W (ptL ch pf b (S j) ++ ptP ch pf b (S j)); mle W (ptR ch pf b (S j) ++ ptP ch pf b (S j))] in
         claim_about ch (NewCircuit wiring) (m + k) pf j (NewLayer ws) lam W =
         claim_about ch (NewCircuit wiring) (m + k) pf j (NewLayer ws) lam (counted_table ws (2 ^ (m + k)) V))).
      { intros j ws Hj.
        assert (E : (if (S j =? length c)%nat then nth (length c) a [] else nth (S j) a []) = nth (S j) a []) by (destruct (Nat.eqb_spec (S j) (length c)) as [->|]; reflexivity).
        rewrite E. cbn [NewLayer lBGInputs lBGOutputs]. rewrite (run_step j ws Hj), (run_level j ws Hj). unfold in_line.
        fold (NewLayer ws). rewrite listed_counted_table by (apply Hid; eapply nth_error_In; exact Hj). cbn [NewLayer lBGOutputs]. reflexivity. }
      split.
      - intros H j ws Hj. apply (K j ws Hj). apply H. unfold c, NewCircuit. rewrite nth_error_map, Hj. reflexivity.
      - intros H j l Hj. unfold c, NewCircuit in Hj. rewrite nth_error_map in Hj. destruct (nth_error wiring j) as [ws|] eqn:E; [|discriminate]. cbn in Hj. injection Hj as <-.
        apply (K j ws E). apply (H j ws E).
    Qed.
  End A.

  Lemma too_far (c : list (Layer F)) N : ~ (forall l w, In l c -> In w (Wires l) -> (wR w * N < 2 ^ lBGInputs l)%nat) ->
    exists l w, In l c /\ In w (Wires l) /\ (2 ^ lBGInputs l <= wR w * N)%nat.
  Proof.
    intros H.
    assert (D : Exists (fun l => Exists (fun w => (2 ^ lBGInputs l <= wR w * N)%nat) (Wires l)) c \/ ~ Exists (fun l => Exists (fun w => (2 ^ lBGInputs l <= wR w * N)%nat) (Wires l)) c).
    { assert (D : {Exists (fun l => Exists (fun w => (2 ^ lBGInputs l <= wR w * N)%nat) (Wires l)) c} + {~ Exists (fun l => Exists (fun w => (2 ^ lBGInputs l <= wR w * N)%nat) (Wires l)) c}).
      { apply Exists_dec. intros l. apply Exists_dec. intros w. apply le_dec. }
      destruct D; [left|right]; assumption. }
    destruct D as [D|D].
    - apply Exists_exists in D. destruct D as (l & Hl & D). apply Exists_exists in D. destruct D as (w & Hw & D). exists l, w. auto.
    - exfalso. apply H. intros l w Hl Hw. destruct (Nat.lt_ge_cases (wR w * N) (2 ^ lBGInputs l)) as [L|L]; [exact L|]. exfalso. apply D.
      apply Exists_exists. exists l. split; [exact Hl|]. apply Exists_exists. exists w. auto.
  Qed.

  (** one wire per gate, right operands at the right place: nothing to tell apart *)
  Lemma unshifted_value (m : nat) (ws : list (Wire F)) N V o h : unshifted m ws -> NoDup (map (fun w => gid (wGate w)) ws) ->
    shifted_value ws (2 ^ m) N V o h = counted_value ws N V o h.
  Proof.
    intros Hu Hd. unfold shifted_value, counted_value. apply suml_ext. intros w Hw. apply filter_In in Hw. destruct Hw as [Hw _].
    assert (E : copies ws w = 1%nat).
    { clear Hu. unfold copies. induction ws as [|w' ws IH]; [destruct Hw|]. cbn [map] in Hd. inversion Hd as [|? ? Hn Hd' Eq]; subst. cbn [filter].
      destruct Hw as [->|Hw].
      - rewrite id_eqb_refl. cbn [length]. f_equal. clear IH Hd Hd'. induction ws as [|y ws IH]; [reflexivity|]. cbn [filter].
        destruct (id_eqb (gid (wGate w)) (gid (wGate y))) eqn:E; [apply id_eqb_eq in E; exfalso; apply Hn; left; symmetry; exact E|]. apply IH. intros X. apply Hn. right. exact X.
      - destruct (id_eqb (gid (wGate w)) (gid (wGate w'))) eqn:E; [|apply IH; assumption]. exfalso. apply Hn. apply id_eqb_eq in E. rewrite <- E. apply (in_map (fun w => gid (wGate w))). exact Hw. }
    rewrite E. cbn [fnat]. destruct Hu as [->|Hu]; [cbn [Nat.pow]; rewrite Nat.mul_1_r; ring|]. destruct (Hu w Hw) as [->| ->]; [cbn [Nat.mul]; ring|].
    cbn [CopyGate geval]. ring.
  Qed.

  Lemma unshifted_agrees (ch : list F -> F) (wiring : list (list (Wire F))) m k pf T : (forall ws, In ws wiring -> unshifted m ws /\ NoDup (map (fun w => gid (wGate w)) ws)) -> agrees ch wiring m k pf T.
  Proof.
    intros H j ws Hj. cbv zeta. destruct (H ws (nth_error_In _ _ Hj)) as [Hu Hd]. f_equal. unfold shifted_table, counted_table. apply map_ext. intros i. apply unshifted_value; assumption.
  Qed.
End G.

Section R.
  Open Scope F_scope.

  Lemma run_exact : forall (ch : list Fr -> Fr) nCore mtProve wiring b m k inputs, (0 < nCore)%nat -> follows_machine ch nCore mtProve -> (0 < k)%nat ->
    wiring <> [] -> (forall ws, In ws wiring -> ws <> [] /\ forall w, In w ws -> library_gate (wGate w)) ->
    fits b (NewCircuit wiring) -> chunked k m b inputs ->
    match Assign (NewCircuit wiring) inputs with
    | None => exists ws w, In ws wiring /\ In w ws /\ (2 ^ BGInputs ws <= wR w * 2 ^ m)%nat
    | Some a => (forall ws w, In ws wiring -> In w ws -> (wR w * 2 ^ m < 2 ^ BGInputs ws)%nat) /\
        exists pf, GkrProve ch mtProve (NewCircuit wiring) a nCore = Some pf /\
          (GkrVerify ch (m + k) (NewCircuit wiring) pf inputs (nth (length wiring) a []) = Some true <-> agrees ch wiring m k pf (glued b m inputs)) /\
          (GkrVerify ch (m + k) (NewCircuit wiring) pf inputs (nth (length wiring) a []) = Some false <-> ~ agrees ch wiring m k pf (glued b m inputs))
    end.
  Proof.
    intros ch nCore mtProve wiring b m k inputs Hc Hmt Hk Hne Hw Hf Hin. set (c := NewCircuit wiring).
    assert (Lc : length c = length wiring) by apply map_length.
    destruct (Assign c inputs) as [a|] eqn:E.
    - split.
      { intros ws w H1 H2. exact (rows_exist wiring b m k inputs a Hf Hin E (NewLayer ws) w (in_map NewLayer _ _ H1) H2). }
      destruct (verdict_any ch nCore mtProve m k b c a (nth (length c) a []) Hc Hmt Hk) as (pf & EP & HT & HF & _).
      + intros H. apply Hne. apply length_zero_iff_nil. rewrite <- Lc, H. reflexivity.
      + intros l Hl. apply in_map_iff in Hl. destruct Hl as (ws & <- & Hws). destruct (Hw ws Hws). apply library_ready; assumption.
      + exact Hf.
      + exact (run_shaped wiring b m k inputs a Hf Hin E).
      + exact (run_outputs wiring b m k inputs a Hf Hin E).
      + exists pf. split; [exact EP|]. rewrite <- Lc.
        destruct (run_assignment wiring b m k inputs a Hf Hin E) as (_ & A2 & _). rewrite A2 in HT, HF.
        rewrite <- (run_in_line wiring b m k inputs a Hf Hin E ch pf); [split; assumption|].
        intros ws Hws. apply library_ids. apply (Hw ws Hws).
    - destruct (too_far c (2 ^ m)) as (l & w & Hl & Hww & H).
      + intros H. assert (Hwf : forall l, In l c -> wf_layer l) by (intros l' H'; apply in_map_iff in H'; destruct H' as (ws & <- & _); apply NewLayer_wf).
        assert (X : Assign c inputs <> None); [|congruence]. apply assign_returns. intros inp Hi. destruct Hin as [_ I2]. rewrite (I2 inp Hi).
        apply (assignable_shape c b (2 ^ m) Hwf Hf (pow_pos m)). exact H.
      + apply in_map_iff in Hl. destruct Hl as (ws & <- & Hws). exists ws, w. auto.
  Qed.

  Lemma run_accepts : forall (ch : list Fr -> Fr) nCore mtProve wiring b m k inputs, (0 < nCore)%nat -> follows_machine ch nCore mtProve -> (0 < k)%nat ->
    wiring <> [] -> (forall ws, In ws wiring -> ws <> [] /\ forall w, In w ws -> library_gate (wGate w)) ->
    fits b (NewCircuit wiring) -> chunked k m b inputs ->
    (forall ws, In ws wiring -> unshifted m ws /\ NoDup (map (fun w => gid (wGate w)) ws)) ->
    (forall ws w, In ws wiring -> In w ws -> (wR w * 2 ^ m < 2 ^ BGInputs ws)%nat) ->
    exists a pf, Assign (NewCircuit wiring) inputs = Some a /\ GkrProve ch mtProve (NewCircuit wiring) a nCore = Some pf /\
      GkrVerify ch (m + k) (NewCircuit wiring) pf inputs (nth (length wiring) a []) = Some true.
  Proof.
    intros ch nCore mtProve wiring b m k inputs Hc Hmt Hk Hne Hw Hf Hin Hu Hr.
    pose proof (run_exact ch nCore mtProve wiring b m k inputs Hc Hmt Hk Hne Hw Hf Hin) as H. destruct (Assign (NewCircuit wiring) inputs) as [a|].
    - destruct H as (_ & pf & E & HT & _). exists a, pf. split; [reflexivity|]. split; [exact E|]. apply HT. apply unshifted_agrees. exact Hu.
    - destruct H as (ws & w & H1 & H2 & H3). specialize (Hr ws w H1 H2). lia.
  Qed.

  Lemma run_one_layer : forall (ch : list Fr -> Fr) nCore mtProve ws m k inputs, (0 < nCore)%nat -> follows_machine ch nCore mtProve -> (0 < k)%nat ->
    ws <> [] -> (forall w, In w ws -> library_gate (wGate w) /\ (wR w * 2 ^ m < 2 ^ BGInputs ws)%nat) -> chunked k m (BGInputs ws) inputs ->
    let V := glued (BGInputs ws) m inputs in
    let z := count (BGOutputs ws) ++ count (m + k) in
    exists a pf, Assign (NewCircuit [ws]) inputs = Some a /\ GkrProve ch mtProve (NewCircuit [ws]) a nCore = Some pf /\
      (GkrVerify ch (m + k) (NewCircuit [ws]) pf inputs (nth 1 a []) = Some true <->
        mle (shifted_table ws (2 ^ m) (2 ^ (m + k)) V) z = mle (counted_table ws (2 ^ (m + k)) V) z) /\
      (GkrVerify ch (m + k) (NewCircuit [ws]) pf inputs (nth 1 a []) = Some false <->
        mle (shifted_table ws (2 ^ m) (2 ^ (m + k)) V) z <> mle (counted_table ws (2 ^ (m + k)) V) z).
  Proof.
    intros ch nCore mtProve ws m k inputs Hc Hmt Hk Hne Hw Hin V z.
    assert (P : match Assign (NewCircuit [ws]) inputs with
      | None => exists ws' w, In ws' [ws] /\ In w ws' /\ (2 ^ BGInputs ws' <= wR w * 2 ^ m)%nat
      | Some a => (forall ws' w, In ws' [ws] -> In w ws' -> (wR w * 2 ^ m < 2 ^ BGInputs ws')%nat) /\
          exists pf, GkrProve ch mtProve (NewCircuit [ws]) a nCore = Some pf /\
            (GkrVerify ch (m + k) (NewCircuit [ws]) pf inputs (nth (length [ws]) a []) = Some true <-> agrees ch [ws] m k pf V) /\
            (GkrVerify ch (m + k) (NewCircuit [ws]) pf inputs (nth (length [ws]) a []) = Some false <-> ~ agrees ch [ws] m k pf V)
      end).
    { apply run_exact; auto; [discriminate| |repeat split].
      intros ws' [<-|[]]. split; [exact Hne|]. intros w H. apply (Hw w H). }
    destruct (Assign (NewCircuit [ws]) inputs) as [a|].
    - destruct P as (_ & pf & E & HT & HF). exists a, pf. split; [reflexivity|]. split; [exact E|].
      assert (K : agrees ch [ws] m k pf V <-> mle (shifted_table ws (2 ^ m) (2 ^ (m + k)) V) z = mle (counted_table ws (2 ^ (m + k)) V) z).
      { split.
        - intros H. exact (H 0%nat ws eq_refl).
        - intros H [|[|j]] ws' Hj; try discriminate Hj. cbn in Hj. injection Hj as <-. exact H. }
      rewrite <- K. split; assumption.
    - destruct P as (ws' & w & [<-|[]] & H2 & H3). destruct (Hw w H2). lia.
  Qed.
End R.
