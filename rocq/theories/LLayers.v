(** Layers on all sizes (lemmas for PLayers.v). *)
From Coq Require Import List Arith Lia Bool Ring Field.
From Verif Require Import Field Go MCommon Spec LSpec LCommon LEffect MPoly LPoly LPoly2 LPoly3 MCircuit SpecCircuit LCircuit LCircuit2 LCircuit3
  LSnark7 SpecLayers.
Import ListNotations.

(** Every step of a loop that ends was taken. *)
Lemma foldM_each {A S} (P : S -> Prop) (Q : A -> Prop) (f : S -> A -> option S) l : forall s r,
  P s -> (forall a s s', In a l -> P s -> f s a = Some s' -> P s' /\ Q a) -> foldM f l s = Some r -> P r /\ forall a, In a l -> Q a.
Proof.
  induction l as [|a l IH]; intros s r H0 Hs E; cbn [foldM] in E.
  - injection E as <-. split; [exact H0|]. intros a [].
  - destruct (f s a) as [s1|] eqn:E1; [|discriminate].
    destruct (Hs a s s1 (or_introl eq_refl) H0 E1) as [H1 H2].
    destruct (IH s1 r H1) as [H3 H4]; [intros; eapply Hs; eauto; right; assumption|exact E|].
    split; [exact H3|]. intros b [<-|Hb]; auto.
Qed.

Section Layers.
  Context {F : Field}.
  Add Field FfieldLLayers : (f_theory F).
  Open Scope F_scope.

  (** ** Evaluate *)
  Lemma eval_chunk_reads (l : Layer F) (inp : list F) r : eval_chunk l inp = Some r -> reads l (length inp).
  Proof.
    intros E. unfold reads. fold (instances l (length inp)) in E. unfold eval_chunk in E.
    fold (instances l (length inp)) in E. set (N := instances l (length inp)) in *.
    destruct (Nat.eq_dec N 0) as [|HN]; [left; assumption|right].
    apply (foldM_each (fun t => length t = (N * 2 ^ lBGOutputs l)%nat)
      (fun w => (wO w < 2 ^ lBGOutputs l)%nat /\ (wL w * N + N <= length inp)%nat /\ (wR w * N * N + N <= length inp)%nat)) in E.
    - apply E.
    - apply repeat_length.
    - intros w t t' Hw HL Ew.
      apply (foldM_done _ (fun _ t => length t = (N * 2 ^ lBGOutputs l)%nat)
        (fun h => (wL w * N + h < length inp)%nat /\ (wR w * N * N + h < length inp)%nat /\ (wO w * N + h < N * 2 ^ lBGOutputs l)%nat)) in Ew; [|exact HL|].
      + destruct Ew as [H1 H2]. split; [exact H1|]. destruct (H2 (N - 1)%nat) as (H3 & H4 & H5); [lia|].
        split; [|lia]. set (G := (2 ^ lBGOutputs l)%nat) in *. nia.
      + intros h s s' Hh HLs Eh.
        destruct (get inp (wL w * N + h)) as [x|] eqn:G1; [|discriminate].
        destruct (get inp (wR w * N * N + h)) as [y|] eqn:G2; [|discriminate].
        destruct (get s (wO w * N + h)) as [z|] eqn:G3; [|discriminate].
        apply get_some_lt in G1, G2, G3. rewrite set_some in Eh by exact G3. injection Eh as <-.
        rewrite upd_length. split; [exact HLs|]. rewrite <- HLs. auto.
  Qed.

  Lemma scaled_value (l : Layer F) N M inp o h :
    layer_value (Wires (scaled N l)) M inp o h =
    suml (filter (fun w => (wO w =? o)%nat) (Wires l)) (fun w => geval (wGate w) (nth (wL w * M + h) inp 0) (nth (wR w * N * M + h) inp 0)).
  Proof.
    unfold layer_value, scaled. cbn [Wires]. rewrite !suml_filter, suml_map. reflexivity.
  Qed.

  Lemma eval_chunk_all (l : Layer F) (inp : list F) : reads l (length inp) ->
    exists out, eval_chunk l inp = Some out /\ layer_table (scaled (instances l (length inp)) l) (instances l (length inp)) inp out.
  Proof.
    intros HR. unfold eval_chunk. fold (instances l (length inp)). unfold reads in HR. set (N := instances l (length inp)) in *.
    destruct (eff1_run (N * 2 ^ lBGOutputs l)
      (fun sub => foldM (fun (subRes : list F) w =>
        forN N (fun subRes h =>
          vL <- get inp (wL w * N + h) ;;
          vR <- get inp (wR w * N * N + h) ;;
          x <- get subRes (wO w * N + h) ;;
          set subRes (wO w * N + h) (x + geval (wGate w) vL vR)) subRes) (Wires l) sub)
      (fun k => suml (Wires l) (fun w => sumn N (fun h => if Nat.eqb k (wO w * N + h) then
         geval (wGate w) (nth (wL w * N + h) inp 0) (nth (wR w * N * N + h) inp 0) else 0))))
      as (out & E & HLo & Ho).
    { apply (eff_foldM (wf1 _) rd1 (fun (subRes : list F) w => forN N _ subRes)
        (fun w k => sumn N (fun h => if Nat.eqb k (wO w * N + h) then
         geval (wGate w) (nth (wL w * N + h) inp 0) (nth (wR w * N * N + h) inp 0) else 0))).
      intros w Hw.
      apply (eff_forN (wf1 _) rd1 N _ (fun h k => if Nat.eqb k (wO w * N + h) then
         geval (wGate w) (nth (wL w * N + h) inp 0) (nth (wR w * N * N + h) inp 0) else 0)).
      intros h Hh. destruct HR as [HR|HR]; [lia|]. destruct (HR w Hw) as (H1 & H2 & H3).
      eapply eff_fun_ext; [|apply (eff_add1 (N * 2 ^ lBGOutputs l) (wO w * N + h))].
      - intros s _. rewrite (get_nth inp (wL w * N + h) 0) by lia.
        rewrite (get_nth inp (wR w * N * N + h) 0) by lia. reflexivity.
      - rewrite (Nat.mul_comm N). apply mul_add_lt; assumption. }
    exists out. split; [exact E|]. split; [rewrite HLo; cbn [lBGOutputs scaled]; lia|].
    intros o h Hoo Hh. rewrite Ho, scaled_value, suml_filter. apply suml_ext. intros w Hw.
    destruct (Nat.eqb_spec (wO w) o) as [Heq|Hne].
    - rewrite (sumn_ext _ _ (fun h' => if Nat.eqb h' h then
         geval (wGate w) (nth (wL w * N + h) inp 0) (nth (wR w * N * N + h) inp 0) else 0)).
      + rewrite sumn_delta by exact Hh. reflexivity.
      + intros h' Hh'. subst o. destruct (Nat.eqb_spec h' h) as [->|Hn].
        * rewrite Nat.eqb_refl. reflexivity.
        * destruct (Nat.eqb_spec (wO w * N + h) (wO w * N + h')); [lia|reflexivity].
    - apply sumn_zero. intros h' Hh'. destruct (Nat.eqb_spec (o * N + h) (wO w * N + h')) as [E'|]; [|reflexivity].
      apply mul_add_inj in E'; [|assumption|assumption]. exfalso. apply Hne. lia.
  Qed.

  Lemma evaluate_returns (l : Layer F) (inputs : list (list F)) :
    LayerEvaluate l inputs <> None <-> forall inp, In inp inputs -> reads l (length inp).
  Proof.
    unfold LayerEvaluate. split.
    - intros H inp Hi. destruct (eval_chunk l inp) as [r|] eqn:E; [eapply eval_chunk_reads; eassumption|].
      exfalso. apply H. eapply mapM_none; eassumption.
    - intros H.
      rewrite (mapM_some _ (fun inp => match eval_chunk l inp with Some o => o | None => [] end)); [discriminate|].
      intros inp Hi. destruct (eval_chunk_all l inp (H inp Hi)) as (o & E & _). rewrite E. reflexivity.
  Qed.

  Lemma evaluate_values (l : Layer F) (inputs outs : list (list F)) : LayerEvaluate l inputs = Some outs ->
    Forall2 (fun inp out => let N := instances l (length inp) in layer_table (scaled N l) N inp out) inputs outs.
  Proof.
    unfold LayerEvaluate. rewrite mapM_Forall2. intros H. induction H as [|inp out inputs outs E _ IH]; constructor; [|exact IH].
    destruct (eval_chunk_all l inp (eval_chunk_reads _ _ _ E)) as (o & E' & T). rewrite E in E'. injection E' as <-. exact T.
  Qed.

  Lemma instances_mul (l : Layer F) N : instances l (2 ^ lBGInputs l * N) = N.
  Proof. unfold instances. rewrite Nat.mul_comm. apply Nat.div_mul. apply Nat.pow_nonzero. lia. Qed.

  Lemma reads_shape (l : Layer F) N : wf_layer l -> (0 < N)%nat ->
    (reads l (2 ^ lBGInputs l * N) <-> forall w, In w (Wires l) -> (wR w * N < 2 ^ lBGInputs l)%nat).
  Proof.
    intros Hwf HN. unfold reads. rewrite instances_mul. set (G := (2 ^ lBGInputs l)%nat) in *. split.
    - intros [H|H] w Hw; [lia|]. destruct (H w Hw) as (_ & _ & H3). nia.
    - intros H. right. intros w Hw. destruct (Hwf w Hw) as (H1 & H2 & H3). fold G in H1, H2. specialize (H w Hw). split; [exact H3|]. split; nia.
  Qed.

  (** When is the result right? *)
  Lemma evaluate_right (l : Layer F) N : wf_layer l -> (0 < N)%nat -> NoDup (map wO (Wires l)) ->
    ((forall inp, length inp = (2 ^ lBGInputs l * N)%nat -> exists out, LayerEvaluate l [inp] = Some [out] /\ layer_table l N inp out) <->
     (forall w, In w (Wires l) -> (wR w * N < 2 ^ lBGInputs l)%nat /\ (N = 1%nat \/ wR w = 0%nat \/ ignores_right (wGate w)))).
  Proof.
    intros Hwf HN Hnd. split.
    - intros H.
      assert (HR : forall w, In w (Wires l) -> (wR w * N < 2 ^ lBGInputs l)%nat).
      { apply (reads_shape l N Hwf HN). destruct (H (repeat 0 (2 ^ lBGInputs l * N))) as (out & E & _); [apply repeat_length|].
        rewrite <- (repeat_length (0 : F) (2 ^ lBGInputs l * N)). apply (proj1 (evaluate_returns l [repeat 0 (2 ^ lBGInputs l * N)%nat])).
        + rewrite E. discriminate.
        + left. reflexivity. }
      intros w Hw. split; [apply HR; exact Hw|].
      destruct (Nat.eq_dec N 1) as [|H1]; [left; assumption|]. destruct (Nat.eq_dec (wR w) 0) as [|H2]; [right; left; assumption|].
      right; right. destruct (Hwf w Hw) as (HL & HRr & HO).
      assert (K : forall rho : nat -> F, geval (wGate w) (rho (wL w)) (rho (wR w)) = geval (wGate w) (rho (wL w)) (rho (wR w * N)%nat)).
      { intros rho. set (inp := map (fun i => rho (i / N)%nat) (seq 0 (2 ^ lBGInputs l * N))).
        assert (HLi : length inp = (2 ^ lBGInputs l * N)%nat) by (unfold inp; rewrite map_length, seq_length; reflexivity).
        assert (Hr : forall r, (r < 2 ^ lBGInputs l)%nat -> nth (r * N + 0) inp 0 = rho r).
        { intros r Hr. unfold inp. rewrite nth_map_seq by nia. rewrite Nat.add_0_r, Nat.div_mul by lia. reflexivity. }
        destruct (H inp HLi) as (out & E & T1). pose proof (evaluate_values l [inp] [out] E) as T2. inversion T2 as [|? ? ? ? T2' _]. clear T2. rename T2' into T2. subst.
        cbv zeta in T2. rewrite HLi, instances_mul in T2. destruct T1 as [_ T1], T2 as [_ T2]. cbn [lBGOutputs scaled] in T2.
        specialize (T1 (wO w) 0%nat HO HN). specialize (T2 (wO w) 0%nat HO HN). rewrite T1, scaled_value in T2. unfold layer_value in T2.
        assert (Hf : filter (fun w' => (wO w' =? wO w)%nat) (Wires l) = [w]).
        { clear -Hnd Hw. revert Hnd Hw. generalize (Wires l) as ws. induction ws as [|v ws IH]; intros Hnd Hw; [destruct Hw|].
          cbn [map] in Hnd. inversion Hnd as [|? ? Hn Hnd']. subst. cbn [filter]. destruct Hw as [->|Hw].
          - rewrite Nat.eqb_refl. f_equal. clear -Hn. induction ws as [|u ws IH]; [reflexivity|]. cbn [map filter] in *.
            destruct (Nat.eqb_spec (wO u) (wO w)) as [E|]; [exfalso; apply Hn; left; exact E|]. apply IH. intros Hi. apply Hn. right. exact Hi.
          - destruct (Nat.eqb_spec (wO v) (wO w)) as [E|]; [|apply IH; assumption].
            exfalso. apply Hn. rewrite E. apply in_map. exact Hw. }
        rewrite Hf in T2. cbn [suml] in T2. rewrite !Hr in T2 by auto.
        transitivity (geval (wGate w) (rho (wL w)) (rho (wR w)) + 0); [ring|]. rewrite T2. ring. }
      intros x y z.
      assert (H3 : (wR w * N <> wR w)%nat) by nia.
      destruct (Nat.eq_dec (wL w) (wR w)) as [E1|E1]; [|destruct (Nat.eq_dec (wL w) (wR w * N)) as [E2|E2]].
      + assert (K' : forall z, geval (wGate w) x x = geval (wGate w) x z).
        { intros u. specialize (K (fun i => if (i =? wL w)%nat then x else u)). cbv beta in K. rewrite <- E1, Nat.eqb_refl in K.
          rewrite E1 in K. destruct (Nat.eqb_spec (wR w * N) (wR w)); [lia|exact K]. }
        rewrite <- (K' y). apply K'.
      + assert (K' : forall z, geval (wGate w) x z = geval (wGate w) x x).
        { intros u. specialize (K (fun i => if (i =? wL w)%nat then x else u)). cbv beta in K. rewrite <- E2, Nat.eqb_refl in K.
          destruct (Nat.eqb_spec (wR w) (wL w)); [lia|exact K]. }
        rewrite (K' y). symmetry. apply K'.
      + specialize (K (fun i => if (i =? wL w)%nat then x else if (i =? wR w)%nat then y else z)). cbv beta in K.
        rewrite !Nat.eqb_refl in K. destruct (Nat.eqb_spec (wR w) (wL w)); [lia|]. destruct (Nat.eqb_spec (wR w * N) (wL w)); [lia|].
        destruct (Nat.eqb_spec (wR w * N) (wR w)); [lia|exact K].
    - intros H inp HLi. destruct (eval_chunk_all l inp) as (out & E & T).
      { rewrite HLi. apply reads_shape; [assumption|assumption|]. intros w Hw. apply H. exact Hw. }
      rewrite HLi, instances_mul in T. exists out. split; [unfold LayerEvaluate; cbn [mapM]; rewrite E; reflexivity|].
      destruct T as [T1 T2]. split; [exact T1|]. intros o h Ho Hh. cbn [lBGOutputs scaled] in T2. rewrite T2 by assumption.
      rewrite scaled_value. unfold layer_value. apply suml_ext. intros w Hw. apply filter_In in Hw. destruct Hw as [Hw _].
      destruct (H w Hw) as (_ & [->|[->|Hi]]); [rewrite !Nat.mul_1_r; reflexivity|reflexivity|]. apply Hi.
  Qed.

  Lemma library_ignores (g : Gate F) : library_gate g -> (ignores_right g <-> g = CopyGate).
  Proof.
    intros Hg. split.
    - intros H. pose proof (@f_1_neq_0 F) as H10. destruct Hg as [| | |ark]; [| |reflexivity|]; exfalso.
      + specialize (H 0 1 0). cbn in H. apply H10. transitivity (0 + 1 : F); [ring|]. rewrite H. ring.
      + specialize (H 1 1 0). cbn in H. apply H10. transitivity (1 * 1 : F); [ring|]. rewrite H. ring.
      + specialize (H 0 (1 - ark) (- ark)). rewrite !cipher_eval in H. apply H10.
        transitivity (0 + fpow (1 - ark + ark) 7); [cbn; ring|]. rewrite H. cbn. ring.
    - intros ->. intros x y z. reflexivity.
  Qed.

  (** ** Assign *)
  Lemma assign_steps : forall (c : list (Layer F)) inputs a,
    Assign c inputs = Some a <->
    length a = S (length c) /\ nth 0 a [] = inputs /\
    forall k l, nth_error c k = Some l -> LayerEvaluate l (nth k a []) = Some (nth (S k) a []).
  Proof.
    intros c inputs a. rewrite Assign_rec. revert inputs a. induction c as [|l c IH]; intros inputs a; cbn [assign_rec].
    - split.
      + intros E. injection E as <-. repeat split. intros [|k] l; discriminate.
      + intros (HL & H0 & _). destruct a as [|x [|y a]]; try discriminate. cbn in H0. subst. reflexivity.
    - split.
      + intros E. destruct (LayerEvaluate l inputs) as [y|] eqn:E1; [|discriminate].
        destruct (assign_rec c y) as [r|] eqn:E2; [|discriminate]. injection E as <-.
        apply IH in E2. destruct E2 as (HL & H0 & Hs). split; [cbn [length]; lia|]. split; [reflexivity|].
        intros [|k] l' Hl; cbn [nth_error nth] in *; [injection Hl as <-; rewrite E1, H0; reflexivity|]. apply Hs. exact Hl.
      + intros (HL & H0 & Hs). destruct a as [|x a]; [discriminate|]. cbn [nth] in H0. subst x.
        pose proof (Hs 0%nat l eq_refl) as E1. cbn [nth] in E1. rewrite E1.
        rewrite (proj2 (IH (nth 0 a []) a)); [reflexivity|]. cbn [length] in HL. split; [lia|]. split; [reflexivity|].
        intros k l' Hl. apply (Hs (S k) l'). exact Hl.
  Qed.

  Lemma assign_returns : forall (c : list (Layer F)) inputs,
    Assign c inputs <> None <-> forall inp, In inp inputs -> assignable c (length inp).
  Proof.
    intros c inputs. rewrite Assign_rec. revert inputs. induction c as [|l c IH]; intros inputs; cbn [assign_rec assignable].
    - split; [auto|discriminate].
    - destruct (LayerEvaluate l inputs) as [y|] eqn:E.
      + assert (Hy : (forall inp, In inp y -> assignable c (length inp)) <->
          (forall inp, In inp inputs -> assignable c (2 ^ lBGOutputs l * instances l (length inp)))).
        { pose proof (evaluate_values l inputs y E) as HF. clear E. induction HF as [|inp out inputs y [T _] _ IHF]; [split; intros H ? []|].
          cbn [lBGOutputs scaled] in T. split; intros H z [<-|Hz].
          - rewrite <- T. apply H. left. reflexivity.
          - apply IHF; [|exact Hz]. intros u Hu. apply H. right. exact Hu.
          - rewrite T. apply H. left. reflexivity.
          - apply IHF; [|exact Hz]. intros u Hu. apply H. right. exact Hu. }
        assert (HR : forall inp, In inp inputs -> reads l (length inp)) by (apply evaluate_returns; rewrite E; discriminate).
        specialize (IH y). destruct (assign_rec c y) as [r|].
        * split; [|discriminate]. intros _ inp Hi. split; [apply HR; exact Hi|]. apply Hy; [|exact Hi]. apply IH. discriminate.
        * split; [intros H; exfalso; apply H; reflexivity|]. intros H. exfalso. apply (proj2 IH); [|reflexivity]. apply Hy. intros inp Hi. apply H. exact Hi.
      + split; [intros H; exfalso; apply H; reflexivity|]. intros H. exfalso. apply (proj2 (evaluate_returns l inputs)); [|exact E]. intros inp Hi. apply H. exact Hi.
  Qed.

  Lemma assignable_shape : forall (c : list (Layer F)) b N, (forall l, In l c -> wf_layer l) -> fits b c -> (0 < N)%nat ->
    (assignable c (2 ^ b * N) <-> forall l w, In l c -> In w (Wires l) -> (wR w * N < 2 ^ lBGInputs l)%nat).
  Proof.
    induction c as [|l c IH]; intros b N Hwf Hf HN; cbn [assignable].
    - split; [intros _ l w []|auto].
    - destruct Hf as [<- Hf]. rewrite instances_mul, reads_shape by (try assumption; apply Hwf; left; reflexivity).
      rewrite (IH (lBGOutputs l) N) by (try assumption; intros; apply Hwf; right; assumption). split.
      + intros [H1 H2] l' w [<-|Hl]; eauto.
      + intros H. split; intros; eapply H; eauto; [left|right]; auto.
  Qed.

  Lemma assign_scaled : forall (c : list (Layer F)) b N inputs a, fits b c ->
    (forall inp, In inp inputs -> length inp = (2 ^ b * N)%nat) -> Assign c inputs = Some a ->
    assignment_of (map (scaled N) c) N inputs a.
  Proof.
    intros c b N inputs a Hf HL E. apply assign_steps in E. destruct E as (H1 & H2 & H3).
    split; [rewrite map_length; exact H1|]. split; [exact H2|].
    revert b inputs a Hf HL H1 H2 H3. induction c as [|l c IH]; intros b inputs a Hf HL H1 H2 H3; [intros [|k] l; discriminate|].
    destruct Hf as [Hb Hf]. destruct a as [|x a]; [discriminate|]. cbn [nth] in H2. subst x.
    pose proof (H3 0%nat l eq_refl) as E. cbn [nth] in E. pose proof (evaluate_values _ _ _ E) as HF.
    assert (HF' : Forall2 (layer_table (scaled N l) N) inputs (nth 0 a [])).
    { clear -HF HL Hb. induction HF as [|inp out inputs outs T _ IHF]; constructor.
      - cbv zeta in T. rewrite (HL inp (or_introl eq_refl)), <- Hb, instances_mul in T. exact T.
      - apply IHF. intros z Hz. apply HL. right. exact Hz. }
    assert (HLn : length (nth 0 a []) = length inputs) by (clear -HF'; induction HF'; cbn [length]; congruence).
    intros [|k] l' Hl; cbn [map nth_error nth] in *.
    - injection Hl as <-. split; [exact HLn|]. intros i Hi. apply Forall2_nth; assumption.
    - rewrite <- HLn. eapply (IH (lBGOutputs l) (nth 0 a []) a); [exact Hf| |cbn [length] in H1; lia|reflexivity| |exact Hl].
      + intros out Ho. apply (In_nth _ _ []) in Ho. destruct Ho as (i & Hi & <-). rewrite HLn in Hi.
        destruct (Forall2_nth _ inputs (nth 0 a []) [] [] i HF' Hi) as [T _]. exact T.
      + intros j l'' Hj. apply (H3 (S j)). exact Hj.
  Qed.

  (** ** GetStaticTable *)
  Lemma place_index (l : Layer F) w : (2 ^ (2 * lBGInputs l) * wO w + 2 ^ lBGInputs l * wL w + wR w)%nat = place l w.
  Proof. unfold place. replace (2 * lBGInputs l)%nat with (lBGInputs l + lBGInputs l)%nat by lia. rewrite Nat.pow_add_r. ring. Qed.

  Lemma wiring_some (l : Layer F) g t : wiring_table l g = Some t ->
    forall w, In w (Wires l) -> gid (wGate w) = gid g -> (place l w < 2 ^ table_vars l)%nat.
  Proof.
    intros E. unfold wiring_table in E.
    apply (foldM_each (fun t => length t = (2 ^ table_vars l)%nat) (fun w => gid (wGate w) = gid g -> (place l w < 2 ^ table_vars l)%nat)) in E; [apply E| |].
    - rewrite repeat_length, <- Nat.pow_add_r. reflexivity.
    - intros w s s' Hw HL Ew. rewrite place_index in Ew. destruct (id_eqb (gid (wGate w)) (gid g)) eqn:Ei.
      + destruct (get s (place l w)) as [x|] eqn:G; [|discriminate]. apply get_some_lt in G. rewrite set_some in Ew by exact G.
        injection Ew as <-. rewrite upd_length. split; [exact HL|]. lia.
      + injection Ew as <-. split; [exact HL|]. intros Eq. rewrite Eq, id_eqb_refl in Ei. discriminate.
  Qed.

  Lemma wiring_all (l : Layer F) g : (forall w, In w (Wires l) -> gid (wGate w) = gid g -> (place l w < 2 ^ table_vars l)%nat) ->
    exists t, wiring_table l g = Some t /\ length t = (2 ^ table_vars l)%nat /\
      forall k, nth k t 0 = suml (Wires l) (fun w => if id_eqb (gid (wGate w)) (gid g) then if Nat.eqb k (place l w) then 1 else 0 else 0).
  Proof.
    intros H. unfold wiring_table. rewrite <- Nat.pow_add_r. fold (table_vars l).
    apply (eff1_run (2 ^ table_vars l)
      (fun tab => foldM (fun (tab : list F) w => if id_eqb (gid (wGate w)) (gid g) then _ else Some tab) (Wires l) tab)).
    apply eff_foldM. intros w Hw. rewrite place_index. destruct (id_eqb (gid (wGate w)) (gid g)) eqn:Ei.
    - apply eff_add1. apply H; [exact Hw|]. apply id_eqb_eq. exact Ei.
    - apply eff_nop.
  Qed.

  Lemma static_returns (l : Layer F) q : GetStaticTable l q <> None <-> placed l.
  Proof.
    unfold GetStaticTable, placed. split.
    - intros H g w Hg Hw Hi. destruct (wiring_table l g) as [t|] eqn:E; [eapply wiring_some; eassumption|].
      exfalso. apply H. apply (mapM_none _ _ g Hg). rewrite E. reflexivity.
    - intros H. rewrite (mapM_some _ (fun g => match wiring_table l g with Some t => foldsv t q | None => [] end)); [discriminate|].
      intros g Hg. destruct (wiring_all l g) as (t & E & _); [intros w; apply H; exact Hg|]. rewrite E. apply FoldMany_foldsv.
  Qed.

  Lemma static_long (l : Layer F) q tabs : (table_vars l < length q)%nat -> GetStaticTable l q = Some tabs -> forall t, In t tabs -> t = [].
  Proof.
    intros Hq E t Ht. unfold GetStaticTable in E. apply mapM_Forall2 in E.
    induction E as [|g t' gs ts Eg _ IH]; [destruct Ht|]. destruct Ht as [<-|Ht]; [|apply IH; exact Ht].
    destruct (wiring_table l g) as [u|] eqn:E; [|discriminate]. rewrite FoldMany_foldsv in Eg. injection Eg as <-.
    destruct (wiring_all l g (wiring_some l g u E)) as (u' & E' & HL & _). rewrite E in E'. injection E' as <-.
    apply foldsv_too_many. rewrite HL. apply Nat.pow_lt_mono_r; lia.
  Qed.

  Lemma static_entries (l : Layer F) q tabs r : table_vars l = (length q + r)%nat -> GetStaticTable l q = Some tabs ->
    Forall2 (fun g t => length t = (2 ^ r)%nat /\ forall j, (j < 2 ^ r)%nat ->
      nth j t 0 = suml (filter (fun w => id_eqb (gid (wGate w)) (gid g) && (place l w mod 2 ^ r =? j)%nat) (Wires l))
        (fun w => eqprod q (bpoint (to_bits (length q) (place l w / 2 ^ r))))) (lGates l) tabs.
  Proof.
    intros Hr E. unfold GetStaticTable in E. apply mapM_Forall2 in E. induction E as [|g t gs ts Eg _ IH]; constructor; [|exact IH].
    destruct (wiring_table l g) as [u|] eqn:E; [|discriminate]. rewrite FoldMany_foldsv in Eg. injection Eg as <-.
    pose proof (wiring_some l g u E) as Hp. destruct (wiring_all l g Hp) as (u' & E' & HL & Hu). rewrite E in E'. injection E' as <-.
    rewrite Hr in HL. split; [apply foldsv_length; exact HL|]. intros j Hj. rewrite (foldsv_nth r) by assumption.
    assert (P0 : (2 ^ r <> 0)%nat) by (apply Nat.pow_nonzero; lia).
    rewrite suml_filter.
    rewrite (suml_ext _ _ (fun d => suml (Wires l) (fun w => chi d q *
       (if id_eqb (gid (wGate w)) (gid g) then if Nat.eqb (bits_val d * 2 ^ r + j) (place l w) then 1 else 0 else 0)))).
    2:{ intros d _. rewrite Hu, <- suml_scal_l. reflexivity. }
    rewrite suml_swap. apply suml_ext. intros w Hw. destruct (id_eqb (gid (wGate w)) (gid g)) eqn:Ei; cbn [andb].
    2:{ apply suml_zero. intros; ring. }
    apply id_eqb_eq in Ei. specialize (Hp w Hw Ei). rewrite Hr, Nat.pow_add_r in Hp.
    pose proof (Nat.div_mod (place l w) (2 ^ r) P0) as Hdm. pose proof (Nat.mod_upper_bound (place l w) (2 ^ r) P0) as Hm.
    set (e := (place l w / 2 ^ r)%nat) in *. set (i := (place l w mod 2 ^ r)%nat) in *.
    assert (He : (e < 2 ^ length q)%nat) by (apply Nat.div_lt_upper_bound; [exact P0|lia]).
    rewrite (suml_ext _ _ (fun d => if Nat.eqb (bits_val d) e && (i =? j)%nat then chi d q else 0)).
    2:{ intros d Hd. replace (Nat.eqb (bits_val d * 2 ^ r + j) (place l w)) with (Nat.eqb (bits_val d) e && (i =? j)%nat).
        - match goal with |- context[if ?b then _ else _] => destruct b end; ring.
        - apply eq_true_iff_eq. rewrite andb_true_iff, !Nat.eqb_eq. rewrite Hdm. split; [intros [-> ->]; lia|].
          intros E1. rewrite (Nat.mul_comm _ e) in E1. apply mul_add_inj in E1; [|assumption|assumption]. lia. }
    destruct (i =? j)%nat.
    2:{ apply suml_zero. intros d _. rewrite andb_false_r. reflexivity. }
    rewrite sum_cube.
    rewrite (sumn_ext _ _ (fun k => if Nat.eqb k e then chi (to_bits (length q) e) q else 0)).
    2:{ intros k Hk. rewrite bits_val_to_bits by exact Hk. rewrite andb_true_r. destruct (Nat.eqb_spec k e) as [->|]; reflexivity. }
    rewrite sumn_delta by exact He. rewrite eqprod_sym, chi_eqprod by (rewrite to_bits_length; lia). reflexivity.
  Qed.
End Layers.
