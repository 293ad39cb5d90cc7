(** Lemmas about the GKR protocol: one layer. *)
From Coq Require Import List Arith Lia Bool.
From Verif Require Import Field Go MCommon Spec LSpec LCommon MPoly LPoly LPoly3 Trans MCircuit SpecCircuit LCircuit LCircuit2
  LCircuit3 MSumcheck LSumcheck SpecSumcheck LSumcheck4 LSumcheck5 MSumPar SpecSumPar MGkr SpecGkr.
Import ListNotations.

Section L.
  Context {F : Field}.
  Add Field FfieldGkr : (f_theory F).
  Open Scope F_scope.

  Lemma suml_once (gs : list (Gate F)) (g0 : Gate F) (f : Gate F -> F) : NoDup (map gid gs) -> In g0 gs ->
    suml gs (fun g => if id_eqb (gid g0) (gid g) then f g else 0) = f g0.
  Proof.
    induction gs as [|g gs IH]; intros Hn Hi; [destruct Hi|]. cbn [map] in Hn.
    apply NoDup_cons_iff in Hn. destruct Hn as [Hn Hn']. cbn [suml]. destruct Hi as [->|Hi].
    - rewrite id_eqb_refl, suml_zero; [ring|]. intros g Hg.
      destruct (id_eqb (gid g0) (gid g)) eqn:E; [|reflexivity]. apply id_eqb_eq in E.
      exfalso. apply Hn. rewrite E. apply in_map. exact Hg.
    - rewrite IH by assumption. destruct (id_eqb (gid g0) (gid g)) eqn:E; [|ring]. apply id_eqb_eq in E.
      exfalso. apply Hn. rewrite <- E. apply in_map. exact Hi.
  Qed.

  (** The tables of [GetStaticTable], summed against the gates. *)
  Lemma statics_sum (l : Layer F) q tabs (X Y : nat -> F) : wf_layer l -> gates_once l -> length q = lBGOutputs l ->
    GetStaticTable l q = Some tabs ->
    sumn (2 ^ lBGInputs l) (fun a => sumn (2 ^ lBGInputs l) (fun b =>
      suml (combine (lGates l) tabs) (fun gs => nth (a * 2 ^ lBGInputs l + b) (snd gs) 0 * geval (fst gs) (X a) (Y b))))
    = suml (Wires l) (fun w => chi (to_bits (lBGOutputs l) (wO w)) q * geval (wGate w) (X (wL w)) (Y (wR w))).
  Proof.
    intros Hwf [Hnd Hin] Hq E. destruct (static_table_spec l q Hwf Hq) as (tabs' & E' & HL & HS).
    rewrite E in E'. injection E' as <-.
    set (n := (2 ^ lBGInputs l)%nat) in *.
    set (e := fun w : Wire F => chi (to_bits (lBGOutputs l) (wO w)) q).
    transitivity (suml (Wires l) (fun w => suml (lGates l) (fun g => if id_eqb (gid (wGate w)) (gid g)
       then e w * geval g (X (wL w)) (Y (wR w)) else 0))).
    2: { apply suml_ext. intros w Hw.
         rewrite (suml_once (lGates l) (wGate w) (fun g => e w * geval g (X (wL w)) (Y (wR w)))) by auto. reflexivity. }
    transitivity (sumn n (fun a => sumn n (fun b => suml (Wires l) (fun w => suml (lGates l) (fun g =>
       if (wL w * n + wR w =? a * n + b)%nat then (if id_eqb (gid (wGate w)) (gid g) then e w * geval g (X a) (Y b) else 0) else 0))))).
    - apply sumn_ext. intros a Ha. apply sumn_ext. intros b Hb.
      rewrite (suml_combine _ (lGates l) tabs agate []) by exact HL.
      rewrite suml_swap. rewrite (suml_nth (lGates l) agate). apply sumn_ext. intros i Hi. cbn [fst snd].
      destruct (HS i (nth i (lGates l) agate)) as (t & Et & _ & Ht).
      { apply nth_error_nth'. exact Hi. }
      rewrite (nth_error_nth _ _ [] Et), (Ht a b Ha Hb), suml_filter, <- suml_scal_r.
      apply suml_ext. intros w Hw. destruct (Hwf w Hw) as (W1 & W2 & W3). fold n in W1, W2.
      assert (Eb : ((wL w * n + wR w =? a * n + b) = (wL w =? a) && (wR w =? b))%nat).
      { destruct (Nat.eqb_spec (wL w) a), (Nat.eqb_spec (wR w) b); cbn [andb].
        - subst. apply Nat.eqb_refl.
        - apply Nat.eqb_neq. lia.
        - apply Nat.eqb_neq. intros H. apply mul_add_inj in H; lia.
        - apply Nat.eqb_neq. intros H. apply mul_add_inj in H; lia. }
      rewrite Eb. unfold e. rewrite eqprod_sym, chi_eqprod by (rewrite to_bits_length; auto).
      destruct (id_eqb _ _), (wL w =? a)%nat, (wR w =? b)%nat; cbn [andb]; ring.
    - rewrite (sumn_ext n _ (fun a => suml (Wires l) (fun w => sumn n (fun b => suml (lGates l) (fun g =>
       if (wL w * n + wR w =? a * n + b)%nat then (if id_eqb (gid (wGate w)) (gid g) then e w * geval g (X a) (Y b) else 0) else 0)))))
       by (intros; apply sumn_suml_swap).
      rewrite sumn_suml_swap. apply suml_ext. intros w Hw. destruct (Hwf w Hw) as (W1 & W2 & W3).
      rewrite <- (sumn_delta2 n n (wL w) (wR w) (fun a b => suml (lGates l) (fun g =>
        if id_eqb (gid (wGate w)) (gid g) then e w * geval g (X a) (Y b) else 0))) by assumption.
      apply sumn_ext. intros a Ha. apply sumn_ext. intros b Hb.
      destruct (_ =? _)%nat; [reflexivity|]. apply suml_zero. reflexivity.
  Qed.

  (** One layer: the claim about its output table is the sum that the sum-check proves. *)
  Lemma layer_sum (l : Layer F) q x tabs V W : wf_layer l -> gates_once l -> length q = lBGOutputs l ->
    GetStaticTable l q = Some tabs -> layer_table l (2 ^ length x) V W ->
    table_sum (2 ^ length x) (2 ^ lBGInputs l) (lGates l) tabs (eqtab x) V V = mle W (q ++ x).
  Proof.
    intros Hwf Hg Hq E [HW1 HW2]. set (n := (2 ^ length x)%nat) in *.
    rewrite mle_app, Hq.
    transitivity (sumn n (fun h => nth h (eqtab x) 0 * suml (Wires l) (fun w =>
       chi (to_bits (lBGOutputs l) (wO w)) q * geval (wGate w) (nth (wL w * n + h) V 0) (nth (wR w * n + h) V 0)))).
    - unfold table_sum. apply sumn_ext. intros h Hh.
      rewrite <- (statics_sum l q tabs (fun a => nth (a * n + h) V 0) (fun a => nth (a * n + h) V 0) Hwf Hg Hq E).
      rewrite <- sumn_scal_l. apply sumn_ext. intros a Ha. rewrite <- sumn_scal_l. reflexivity.
    - rewrite suml_swap, sum_cube. fold n. apply sumn_ext. intros h Hh.
      rewrite <- (bits_val_to_bits (length x) h Hh) at 1.
      rewrite eqtab_nth by apply to_bits_length. rewrite sum_cube.
      rewrite bits_val_to_bits by exact Hh.
      rewrite (sumn_ext _ _ (fun o => chi (to_bits (length x) h) x * suml (Wires l) (fun w =>
        if (o =? wO w)%nat then chi (to_bits (lBGOutputs l) (wO w)) q * geval (wGate w) (nth (wL w * n + h) V 0) (nth (wR w * n + h) V 0) else 0))).
      + rewrite sumn_scal_l. f_equal. rewrite sumn_suml_swap. apply suml_ext. intros w Hw.
        destruct (Hwf w Hw) as (W1 & W2 & W3).
        rewrite (sumn_delta _ (wO w) (fun o => chi (to_bits (lBGOutputs l) (wO w)) q * geval (wGate w) (nth (wL w * n + h) V 0) (nth (wR w * n + h) V 0))); [reflexivity|exact W3].
      + intros o Ho. rewrite bits_val_to_bits by exact Ho. fold n.
        rewrite HW2 by assumption. unfold layer_value. rewrite suml_filter, <- suml_scal_r, <- suml_scal_l.
        apply suml_ext. intros w Hw. rewrite (Nat.eqb_sym o). destruct (Nat.eqb_spec (wO w) o) as [->|]; ring.
  Qed.

  Lemma table_sum_linear n g gates (tL tR t : list (list F)) eq V W lam :
    length tL = length gates -> length tR = length gates -> length t = length gates ->
    (forall i j, (i < length gates)%nat -> (j < g * g)%nat -> nth j (nth i t []) 0 = nth j (nth i tL []) 0 + lam * nth j (nth i tR []) 0) ->
    table_sum n g gates t eq V W = table_sum n g gates tL eq V W + lam * table_sum n g gates tR eq V W.
  Proof.
    intros L1 L2 L3 H. unfold table_sum. rewrite <- sumn_scal_l, <- sumn_add. apply sumn_ext. intros h Hh.
    rewrite <- sumn_scal_l, <- sumn_add. apply sumn_ext. intros a Ha.
    rewrite <- sumn_scal_l, <- sumn_add. apply sumn_ext. intros b Hb.
    rewrite (suml_combine _ gates t agate []), (suml_combine _ gates tL agate []), (suml_combine _ gates tR agate []) by assumption.
    transitivity (nth h eq 0 * (sumn (length gates) (fun i => nth (a * g + b) (nth i tL []) 0 * geval (nth i gates agate) (nth (a * n + h) V 0) (nth (b * n + h) W 0))
      + lam * sumn (length gates) (fun i => nth (a * g + b) (nth i tR []) 0 * geval (nth i gates agate) (nth (a * n + h) V 0) (nth (b * n + h) W 0)))).
    - f_equal. rewrite <- sumn_scal_l, <- sumn_add. apply sumn_ext. intros i Hi. cbn [fst snd].
      rewrite H by (try assumption; apply mul_add_lt; assumption). ring.
    - cbn [fst snd]. ring.
  Qed.

  (** Gluing the chunks of a layer. *)
  Lemma glue_layer (l : Layer F) N inps outs : wf_layer l -> (0 < length inps)%nat -> length outs = length inps ->
    (forall i, (i < length inps)%nat -> layer_table l N (nth i inps []) (nth i outs [])) ->
    layer_table l (N * length inps) (interleave (2 ^ lBGInputs l * N) inps) (interleave (2 ^ lBGOutputs l * N) outs).
  Proof.
    intros Hwf Hn HL H. split; [rewrite interleave_length, HL; lia|]. intros o h Ho Hh.
    set (n := length inps) in *. assert (Hn' : n <> 0%nat) by lia.
    set (u := (h / n)%nat). set (s := (h mod n)%nat).
    assert (Eh : h = (u * n + s)%nat) by (unfold u, s; rewrite Nat.mul_comm; apply Nat.div_mod; exact Hn').
    assert (Hs : (s < n)%nat) by (apply Nat.mod_upper_bound; exact Hn').
    assert (Hu : (u < N)%nat) by (apply Nat.div_lt_upper_bound; lia).
    assert (A : forall r, (r * (N * n) + h = (r * N + u) * n + s)%nat) by (intros r; rewrite Eh; ring).
    rewrite A. rewrite <- HL. rewrite interleave_nth by (try (apply mul_add_lt; assumption); rewrite HL; exact Hs).
    destruct (H s Hs) as [_ H2]. rewrite H2 by assumption. rewrite HL.
    unfold layer_value. apply suml_ext. intros w Hw. apply filter_In in Hw. destruct Hw as [Hw _].
    destruct (Hwf w Hw) as (W1 & W2 & W3). fold n. rewrite !A. subst n.
    rewrite !interleave_nth by (try (apply mul_add_lt; assumption); exact Hs). reflexivity.
  Qed.
End L.
