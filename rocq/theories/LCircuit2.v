(** Lemmas about static tables, layer evaluation and assignments. *)
From Coq Require Import List Arith ZArith Lia Bool Ring Field.
From Verif Require Import Field Go Trans MCommon Spec MPoly LSpec LCommon LPoly LEffect LPoly2 LPoly3
  MForkJoin LForkJoin LSem LHeap MCircuit SpecCircuit LCircuit.
Import ListNotations.

Lemma Forall2_nth {A B} (R : A -> B -> Prop) l m (d : A) (e : B) i :
  Forall2 R l m -> i < length l -> R (nth i l d) (nth i m e).
Proof.
  intros H. revert i. induction H as [|a b la lb Hab _ IH]; intros [|i] Hi; simpl in *; try lia; auto.
  apply IH. lia.
Qed.

Lemma mul_add_inj n a b c d : b < n -> d < n -> a * n + b = c * n + d -> a = c /\ b = d.
Proof.
  intros Hb Hd E. assert (a = c).
  { apply (f_equal (fun x => x / n)) in E. rewrite !Nat.div_add_l, !Nat.div_small in E by lia. lia. }
  subst. lia.
Qed.

Lemma mul_add_lt n a b m : a < m -> b < n -> a * n + b < m * n.
Proof. intros. nia. Qed.

Section Circ2.
  Context {F : Field}.
  Add Field FfieldLCirc2 : (f_theory F).
  Open Scope F_scope.

  (** ** Static tables *)
  Lemma foldsv_nth n : forall (rs t : list F) j,
    length t = (2 ^ (length rs + n))%nat -> (j < 2 ^ n)%nat ->
    nth j (foldsv t rs) 0 = suml (cube (length rs)) (fun a => chi a rs * nth (bits_val a * 2 ^ n + j) t 0).
  Proof.
    induction rs as [|r rs IH]; intros t j HL Hj.
    - cbn. ring.
    - change (foldsv t (r :: rs)) with (foldsv (foldv t r) rs).
      assert (HL' : length t = (2 * 2 ^ (length rs + n))%nat) by (rewrite HL; cbn [length Nat.add]; apply Nat.pow_succ_r').
      rewrite IH; [| |exact Hj].
      2:{ rewrite foldv_length, HL', Nat.mul_comm, Nat.div_mul by lia. reflexivity. }
      cbn [length cube]. rewrite suml_app, !suml_map. rewrite <- suml_add. apply suml_ext.
      intros a Ha. apply in_cube in Ha. pose proof (bits_val_lt a) as Hb. rewrite Ha in Hb.
      rewrite (foldv_nth t r (2 ^ (length rs + n))); [|exact HL'|].
      2:{ rewrite Nat.pow_add_r. apply mul_add_lt; assumption. }
      cbn [chi bits_val]. rewrite Ha.
      replace (2 ^ (length rs + n) + (bits_val a * 2 ^ n + j))%nat
        with ((2 ^ length rs + bits_val a) * 2 ^ n + j)%nat by (rewrite Nat.pow_add_r; lia).
      cbn [Nat.add]. ring.
  Qed.

  (** Number of wires of gate [i] from (l, r) to [o], as a field element. *)
  Lemma wiring_table_spec (l : Layer F) (g : Gate F) : wf_layer l ->
    exists t, wiring_table l g = Some t /\ length t = (2 ^ lBGOutputs l * 2 ^ (2 * lBGInputs l))%nat /\
      forall k, nth k t 0 = suml (Wires l) (fun w =>
        if id_eqb (gid (wGate w)) (gid g) then
          if Nat.eqb k (2 ^ (2 * lBGInputs l) * wO w + 2 ^ lBGInputs l * wL w + wR w)%nat then 1 else 0
        else 0).
  Proof.
    intros Hwf. unfold wiring_table.
    apply (eff1_run (2 ^ lBGOutputs l * 2 ^ (2 * lBGInputs l))
      (fun tab => foldM (fun (tab : list F) w => if id_eqb (gid (wGate w)) (gid g) then _ else Some tab) (Wires l) tab)).
    apply eff_foldM. intros w Hw. destruct (id_eqb (gid (wGate w)) (gid g)).
    - apply eff_add1. destruct (Hwf w Hw) as (H1 & H2 & H3).
      replace (2 * lBGInputs l)%nat with (lBGInputs l + lBGInputs l)%nat by lia.
      rewrite Nat.pow_add_r. set (gi := (2 ^ lBGInputs l)%nat) in *. set (go := (2 ^ lBGOutputs l)%nat) in *.
      assert (gi * wL w + wR w < gi * gi)%nat by nia. nia.
    - apply eff_nop.
  Qed.

  Lemma static_table_spec (l : Layer F) (q : list F) : wf_layer l -> length q = lBGOutputs l ->
    exists tabs, GetStaticTable l q = Some tabs /\ length tabs = length (lGates l) /\
      forall i g, nth_error (lGates l) i = Some g ->
        exists t, nth_error tabs i = Some t /\ length t = (4 ^ lBGInputs l)%nat /\
          forall a b, (a < 2 ^ lBGInputs l)%nat -> (b < 2 ^ lBGInputs l)%nat ->
            nth (a * 2 ^ lBGInputs l + b) t 0 =
            suml (filter (fun w => id_eqb (gid (wGate w)) (gid g) && (wL w =? a)%nat && (wR w =? b)%nat) (Wires l))
              (fun w => eqprod q (bpoint (to_bits (lBGOutputs l) (wO w)))).
  Proof.
    intros Hwf Hq. unfold GetStaticTable.
    assert (H : forall g, exists t, (tab <- wiring_table l g ;; FoldMany tab q) = Some t /\
       length t = (4 ^ lBGInputs l)%nat /\
          forall a b, (a < 2 ^ lBGInputs l)%nat -> (b < 2 ^ lBGInputs l)%nat ->
            nth (a * 2 ^ lBGInputs l + b) t 0 =
            suml (filter (fun w => id_eqb (gid (wGate w)) (gid g) && (wL w =? a)%nat && (wR w =? b)%nat) (Wires l))
              (fun w => eqprod q (bpoint (to_bits (lBGOutputs l) (wO w))))).
    { intros g. destruct (wiring_table_spec l g Hwf) as (t & E & HL & Ht). rewrite E.
      rewrite FoldMany_foldsv. exists (foldsv t q). split; [reflexivity|].
      assert (HL' : length t = (2 ^ (length q + 2 * lBGInputs l))%nat) by (rewrite HL, Hq, Nat.pow_add_r; reflexivity).
      split; [rewrite (foldsv_length t q _ HL'), Nat.pow_mul_r; reflexivity|].
      intros a b Ha Hb. rewrite (foldsv_nth (2 * lBGInputs l)); [|exact HL'|].
      2:{ replace (2 * lBGInputs l)%nat with (lBGInputs l + lBGInputs l)%nat by lia.
          rewrite Nat.pow_add_r. apply mul_add_lt; assumption. }
      rewrite suml_filter.
      rewrite (suml_ext _ _ (fun d => suml (Wires l) (fun w => chi d q *
         (if id_eqb (gid (wGate w)) (gid g) then
          if Nat.eqb (bits_val d * 2 ^ (2 * lBGInputs l) + (a * 2 ^ lBGInputs l + b))
             (2 ^ (2 * lBGInputs l) * wO w + 2 ^ lBGInputs l * wL w + wR w)%nat then 1 else 0
        else 0)))).
      2:{ intros d _. rewrite Ht. rewrite <- suml_scal_l. reflexivity. }
      rewrite suml_swap. apply suml_ext. intros w Hw.
      destruct (id_eqb (gid (wGate w)) (gid g)); cbn [andb].
      2:{ apply suml_zero. intros; ring. }
      destruct (Hwf w Hw) as (H1 & H2 & H3).
      assert (Hkey : forall d, length d = lBGOutputs l ->
        Nat.eqb (bits_val d * 2 ^ (2 * lBGInputs l) + (a * 2 ^ lBGInputs l + b))
             (2 ^ (2 * lBGInputs l) * wO w + 2 ^ lBGInputs l * wL w + wR w)
        = (Nat.eqb (bits_val d) (wO w) && ((wL w =? a)%nat && (wR w =? b)%nat))).
      { intros d Hd. replace (2 * lBGInputs l)%nat with (lBGInputs l + lBGInputs l)%nat by lia.
        rewrite Nat.pow_add_r. set (gi := (2 ^ lBGInputs l)%nat) in *.
        apply eq_true_iff_eq. rewrite !andb_true_iff, !Nat.eqb_eq. split.
        - intros E1.
          replace (gi * gi * wO w + gi * wL w + wR w)%nat with ((wO w * gi + wL w) * gi + wR w)%nat in E1 by ring.
          replace (bits_val d * (gi * gi) + (a * gi + b))%nat with ((bits_val d * gi + a) * gi + b)%nat in E1 by ring.
          apply mul_add_inj in E1; [|assumption|assumption]. destruct E1 as [E1 E2].
          apply mul_add_inj in E1; [|assumption|assumption]. lia.
        - intros (-> & -> & ->). ring. }
      rewrite (suml_ext _ _ (fun d => if Nat.eqb (bits_val d) (wO w) && ((wL w =? a)%nat && (wR w =? b)%nat) then chi d q else 0)).
      2:{ intros d Hd. apply in_cube in Hd. rewrite Hkey by congruence.
          match goal with |- context[if ?b then _ else _] => destruct b end; ring. }
      destruct ((wL w =? a)%nat && (wR w =? b)%nat).
      2:{ apply suml_zero. intros d _. rewrite andb_false_r. reflexivity. }
      rewrite sum_cube.
      rewrite (sumn_ext _ _ (fun j => if Nat.eqb j (wO w) then chi (to_bits (length q) (wO w)) q else 0)).
      2:{ intros j Hj. rewrite bits_val_to_bits by exact Hj. rewrite andb_true_r.
          destruct (Nat.eqb_spec j (wO w)) as [->|]; reflexivity. }
      rewrite sumn_delta by (rewrite Hq; exact H3).
      rewrite eqprod_sym, chi_eqprod by (rewrite to_bits_length; lia). rewrite Hq. reflexivity. }
    set (f := fun g => match (tab <- wiring_table l g ;; FoldMany tab q) with Some t => t | None => [] end).
    exists (map f (lGates l)). split.
    - apply mapM_some. intros g _. unfold f. destruct (H g) as (t & E & _). rewrite E. reflexivity.
    - split; [apply map_length|]. intros i g Hg. exists (f g). rewrite nth_error_map, Hg. split; [reflexivity|].
      unfold f. destruct (H g) as (t & E & R). rewrite E. exact R.
  Qed.

  (** ** Evaluation of one chunk *)
  Lemma eval_chunk_exact (l : Layer F) (N : nat) (inp : list F) :
    wf_layer l -> length inp = (2 ^ lBGInputs l * N)%nat ->
    (forall w, In w (Wires l) -> wR w * N * N + N <= length inp)%nat ->
    exists out, eval_chunk l inp = Some out /\ length out = (2 ^ lBGOutputs l * N)%nat /\
      forall o h, (o < 2 ^ lBGOutputs l)%nat -> (h < N)%nat ->
        nth (o * N + h) out 0 = suml (filter (fun w => (wO w =? o)%nat) (Wires l))
          (fun w => geval (wGate w) (nth (wL w * N + h) inp 0) (nth (wR w * N * N + h) inp 0)).
  Proof.
    intros Hwf HL HR. unfold eval_chunk.
    assert (HN : (length inp / 2 ^ lBGInputs l)%nat = N).
    { rewrite HL, Nat.mul_comm. apply Nat.div_mul. apply Nat.pow_nonzero. lia. }
    rewrite HN.
    destruct (eff1_run (N * 2 ^ lBGOutputs l)
      (fun sub => foldM (fun (subRes : list F) w =>
        forN N (fun subRes h =>
          vL <- get inp (wL w * N + h) ;;
          vR <- get inp (wR w * N * N + h) ;;
          x <- get subRes (wO w * N + h) ;;
          set subRes (wO w * N + h) (x + geval (wGate w) vL vR)) subRes) (Wires l) sub)
      (fun k => suml (Wires l) (fun w => sumn N (fun h => if Nat.eqb k (wO w * N + h) then
         geval (wGate w) (nth (wL w * N + h) inp 0) (nth (wR w * N * N + h) inp 0) else 0))))
      as (out & E & HLo & Ho).
    { apply (eff_foldM (wf1 _) rd1 (fun (subRes : list F) w => forN N _ subRes)
        (fun w k => sumn N (fun h => if Nat.eqb k (wO w * N + h) then
         geval (wGate w) (nth (wL w * N + h) inp 0) (nth (wR w * N * N + h) inp 0) else 0))).
      intros w Hw. destruct (Hwf w Hw) as (H1 & H2 & H3). specialize (HR w Hw).
      apply (eff_forN (wf1 _) rd1 N _ (fun h k => if Nat.eqb k (wO w * N + h) then
         geval (wGate w) (nth (wL w * N + h) inp 0) (nth (wR w * N * N + h) inp 0) else 0)).
      intros h Hh.
      assert (HiL : (wL w * N + h < length inp)%nat) by (rewrite HL; apply mul_add_lt; assumption).
      eapply eff_fun_ext; [|apply (eff_add1 (N * 2 ^ lBGOutputs l) (wO w * N + h))].
      - intros s _. rewrite (get_nth inp (wL w * N + h) 0) by exact HiL.
        rewrite (get_nth inp (wR w * N * N + h) 0) by lia. reflexivity.
      - rewrite (Nat.mul_comm N). apply mul_add_lt; assumption. }
    exists out. split; [exact E|]. split; [rewrite HLo; lia|].
    intros o h Hoo Hh. rewrite Ho, suml_filter. apply suml_ext. intros w Hw.
    destruct (Nat.eqb_spec (wO w) o) as [Heq|Hne].
    - rewrite (sumn_ext _ _ (fun h' => if Nat.eqb h' h then
         geval (wGate w) (nth (wL w * N + h) inp 0) (nth (wR w * N * N + h) inp 0) else 0)).
      + rewrite sumn_delta by exact Hh. reflexivity.
      + intros h' Hh'. subst o. destruct (Nat.eqb_spec h' h) as [->|Hn].
        * rewrite Nat.eqb_refl. reflexivity.
        * destruct (Nat.eqb_spec (wO w * N + h) (wO w * N + h')); [lia|reflexivity].
    - apply sumn_zero. intros h' Hh'. destruct (Nat.eqb_spec (o * N + h) (wO w * N + h')) as [E'|]; [|reflexivity].
      apply mul_add_inj in E'; [|assumption|assumption]. exfalso. apply Hne. lia.
  Qed.

  Lemma eval_chunk_ok (l : Layer F) (N : nat) (inp : list F) :
    wf_layer l -> length inp = (2 ^ lBGInputs l * N)%nat ->
    (N = 1%nat \/ forall w, In w (Wires l) -> wR w = 0%nat) ->
    exists out, eval_chunk l inp = Some out /\ layer_table l N inp out.
  Proof.
    intros Hwf HL HR.
    assert (HRN : forall w, In w (Wires l) -> (wR w * N * N = wR w * N)%nat).
    { intros w Hw. destruct HR as [->|H0]; [lia|]. rewrite (H0 w Hw). reflexivity. }
    destruct (eval_chunk_exact l N inp Hwf HL) as (out & E & HLo & Ho).
    - intros w Hw. rewrite (HRN w Hw), HL. destruct (Hwf w Hw) as (H1 & H2 & H3). nia.
    - exists out. split; [exact E|]. split; [exact HLo|]. intros o h Hoo Hh. rewrite Ho by assumption.
      unfold layer_value. apply suml_ext. intros w Hw. apply filter_In in Hw. rewrite HRN by tauto. reflexivity.
  Qed.

  Lemma layer_table_unique (l : Layer F) N inp out out' :
    layer_table l N inp out -> layer_table l N inp out' -> out = out'.
  Proof.
    intros [H1 H2] [H3 H4]. apply (list_ext 0); [congruence|]. intros i Hi. rewrite H1 in Hi.
    assert (HN : N <> 0%nat) by (intros ->; lia).
    rewrite (Nat.div_mod i N HN), (Nat.mul_comm N).
    pose proof (Nat.mod_upper_bound i N HN) as Hm.
    assert ((i / N < 2 ^ lBGOutputs l)%nat) by (apply Nat.div_lt_upper_bound; lia).
    rewrite H2, H4 by assumption. reflexivity.
  Qed.

  Lemma layer_evaluate_ok (l : Layer F) (N : nat) (inputs : list (list F)) :
    wf_layer l -> (forall inp, In inp inputs -> length inp = (2 ^ lBGInputs l * N)%nat) ->
    (N = 1%nat \/ forall w, In w (Wires l) -> wR w = 0%nat) ->
    exists outs, LayerEvaluate l inputs = Some outs /\ length outs = length inputs /\
      forall i, (i < length inputs)%nat -> layer_table l N (nth i inputs []) (nth i outs []).
  Proof.
    intros Hwf HL HR. unfold LayerEvaluate. induction inputs as [|inp inputs IH].
    - exists []. split; [reflexivity|]. split; [reflexivity|]. intros i Hi. simpl in Hi. lia.
    - destruct IH as (outs & E & HLo & Ho); [intros; apply HL; right; assumption|].
      destruct (eval_chunk_ok l N inp Hwf (HL inp (or_introl eq_refl)) HR) as (out & E1 & H1).
      exists (out :: outs). cbn [mapM]. rewrite E1, E. split; [reflexivity|]. split; [simpl; lia|].
      intros [|i] Hi; cbn [nth]; [exact H1|]. apply Ho. simpl in Hi. lia.
  Qed.

  (** ** Concurrency *)
  Lemma per_chunk_concat n : concat (per_chunk n) = seq 0 n.
  Proof. unfold per_chunk. generalize (seq 0 n). intros l. induction l; simpl; congruence. Qed.

  Lemma layer_concurrent (l : Layer F) (inputs outs : list (list F)) nCore :
    (0 < nCore)%nat -> LayerEvaluate l inputs = Some outs ->
    must (step (layer_exec l inputs) (per_chunk (length inputs)) nCore false true)
      (fun z => main z = MEnd /\ closed z = true /\ mem z = outs)
      (init (per_chunk (length inputs)) nCore false (repeat [] (length inputs))).
  Proof.
    intros Hn E. pose proof (mapM_length _ _ _ E) as HLo.
    eapply must_mono; [|apply (fork_written [] (repeat [] (length inputs)) (length inputs) (fun i => i) (fun i => nth i outs []))].
    - intros z (H1 & H2 & H3 & H4 & H5 & H6). split; [exact H1|]. split; [exact H2|].
      apply (list_ext []); [rewrite H4, repeat_length; congruence|].
      intros i Hi. apply H5. rewrite H4, repeat_length in Hi. exact Hi.
    - auto.
    - intros i Hi. rewrite repeat_length. exact Hi.
    - intros i m Hi HL _. unfold layer_exec. rewrite (get_nth inputs i []) by exact Hi.
      unfold LayerEvaluate in E. apply mapM_Forall2 in E.
      assert (Hc : eval_chunk l (nth i inputs []) = Some (nth i outs [])).
      { apply (Forall2_nth _ _ _ [] [] i E Hi). }
      rewrite Hc. apply set_some. rewrite HL, repeat_length. exact Hi.
    - exact Hn.
    - apply per_chunk_concat.
  Qed.

  Lemma copy_concurrent (vals : list (list F)) nCore : (0 < nCore)%nat ->
    must (step (copy_exec vals) (per_chunk (length vals)) nCore false true)
      (fun z => main z = MEnd /\ closed z = true /\ mem z = vals)
      (init (per_chunk (length vals)) nCore false (repeat [] (length vals))).
  Proof.
    intros Hn.
    eapply must_mono; [|apply (fork_written [] (repeat [] (length vals)) (length vals) (fun i => i) (fun i => nth i vals []))].
    - intros z (H1 & H2 & H3 & H4 & H5 & H6). split; [exact H1|]. split; [exact H2|].
      apply (list_ext []); [rewrite H4, repeat_length; congruence|].
      intros i Hi. apply H5. rewrite H4, repeat_length in Hi. exact Hi.
    - auto.
    - intros i Hi. rewrite repeat_length. exact Hi.
    - intros i m Hi HL _. unfold copy_exec. rewrite (get_nth vals i []) by exact Hi.
      rewrite set_some by (rewrite HL, repeat_length; exact Hi). f_equal. f_equal.
      unfold gocopy. rewrite repeat_length, firstn_all.
      rewrite skipn_all2 by (rewrite repeat_length; lia). apply app_nil_r.
    - exact Hn.
    - apply per_chunk_concat.
  Qed.
End Circ2.

(** A goroutine whose action always panics: the call never returns. *)
Section Stuck.
  Context {M A : Type} (exec : A -> M -> option M) (prog : list (list A)) (nTok : nat) (inMain closes : bool).
  Variables (i0 : nat) (a0 : A).
  Hypothesis prog_i0 : nth_error prog i0 = Some [a0].
  Hypothesis exec_a0 : forall m, exec a0 m = None.

  Definition early (p : tpc) : Prop := p = TIdle \/ p = TAcq \/ p = TRun [a0].
  Definition live (p : @tpc A) : nat := match p with TEnd => 0 | _ => 1 end.

  Record SI (z : @st M A) : Prop := {
    si_len : length (thr z) = length prog;
    si_early : exists p, nth_error (thr z) i0 = Some p /\ early p;
    si_live : cnt live (thr z) <= wg z;
    si_main : main z <> MClose /\ main z <> MEnd;
    si_idle : forall k j, main z = MAcq k \/ main z = MGo k -> k <= j -> j < length prog ->
              nth_error (thr z) j = Some TIdle }.

  Lemma early_live p : early p -> live p = 1.
  Proof. intros [ -> | [ -> | -> ]]; reflexivity. Qed.

  Lemma si_upd_early t j x y p :
    nth_error t i0 = Some p -> early p -> nth_error t j = Some x ->
    (j = i0 -> early x -> early y) -> exists p', nth_error (upd t j y) i0 = Some p' /\ early p'.
  Proof.
    intros H1 H2 H3 H4. rewrite nth_error_upd. destruct (Nat.eqb_spec j i0) as [->|Hne]; cbn [andb].
    - destruct (Nat.ltb_spec i0 (length t)) as [_|Hge].
      + exists y. split; [reflexivity|]. apply H4; [reflexivity|]. congruence.
      + exists p. auto.
    - exists p. auto.
  Qed.

  Lemma nth_prog i : i = i0 -> nth i prog [] = [a0].
  Proof. intros ->. apply nth_error_nth. exact prog_i0. Qed.

  Lemma live_le1 p : live p <= 1.
  Proof. destruct p; simpl; lia. Qed.

  Lemma idle_upd (t : list (@tpc A)) i x y (mp : mpc) n :
    nth_error t i = Some x -> x <> TIdle ->
    (forall k j, mp = MAcq k \/ mp = MGo k -> k <= j -> j < n -> nth_error t j = Some TIdle) ->
    forall k j, mp = MAcq k \/ mp = MGo k -> k <= j -> j < n -> nth_error (upd t i y) j = Some TIdle.
  Proof.
    intros Ei Hx H k j Hm Hk Hj. rewrite nth_error_upd. specialize (H k j Hm Hk Hj).
    destruct (Nat.eqb_spec i j) as [->|]; [congruence|exact H].
  Qed.

  Lemma SI_step z z' : SI z -> step exec prog nTok inMain closes z (Some z') -> SI z'.
  Proof.
    intros [HL (p0 & Hp0 & Hp0e) HC [HM1 HM2] HI] Hs.
    remember (Some z') as o eqn:Eo.
    destruct Hs as [k n c w t m | k w t m | k n c w t m | n c t m | n w t m | n w t m
                   | i p n c w t m Ei | i p w t m Ei | i a r p n c w t m m' Ei Ex | i a r p n c w t m Ei Ex
                   | i p n w t m Ei Hn | i p n w t m Ei | i p n c w t m Ei | i p n c t m Ei];
      try discriminate; injection Eo as <-; cbn [main thr wg] in *.
    - constructor; cbn [main thr wg]; eauto; [split; discriminate|].
      intros k' j [H|H]; [discriminate|]. injection H as <-. apply HI. auto.
    - constructor; cbn [main thr wg]; eauto; [split; discriminate|].
      intros k' j [H|H]; [discriminate|]. injection H as <-. apply HI. auto.
    - assert (Hnext : next prog inMain (S k) <> MClose /\ next prog inMain (S k) <> MEnd).
      { unfold next. destruct (S k <? length prog); [destruct inMain|]; split; discriminate. }
      destruct (Nat.lt_ge_cases k (length prog)) as [Hk|Hk].
      + assert (Ek : nth_error t k = Some TIdle) by (apply (HI k k); auto).
        constructor; cbn [main thr wg]; auto.
        * rewrite upd_length. exact HL.
        * rewrite nth_error_upd. destruct (Nat.eqb_spec k i0) as [->|Hne]; cbn [andb]; [|eauto].
          destruct (Nat.ltb_spec i0 (length t)); [|eauto].
          eexists. split; [reflexivity|]. destruct inMain.
          -- right; right. rewrite nth_prog by reflexivity. reflexivity.
          -- right; left. reflexivity.
        * pose proof (cnt_upd live t k _ (if inMain then TRun (nth k prog []) else TAcq) Ek) as Hu.
          destruct inMain; cbn [live] in Hu; lia.
        * intros k' j Hm Hk' Hj. assert (k' = S k).
          { unfold next in Hm. destruct (S k <? length prog); [destruct inMain|];
            destruct Hm as [Hm|Hm]; try discriminate; injection Hm; auto. }
          subst k'. rewrite nth_error_upd. destruct (Nat.eqb_spec k j); [lia|]. cbn [andb]. apply (HI k j); auto; lia.
      + assert (Et : forall y, upd t k y = t).
        { intros y. apply list_ext with (d := TIdle); [apply upd_length|].
          intros j Hj. rewrite upd_length in Hj. apply nth_upd_other. lia. }
        rewrite Et. constructor; cbn [main thr wg]; eauto.
        intros k' j Hm Hk' Hj. unfold next in Hm. destruct (Nat.ltb_spec (S k) (length prog)); [lia|].
        destruct Hm as [Hm|Hm]; discriminate.
    - exfalso. pose proof (cnt_pos live t i0 p0 Hp0). rewrite (early_live p0 Hp0e) in H. lia.
    - contradiction.
    - constructor; cbn [main thr wg]; auto.
      + rewrite upd_length. exact HL.
      + eapply si_upd_early; eauto. intros E _. right; right. rewrite nth_prog by exact E. reflexivity.
      + pose proof (cnt_upd live t i _ (TRun (nth i prog [])) Ei) as Hu. cbn [live] in Hu. lia.
      + eapply idle_upd; eauto. discriminate.
    - constructor; cbn [main thr wg]; auto.
      + rewrite upd_length. exact HL.
      + eapply si_upd_early; eauto. intros E _. right; right. rewrite nth_prog by exact E. reflexivity.
      + pose proof (cnt_upd live t i _ (TRun (nth i prog [])) Ei) as Hu. cbn [live] in Hu. lia.
      + eapply idle_upd; eauto. discriminate.
    - constructor; cbn [main thr wg]; auto.
      + rewrite upd_length. exact HL.
      + eapply si_upd_early; eauto. intros E [He|[He|He]]; try discriminate.
        injection He as -> ->. rewrite exec_a0 in Ex. discriminate.
      + pose proof (cnt_upd live t i _ (TRun r) Ei) as Hu. cbn [live] in Hu. lia.
      + eapply idle_upd; eauto. discriminate.
    - constructor; cbn [main thr wg]; auto.
      + rewrite upd_length. exact HL.
      + eapply si_upd_early; eauto. intros E [He|[He|He]]; discriminate.
      + pose proof (cnt_upd live t i _ TFin Ei) as Hu. cbn [live] in Hu. lia.
      + eapply idle_upd; eauto. discriminate.
    - constructor; cbn [main thr wg]; auto.
      + rewrite upd_length. exact HL.
      + eapply si_upd_early; eauto. intros E [He|[He|He]]; discriminate.
      + pose proof (cnt_upd live t i _ TEnd Ei) as Hu. cbn [live] in Hu. lia.
      + eapply idle_upd; eauto. discriminate.
  Qed.

  Lemma fj_stuck m z : reach (step exec prog nTok inMain closes) (init prog nTok inMain m) z -> main z <> MEnd.
  Proof.
    intros R. apply (si_main z). eapply (reach_inv _ SI); [intros; eapply SI_step; eassumption|exact R|].
    assert (Hi : i0 < length prog) by (apply nth_error_Some; congruence).
    assert (Hr : forall j, j < length prog -> nth_error (repeat (@TIdle A) (length prog)) j = Some TIdle).
    { intros j Hj. rewrite (nth_error_nth' _ TIdle) by (rewrite repeat_length; exact Hj).
      rewrite nth_repeat_lt by exact Hj. reflexivity. }
    constructor; cbn [init main thr wg].
    - apply repeat_length.
    - exists TIdle. split; [apply Hr; exact Hi|left; reflexivity].
    - rewrite cnt_repeat. simpl. lia.
    - unfold next. destruct (0 <? length prog); [destruct inMain|]; split; discriminate.
    - intros k j _ _ Hj. apply Hr. exact Hj.
  Qed.
End Stuck.
