(** How many initial points and challenges are bad for the GKR gadget. *)
From Coq Require Import List Arith Lia Bool Ring Field.
From Verif Require Import Field Go Spec LSpec LCircuit2 Trans MPoly LPoly LPoly2 MCircuit SpecCircuit LCircuit MSumcheck SpecSumcheck LSumcheck LSumcheck4 LSumcheck5
  MSumPar SpecSumPar MGkr SpecGkr LGkr LGkr2 LGkr3 LGrid
  MHash SpecHash LHash LHash3 MSnark SpecSnark LSnark LSnark4 LSnark6 LSnark7 LSnark8 LSnark9 LSnark10.
Import ListNotations.

Section L.
  Context {F : Field}.
  Add Field Ffields11 : (f_theory F).
  Open Scope F_scope.

  Lemma some_inj {A} (x y : A) : Some x = Some y -> x = y.
  Proof. congruence. Qed.

  (** ** Initial points *)
  Lemma few_points (arks : list F) bN (S vi vo : list F) : (91 <= length arks)%nat -> NoDup S ->
    length vi = (2 * 2 ^ bN)%nat -> length vo = (2 ^ bN)%nat ->
    exists c sc a, CreateMimcCircuit arks = Some c /\ SCreateMimcCircuit arks = Some sc /\ Assign c [vi] = Some a /\
    forall cs p qP vIn vOut cs', AllocateGKRMimcTestCircuit bN sc = (cs, (p, qP, vIn, vOut)) ->
      SGkrAssertValid arks p sc [] qP vIn vOut cs = Some (tt, cs') ->
      vo <> nth 0 (nth 91 a []) [] ->
      forall qs, NoDup qs ->
        (forall q, In q qs -> In q (grid S bN) /\ exists w, satisfied w cs' /\ map w qP = q /\ map w vIn = vi /\ map w vOut = vo /\
           ~ exists j, collision_from (challenge arks) (read_proof w p) c bN 0 a [] q j) ->
        (length qs <= bN * length S ^ (bN - 1))%nat.
  Proof.
    intros HA HS Li Lo.
    destruct (mimc_assign arks HA bN [vi] 0 bN ltac:(lia)) as (a & EA & _ & [O1 O2]).
    { split; [reflexivity|]. intros t [<-|[]]. rewrite Li. reflexivity. }
    eexists _, _, a. split; [apply CreateMimcCircuit_ok; exact HA|]. split; [apply SCreateMimcCircuit_ok; exact HA|]. split; [exact EA|].
    intros cs p qP vIn vOut cs' EC EG Hne qs Hnd Hq.
    destruct (test_circuit_sound arks bN HA) as (c & sc & E1 & E2 & HT).
    rewrite CreateMimcCircuit_ok in E1 by exact HA. apply some_inj in E1. subst c. rewrite SCreateMimcCircuit_ok in E2 by exact HA. apply some_inj in E2. subst sc.
    destruct (HT cs p qP vIn vOut EC) as (cs2 & EG2 & Hsat). rewrite EG in EG2. injection EG2 as <-.
    set (outs := nth 0 (nth 91 a []) []) in *.
    assert (Lout : length outs = (2 ^ bN)%nat).
    { unfold outs. rewrite O2; [cbn; lia|]. apply nth_In. rewrite O1. cbn. lia. }
    etransitivity; [|apply (agree_bound S bN vo outs HS Lo Lout Hne)].
    apply NoDup_incl_length; [exact Hnd|]. intros q Hin. destruct (Hq q Hin) as (Hg & w & Hw & W1 & W2 & W3 & Hnc).
    apply filter_In. split; [exact Hg|]. destruct (Hsat w Hw) as (a2 & EA2 & _ & _ & HC). rewrite W2, EA in EA2. injection EA2 as <-.
    fold outs in HC. rewrite W1, W3 in HC. destruct HC as [HC|HC]; [rewrite HC; apply feqb_refl|contradiction].
  Qed.

  (** ** Challenges *)

  (** Tables with given weights. *)
  Definition weight_tables (l : Layer F) (weight : nat -> F) : list (list F) :=
    map (fun g => map (fun idx =>
        suml (filter (fun w => id_eqb (gid (wGate w)) (gid g) && (wL w =? idx / 2 ^ lBGInputs l) && (wR w =? idx mod 2 ^ lBGInputs l))%nat (Wires l))
          (fun w => weight (wO w))) (seq 0 (2 ^ lBGInputs l * 2 ^ lBGInputs l))) (lGates l).

  Lemma weight_tables_ok l weight : weights_of l (weight_tables l weight) weight /\
    forall tab, In tab (weight_tables l weight) -> length tab = (2 ^ lBGInputs l * 2 ^ lBGInputs l)%nat.
  Proof.
    assert (HP : (2 ^ lBGInputs l <> 0)%nat) by (apply Nat.pow_nonzero; lia).
    split; [split; [apply map_length|]|].
    - intros i a b Hi Ha Hb. unfold weight_tables. rewrite (nth_map_lt _ _ _ _ agate) by exact Hi. cbv beta.
      rewrite nth_map_seq by (apply mul_add_lt; assumption).
      replace ((a * 2 ^ lBGInputs l + b) / 2 ^ lBGInputs l)%nat with a
        by (rewrite Nat.div_add_l by exact HP; rewrite Nat.div_small by exact Hb; lia).
      replace ((a * 2 ^ lBGInputs l + b) mod 2 ^ lBGInputs l)%nat with b
        by (rewrite Nat.add_comm, Nat.mod_add by exact HP; rewrite Nat.mod_small by exact Hb; reflexivity).
      reflexivity.
    - intros tab Ht. apply in_map_iff in Ht. destruct Ht as (g & <- & _). rewrite map_length, seq_length. reflexivity.
  Qed.

  Lemma layer_few_collisions bN (l : Layer F) weight qP V rs c t xs :
    layer_ok l -> length qP = bN -> length V = (2 ^ (lBGInputs l + bN))%nat ->
    (length rs < 2 * lBGInputs l + bN)%nat ->
    let true_poly t := cube_sum (layer_poly l weight qP V) (2 * lBGInputs l + bN - S (length rs)) (rs ++ [t]) in
    let d := phase_deg (lBGInputs l) (lBGInputs l) (maxHL (lGates l) + 1) (maxHR (lGates l) + 1) (maxHP (lGates l) + 1) (length rs) in
    (length c <= S d)%nat -> peval c t <> true_poly t ->
    NoDup xs -> (forall x, In x xs -> peval c x = true_poly x) -> (length xs <= d)%nat.
  Proof.
    intros (Hwf & Hg & _ & Hgo & _) HqP HV Hrs tp d Hc Ht Hnd Hx.
    destruct (weight_tables_ok l weight) as [HW HT].
    assert (HTo : tables_ok (lBGInputs l) (lBGInputs l) bN (lGates l) (weight_tables l weight) (eqtab qP) V V).
    { pose proof HW as [HW1 HW2]. unfold tables_ok. rewrite eqtab_length, HqP. repeat split; auto.
      intros tab Hin. rewrite HT, Nat.pow_add_r by exact Hin. reflexivity. }
    assert (Hext : forall u, tp u = cube_sum (combinator (lBGInputs l) (lBGInputs l) (lGates l) (weight_tables l weight) (eqtab qP) V V)
      (2 * lBGInputs l + bN - S (length rs)) (rs ++ [u])).
    { intros u. symmetry. apply (cube_sum_ext_len _ _ (2 * lBGInputs l + bN)).
      - intros y Hy. apply combinator_layer_poly; auto. lia.
      - rewrite app_length. cbn [length]. lia. }
    apply (bad_challenges bN (lBGInputs l) (lGates l) (weight_tables l weight) (eqtab qP) V V rs c t xs HTo); auto.
    - intros g Hin. apply (Hgo g Hin).
    - rewrite <- Hext. exact Ht.
    - intros x Hin. rewrite <- Hext. apply Hx. exact Hin.
  Qed.

  Lemma gadget_few_collisions (arks : list F) bN sc c (cs : CS F) p w j i l poly : (91 <= length arks)%nat ->
    SCreateMimcCircuit arks = Some sc -> CreateMimcCircuit arks = Some c -> proof_vars cs bN sc p ->
    nth_error c j = Some l -> nth_error (nth j (SumcheckProofs (read_proof w p)) []) i = Some poly ->
    forall weight qP V rs xs, length qP = bN -> length V = (2 ^ (1 + bN))%nat -> length rs = i ->
    let true_poly t := cube_sum (layer_poly l weight qP V) (2 + bN - S i) (rs ++ [t]) in
    (exists t, peval poly t <> true_poly t) ->
    NoDup xs -> (forall x, In x xs -> peval poly x = true_poly x) -> (length xs <= 8)%nat.
  Proof.
    intros HA Esc Ec HP El Ep weight qP V rs xs HqP HV Hrs tp (t & Ht) Hnd Hx.
    rewrite CreateMimcCircuit_ok in Ec by exact HA. apply some_inj in Ec. subst c. rewrite SCreateMimcCircuit_ok in Esc by exact HA. apply some_inj in Esc. subst sc.
    pose proof (nth_error_In _ _ El) as Hin.
    assert (Hb : lBGInputs l = 1%nat /\ maxHL (lGates l) = 1%nat /\ maxHR (lGates l) = 7%nat /\ maxHP (lGates l) = 7%nat).
    { destruct (mimc_layer_cases _ _ l Hin) as [[a' ->]| ->]; vm_compute; auto. }
    destruct Hb as (Hb & D1 & D2 & D3).
    assert (Hlen : map (@length F) (nth j (SumcheckProofs (read_proof w p)) []) = [3%nat] ++ [9%nat] ++ repeat 9%nat bN).
    { destruct HP as (_ & HS & _). unfold read_proof. cbn [SumcheckProofs].
      assert (E : nth j (map (map (@length nat)) (sSumchecks p)) [] = map (@length F) (nth j (map (map (map w)) (sSumchecks p)) [])).
      { change (@nil nat) with (map (@length nat) []) at 1. rewrite map_nth.
        change (@nil (list F)) with (map (map w) []) at 1. rewrite map_nth. rewrite map_map. apply map_ext. intros x. rewrite map_length. reflexivity. }
      rewrite <- E, HS. unfold SAllocateProof. cbn [sSumchecks].
      assert (Hj : (j < length (mimc_layers (firstn 90 arks) (nth 90 arks 0%F)))%nat) by (apply nth_error_Some; congruence).
      pose proof (Forall2_len _ _ _ (smimc_describes (firstn 90 arks) (nth 90 arks 0))) as LL. rewrite <- LL in Hj.
      rewrite map_map. destruct (nth_error (smimc (firstn 90 arks) (nth 90 arks 0)) j) as [sl|] eqn:Esl; [|apply nth_error_None in Esl; lia].
      rewrite (nth_error_nth (map _ (smimc (firstn 90 arks) (nth 90 arks 0))) j [] (map_nth_error _ _ _ Esl)).
      assert (Hs : sBG sl = 1%nat /\ sDegHL sl = 2%nat /\ sDegHR sl = 8%nat /\ sDegHPrime sl = 8%nat).
      { apply nth_error_In in Esl. unfold smimc in Esl. apply in_app_or in Esl. destruct Esl as [H|[<-|[]]]; [|auto].
        apply in_map_iff in H. destruct H as (x & <- & _). auto. }
      destruct Hs as (-> & -> & -> & ->). unfold SAllocateSumcheck. rewrite !map_app. cbn [repeat map length Nat.add app].
      f_equal. f_equal. clear. induction bN as [|n IH]; [reflexivity|]. cbn [repeat map length Nat.add]. rewrite IH. reflexivity. }
    assert (Lp : nth_error ([3%nat] ++ [9%nat] ++ repeat 9%nat bN) i = Some (length poly)).
    { rewrite <- Hlen. apply map_nth_error. exact Ep. }
    assert (Hi : (i < 2 + bN)%nat).
    { assert (H : nth_error ([3%nat] ++ [9%nat] ++ repeat 9%nat bN) i <> None) by congruence. apply nth_error_Some in H.
      rewrite !app_length, repeat_length in H. cbn in H. lia. }
    set (d := phase_deg 1 1 2 8 8 i).
    assert (Hd : length poly = S d /\ (d <= 8)%nat).
    { unfold d, phase_deg. destruct i as [|[|i]]; cbn [app nth_error] in Lp.
      - injection Lp as <-. cbn. lia.
      - injection Lp as <-. cbn. lia.
      - apply nth_error_In in Lp. apply repeat_spec in Lp. rewrite Lp. cbn. lia. }
    destruct Hd as [Hd1 Hd2]. etransitivity; [|exact Hd2].
    pose proof (layer_few_collisions bN l weight qP V rs poly t xs (mimc_layer_ok _ _ l Hin) HqP) as HF. cbv zeta in HF.
    rewrite Hb, D1, D2, D3, Hrs in HF. cbn [Nat.mul Nat.add] in HF. apply HF; auto; fold d; lia.
  Qed.

  (** ** The statements about any constraint system, for the circuits the code creates *)
  Ltac mimc Esc Ec HA := rewrite CreateMimcCircuit_ok in Ec by exact HA; apply some_inj in Ec; rewrite SCreateMimcCircuit_ok in Esc by exact HA;
    apply some_inj in Esc; subst.

  Lemma gadget_native (arks : list F) sc c bN p (cs : CS F) qPI vIn vOut : (91 <= length arks)%nat ->
    SCreateMimcCircuit arks = Some sc -> CreateMimcCircuit arks = Some c ->
    cs_ok cs -> proof_vars cs bN sc p -> vars cs (qPI ++ vIn ++ vOut) ->
    length qPI = bN -> length vIn = (2 * 2 ^ bN)%nat -> length vOut = (2 ^ bN)%nat ->
    exists cs', SGkrAssertValid arks p sc [] qPI vIn vOut cs = Some (tt, cs') /\ cs_ok cs' /\ grows cs cs' /\
      forall m k inputs outputs w, bN = (m + k)%nat -> (0 < k)%nat -> chunked k m 1 inputs -> chunked k m 0 outputs ->
        gates_ok w cs' -> map w qPI = count bN -> map w vIn = glued 1 m inputs -> map w vOut = glued 0 m outputs ->
        (asserts_ok w cs' <-> asserts_ok w cs /\
           GkrVerifyWith (challenge arks) false bN c (read_proof w p) inputs outputs = Some true).
  Proof. intros HA Esc Ec. mimc Esc Ec HA. apply mimc_gadget_native. exact HA. Qed.

  Lemma gadget_sound (arks : list F) sc c bN p (cs : CS F) qPI vIn vOut : (91 <= length arks)%nat ->
    SCreateMimcCircuit arks = Some sc -> CreateMimcCircuit arks = Some c ->
    cs_ok cs -> proof_vars cs bN sc p -> vars cs (qPI ++ vIn ++ vOut) ->
    length qPI = bN -> length vIn = (2 * 2 ^ bN)%nat -> length vOut = (2 ^ bN)%nat ->
    exists cs', SGkrAssertValid arks p sc [] qPI vIn vOut cs = Some (tt, cs') /\
      forall w, satisfied w cs' ->
      exists a, Assign c [map w vIn] = Some a /\
        let outs := nth 0 (nth 91 a []) [] in
        length outs = (2 ^ bN)%nat /\
        (forall h, (h < 2 ^ bN)%nat ->
           let x := w (nth h vIn 0%nat) in let k := w (nth (2 ^ bN + h) vIn 0%nat) in
           exists y, MimcPermutation arks (x - k) k = Some y /\ nth h outs 0 = y + k) /\
        (mle (map w vOut) (map w qPI) = mle outs (map w qPI) \/
         exists j, collision_from (challenge arks) (read_proof w p) c bN 0 a [] (map w qPI) j).
  Proof. intros HA Esc Ec. mimc Esc Ec HA. apply mimc_gadget_sound. exact HA. Qed.

  Lemma gadget_complete (arks : list F) sc c nCore mtProve m k inputs : (91 <= length arks)%nat ->
    SCreateMimcCircuit arks = Some sc -> CreateMimcCircuit arks = Some c -> distinct_upto (F:=F) 12 -> (0 < nCore)%nat ->
    follows_machine (challenge arks) nCore mtProve -> chunked k m 1 inputs ->
    exists a pf sp si so,
      Assign c inputs = Some a /\ GkrProve (challenge arks) mtProve c a nCore = Some pf /\
      SAssign (SAllocateProof (m + k) sc) pf = Some sp /\
      SAssignFromChunkedBKT (SAllocateMultilinear (m + k + 1)) inputs = Some si /\
      SAssignFromChunkedBKT (SAllocateMultilinear (m + k)) (nth 91 a []) = Some so /\
      forall (cs : CS F) w p qPI vIn vOut, cs_ok cs -> satisfied w cs -> proof_vars cs (m + k) sc p -> vars cs (qPI ++ vIn ++ vOut) ->
        map (map (map (fun v => Some (w v)))) (sSumchecks p) = sSumchecks sp ->
        map (fun v => Some (w v)) (sLeft p) = sLeft sp -> map (fun v => Some (w v)) (sRight p) = sRight sp ->
        map (fun v => Some (w v)) vIn = si -> map (fun v => Some (w v)) vOut = so ->
        map w qPI = count (m + k) ->
        exists cs' w', SGkrAssertValid arks p sc [] qPI vIn vOut cs = Some (tt, cs') /\
          agree_below (nbWires cs) w w' /\ satisfied w' cs'.
  Proof. intros HA Esc Ec. mimc Esc Ec HA. apply mimc_gadget_complete. exact HA. Qed.
End L.
