(** The size of the compiled GKR gadget, and the number of hashes from which it is smaller than hashing. *)
From Coq Require Import List Arith NArith Lia Bool.
From Verif Require Import Field Go MCircuit MHash SpecHash LHash LHash3 MGkr MSnark SpecSnark LSnark LSnark3 LSnark6 LSnark9 LSnark10 LSnark11 SpecSize LSize.
Import ListNotations.

Section L.
  Context {F : Field}.
  Open Scope nat_scope.

  Lemma alloc_shape bN (arks : list F) i : 91 <= length arks -> i < 91 ->
    nth_error (map (map (@length _)) (sSumchecks (SAllocateProof (F:=F) bN (smimc (firstn 90 arks) (nth 90 arks 0%F))))) i = Some ([3; 9] ++ repeat 9 bN).
  Proof.
    intros HA Hi. unfold SAllocateProof. cbn [sSumchecks]. rewrite map_map.
    assert (L : length (smimc (firstn 90 arks) (nth 90 arks 0%F)) = 91).
    { unfold smimc. rewrite app_length, map_length, firstn_length. cbn [length]. lia. }
    rewrite nth_error_map.
    destruct (nth_error (smimc (firstn 90 arks) (nth 90 arks 0%F)) i) as [l|] eqn:E; [|apply nth_error_None in E; lia].
    cbn [option_map]. f_equal.
    assert (D : sDegHL l = 2 /\ sDegHR l = 8 /\ sDegHPrime l = 8 /\ sBG l = 1).
    { apply nth_error_In in E. unfold smimc in E. apply in_app_or in E. destruct E as [E|[<-|[]]]; [apply in_map_iff in E; destruct E as (a & <- & _)|]; auto. }
    destruct D as (-> & -> & -> & ->). unfold SAllocateSumcheck. cbn [repeat app map]. rewrite !repeat_length. f_equal. f_equal.
    clear. induction bN as [|n IH]; [reflexivity|]. cbn [repeat map]. rewrite IH. reflexivity.
  Qed.

  Lemma gadget_size (arks : list F) sc bN p (cs : CS F) qPI vIn vOut : 91 <= length arks ->
    SCreateMimcCircuit arks = Some sc -> cs_ok cs -> proof_vars cs bN sc p -> vars cs (qPI ++ vIn ++ vOut) ->
    length qPI = bN -> length vIn = 2 * 2 ^ bN -> length vOut = 2 ^ bN ->
    proper (sLeft p ++ sRight p ++ qPI ++ vIn ++ vOut) ->
    exists cs', SGkrAssertValid arks p sc [] qPI vIn vOut cs = Some (tt, cs') /\
      N.of_nat (muls cs') = (N.of_nat (muls cs) + 3 * 2 ^ N.of_nat bN + 299208 * N.of_nat bN + 466268)%N /\
      asserts cs' = asserts cs + 91 * bN + 275.
  Proof.
    intros HA Esc HO HP HV L1 L2 L3 HQ.
    rewrite !proper_app in HQ. destruct HQ as (Q1 & Q2 & Q3 & Q4 & Q5).
    destruct (gadget_sound arks sc _ bN p cs qPI vIn vOut HA Esc (CreateMimcCircuit_ok arks HA) HO HP HV L1 L2 L3) as (cs' & E & _).
    exists cs'. split; [exact E|].
    rewrite SCreateMimcCircuit_ok in Esc by exact HA. apply some_inj in Esc. subst sc.
    destruct HP as (_ & HP & _ & _).
    assert (Lc : length (map smid (firstn 90 arks)) = 90) by (rewrite map_length, firstn_length; lia).
    destruct (cost_gadget arks bN (smimc (firstn 90 arks) (nth 90 arks 0%F)) p qPI vIn vOut) with (cs := cs) (a := tt) (cs' := cs')
      as (M1 & M2 & _ & _); try assumption.
    - intros i l Hi El. unfold smimc in El. rewrite nth_error_app1 in El by lia. rewrite nth_error_map in El.
      destruct (nth_error (firstn 90 arks) i); [|discriminate]. injection El as <-. split; [apply smid_costs|reflexivity].
    - intros l El. unfold smimc in El. rewrite nth_error_app2 in El by lia. rewrite Lc in El. injection El as <-. split; [apply slast_costs|reflexivity].
    - intros i sp Hi Es. pose proof (alloc_shape bN arks i HA Hi) as K. rewrite <- HP in K. rewrite nth_error_map, Es in K. injection K as K. exact K.
    - apply HO.
    - split; [|rewrite M2; lia]. rewrite M1. rewrite !Nat2N.inj_add, !Nat2N.inj_mul, Nat2N.inj_pow, !Nat2N.inj_add, !Nat2N.inj_mul.
      rewrite !Nat2N.inj_add, !Nat2N.inj_mul.
      change (N.of_nat 2) with 2%N. change (N.of_nat 3) with 3%N. change (N.of_nat 9) with 9%N. change (N.of_nat 12) with 12%N.
      change (N.of_nat 365) with 365%N. change (N.of_nat 91) with 91%N. change (N.of_nat 90) with 90%N. change (N.of_nat 752) with 752%N.
      change (N.of_nat 8) with 8%N. lia.
  Qed.

  (** The variables: proof, initial point, inputs, outputs, and the constant one *)
  Lemma test_circuit_wires (sc : list (SLayer F)) bN n91 A K P cs p qP vIn vOut : length sc = n91 ->
    length (concat (concat (sSumchecks (SAllocateProof (F:=F) bN sc)))) = K -> 2 ^ bN = P -> 2 ^ (bN + 1) = A ->
    AllocateGKRMimcTestCircuit bN sc = (cs, (p, qP, vIn, vOut)) ->
    nbWires cs = 1 + (K + n91 + n91) + bN + A + P /\ muls cs = 0 /\ asserts cs = 0 /\
    proper (sLeft p ++ sRight p ++ qP ++ vIn ++ vOut).
  Proof.
    intros Ls HK HP HA E. unfold AllocateGKRMimcTestCircuit in E. cbv zeta in E.
    unfold SAllocateMultilinear in E. rewrite HK in E.
    change (sLeft (SAllocateProof (F:=F) bN sc)) with (repeat (@None F) (length sc)) in E.
    change (sRight (SAllocateProof (F:=F) bN sc)) with (repeat (@None F) (length sc)) in E.
    rewrite !repeat_length, Ls in E. rewrite HP, HA in E. clear HK HP HA Ls.
    assert (EC : cs = fst (cs, (p, qP, vIn, vOut))) by reflexivity. rewrite <- E in EC. cbn [fst] in EC.
    assert (E1 : sLeft p = sLeft (fst (fst (fst (snd (cs, (p, qP, vIn, vOut))))))) by reflexivity. rewrite <- E in E1. cbn [fst snd sLeft] in E1.
    assert (E2 : sRight p = sRight (fst (fst (fst (snd (cs, (p, qP, vIn, vOut))))))) by reflexivity. rewrite <- E in E2. cbn [fst snd sRight] in E2.
    assert (E3 : qP = snd (fst (fst (snd (cs, (p, qP, vIn, vOut)))))) by reflexivity. rewrite <- E in E3. cbn [fst snd] in E3.
    assert (E4 : vIn = snd (fst (snd (cs, (p, qP, vIn, vOut))))) by reflexivity. rewrite <- E in E4. cbn [fst snd] in E4.
    assert (E5 : vOut = snd (snd (cs, (p, qP, vIn, vOut)))) by reflexivity. rewrite <- E in E5. cbn [fst snd] in E5.
    rewrite EC, E1, E2, E3, E4, E5. clear. split; [cbn [nbWires]; lia|]. split; [reflexivity|]. split; [reflexivity|].
    unfold proper. rewrite !in_app_iff. unfold wires1. rewrite !in_seq. lia.
  Qed.

  Lemma smimc_sumchecks bN (l : list (SLayer F)) : (forall x, In x l -> sDegHL x = 2 /\ sDegHR x = 8 /\ sDegHPrime x = 8 /\ sBG x = 1) ->
    length (concat (concat (map (fun l => SAllocateSumcheck (F:=F) bN (sBG l) (sDegHL l) (sDegHR l) (sDegHPrime l)) l))) = length l * (12 + 9 * bN).
  Proof.
    assert (R : length (concat (repeat (repeat (@None F) (8 + 1)) bN)) = 9 * bN).
    { clear. induction bN as [|n IH]; [reflexivity|]. cbn [repeat concat]. rewrite app_length, IH. cbn [length]. rewrite repeat_length. lia. }
    induction l as [|x l IH]; intros H; [reflexivity|]. cbn [map concat length]. rewrite concat_app, app_length, IH by (intros; apply H; right; assumption).
    destruct (H x (or_introl eq_refl)) as (-> & -> & -> & ->). unfold SAllocateSumcheck. cbn [repeat app concat length].
    rewrite !app_length, !repeat_length, R. lia.
  Qed.

  Lemma test_circuit_vars (arks : list F) sc bN cs p qP vIn vOut : 91 <= length arks -> SCreateMimcCircuit arks = Some sc ->
    AllocateGKRMimcTestCircuit bN sc = (cs, (p, qP, vIn, vOut)) ->
    nbWires cs = 1 + 91 * (14 + 9 * bN) + bN + 3 * 2 ^ bN /\ muls cs = 0 /\ asserts cs = 0 /\
    proper (sLeft p ++ sRight p ++ qP ++ vIn ++ vOut).
  Proof.
    intros HA Esc E. rewrite SCreateMimcCircuit_ok in Esc by exact HA. apply some_inj in Esc.
    assert (Ls : length sc = 91).
    { rewrite <- Esc. unfold smimc. rewrite app_length, map_length, firstn_length. cbn [length]. lia. }
    assert (K : length (concat (concat (sSumchecks (SAllocateProof (F:=F) bN sc)))) = 91 * (12 + 9 * bN)).
    { rewrite <- Ls. apply smimc_sumchecks. rewrite <- Esc. intros x Hx. unfold smimc in Hx. apply in_app_or in Hx.
      destruct Hx as [Hx|[<-|[]]]; [apply in_map_iff in Hx; destruct Hx as (a & <- & _)|]; auto. }
    destruct (test_circuit_wires sc bN _ _ _ _ cs p qP vIn vOut Ls K eq_refl eq_refl E) as (N1 & N2 & N3 & N4).
    split; [|split; [exact N2|split; [exact N3|exact N4]]]. rewrite N1. rewrite Nat.pow_add_r. change (2 ^ 1) with 2. lia.
  Qed.

  Lemma test_circuit_size (arks : list F) sc bN cs p qP vIn vOut : 91 <= length arks -> SCreateMimcCircuit arks = Some sc ->
    AllocateGKRMimcTestCircuit bN sc = (cs, (p, qP, vIn, vOut)) ->
    nbWires cs = 1 + 91 * (14 + 9 * bN) + bN + 3 * 2 ^ bN /\
    exists cs', SGkrAssertValid arks p sc [] qP vIn vOut cs = Some (tt, cs') /\
      N.of_nat (muls cs') = (3 * 2 ^ N.of_nat bN + 299208 * N.of_nat bN + 466268)%N /\
      asserts cs' = 91 * bN + 275.
  Proof.
    intros HA Esc E. destruct (test_circuit_vars arks sc bN cs p qP vIn vOut HA Esc E) as (N1 & N2 & N3 & HQ). split; [exact N1|].
    destruct (test_circuit_ok bN sc cs p qP vIn vOut E) as (HO & HP & HV & L1 & L2 & L3).
    destruct (gadget_size arks sc bN p cs qP vIn vOut HA Esc HO HP HV L1 L2 L3 HQ) as (cs' & E1 & E2 & E3).
    exists cs'. split; [exact E1|]. rewrite E2, E3, N2, N3. split; [change (N.of_nat 0) with 0%N; lia|lia].
  Qed.

  (** Hashing in the constraint system: one hash of one block for each message *)
  Lemma direct_size (arks : list F) ms (cs : CS F) : 91 <= length arks -> cs_ok cs -> vars cs ms ->
    exists hs cs', mmap (fun m => SMimcHash arks [m]) ms cs = Some (hs, cs') /\
      muls cs' = muls cs + 364 * length ms /\ asserts cs' = asserts cs.
  Proof.
    intros HA HO HV.
    assert (E : exists hs cs', mmap (fun m => SMimcHash arks [m]) ms cs = Some (hs, cs')).
    { revert cs HO HV. induction ms as [|m ms IH]; intros cs HO HV; [eexists _, _; reflexivity|].
      cbn [mmap]. unfold mbind.
      destruct (SMimcHash_ok arks HA cs [m] (fun w => [w m]) HO) as (r & cs1 & -> & C & _).
      { apply (vals_map cs [m]). intros v [<-|[]]. apply HV. left. reflexivity. }
      destruct (IH cs1) as (hs & cs2 & ->); [exact (computes_ok _ _ C)| |eexists _, _; reflexivity].
      destruct C as (_ & (G & _) & _). intros v Hv. specialize (HV v (or_intror Hv)). lia. }
    destruct E as (hs & cs' & E). exists hs, cs'. split; [exact E|].
    destruct (costs_mmap (F:=F) (fun m => SMimcHash arks [m]) 364 0 (fun v => 0 < v) ms) with (cs := cs) (a := hs) (cs' := cs') as (M1 & M2 & _).
    - intros m _. exact (cost_hash arks [m]).
    - apply HO.
    - exact E.
    - split; [rewrite M1; lia|rewrite M2; lia].
  Qed.
End L.

Local Open Scope N_scope.
Definition gadget_muls (n : N) : N := 3 * 2 ^ n + 299208 * n + 466268.


Lemma threshold_direct n : gadget_muls n < 364 * 2 ^ n <-> 14 <= n.
Proof.
  unfold gadget_muls. split.
  - intros H. destruct (N.le_gt_cases 14 n) as [|L]; [assumption|exfalso].
    assert (K : n = 0 \/ n = 1 \/ n = 2 \/ n = 3 \/ n = 4 \/ n = 5 \/ n = 6 \/ n = 7 \/ n = 8 \/ n = 9 \/ n = 10 \/ n = 11 \/ n = 12 \/ n = 13) by lia.
    repeat destruct K as [->|K]; try subst n; vm_compute in H; discriminate.
  - intros H.
    enough (299208 * n + 466268 < 2 ^ n * 361) by lia.
    assert (G : forall k, 299208 * (14 + k) + 466268 < 2 ^ (14 + k) * 361).
    { induction k as [|k IH] using N.peano_ind; [reflexivity|]. rewrite N.add_succ_r, N.pow_succ_r'.
      assert (H2 : 2 ^ 14 <= 2 ^ (14 + k)) by (apply N.pow_le_mono_r; lia). change (2 ^ 14) with 16384 in H2. nia. }
    specialize (G (n - 14)). replace (14 + (n - 14)) with n in G by lia. exact G.
Qed.

Lemma threshold_four n : gadget_muls n < 4 * 2 ^ n <-> 23 <= n.
Proof.
  unfold gadget_muls. split.
  - intros H. destruct (N.le_gt_cases 23 n) as [|L]; [assumption|exfalso].
    assert (K : 2 ^ n < 299208 * n + 466268 \/ 23 <= n).
    { assert (K : n < 14 \/ n = 14 \/ n = 15 \/ n = 16 \/ n = 17 \/ n = 18 \/ n = 19 \/ n = 20 \/ n = 21 \/ n = 22) by lia.
      destruct K as [K|K].
      - left. assert (2 ^ n <= 2 ^ 14) by (apply N.pow_le_mono_r; lia). change (2 ^ 14) with 16384 in *. lia.
      - left. repeat destruct K as [->|K]; try subst n; reflexivity. }
    lia.
  - intros H. enough (299208 * n + 466268 < 2 ^ n) by lia.
    assert (G : forall k, 299208 * (23 + k) + 466268 < 2 ^ (23 + k)).
    { induction k as [|k IH] using N.peano_ind; [reflexivity|]. rewrite N.add_succ_r, N.pow_succ_r'.
      assert (H2 : 2 ^ 23 <= 2 ^ (23 + k)) by (apply N.pow_le_mono_r; lia). change (2 ^ 23) with 8388608 in H2. nia. }
    specialize (G (n - 23)). replace (23 + (n - 23)) with n in G by lia. exact G.
Qed.
