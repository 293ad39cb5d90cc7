(** The GKR verifier on the MiMC circuit (lemmas for PCost2.v). *)
From Coq Require Import List Arith ZArith Lia Bool.
From Verif Require Import LCost5.
From Verif Require Import Field Fr Go MCommon LCommon MPoly LPoly MCircuit SpecCircuit LCircuit3 MSumcheck MGkr SpecGkr LGkr5 SpecProof LProof2 MHash MArk SpecHash LHash3
  MCost SpecCost MCost2 SpecCost2 LRepair4 LCost LCost2 LCost6 LCost7 LCost8.
Import ListNotations.

Section S.
  Context {F : Field}.

  Lemma hash_exact (arks input : list F) x : MimcHash arks input = Some x -> WMimcHash arks input = Some (x, 364 * length input).
  Proof.
    intros E. rewrite <- er_MimcHash in E. destruct (erased _ _ E) as [n En]. rewrite En.
    destruct (c_MimcHash arks input _ _ En) as [_ ->]. rewrite Nat.mul_comm. reflexivity.
  Qed.

  Lemma permutation_exact (arks : list F) s b x : MimcPermutation arks s b = Some x -> WMimcPermutation arks s b = Some (x, 364).
  Proof.
    intros E. assert (HE : erase (WMimcPermutation arks s b) = MimcPermutation arks s b).
    { unfold WMimcPermutation, MimcPermutation. er1. cbv zeta. er1. reflexivity. }
    rewrite <- HE in E. destruct (erased _ _ E) as [n En]. rewrite En.
    enough (C : costs (WMimcPermutation arks s b) (fun _ => True) 364) by (destruct (C _ _ En) as [_ ->]; reflexivity).
    unfold WMimcPermutation. change 364 with (91 * 4). apply c_for_const; [|exact I]. intros s' i _ _. cbv zeta. c1. apply c_SBox.
  Qed.

  Lemma some_eq {A} (x y : A) : Some x = Some y -> x = y.
  Proof. congruence. Qed.

  Lemma rounds_lengths h (sp : list (list F)) ns : map (@length F) sp = ns -> rounds_work h sp = list_sum (map (fun n => 3 * (n - 1) + h * n) ns).
  Proof. intros <-. unfold rounds_work. rewrite map_map. reflexivity. Qed.

  Lemma sum_repeat k n : list_sum (repeat k n) = n * k.
  Proof. induction n as [|n IH]; [reflexivity|]. cbn [repeat]. change (list_sum (?x :: ?r)) with (x + list_sum r). rewrite IH. lia. Qed.

  Lemma map_repeat {A B} (f : A -> B) a n : map f (repeat a n) = repeat (f a) n.
  Proof. induction n; [reflexivity|]. cbn. congruence. Qed.

  Lemma mid_inner h bN (a : F) sp : map (@length F) sp = coefficients (mimc_mid a) bN ->
    inner_work h bN (mimc_mid a) [CipherPrice; CopyPrice] sp = 70 + 14 * h + (26 + 9 * h) * bN.
  Proof.
    intros H. unfold inner_work. rewrite (rounds_lengths _ _ _ H). change (coefficients (mimc_mid a) bN) with (3 :: 9 :: repeat 9 bN).
    cbn [map]. rewrite map_repeat. change (list_sum (?x :: ?y :: ?r)) with (x + (y + list_sum r)). rewrite sum_repeat.
    change (tables_work (mimc_mid a)) with 14. change (length (lGates (mimc_mid a))) with 2. change (gates_work [CipherPrice; CopyPrice]) with 7. lia.
  Qed.

  Lemma last_inner h bN (a : F) sp : map (@length F) sp = coefficients (mimc_last a) bN ->
    last_work h bN (mimc_last a) [CipherPrice] sp = 39 + 12 * h + (26 + 9 * h) * bN.
  Proof.
    intros H. unfold last_work. rewrite (rounds_lengths _ _ _ H). change (coefficients (mimc_last a) bN) with (3 :: 9 :: repeat 9 bN).
    cbn [map]. rewrite map_repeat. change (list_sum (?x :: ?y :: ?r)) with (x + (y + list_sum r)). rewrite sum_repeat.
    change (tables_work (mimc_last a)) with 3. change (gates_work [CipherPrice]) with 6. lia.
  Qed.

  Lemma mimc_at (arks : list F) i l : 91 <= length arks -> nth_error (mimc_layers (firstn 90 arks) (nth 90 arks fzero)) i = Some l ->
    (i < 90 /\ exists a, nth_error (firstn 90 arks) i = Some a /\ l = mimc_mid a) \/ (i = 90 /\ l = mimc_last (nth 90 arks fzero)).
  Proof.
    intros HA E. assert (L : length (firstn 90 arks) = 90) by (rewrite firstn_length; lia). unfold mimc_layers in E.
    destruct (Nat.lt_ge_cases i 90) as [Hi|Hi].
    - left. split; [exact Hi|]. rewrite nth_error_app1 in E by (rewrite map_length, L; exact Hi). rewrite nth_error_map in E.
      destruct (nth_error (firstn 90 arks) i) as [a|]; [|discriminate]. injection E as <-. exists a. auto.
    - right. rewrite nth_error_app2 in E by (rewrite map_length, L; exact Hi). rewrite map_length, L in E.
      destruct (i - 90) as [|n] eqn:D; [|destruct n; discriminate]. injection E as <-. split; [lia|reflexivity].
  Qed.

  Lemma mimc_priced (arks : list F) c : 91 <= length arks -> CreateMimcCircuit arks = Some c -> priced_layers c (mimc_gates arks) mimc_prices /\ fits 1 c /\ length c = 91.
  Proof.
    intros HA E. rewrite CreateMimcCircuit_ok in E by exact HA. apply some_eq in E. subst c. assert (L : length (firstn 90 arks) = 90) by (rewrite firstn_length; lia).
    split; [|split; [apply mimc_fits|unfold mimc_layers; rewrite app_length, map_length, L; reflexivity]].
    intros i l El. unfold mimc_gates, mimc_prices. destruct (mimc_at arks i l HA El) as [(Hi & a & Ea & ->)|(-> & ->)].
    - rewrite (app_nth1 (map _ _)) by (rewrite map_length, L; exact Hi). rewrite (app_nth1 (repeat _ _)) by (rewrite repeat_length; exact Hi).
      rewrite (nth_error_nth (map _ _) i [] (map_nth_error _ i _ Ea)). rewrite (nth_indep _ [] [CipherPrice; CopyPrice]) by (rewrite repeat_length; exact Hi). rewrite nth_repeat.
      split; [reflexivity|]. constructor; [apply priced_cipher|constructor; [apply priced_copy|constructor]].
    - rewrite (app_nth2 (map _ _)) by (rewrite map_length, L; lia). rewrite (app_nth2 (repeat _ _)) by (rewrite repeat_length; lia). rewrite map_length, L, repeat_length, Nat.sub_diag.
      split; [reflexivity|]. constructor; [apply priced_cipher|constructor].
  Qed.

  Lemma mimc_total (arks : list F) c l h bN m sps : 91 <= length arks -> CreateMimcCircuit arks = Some c -> nth_error c 90 = Some l -> m <= bN ->
    (forall i l, nth_error c i = Some l -> map (@length F) (nth i sps []) = coefficients l bN) ->
    verifier_work h bN m 1 c mimc_prices sps l = mimc_verifier h bN m.
  Proof.
    intros HA E Hl Hm HS. destruct (mimc_priced arks c HA E) as (_ & _ & HL). rewrite CreateMimcCircuit_ok in E by exact HA. apply some_eq in E.
    assert (L : length (firstn 90 arks) = 90) by (rewrite firstn_length; lia).
    unfold verifier_work. cbv zeta. rewrite HL. change (91 - 1) with 90. rewrite <- E in Hl. destruct (mimc_at arks 90 l HA Hl) as [(Hi & _)|(_ & Hla)]; [lia|].
    rewrite E in Hl. unfold mimc_prices at 1. rewrite (app_nth2 (repeat _ _)) by (rewrite repeat_length; lia). rewrite repeat_length, Nat.sub_diag. cbn [nth].
    pose proof (HS 90 l Hl) as H90. subst l. rewrite (last_inner h bN _ _ H90).
    assert (HI : inner_sum h bN c mimc_prices sps 90 = 90 * (70 + 14 * h + (26 + 9 * h) * bN)).
    { unfold inner_sum. rewrite <- (seq_length 90 0) at 2. rewrite <- list_sum_const. apply sum_ext. intros i Hi. apply in_seq in Hi.
      destruct (nth_error c i) as [l|] eqn:El; [|apply nth_error_None in El; lia]. pose proof (HS i l El) as Hi'. rewrite <- E in El.
      destruct (mimc_at arks i l HA El) as [(_ & a & Ea & Ha)|(-> & _)]; [|lia]. subst l.
      unfold mimc_prices. rewrite (app_nth1 (repeat _ _)) by (rewrite repeat_length; lia). rewrite (nth_indep _ [] [CipherPrice; CopyPrice]) by (rewrite repeat_length; lia). rewrite nth_repeat.
      apply mid_inner. exact Hi'. }
    rewrite HI. unfold reading_work, mimc_verifier. change (lBGOutputs (mimc_last (nth 90 arks fzero))) with 0. rewrite Nat.add_0_l.
    change (1 + bN) with (S bN). change (1 + m) with (S m). rewrite !Nat.pow_succ_r'.
    pose proof (Nat.pow_nonzero 2 bN). pose proof (Nat.pow_nonzero 2 m). revert H H0. generalize (2 ^ bN) (2 ^ m). intros x y Hx Hy. nia.
  Qed.
End S.

Lemma mimc_honest nCore mtProve m k inputs :
  0 < nCore -> follows_machine mimc_challenge nCore mtProve -> 0 < k -> chunked k m 1 inputs ->
  exists c a pf, CreateMimcCircuit Arks = Some c /\ Assign c inputs = Some a /\ GkrProve mimc_challenge mtProve c a nCore = Some pf /\
    WGkrVerifyWith (WMimcHash Arks) (mimc_gates Arks) true (m + k) c pf inputs (nth 91 a []) = Some (true, mimc_verifier 364 (m + k) m).
Proof.
  intros H1 H2 H3 H4. set (c := mimc_layers (firstn 90 Arks) (nth 90 Arks 0%F)).
  assert (HA : 91 <= length Arks) by (rewrite Arks_length; lia). assert (EC : CreateMimcCircuit Arks = Some c) by (apply CreateMimcCircuit_ok; exact HA).
  destruct (mimc_priced Arks c HA EC) as (HP & HF & HL). exists c.
  assert (Hc : c <> []) by (intros H; apply (f_equal (@length _)) in H; rewrite HL in H; cbn in H; lia).
  destruct (assign_ok c 1 (2 ^ m) inputs) as (a & EA & Ha).
  { intros l Hl. apply (mimc_layer_ok _ _ l Hl). } { apply mimc_fits. } { apply mimc_right. } { apply H4. }
  destruct (proof_size mimc_challenge nCore mtProve c 1 m k inputs a H1 H2 Hc (mimc_layer_ok _ _) HF H4 Ha) as (pf & E & L1 & L2 & L3 & HS & _).
  destruct (gkr_complete_Fr mimc_challenge nCore mtProve c 1 m k inputs a H1 H2 Hc H3 (mimc_layer_ok _ _) HF H4 Ha) as (pf' & E' & _ & V).
  rewrite E in E'. injection E' as <-. exists a, pf. split; [exact EC|]. split; [exact EA|]. split; [exact E|].
  destruct (nth_error c 90) as [l|] eqn:Hl; [|apply nth_error_None in Hl; lia].
  rewrite <- (mimc_total Arks c l 364 (m + k) m (SumcheckProofs pf) HA EC Hl ltac:(lia) HS). rewrite HL in V.
  assert (Hl' : nth_error c (length c - 1) = Some l) by (rewrite HL; exact Hl).
  pose proof (assignment_tables c m k 1 inputs a l H4 Ha Hl') as HO. rewrite HL in HO.
  apply (verify_exact 364 mimc_challenge (WMimcHash Arks)) with (k := k); [|exact HP|exact HF| |reflexivity|exact Hl'|exact H4|exact HO|exact V].
  - intros msg. apply hash_exact. exact (mimc_challenge_ok msg).
  - intros j l' Hj. rewrite <- (map_length (@length Fr)), (HS j l' Hj). unfold coefficients. rewrite !app_length, !repeat_length. lia.
Qed.

Local Open Scope Z_scope.
(** Cheaper than computing the permutations again, from 2^14 instances on. *)
Lemma mimc_cheaper bN m : (14 <= bN)%nat -> (m <= bN)%nat -> Z.of_nat (mimc_verifier 364 bN m) < 364 * 2 ^ Z.of_nat bN.
Proof.
  intros H1 H2. assert (HM : 2 ^ Z.of_nat m <= 2 ^ Z.of_nat bN) by (apply Z.pow_le_mono_r; lia).
  assert (HB : 300482 * Z.of_nat bN + 469344 < 359 * 2 ^ Z.of_nat bN).
  { clear H2 HM. induction H1 as [|b Hb IH]; [reflexivity|]. replace (Z.of_nat (S b)) with (Z.succ (Z.of_nat b)) by lia. rewrite Z.pow_succ_r by lia. lia. }
  unfold mimc_verifier. rewrite !Nat2Z.inj_add, !Nat2Z.inj_mul, !Nat2Z.inj_add, !Nat2Z.inj_mul, !Nat2Z.inj_pow, ?Nat2Z.inj_add, ?Nat2Z.inj_mul.
  change (Z.of_nat 2366) with 2366. change (Z.of_nat 819) with 819. change (Z.of_nat 1272) with 1272. change (Z.of_nat 364) with 364.
  change (Z.of_nat 70) with 70. change (Z.of_nat 90) with 90. change (Z.of_nat 36) with 36. change (Z.of_nat 3) with 3. change (Z.of_nat 2) with 2. lia.
Qed.

Lemma mimc_dearer bN m : (bN <= 13)%nat -> 364 * 2 ^ Z.of_nat bN < Z.of_nat (mimc_verifier 364 bN m).
Proof.
  intros H1. unfold mimc_verifier. rewrite !Nat2Z.inj_add, !Nat2Z.inj_mul, !Nat2Z.inj_add, !Nat2Z.inj_mul, !Nat2Z.inj_pow, ?Nat2Z.inj_add, ?Nat2Z.inj_mul.
  change (Z.of_nat 2366) with 2366. change (Z.of_nat 819) with 819. change (Z.of_nat 1272) with 1272. change (Z.of_nat 364) with 364.
  change (Z.of_nat 70) with 70. change (Z.of_nat 90) with 90. change (Z.of_nat 36) with 36. change (Z.of_nat 3) with 3. change (Z.of_nat 2) with 2.
  assert (0 < 2 ^ Z.of_nat m) by (apply Z.pow_pos_nonneg; lia).
  assert (HB : 361 * 2 ^ Z.of_nat bN < 300482 * Z.of_nat bN + 469344) by (do 14 (destruct bN as [|bN]; [reflexivity|]); lia). lia.
Qed.
