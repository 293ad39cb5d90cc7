(** The count of the game for a circuit whose last layer is not named, and for the MiMC circuit. *)
From Coq Require Import List Arith ZArith Lia Bool.
From Verif Require Import Field Go MCommon Spec LSpec LCommon MPoly LPoly LPoly2 LPoly3 Trans MCircuit SpecCircuit LCircuit LCircuit2
  LCircuit3 MSumcheck LSumcheck SpecSumcheck LSumcheck4 LSumcheck5 MSumPar SpecSumPar LSumPar4 MGkr SpecGkr SpecInter LGkr LGkr2 LGkr3 LGkr4
  MHash SpecHash LHash LHash2 LHash3 LTests LGrid LSnark11 LInter LInter2 LInter3 MRepair LRepair LRepair3 MFiat SpecFiat LFiat3 LFiat4.
Import ListNotations.

Section L.
  Context {F : Field}.
  Open Scope F_scope.

  Lemma oracle_count m k b (c : list (Layer F)) (A : Adversary F) Q d S0 L :
    (forall l, In l c -> layer_ok l) -> fits b c -> c <> [] ->
    (1 <= d)%nat -> (forall l i, In l c -> (i < 2 * lBGInputs l + (m + k))%nat -> (layer_round_degree l i <= d)%nat) ->
    let M := (Q + fs_count (m + k) c)%nat in
    NoDup L -> (forall tape, In tape L -> In tape (grid S0 M) /\ breaks m k b c A Q tape) ->
    (length L <= M * d * length S0 ^ (M - 1))%nat.
  Proof.
    intros Hl Hf Hne Hd1 Hd M. destruct (nth_error c (length c - 1)) as [l|] eqn:El; [|apply nth_error_None in El; destruct c; [congruence|cbn in El; lia]].
    exact (game_count m k b c l Hl Hf El d Hd1 Hd A Q S0 L).
  Qed.

  Lemma mimc_oracle_count (arks : list F) m k c (A : Adversary F) Q S0 L :
    (91 <= length arks)%nat -> CreateMimcCircuit arks = Some c ->
    let M := (Q + (272 + 92 * (m + k)))%nat in
    NoDup L -> (forall tape, In tape L -> In tape (grid S0 M) /\ breaks m k 1 c A Q tape) ->
    (length L <= M * 8 * length S0 ^ (M - 1))%nat.
  Proof.
    intros HA Ec M HL H. destruct (mimc_totals arks c (m + k) Ec HA) as [HC _].
    rewrite CreateMimcCircuit_ok in Ec by exact HA. apply some_inj in Ec. 
    assert (HM : M = (Q + fs_count (m + k) c)%nat).
    { unfold M, fs_count. rewrite HC. unfold start_count. subst c. unfold mimc_layers. rewrite app_length. cbn [length].
      rewrite Nat.add_sub, app_nth2, Nat.sub_diag by lia. cbn [nth]. change (lBGOutputs (mimc_last (nth 90 arks 0))) with 0%nat. lia. }
    rewrite HM in *. clear HM M. subst c.
    apply (oracle_count m k 1 _ A Q 8 S0 L); auto using mimc_fits.
    - apply mimc_layer_ok.
    - unfold mimc_layers. destruct (map _ _); discriminate.
    - lia.
    - intros l i Hin Hi. assert (Hb : lBGInputs l = 1%nat /\ maxHL (lGates l) = 1%nat /\ maxHR (lGates l) = 7%nat /\ maxHP (lGates l) = 7%nat).
      { destruct (mimc_layer_cases _ _ l Hin) as [[a' ->]| ->]; vm_compute; auto. }
      destruct Hb as (Hb & D1 & D2 & D3). unfold layer_round_degree, phase_deg. rewrite Hb, D1, D2, D3.
      destruct (i <? 1)%nat; [cbn; lia|]. destruct (i <? 1 + 1)%nat; cbn; lia.
  Qed.

  Lemma mimc_fs_complete (arks : list F) (H : Query F -> F) m k c inputs : (91 <= length arks)%nat -> CreateMimcCircuit arks = Some c ->
    chunked k m 1 inputs ->
    exists a pf, RAssign c inputs = Some a /\ FSVerify H (m + k) c pf inputs (nth 91 a []) = Some true.
  Proof.
    intros HA Ec Hin. pose proof Ec as Ec'. rewrite CreateMimcCircuit_ok in Ec by exact HA. apply some_inj in Ec.
    assert (HL : length c = 91%nat) by (subst c; unfold mimc_layers; rewrite app_length, map_length, firstn_length; cbn [length]; lia).
    assert (Hok : forall l, In l c -> layer_ok l) by (intros l Hl; subst c; exact (mimc_layer_ok _ _ l Hl)).
    assert (Hf : fits 1 c) by (subst c; apply mimc_fits).
    destruct (rassign_ok c 1 (2 ^ m) inputs) as (a & E & Ha); auto.
    - intros l Hl. apply (Hok l Hl).
    - intros t Ht. destruct Hin as [_ Hin]. exact (Hin t Ht).
    - destruct (fs_complete H m k 1 c inputs a Hok Hf) as (pf & HV); auto; [intros ->; discriminate|]. rewrite HL in HV. exists a, pf. auto.
  Qed.

  (** Numbers: 2^100 queries, 2^20 variables, 2^253 possible answers. *)
  Lemma mimc_oracle_numbers (arks : list F) m k c (A : Adversary F) Q S0 L :
    (91 <= length arks)%nat -> CreateMimcCircuit arks = Some c ->
    (2 ^ 253 <= Z.of_nat (length S0))%Z -> (Z.of_nat Q <= 2 ^ 100)%Z -> (Z.of_nat (m + k) <= 2 ^ 20)%Z ->
    let M := (Q + (272 + 92 * (m + k)))%nat in
    NoDup L -> (forall tape, In tape L -> In tape (grid S0 M) /\ breaks m k 1 c A Q tape) ->
    (2 ^ 149 * Z.of_nat (length L) <= Z.of_nat (length S0) ^ Z.of_nat M)%Z.
  Proof.
    intros HA Ec HS HQ Hn M Hnd H. pose proof (mimc_oracle_count arks m k c A Q S0 L HA Ec Hnd H) as HB. fold M in HB.
    apply inj_le in HB. rewrite !Nat2Z.inj_mul, Nat2Z.inj_pow in HB.
    set (s := Z.of_nat (length S0)) in *.
    assert (HM : (1 <= M)%nat) by (unfold M; clear; lia).
    assert (EM : (s ^ Z.of_nat M = s * s ^ Z.of_nat (M - 1))%Z).
    { replace (Z.of_nat M) with (Z.succ (Z.of_nat (M - 1))) by lia. apply Z.pow_succ_r. lia. }
    rewrite EM. assert (HM2 : (Z.of_nat M <= 2 ^ 101)%Z) by (unfold M; rewrite !Nat2Z.inj_add, Nat2Z.inj_mul; clear - HQ Hn; lia).
    assert (Hp : (0 <= s ^ Z.of_nat (M - 1))%Z) by (apply Z.pow_nonneg; lia).
    set (T := (s ^ Z.of_nat (M - 1))%Z) in *. set (N := Z.of_nat M) in *. clearbody T N s.
    apply Z.le_trans with (2 ^ 149 * (N * 8 * T))%Z; [apply Z.mul_le_mono_nonneg_l; [lia|exact HB]|].
    replace (2 ^ 149 * (N * 8 * T))%Z with (2 ^ 152 * N * T)%Z by (change (2 ^ 152)%Z with (2 ^ 149 * 8)%Z; ring).
    apply Z.mul_le_mono_nonneg_r; [exact Hp|]. lia.
  Qed.
End L.
