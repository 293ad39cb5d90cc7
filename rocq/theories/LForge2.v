(** Forged proofs for the MiMC circuit over the BN254 scalar field (statements for PForge.v). *)
From Coq Require Import List Arith Lia Bool ZArith Ring Field.
From Verif Require Import Field Fr FrPrime Go MCommon Spec LSpec LCommon MPoly LPoly LPoly2 LPoly3 Trans MCircuit SpecCircuit LCircuit LCircuit2
  LCircuit3 MSumcheck LSumcheck SpecSumcheck LSumcheck4 LSumcheck5 MSumPar SpecSumPar LSumPar4 MGkr SpecGkr LGkr LGkr2 LGkr3 LGkr4
  MHash MArk SpecHash LHash LHash2 LHash3 MSnark SpecSnark LSnark LSnark2 LSnark3 LSnark4 LSnark5 LSnark6 LSnark7 LSnark8 LSnark9 LSnark10 LForge.
Import ListNotations.
Local Open Scope F_scope.

Local Lemma some_inj {A} (x y : A) : Some x = Some y -> x = y.
Proof. congruence. Qed.

Add Field FfieldForge2 : (f_theory Fr).

Lemma seventh_root (y : Fr) : exists x, fpow x 7 = y.
Proof. exists (root7 y). apply pow_root7. Qed.

Lemma fnat_nonzero n j : (Z.of_nat n < frModulus)%Z -> (0 < j)%nat -> (j <= n)%nat -> (fnat j : Fr) <> 0.
Proof.
  intros H Hj Hn E. assert (E' : (fnat j : Fr) = fnat 0) by exact E.
  apply (Fr_distinct (S n)) in E'; lia.
Qed.

Lemma chi_counts n : forall s, (Z.of_nat (s + n) < frModulus)%Z -> (0 < s)%nat ->
  chi (repeat false n) (map (fun i => fnat (i + 1)) (seq s n)) <> (0 : Fr).
Proof.
  induction n as [|n IH]; intros s H Hs; cbn [repeat seq map chi]; [apply f_1_neq_0|].
  intros E. apply f_integral in E. destruct E as [E|E].
  - apply (fnat_nonzero (s + S n) s); [lia|lia|lia|]. rewrite fnat_add in E. cbn [fnat] in E.
    transitivity (- (1 - (fnat (F:=Fr) s + (0 + 1)))); [ring|]. rewrite E. ring.
  - apply (IH (S s)) in E; [exact E|lia|lia].
Qed.

(** One of the two tables has another claim than 0. *)
Lemma bumped_claim n (v : Fr) : (Z.of_nat (S n) < frModulus)%Z -> n <> 0%nat -> exists d, mle (bumped n v d) (count (S n)) <> 0 /\ d <> 0.
Proof.
  intros H Hn. set (X := chi (to_bits (S n) (2 ^ n)) (count (S n)) : Fr).
  assert (E1 : chi (to_bits (S n) 1) (count (S n)) = (0 : Fr)).
  { destruct (count_S (F:=Fr) n) as (q & ->). apply chi_top. destruct n; [lia|]. cbn. pose proof (pow_pos n). lia. }
  assert (HX : X <> 0).
  { unfold X. rewrite to_bits_top. unfold count. cbn [seq map chi]. intros E. apply (chi_counts n 1 ltac:(lia) (le_n 1)).
    apply f_integral in E. destruct E as [E|E]; [|exact E]. exfalso. apply (fnat_nonzero 1 1) in E; [exact E|reflexivity|lia|lia]. }
  assert (Hd : forall d, mle (bumped n v d) (count (S n)) = v + d * X).
  { intros d. rewrite mle_bumped by apply count_length. fold X. rewrite E1. ring. }
  destruct (feqb_spec Fr (v + X) 0) as [E|E].
  - exists (1 + 1). rewrite Hd. split.
    + intros E'. apply HX. replace X with ((v + (1 + 1) * X) - (v + X)) by ring. rewrite E', E. ring.
    + intros E'. apply (fnat_nonzero 2 2); [reflexivity|lia|lia|]. cbn [fnat]. transitivity ((1 : Fr) + 1); [ring|exact E'].
  - exists 1. rewrite Hd. split; [|apply f_1_neq_0]. intros E'. apply E. transitivity (v + 1 * X); [ring|exact E'].
Qed.

Lemma glued_zeros m k : glued 0 m (repeat (repeat (0 : Fr) (2 ^ m)) (2 ^ k)) = repeat 0 (2 ^ (m + k)).
Proof.
  unfold glued. cbn [Nat.add]. symmetry. apply interleave_eq; rewrite ?repeat_length; [rewrite Nat.pow_add_r; reflexivity|].
  intros u s Hu Hs. rewrite (nth_indep _ [] (repeat 0 (2 ^ m))) by (rewrite repeat_length; exact Hs). rewrite nth_repeat, !nth_repeat. reflexivity.
Qed.

Lemma mimc_poly_lengths (arks : list Fr) m k c (pf : Proof Fr) : (91 <= length arks)%nat -> CreateMimcCircuit arks = Some c ->
  pshape m k c 0 pf -> plen c pf ->
  length (ClaimsLeft pf) = 91%nat /\ length (ClaimsRight pf) = 91%nat /\
  map (map (@length Fr)) (SumcheckProofs pf) = repeat (3 :: 9 :: repeat 9 (m + k))%nat 91.
Proof.
  intros HA EC HS (P1 & P2 & P3). rewrite CreateMimcCircuit_ok in EC by exact HA. apply some_inj in EC. subst c.
  rewrite (mimc_len arks HA) in P1, P2, P3. split; [exact P2|]. split; [exact P3|].
  apply (list_ext []); rewrite map_length, P1; [rewrite repeat_length; reflexivity|]. intros i Hi.
  rewrite (nth_map_lt _ _ _ _ []) by lia.
  destruct (nth_error (mimc_layers (firstn 90 arks) (nth 90 arks 0)) i) as [l|] eqn:El.
  2: { apply nth_error_None in El. rewrite (mimc_len arks HA) in El. lia. }
  rewrite (HS i l ltac:(lia) El).
  rewrite (nth_indep (repeat _ 91) [] (3 :: 9 :: repeat 9 (m + k))%nat) by (rewrite repeat_length; exact Hi). rewrite nth_repeat.
  destruct (mimc_layer_cases _ _ _ (nth_error_In _ _ El)) as [[a' ->]| ->]; reflexivity.
Qed.

(** A wrong statement with an accepted proof. *)
Theorem mimc_forged (arks : list Fr) ch m k : (91 <= length arks)%nat -> (2 <= m + k)%nat -> (Z.of_nat (m + k) < frModulus)%Z ->
  ch (repeat 0 3) <> ch (repeat 0 9) ->
  exists c inputs a, CreateMimcCircuit arks = Some c /\ chunked k m 1 inputs /\ Assign c inputs = Some a /\ chunked k m 0 (nth 91 a []) /\
    mle (glued 0 m (nth 91 a [])) (count (m + k)) <> 0 /\
    forall qP, length qP = (m + k)%nat ->
      exists pf, plen c pf /\ pshape m k c 0 pf /\
        forall mm, accepted ch mm c (m + k) pf [] qP (repeat 0 (2 ^ (m + k))) (glued 1 m inputs).
Proof.
  intros HA Hn HZ Hch. destruct (m + k)%nat as [|n] eqn:En; [lia|].
  destruct (suitable (nth 90 arks 0) _ _ Hch) as (s & key & Hv).
  destruct (bumped_claim n (key + fpow (s + nth 90 arks 0) 7) HZ ltac:(lia)) as (d & Hd & _).
  destruct (mimc_forgery seventh_root arks s key d (Fr_distinct_le 12 ltac:(lia)) HA m k n En) as (c & inputs & a & H1 & H2 & H3 & H4 & H5 & H6).
  exists c, inputs, a. do 4 (split; [assumption|]). split; [rewrite H5; exact Hd|]. rewrite En in H6. intros qP HqP. apply H6; assumption.
Qed.

Lemma Create_last (arks : list Fr) c : (91 <= length arks)%nat -> CreateMimcCircuit arks = Some c ->
  c <> [] /\ nth_error c (length c - 1) = Some (mimc_last (nth 90 arks 0)) /\ length c = 91%nat.
Proof.
  intros HA E. rewrite CreateMimcCircuit_ok in E by exact HA. apply some_inj in E. subst c.
  split; [apply (mimc_ne arks HA)|]. split; [apply (mimc_last_nth' arks HA)|apply (mimc_len arks HA)].
Qed.

Theorem native_forged (arks : list Fr) ch m k : (91 <= length arks)%nat -> (0 < k)%nat -> (2 <= m + k)%nat -> (Z.of_nat (m + k) < frModulus)%Z ->
  ch (repeat 0 3) <> ch (repeat 0 9) ->
  exists c l inputs a pf, CreateMimcCircuit arks = Some c /\ nth_error c 90 = Some l /\ chunked k m 1 inputs /\ Assign c inputs = Some a /\
    let zeros := repeat (repeat 0 (2 ^ m)) (2 ^ k) in
    output_claim (m + k) m l (nth 91 a []) <> output_claim (m + k) m l zeros /\
    length (ClaimsLeft pf) = 91%nat /\ length (ClaimsRight pf) = 91%nat /\
    map (map (@length Fr)) (SumcheckProofs pf) = repeat (3 :: 9 :: repeat 9 (m + k))%nat 91 /\
    forall mm, GkrVerifyWith ch mm (m + k) c pf inputs zeros = Some true.
Proof.
  intros HA Hk Hn HZ Hch. destruct (mimc_forged arks ch m k HA Hn HZ Hch) as (c & inputs & a & EC & Hin & EA & Ho & Hne & H).
  destruct (H (count (m + k)) (count_length _)) as (pf & P1 & P2 & P3).
  destruct (Create_last arks c HA EC) as (Hc & Hl & HL).
  exists c, (mimc_last (nth 90 arks 0)), inputs, a, pf. split; [exact EC|]. split; [rewrite <- Hl, HL; reflexivity|].
  split; [exact Hin|]. split; [exact EA|]. cbv zeta.
  split.
  { unfold output_claim. change (lBGOutputs (mimc_last (nth 90 arks 0))) with 0%nat. rewrite glued_zeros.
    change (count (F:=Fr) 0 ++ count (m + k)) with (count (F:=Fr) (m + k)). rewrite (mle_repeat 0 _ (count (m + k))) by apply count_length. exact Hne. }
  destruct (mimc_poly_lengths arks m k c pf HA EC P2 P1) as (Q1 & Q2 & Q3). do 3 (split; [assumption|]).
  intros mm. apply (accepted_verify ch mm m k 1 c _ pf inputs _ Hk Hc Hl Hin).
  - split; [apply repeat_length|]. intros t Ht. apply repeat_spec in Ht. rewrite Ht, repeat_length. cbn. lia.
  - change (lBGOutputs (mimc_last (nth 90 arks 0))) with 0%nat. rewrite glued_zeros. apply P3.
Qed.

Theorem gadget_forged (arks : list Fr) bN : (91 <= length arks)%nat -> (2 <= bN)%nat -> (Z.of_nat bN < frModulus)%Z ->
  challenge arks (repeat 0 3) <> challenge arks (repeat 0 9) ->
  exists c sc vi a, CreateMimcCircuit arks = Some c /\ SCreateMimcCircuit arks = Some sc /\ Assign c [vi] = Some a /\
    mle (nth 0 (nth 91 a []) []) (count bN) <> 0 /\
    forall cs p qP vIn vOut, AllocateGKRMimcTestCircuit bN sc = (cs, (p, qP, vIn, vOut)) ->
    forall q, length q = bN ->
    exists cs' w, SGkrAssertValid arks p sc [] qP vIn vOut cs = Some (tt, cs') /\ satisfied w cs' /\
      map w qP = q /\ map w vIn = vi /\ map w vOut = repeat 0 (2 ^ bN).
Proof.
  intros HA Hn HZ Hch. destruct (mimc_forged arks (challenge arks) bN 0 HA) as (c & inputs & a & EC & [I1 I2] & EA & [O1 O2] & Hne & H); [lia|rewrite Nat.add_0_r; exact HZ|exact Hch|].
  destruct inputs as [|vi [|? ?]]; try discriminate I1. rewrite Nat.add_0_r in *.
  destruct (nth 91 a []) as [|out [|? ?]] eqn:Eout; try discriminate O1.
  assert (Lo : length out = (2 ^ bN)%nat) by (rewrite (O2 out (or_introl eq_refl)); cbn; lia).
  assert (Lvi : length vi = (2 ^ (1 + bN))%nat) by (rewrite (I2 vi (or_introl eq_refl)); reflexivity).
  assert (Gi : glued 1 bN [vi] = vi) by (unfold glued; apply interleave_one; exact Lvi).
  assert (Go : glued 0 bN [out] = out) by (unfold glued; apply interleave_one; exact Lo).
  rewrite Gi in H. rewrite Go in Hne.
  destruct (SCreateMimcCircuit arks) as [sc|] eqn:ESC; [|rewrite SCreateMimcCircuit_ok in ESC by exact HA; discriminate].
  exists c, sc, vi, a. split; [exact EC|]. split; [reflexivity|]. split; [exact EA|]. rewrite Eout. cbn [nth]. split; [exact Hne|].
  intros cs p qP vIn vOut EAl q Hq. destruct (H q Hq) as (pf & P1 & P2 & P3).
  rewrite SCreateMimcCircuit_ok in ESC by exact HA. apply some_inj in ESC. subst sc. rewrite CreateMimcCircuit_ok in EC by exact HA. apply some_inj in EC. subst c.
  pose proof (test_circuit_ok _ _ _ _ _ _ _ EAl) as (HO & HP & HV & L1 & L2 & L3).
  set (sc := smimc (firstn 90 arks) (nth 90 arks 0)) in *.
  assert (LS : length sc = 91%nat). { unfold sc. rewrite (Forall2_len _ _ _ (smimc_describes _ _)). apply mimc_len. exact HA. }
  pose proof (mimc_shape arks HA bN 0 pf P1 ltac:(exact P2)) as HS. fold sc in HS. rewrite Nat.add_0_r in HS.
  pose proof P1 as (_ & Q2 & Q3). rewrite (mimc_len arks HA) in Q2, Q3.
  destruct (test_circuit_witness bN sc cs p qP vIn vOut pf q vi (repeat 0 (2 ^ bN)) EAl HS) as (w & Hw & W1 & W2 & W3 & W4);
    try (rewrite ?LS; assumption); [rewrite Lvi; f_equal; lia|apply repeat_length|].
  destruct (mimc_gadget arks HA bN p cs qP vIn vOut HO HP HV L1 L2 L3) as (cs' & E & HO' & HG & HI).
  destruct Hw as [Hg Has]. pose proof HG as (_ & _ & _ & HX & _). destruct (HX w Hg) as (w' & Hag & Hg').
  assert (Hm : forall l, vars cs l -> map w' l = map w l).
  { intros l Hl. apply map_ext_in. intros v Hv. symmetry. apply Hag, Hl, Hv. }
  rewrite !vars_app in HV. destruct HV as (V1 & V2 & V3).
  exists cs', w'. split; [exact E|]. rewrite !Hm by assumption. split; [|auto].
  split; [exact Hg'|]. apply (HI w' Hg'). split; [apply (asserts_ext cs w w' HO Hag); exact Has|].
  rewrite !Hm, W2, W3, W4 by assumption.
  assert (Er' : read_proof w' p = pf).
  { rewrite <- W1. unfold read_proof. destruct HP as (HV & _). rewrite !vars_app in HV. destruct HV as (X1 & X2 & X3). rewrite (Hm _ X2), (Hm _ X3).
    f_equal. apply map_ext_in. intros x Hx. apply map_ext_in. intros y Hy. apply Hm. intros v Hv. apply X1.
    apply in_concat. exists y. split; [apply in_concat; exists x; auto|exact Hv]. }
  rewrite Er'. apply P3.
Qed.

(** ** A statement that is wrong and accepted whatever the challenges *)
Definition one_cipher : list (Layer Fr) := NewCircuit [[MkWire 1 0 0 (CipherGate 0)]].

Definition one_inputs : list (list Fr) := [[0; 0; 0; 1]; [0; 0; - (1); 0]].

Lemma one_assign : Assign one_cipher one_inputs = Some [one_inputs; [[0; 1]; [- (1); 0]]].
Proof.
  destruct (assign_ok one_cipher 1 2 one_inputs) as (a & EA & Ha).
  - intros l [<-|[]]. apply NewLayer_wf.
  - split; [reflexivity|exact I].
  - right. intros l w [<-|[]] [<-|[]]. reflexivity.
  - intros inp [<-|[<-|[]]]; reflexivity.
  - rewrite EA. f_equal. destruct Ha as (L & H0 & H1). destruct a as [|a0 [|a1 [|? ?]]]; try discriminate L. cbn [nth] in H0. subst a0. do 2 f_equal.
    destruct (H1 0%nat _ eq_refl) as [L1 HT]. cbn [nth] in L1, HT. destruct a1 as [|t0 [|t1 [|? ?]]]; try discriminate L1.
    pose proof (last_value (F:=Fr) 0 2 _ _ (HT 0%nat ltac:(cbn; lia))) as [M0 V0]. pose proof (last_value (F:=Fr) 0 2 _ _ (HT 1%nat ltac:(cbn; lia))) as [M1 V1].
    cbn [nth] in M0, M1, V0, V1. destruct t0 as [|x0 [|x1 [|? ?]]]; try discriminate M0. destruct t1 as [|x2 [|x3 [|? ?]]]; try discriminate M1.
    pose proof (V0 0%nat ltac:(lia)) as E0. pose proof (V0 1%nat ltac:(lia)) as E1. pose proof (V1 0%nat ltac:(lia)) as E2. pose proof (V1 1%nat ltac:(lia)) as E3.
    cbn [nth Nat.add one_inputs] in E0, E1, E2, E3. 
    assert (F0 : x0 = 0) by (rewrite E0; apply fr_eq; vm_compute; reflexivity). assert (F1 : x1 = 1) by (rewrite E1; apply fr_eq; vm_compute; reflexivity).
    assert (F2 : x2 = - (1)) by (rewrite E2; apply fr_eq; vm_compute; reflexivity). assert (F3 : x3 = 0) by (rewrite E3; apply fr_eq; vm_compute; reflexivity). rewrite F0, F1, F2, F3. reflexivity.
Qed.

Lemma one_layer_ok l : In l one_cipher -> layer_ok l.
Proof. intros H. apply (mimc_layer_ok (F:=Fr) [] 0 l). exact H. Qed.

Lemma one_glued : glued 1 1 one_inputs = repeat (0 : Fr) (2 ^ 2) ++ bumped 1 0 1.
Proof.
  unfold bumped, glued, interleave. cbn [Nat.pow Nat.mul Nat.add seq map repeat app Nat.eqb length one_inputs Nat.modulo Nat.div Nat.divmod fst snd Nat.sub nth].
  repeat (apply f_equal2; [ring|]). reflexivity.
Qed.

Lemma one_zero (t r : Fr) : (1 - t) * 0 + t * 0 + fpow ((1 - r) * 0 + r * 0 + 0) 7 = 0.
Proof. cbn [fpow]. ring. Qed.

Theorem one_forged (ch : list Fr -> Fr) : exists pf, forall mm,
  GkrVerifyWith ch mm 2 one_cipher pf one_inputs [[0; 0]; [0; 0]] = Some true.
Proof.
  assert (Hch : chunked 1 1 1 one_inputs) by (split; [reflexivity|]; intros t [<-|[<-|[]]]; reflexivity).
  assert (Ha : assignment_of one_cipher (2 ^ 1) one_inputs [one_inputs; [[0; 1]; [- (1); 0]]]).
  { destruct (assign_ok one_cipher 1 2 one_inputs) as (a & EA & Ha).
    - intros l [<-|[]]. apply NewLayer_wf.
    - split; [reflexivity|exact I].
    - right. intros l w [<-|[]] [<-|[]]. reflexivity.
    - intros inp [<-|[<-|[]]]; reflexivity.
    - rewrite one_assign in EA. injection EA as <-. exact Ha. }
  destruct (zero_top ch (Fr_distinct_le 12 ltac:(lia)) 1 1 one_cipher 1 one_inputs _ one_layer_ok (conj eq_refl I) Hch Ha
    (mimc_last 0) [] (count 2) (repeat 0 4)) as (pf & _ & _ & HP).
  - discriminate.
  - reflexivity.
  - reflexivity.
  - reflexivity.
  - apply (mle_repeat 0 2). reflexivity.
  - change (lBGInputs (mimc_last 0)) with 1%nat. change (nth (length one_cipher - 1) _ _) with one_inputs.
    rewrite one_glued. exact (mimc_last_poly ch 0 (count 2) 1 0 0 1 (one_zero _ _)).
  - exists pf. intros mm. apply (accepted_verify ch mm 1 1 1 one_cipher (mimc_last 0) pf one_inputs _ (le_n 1)); try reflexivity.
    + discriminate.
    + exact Hch.
    + split; [reflexivity|]. intros t [<-|[<-|[]]]; reflexivity.
    + apply HP.
Qed.

Lemma one_claims : output_claim 2 1 (mimc_last 0) [[0; 1]; [- (1); 0]] <> output_claim 2 1 (mimc_last (0 : Fr)) [[0; 0]; [0; 0]].
Proof.
  intros E. apply (f_equal frval) in E. vm_compute in E. discriminate E.
Qed.

Theorem any_hash_forged : exists (c : list (Layer Fr)) l inputs a outputs,
  (forall l', In l' c -> layer_ok l') /\ fits 1 c /\ nth_error c (length c - 1) = Some l /\
  chunked 1 1 1 inputs /\ chunked 1 1 (lBGOutputs l) outputs /\ Assign c inputs = Some a /\
  output_claim 2 1 l (nth (length c) a []) <> output_claim 2 1 l outputs /\
  forall ch, exists pf, forall mm, GkrVerifyWith ch mm 2 c pf inputs outputs = Some true.
Proof.
  exists one_cipher, (mimc_last 0), one_inputs, [one_inputs; [[0; 1]; [- (1); 0]]], [[0; 0]; [0; 0]].
  split; [exact one_layer_ok|]. split; [exact (conj eq_refl I)|]. split; [reflexivity|].
  split; [split; [reflexivity|]; intros t [<-|[<-|[]]]; reflexivity|].
  split; [split; [reflexivity|]; intros t [<-|[<-|[]]]; reflexivity|].
  split; [exact one_assign|]. split; [exact one_claims|exact one_forged].
Qed.

Theorem gadget_forged_or_collision (arks : list Fr) bN : (91 <= length arks)%nat -> (2 <= bN)%nat -> (Z.of_nat bN < frModulus)%Z ->
  MimcHash arks (repeat 0 3) = MimcHash arks (repeat 0 9) \/
  exists c sc vi a, CreateMimcCircuit arks = Some c /\ SCreateMimcCircuit arks = Some sc /\ Assign c [vi] = Some a /\
    mle (nth 0 (nth 91 a []) []) (count bN) <> 0 /\
    forall cs p qP vIn vOut, AllocateGKRMimcTestCircuit bN sc = (cs, (p, qP, vIn, vOut)) ->
    forall q, length q = bN ->
    exists cs' w, SGkrAssertValid arks p sc [] qP vIn vOut cs = Some (tt, cs') /\ satisfied w cs' /\
      map w qP = q /\ map w vIn = vi /\ map w vOut = repeat 0 (2 ^ bN).
Proof.
  intros HA Hn HZ. rewrite !challenge_MimcHash by exact HA.
  destruct (feqb_spec Fr (challenge arks (repeat 0 3)) (challenge arks (repeat 0 9))) as [E|E]; [left; congruence|right].
  apply gadget_forged; assumption.
Qed.
