(** Lemmas about the tests of MTests.v: packages gkr and examples. *)
From Coq Require Import List Arith ZArith NArith Lia Bool Ring Field.
From Verif Require Import Field FrPrime Fr Go Trans MCommon MPoly Spec LSpec LPoly MCircuit SpecCircuit LCircuit LCircuit2 LCircuit3
  MSumcheck SpecSumcheck MSumPar SpecSumPar MGkr SpecGkr LGkr4 LGkr5 LGkr7 LForge MArk MHash SpecHash LHash LHash2 LHash3 MTests LTests.
Import ListNotations.

Section L.
  Context {F : Field}.
  Add Field FfieldTests2 : (f_theory F).
  Open Scope F_scope.

  Lemma claimWhole_follows nCore : follows_claim (F:=F) nCore claimWhole.
  Proof.
    intros p n k bG claim (H1 & H2 & H3 & H4 & H5 & H6 & _) HP _. unfold claimWhole.
    destruct (tEq p) as [|e te] eqn:Ee; [cbn in H2; lia|]. destruct (tVL p) as [|v tv] eqn:Ev; [cbn in H3; lia|].
    cbn [nth]. rewrite (H5 e) by (left; reflexivity). rewrite (H6 v) by (left; reflexivity).
    rewrite !Nat.log2_pow2 by lia. replace (bG + k - k)%nat with bG by lia. exact HP.
  Qed.

  (** ** gkr_test.go *)
  Definition pairOf (p : F * F) : list F := [fst p; snd p].
  Definition addMul (p : F * F) : F * F := (fst p + snd p, fst p * snd p).

  Lemma eval_addmul p : eval_chunk (NewLayer [MkWire 0 1 0 AddGate; MkWire 0 1 1 MulGate]) (pairOf p) = Some (pairOf (addMul p)).
  Proof.
    destruct p as [x y]. transitivity (Some [0 + (x + y); 0 + x * y]); [reflexivity|]. unfold pairOf, addMul. cbn [fst snd].
    replace (0 + (x + y)) with (x + y) by ring. replace (0 + x * y) with (x * y) by ring. reflexivity.
  Qed.
  Lemma eval_add p : eval_chunk (NewLayer [MkWire 0 1 0 AddGate]) (pairOf p) = Some [fst p + snd p].
  Proof.
    destruct p as [x y]. transitivity (Some [0 + (x + y)]); [reflexivity|]. cbn [fst snd].
    replace (0 + (x + y)) with (x + y) by ring. reflexivity.
  Qed.

  Lemma mapM_map {A B C} (f : B -> option C) (g : A -> B) (h : A -> C) l :
    (forall x, f (g x) = Some (h x)) -> mapM f (map g l) = Some (map h l).
  Proof. intros H. induction l as [|x l IH]; cbn; [reflexivity|]. rewrite H, IH. reflexivity. Qed.

  Lemma assign_gkr (ps : list (F * F)) : Assign testGKRCircuit (map pairOf ps)
    = Some [map pairOf ps; map (fun p => pairOf (addMul p)) ps; map (fun p => pairOf (addMul (addMul p))) ps].
  Proof.
    rewrite Assign_rec. unfold testGKRCircuit, NewCircuit. cbn [map assign_rec]. unfold LayerEvaluate.
    rewrite (mapM_map _ _ (fun p => pairOf (addMul p))) by apply eval_addmul.
    rewrite (mapM_map _ _ (fun p => pairOf (addMul (addMul p)))) by (intros; apply eval_addmul). reflexivity.
  Qed.
  Lemma assign_multi (ps : list (F * F)) : Assign testMultiBGsCircuit (map pairOf ps)
    = Some [map pairOf ps; map (fun p => pairOf (addMul p)) ps; map (fun p => [fst (addMul p) + snd (addMul p)]) ps].
  Proof.
    rewrite Assign_rec. unfold testMultiBGsCircuit, NewCircuit. cbn [map assign_rec]. unfold LayerEvaluate.
    rewrite (mapM_map _ _ (fun p => pairOf (addMul p))) by apply eval_addmul.
    rewrite (mapM_map _ _ (fun p => [fst (addMul p) + snd (addMul p)])) by (intros; apply eval_add). reflexivity.
  Qed.

  (** layers.go:91 reads row 1 at [N * N], which is out of range for two instances and more. *)
  Lemma eval_addmul_panics N (inp : list F) ws : (2 <= N)%nat -> length inp = (2 * N)%nat ->
    eval_chunk (MkLayer (MkWire 0 1 0 AddGate :: ws) (Gates (MkWire 0 1 0 AddGate :: ws)) 1 1) inp = None.
  Proof.
    intros HN HL. unfold eval_chunk. cbn [lBGInputs lBGOutputs Wires foldM wO wL wR wGate]. rewrite HL.
    assert (EN : (2 * N / 2 ^ 1)%nat = N) by (change (2 ^ 1)%nat with 2%nat; rewrite (Nat.mul_comm 2); apply Nat.div_mul; lia).
    rewrite EN.
    destruct N as [|N]; [lia|]. unfold forN at 1. cbn [seq foldM].
    rewrite (get_none inp (1 * S N * S N + 0)) by nia. destruct (get inp _); reflexivity.
  Qed.
  Lemma test_gkr_panics ch mtProve N bN (inputs : list (list F)) expected : (2 <= N)%nat -> inputs <> [] ->
    (forall t, In t inputs -> length t = (2 * N)%nat) ->
    TestGKR ch mtProve bN inputs expected = None /\ TestMultiBGs ch mtProve bN inputs expected = None.
  Proof.
    intros HN Hne HL. destruct inputs as [|t ts]; [congruence|].
    split; [unfold TestGKR, testGkr, testGkr_with, testGKRCircuit|unfold TestMultiBGs, testGkr, testGkr_with, testMultiBGsCircuit]; rewrite Assign_rec;
      unfold NewCircuit; cbn [map assign_rec]; unfold LayerEvaluate; cbn [mapM];
      unfold NewLayer at 1;
      change (BGInputs [MkWire 0 1 0 AddGate; MkWire 0 1 1 MulGate]) with 1%nat;
      change (BGOutputs [MkWire 0 1 0 AddGate; MkWire 0 1 1 MulGate]) with 1%nat;
      rewrite (eval_addmul_panics N t [MkWire 0 1 1 MulGate] HN (HL t (or_introl eq_refl))); reflexivity.
  Qed.
  (** One instance only, in one chunk: the verifier panics. *)
  Lemma test_gkr_one ch mtProve bN p (expected : list (list (list F))) :
    TestGKR ch mtProve bN [pairOf p] expected = None /\ TestMultiBGs ch mtProve bN [pairOf p] expected = None.
  Proof.
    pose proof (assign_gkr [p]) as E1. pose proof (assign_multi [p]) as E2. cbn [map] in E1, E2.
    split; [unfold TestGKR, testGkr, testGkr_with; rewrite E1|unfold TestMultiBGs, testGkr, testGkr_with; rewrite E2]; cbn [get nth_error];
      destruct (GkrProve _ _ _ _ _); [|reflexivity| |reflexivity]; unfold GkrVerify; rewrite verify_one_chunk; reflexivity.
  Qed.
End L.

Lemma addmul_ok (F : Field) : layer_ok (F:=F) (NewLayer [MkWire 0 1 0 AddGate; MkWire 0 1 1 MulGate]).
Proof.
  split; [apply NewLayer_wf|]. split; [split; [|intros w Hw; cbn in *; intuition (subst; auto)]|].
  - repeat constructor; cbn; intuition discriminate.
  - split; [right; discriminate|]. split; [|cbn; lia]. intros g [<-|[<-|[]]]; [apply add_ok|apply mul_ok].
Qed.
Lemma add_layer_ok (F : Field) : layer_ok (F:=F) (NewLayer [MkWire 0 1 0 AddGate]).
Proof.
  split; [apply NewLayer_wf|]. split; [split; [|intros w Hw; cbn in *; intuition (subst; auto)]|].
  - repeat constructor; cbn; intuition discriminate.
  - split; [right; discriminate|]. split; [|cbn; lia]. intros g [<-|[]]. apply add_ok.
Qed.

Lemma test_gkr (ch : list Fr -> Fr) mtProve k ps : follows_machine ch 1 (mtProve 1) -> 0 < k -> length ps = 2 ^ k ->
  TestGKR ch mtProve k (map pairOf ps)
    [map pairOf ps; map (fun p => pairOf (addMul p)) ps; map (fun p => pairOf (addMul (addMul p))) ps] = Some true.
Proof.
  intros HF Hk HL.
  destruct (gkr_complete_assign ch 1 (mtProve 1) testGKRCircuit 1 0 k (map pairOf ps)) as (a & pf & E1 & E2 & E3); auto.
  - discriminate.
  - intros l [<-|[<-|[]]]; apply addmul_ok.
  - repeat split.
  - split; [rewrite map_length; exact HL|]. intros t Ht. apply in_map_iff in Ht. destruct Ht as (p & <- & _). reflexivity.
  - left. reflexivity.
  - rewrite assign_gkr in E1. apply some_inj in E1. subst a. unfold TestGKR, testGkr, testGkr_with. rewrite assign_gkr. cbn [get nth_error].
    rewrite E2. change (length testGKRCircuit) with 2 in E3. cbn [Nat.add nth] in E3. rewrite E3. rewrite eqValues_refl. reflexivity.
Qed.
Lemma test_multi (ch : list Fr -> Fr) mtProve k ps : follows_machine ch 1 (mtProve 1) -> 0 < k -> length ps = 2 ^ k ->
  TestMultiBGs ch mtProve k (map pairOf ps)
    [map pairOf ps; map (fun p => pairOf (addMul p)) ps; map (fun p => [(fst (addMul p) + snd (addMul p))%F]) ps] = Some true.
Proof.
  intros HF Hk HL.
  destruct (gkr_complete_assign ch 1 (mtProve 1) testMultiBGsCircuit 1 0 k (map pairOf ps)) as (a & pf & E1 & E2 & E3); auto.
  - discriminate.
  - intros l [<-|[<-|[]]]; [apply addmul_ok|apply add_layer_ok].
  - repeat split.
  - split; [rewrite map_length; exact HL|]. intros t Ht. apply in_map_iff in Ht. destruct Ht as (p & <- & _). reflexivity.
  - left. reflexivity.
  - rewrite assign_multi in E1. apply some_inj in E1. subst a. unfold TestMultiBGs, testGkr, testGkr_with. rewrite assign_multi. cbn [get nth_error].
    rewrite E2. change (length testMultiBGsCircuit) with 2 in E3. cbn [Nat.add nth] in E3. rewrite E3. rewrite eqValues_refl. reflexivity.
Qed.

(** ** mimc_test.go *)
Section M.
  Context {F : Field}.
  Open Scope F_scope.

  Add Field FfieldTests3 : (f_theory F).
  Lemma comb_cipher (A x key : F) :
    key + fpow (x + A) 7 = 1 * suml (combine [1; 0] (lGates (mimc_mid A))) (fun sg => fst sg * geval (snd sg) key x).
  Proof. cbn. ring. Qed.
  Lemma comb_copy (A x key : F) :
    key = 1 * suml (combine [0; 1] (lGates (mimc_mid A))) (fun sg => fst sg * geval (snd sg) key x).
  Proof. cbn. ring. Qed.
  Lemma only_left (v w : F) : v = 1 * v + 0 * w.
  Proof. ring. Qed.

  Lemma zeros_bpoint n : repeat (0 : F) n = bpoint (repeat false n).
  Proof. induction n as [|n IH]; cbn; [reflexivity|]. f_equal. exact IH. Qed.
  Lemma bits_val_zeros n : bits_val (repeat false n) = 0%nat.
  Proof. rewrite <- to_bits_zero. apply bits_val_to_bits. pose proof (Nat.pow_nonzero 2 n). lia. Qed.

  (** The first instance of the first chunk *)
  Lemma glued_first m k (chunks : list (list F)) b r : (2 ^ b * 2 ^ m <> 0)%nat -> length chunks = (2 ^ k)%nat -> (r < 2 ^ b)%nat ->
    nth (r * 2 ^ (m + k)) (glued b m chunks) 0 = nth (r * 2 ^ m) (nth 0 chunks []) 0.
  Proof.
    intros HP HL Hr. unfold glued. pose proof (Nat.pow_nonzero 2 k ltac:(lia)). pose proof (Nat.pow_nonzero 2 m ltac:(lia)).
    replace (r * 2 ^ (m + k))%nat with (r * 2 ^ m * length chunks + 0)%nat by (rewrite HL, Nat.pow_add_r; lia).
    apply interleave_nth; [rewrite Nat.pow_add_r; nia|lia].
  Qed.
  Lemma mle_first m k (chunks : list (list F)) : length chunks = (2 ^ k)%nat ->
    mle (glued 0 m chunks) (repeat 0 (m + k)) = nth 0 (nth 0 chunks []) 0 /\
    mle (glued 1 m chunks) ([0] ++ repeat 0 (m + k)) = nth 0 (nth 0 chunks []) 0 /\
    mle (glued 1 m chunks) ([1] ++ repeat 0 (m + k)) = nth (2 ^ m) (nth 0 chunks []) 0.
  Proof.
    intros HL. pose proof (Nat.pow_nonzero 2 m ltac:(lia)).
    change ([0] ++ repeat 0 (m + k)) with (repeat (0 : F) (S (m + k))). rewrite !zeros_bpoint.
    change ([1] ++ bpoint (repeat false (m + k))) with (bpoint (F:=F) (true :: repeat false (m + k))).
    rewrite !mle_bpoint, !bits_val_zeros. cbn [bits_val]. rewrite bits_val_zeros, repeat_length, Nat.add_0_r.
    pose proof (glued_first m k chunks 0 0 ltac:(cbn; lia) HL ltac:(cbn; lia)) as G0.
    pose proof (glued_first m k chunks 1 0 ltac:(cbn; lia) HL ltac:(cbn; lia)) as G1.
    pose proof (glued_first m k chunks 1 1 ltac:(cbn; lia) HL ltac:(cbn; lia)) as G2.
    rewrite !Nat.mul_1_l in G2. auto.
  Qed.
End M.

Lemma test_mimc (ch : list Fr -> Fr) mtProve mtClaim m k inputs :
  follows_machine ch 1 (mtProve 1) -> follows_claim 1 (mtClaim 1) -> 0 < k -> chunked k m 1 inputs ->
  TestMimc ch mtProve mtClaim Arks (m + k) (2 ^ k) inputs = Some true.
Proof.
  intros HF HC Hk HI. pose proof HI as [HL HT].
  assert (PK : 2 ^ k <> 0) by (apply Nat.pow_nonzero; lia). assert (PM : 2 ^ m <> 0) by (apply Nat.pow_nonzero; lia).
  unfold TestMimc, TestMimc_with. rewrite CreateMimcCircuit_ok by (rewrite Arks_length; lia).
  set (c := mimc_layers (firstn 90 Arks) (nth 90 Arks 0%F)).
  assert (Lc : length c = 91) by reflexivity.
  destruct (gkr_complete_assign ch 1 (mtProve 1) c 1 m k inputs) as (a & pf & EA & EP & EV); auto.
  { intros E. rewrite E in Lc. discriminate. }
  { apply mimc_layer_ok. } { apply mimc_fits. } { apply mimc_right. }
  destruct (assign_ok c 1 (2 ^ m) inputs) as (a' & EA' & Ha).
  { intros l Hl. apply (mimc_layer_ok _ _ l Hl). } { apply mimc_fits. } { apply mimc_right. } { exact HT. }
  rewrite EA in EA'. apply some_inj in EA'. subst a'.
  rewrite EA. rewrite Lc in EV. pose proof Ha as (La & Ha0 & Hal).
  assert (EG : godiv (2 * 2 ^ (m + k)) (2 ^ k) = Some (2 * 2 ^ m)).
  { unfold godiv. destruct (2 ^ k) eqn:E; [congruence|]. rewrite <- E. f_equal. rewrite Nat.pow_add_r, Nat.mul_assoc. apply Nat.div_mul. congruence. }
  rewrite EG. replace (2 * 2 ^ m / 2) with (2 ^ m) by (rewrite (Nat.mul_comm 2), Nat.div_mul; lia).
  rewrite (get_nth a 91 []) by (rewrite La, Lc; lia).
  rewrite (get_nth inputs 0 []) by lia. assert (H0 : length (nth 0 inputs []) = 2 * 2 ^ m) by (apply HT, nth_In; lia).
  rewrite (get_nth _ 0 0%F) by (rewrite H0; lia). rewrite (get_nth _ (2 ^ m) 0%F) by (rewrite H0; lia).
  set (x := nth 0 (nth 0 inputs []) 0%F). set (key := nth (2 ^ m) (nth 0 inputs []) 0%F).
  assert (Lout : length (nth 91 a []) = 2 ^ k).
  { destruct (Hal 90 (mimc_last (nth 90 Arks 0%F)) eq_refl) as [H _]. rewrite H. exact HL. }
  assert (L1 : length (nth 1 a []) = 2 ^ k).
  { destruct (Hal 0 (mimc_mid (nth 0 (firstn 90 Arks) 0%F)) eq_refl) as [H _]. rewrite H. exact HL. }
  pose proof (mimc_assignment (firstn 90 Arks) (nth 90 Arks 0%F) (2 ^ m) inputs a Ha 0 ltac:(lia)) as HO. cbv zeta in HO.
  change (S (length (firstn 90 Arks))) with 91 in HO. destruct HO as [LO HO]. specialize (HO 0 ltac:(lia)).
  rewrite Nat.add_0_r in HO. fold x key in HO. rewrite firstn_91 in HO by (rewrite Arks_length; lia).
  rewrite MimcPermutation_ok by (rewrite Arks_length; lia).
  rewrite (get_nth (nth 91 a []) 0 []) by lia. rewrite (get_nth (nth 0 (nth 91 a []) []) 0 0%F) by lia. rewrite HO, feqb_refl.
  rewrite (get_nth a 1 []) by (rewrite La, Lc; lia).
  set (l0 := mimc_mid (nth 0 (firstn 90 Arks) 0%F)). assert (El0 : get c 0 = Some l0) by reflexivity. rewrite El0.
  destruct (Hal 0 l0 eq_refl) as [_ HT0]. specialize (HT0 0 ltac:(lia)). rewrite Ha0 in HT0.
  destruct (mid_value _ _ _ _ HT0 0 ltac:(lia)) as [V0 V1]. rewrite Nat.add_0_r in V0, V1. fold x key in V0, V1.
  assert (LR : length (nth 0 (nth 1 a []) []) = 2 * 2 ^ m) by (apply HT0).
  rewrite !combinator_sum by (cbn; lia).
  rewrite (get_nth (nth 1 a []) 0 []) by lia. rewrite (get_nth (nth 0 (nth 1 a []) []) 0 0%F) by (rewrite LR; lia).
  rewrite (get_nth (nth 0 (nth 1 a []) []) (2 ^ m) 0%F) by (rewrite LR; lia).
  assert (HCl : forall l, In l c -> claimable l).
  { intros l Hl. destruct (mimc_layer_ok _ _ l Hl) as (H1 & H2 & H3 & H4 & _). repeat (split; [assumption|]). intros g Hg. apply H4, Hg. }
  destruct (mle_first m k (nth 1 a []) L1) as (_ & M0 & M1). destruct (mle_first m k (nth 91 a []) Lout) as (M2 & _).
  destruct (intermediate_claim c 1 m k 1 inputs a ltac:(lia) HCl (mimc_fits _ _) HI Ha 0 l0 (repeat 0%F (m + k)) [0%F] [0%F] 1%F 0%F eq_refl)
    as (p0 & EP0 & OK0 & GC0 & CL0); [apply repeat_length|reflexivity..|].
  destruct (intermediate_claim c 1 m k 1 inputs a ltac:(lia) HCl (mimc_fits _ _) HI Ha 0 l0 (repeat 0%F (m + k)) [1%F] [0%F] 1%F 0%F eq_refl)
    as (p1 & EP1 & OK1 & GC1 & CL1); [apply repeat_length|reflexivity..|].
  destruct (initial_claim c 1 m k 1 inputs a ltac:(lia) HCl (mimc_fits _ _) HI Ha (mimc_last (nth 90 Arks 0%F)) (repeat 0%F (m + k)) [] eq_refl)
    as (p2 & EP2 & OK2 & GC2 & CL2); [apply repeat_length|reflexivity..|].
  rewrite EP0, EP1, (HC _ _ _ _ _ OK0 GC0 CL0), (HC _ _ _ _ _ OK1 GC1 CL1), EP2, (HC _ _ _ _ _ OK2 GC2 CL2).
  rewrite EP, EV. change (lBGOutputs l0) with 1. change (lBGOutputs (mimc_last (nth 90 Arks 0%F))) with 0.
  rewrite Lc. cbn [app]. cbn [app] in M0, M1. rewrite M2, M0, M1, HO. rewrite feqb_refl.
  rewrite V0, V1. rewrite !andb_true_r. f_equal.
  repeat (apply andb_true_intro; split); try apply feqb_eq;
    [reflexivity|apply comb_cipher|apply comb_copy|apply only_left|apply only_left].
Qed.

(** One chunk only *)
Lemma test_mimc_one (F : Field) (ch : list F -> F) mtProve mtClaim arks bN inputs : length inputs = 1 -> (91 <= length arks)%nat ->
  TestMimc ch mtProve mtClaim arks bN 1 inputs = None.
Proof.
  intros HL HA. destruct inputs as [|inp [|? ?]]; try discriminate. unfold TestMimc, TestMimc_with.
  rewrite CreateMimcCircuit_ok by exact HA. set (c := mimc_layers (firstn 90 arks) (nth 90 arks 0%F)).
  assert (Lc : length c = 91).
  { unfold c, mimc_layers. rewrite app_length, map_length, firstn_length. cbn [length]. lia. }
  destruct (godiv _ _) as [s|]; [|reflexivity].
  destruct (Assign c [inp]) as [a|] eqn:EA; [|reflexivity].
  assert (HO : forall o, get a 91 = Some o -> exists t, o = [t]).
  { rewrite Assign_rec in EA. rewrite <- Lc. clearbody c. clear Lc HA HL. revert inp a EA. induction c as [|l c IH]; intros inp a EA o.
    - cbn in EA. injection EA as <-. cbn. intros H. injection H as <-. eauto.
    - cbn [assign_rec] in EA. unfold LayerEvaluate in EA. cbn [mapM] in EA. destruct (eval_chunk l inp) as [y|]; [|discriminate].
      destruct (assign_rec c [y]) as [r|] eqn:ER; [|discriminate]. injection EA as <-. cbn [length get nth_error]. apply (IH y r ER). }
  destruct (get a 91) as [o|]; [|reflexivity]. destruct (HO o eq_refl) as (t & ->).
  repeat match goal with |- (match ?e with Some _ => _ | None => None end) = None =>
    match e with GkrVerify _ _ _ _ _ _ => unfold GkrVerify; rewrite verify_one_chunk; reflexivity
    | _ => destruct e; [|reflexivity] end end.
Qed.

Lemma random_inputs (F : Field) (rnd : nat -> F) m k : exists inputs, randomInputs rnd (2 ^ k) (m + k) = Some inputs /\ chunked k m 1 inputs /\
  forall i j, i < 2 ^ k -> j < 2 * 2 ^ m -> nth j (nth i inputs []) 0%F = rnd (i * (2 * 2 ^ m) + j).
Proof.
  assert (PK : 2 ^ k <> 0) by (apply Nat.pow_nonzero; lia).
  unfold randomInputs.
  assert (EG : godiv (2 * 2 ^ (m + k)) (2 ^ k) = Some (2 * 2 ^ m)).
  { unfold godiv. destruct (2 ^ k) eqn:E; [congruence|]. rewrite <- E. f_equal. rewrite Nat.pow_add_r, Nat.mul_assoc. apply Nat.div_mul. congruence. }
  rewrite EG. eexists. split; [reflexivity|]. split.
  - split; [rewrite map_length, seq_length; reflexivity|]. intros t Ht. apply in_map_iff in Ht. destruct Ht as (i & <- & _).
    rewrite map_length, seq_length. reflexivity.
  - intros i j Hi Hj. rewrite (nth_map_seq _ _ _ []) by exact Hi. rewrite nth_map_seq by exact Hj. reflexivity.
Qed.

Lemma benchmark_mimc (ch : list Fr -> Fr) mtProve rnd m k nCore : 0 < nCore -> follows_machine ch nCore (mtProve nCore) -> 0 < k ->
  exists c inputs a pf, CreateMimcCircuit Arks = Some c /\ randomInputs rnd (2 ^ k) (m + k) = Some inputs /\ Assign c inputs = Some a /\
    benchmarkMIMCCircuit ch mtProve Arks rnd (m + k) nCore (2 ^ k) = Some pf /\
    GkrVerify ch (m + k) c pf inputs (nth 91 a []) = Some true.
Proof.
  intros H1 H2 H3. destruct (random_inputs Fr rnd m k) as (inputs & EI & HI & _).
  destruct (mimc_gkr_complete ch nCore (mtProve nCore) m k inputs H1 H2 H3 HI) as (c & a & pf & E1 & E2 & E3 & E4).
  exists c, inputs, a, pf. unfold benchmarkMIMCCircuit. rewrite E1, EI, E2, E3. auto.
Qed.
