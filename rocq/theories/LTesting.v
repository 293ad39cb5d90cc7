From Coq Require Import List Arith ZArith NArith Lia Bool.
From Verif Require Import Field FrPrime Fr Go Trans MCommon MPoly Spec LSpec LPoly LPoly2 LPoly3 MCircuit SpecCircuit LCircuit MSumcheck
  SpecSumcheck LSumcheck4 LSumcheck5 MSumPar SpecSumPar LCommon LSumPar4 MString MTesting.
Import ListNotations.

(** The tables of the gates after the fold at 2 *)
Definition foldedStatics : list (list Fr) := [[0%F; 0%F; two; 0%F]; [0%F; 0%F; (1 - two)%F; 0%F]].

Lemma test_statics : testStatics = Some foldedStatics.
Proof.
  assert (E : forall a b, option_map (map (map frval)) a = option_map (map (map frval)) b -> a = b).
  { assert (Ei : forall x y : list Fr, map frval x = map frval y -> x = y).
    { induction x as [|x l IH]; intros [|y r] H; try discriminate; [reflexivity|].
      cbn in H. injection H as H1 H2. f_equal; [apply fr_eq; exact H1|apply IH; exact H2]. }
    assert (Ej : forall x y : list (list Fr), map (map frval) x = map (map frval) y -> x = y).
    { induction x as [|x l IH]; intros [|y r] H; try discriminate; [reflexivity|].
      cbn in H. injection H as H1 H2. f_equal; [apply Ei; exact H1|apply IH; exact H2]. }
    intros [a|] [b|] H; try discriminate; [|reflexivity]. cbn in H. injection H as H. f_equal. apply Ej. exact H. }
  apply E. vm_compute. reflexivity.
Qed.

Lemma test_gates_ok g : In g testGates -> gate_ok g.
Proof. intros [<-|[<-|[]]]; [apply copy_ok|apply cipher_ok]. Qed.

Definition testV (bN : nat) : list Fr := map (fun i => Uint64ToFr (N.of_nat i)) (seq 0 (2 ^ (bN + 1))).

Lemma test_vchunks bN c : c <= bN ->
  exists vL, mapM (fun k => size <- godiv (2 ^ (bN + 1)) (2 ^ c) ;;
      Some (map (fun i => Uint64ToFr (N.of_nat (k + 2 ^ c * i))) (seq 0 size))) (seq 0 (2 ^ c)) = Some vL /\
    length vL = 2 ^ c /\ (forall x, In x vL -> length x = 2 ^ (1 + (bN - c))) /\ interleave (2 ^ (1 + (bN - c))) vL = testV bN.
Proof.
  intros Hc. set (k := 1 + (bN - c)).
  assert (E : 2 ^ (bN + 1) = 2 ^ k * 2 ^ c) by (rewrite <- Nat.pow_add_r; f_equal; unfold k; lia).
  assert (H2 : 2 ^ c <> 0) by (apply Nat.pow_nonzero; lia).
  exists (map (fun s => map (fun i => Uint64ToFr (N.of_nat (s + 2 ^ c * i))) (seq 0 (2 ^ k))) (seq 0 (2 ^ c))).
  split.
  { assert (Ed : godiv (2 ^ (bN + 1)) (2 ^ c) = Some (2 ^ k)).
    { unfold godiv. rewrite E, Nat.div_mul by exact H2. destruct (2 ^ c); [contradiction|reflexivity]. }
    rewrite Ed. generalize (seq 0 (2 ^ c)). induction l as [|s l IH]; [reflexivity|].
    cbn [mapM map]. rewrite IH. reflexivity. }
  split; [rewrite map_length, seq_length; reflexivity|]. split.
  { intros x Hx. apply in_map_iff in Hx. destruct Hx as (s & <- & _). rewrite map_length, seq_length. reflexivity. }
  symmetry. apply interleave_eq; rewrite map_length, seq_length.
  - unfold testV. rewrite map_length, seq_length. exact E.
  - intros u s Hu Hs. unfold testV. rewrite !nth_map_seq by (try rewrite E; nia).
    f_equal. f_equal. lia.
Qed.

Lemma test_values bN c : c <= bN ->
  exists p s, InitializeMultiThreadedProver bN (2 ^ c) = Some p /\ InitializeProverForTests bN = Some s /\
    mt_ok p (2 ^ c) (bN - c) 1 /\ whole p (bN - c) 1 = s.
Proof.
  intros Hc.
  destruct (chunked_eq_spec Fr (repeat two bN) c 1 ltac:(lia) ltac:(rewrite repeat_length; exact Hc))
    as (chunks & t & E1 & E2 & HL & HS & HN).
  rewrite repeat_length in HS, HN.
  destruct (test_vchunks bN c Hc) as (vL & E3 & HvL & Hv & Hi).
  unfold InitializeMultiThreadedProver, InitializeProverForTests.
  rewrite E1, E2, test_statics, E3.
  assert (Em : map DeepCopy vL = vL) by (apply map_id). rewrite Em.
  eexists. eexists. split; [reflexivity|]. split; [reflexivity|]. split.
  - unfold mt_ok. cbn [tEq tVL tVR tStatic tGates].
    split; [pose proof (Nat.pow_nonzero 2 c); lia|].
    split; [exact HL|]. split; [exact HvL|]. split; [exact HvL|]. split.
    { intros x Hx. destruct (In_nth _ _ [] Hx) as (s & Hs & <-). apply HS. lia. }
    split; [exact Hv|]. split; [exact Hv|]. split; [reflexivity|]. split.
    { intros tab [<-|[<-|[]]]; reflexivity. }
    split; [right; discriminate|]. intros g Hg. apply (test_gates_ok g Hg).
  - unfold whole. cbn [tEq tVL tVR tStatic tGates]. rewrite Hi.
    destruct (eq_table_spec Fr (repeat two bN)) as (t' & E2' & Ht & _). rewrite E2 in E2'. injection E2' as <-.
    rewrite repeat_length in Ht.
    rewrite <- (interleave_eq (2 ^ (bN - c)) chunks t); [reflexivity| |].
    + rewrite HL, Ht, <- Nat.pow_add_r. f_equal. lia.
    + intros u s Hu Hs. rewrite HL in Hs |- *. symmetry. apply HN; assumption.
Qed.

Lemma test_single bN : exists eq, GetFoldedEqTable (repeat two bN) = Some eq /\
  InitializeProverForTests bN = Some (NewSingleThreadedProver (testV bN) (testV bN) eq testGates foldedStatics) /\
  tables_ok 1 1 bN testGates foldedStatics eq (testV bN) (testV bN).
Proof.
  destruct (eq_table_spec Fr (repeat two bN)) as (eq & E & HL & _). exists eq. split; [exact E|].
  unfold InitializeProverForTests. rewrite E, test_statics. split; [reflexivity|].
  rewrite repeat_length in HL. unfold tables_ok. unfold testV. rewrite map_length, seq_length.
  split; [exact HL|]. split; [f_equal; lia|]. split; [f_equal; lia|]. split; [reflexivity|].
  intros tab [<-|[<-|[]]]; reflexivity.
Qed.

(** The test TestMultiThreaded of sumcheck/par_test.go, for every size, number of chunks, numbers of cores and schedule;
    [b] is the unused argument of Verify. *)
Lemma test_multi_threaded (ch : list Fr -> Fr) bN c nCore1 nCore2 b : c <= bN -> 0 < nCore1 -> 0 < nCore2 ->
  exists p s claim proof qP qL qR fc fin,
    InitializeMultiThreadedProver bN (2 ^ c) = Some p /\ InitializeProverForTests bN = Some s /\
    GetClaim s = Some claim /\ must (claim_step p nCore1) (fun st => cmn st = CRet claim) (claim_init p nCore1) /\
    Prove ch s = Some (proof, qP, qL, qR, fc) /\
    mtPrepare p = Some (2 ^ c, 1, 2 + (bN - c), c) /\
    must (mt_step ch p nCore2 (2 ^ c) 1 (2 + (bN - c)) c) (fun st => main st = MEnd (proof, qP, qL, qR, fc)) (mt_init nCore2 (2 ^ c)) /\
    Verify ch claim proof b 1 = Some (Accept qP qL qR fin) /\
    length proof = 2 + bN /\ map (@length Fr) proof = [3; 9] ++ repeat 9 bN.
Proof.
  intros Hc H1 H2. destruct (test_values bN c Hc) as (p & s & Ep & Es & Hok & Hw).
  destruct (test_single bN) as (eq & Eeq & Es' & HT). rewrite Es in Es'. injection Es' as Es'.
  destruct (complete_Fr ch bN 1 _ _ _ _ _ HT ltac:(right; discriminate) test_gates_ok ltac:(cbn; lia))
    as (proof & qP & qL & qR & HP & HC & HV & HE & HL & _ & _ & _ & HD).
  rewrite <- Es' in HP, HC.
  exists p, s. do 7 eexists. split; [exact Ep|]. split; [exact Es|]. split; [exact HC|].
  destruct (mt_claim p (2 ^ c) (bN - c) 1 nCore1 Hok H1) as (cl & Ecl & HM). rewrite Hw, HC in Ecl. injection Ecl as <-.
  split; [apply (must_mono _ _ _ _ (fun st Hs => proj1 Hs) HM)|].
  split; [exact HP|]. rewrite <- Hw in HP.
  destruct (mt_same_result ch p (2 ^ c) (bN - c) 1 nCore2 _ Hok H2 HP) as [Epp HM2]. rewrite log2ceil_pow2 in Epp, HM2.
  split; [exact Epp|]. split; [apply (must_mono _ _ _ _ (fun st Hs => proj1 Hs) HM2)|].
  split; [exact HV|]. split; [lia|]. exact HD.
Qed.

Lemma test_panics bN nChunks : (2 ^ bN < nChunks \/ (forall k, nChunks <> 2 ^ k)) ->
  InitializeMultiThreadedProver bN nChunks = None.
Proof.
  intros H. unfold InitializeMultiThreadedProver. rewrite chunked_eq_panics; [reflexivity|].
  rewrite repeat_length. exact H.
Qed.

Section Algebra.
  Context {F : Field}.
  Add Field FfieldT : (f_theory F).
  Open Scope F_scope.
  Lemma claim_summand (e t l0 l1 r0 r1 : F) :
    sumn 2 (fun l => sumn 2 (fun r => e * suml (combine [CopyGate; CipherGate t] [[0; 0; t; 0]; [0; 0; 1 - t; 0]]) (fun gs =>
      nth (l * 2 + r) (snd gs) 0 * geval (fst gs) (nth l [l0; l1] 0) (nth r [r0; r1] 0))))
    = e * (t * l1 + (1 - t) * (l1 + fpow (r0 + t) 7)).
  Proof. cbn. ring. Qed.
End Algebra.

(** The value of the claim: copy gates weighted by 2 and ciphers by 1 - 2, between the rows 1 and 0 *)
Lemma test_claim bN s : InitializeProverForTests bN = Some s ->
  exists eq, GetFoldedEqTable (repeat two bN) = Some eq /\
  GetClaim s = Some (sumn (2 ^ bN) (fun h =>
    let t : Fr := mkfr 2 in
    let vL : Fr := mkfr (Z.of_nat (2 ^ bN + h)) in
    let vR : Fr := mkfr (Z.of_nat h) in
    (nth h eq 0 * (t * vL + (1 - t) * (vL + fpow (vR + t) 7)))%F)).
Proof.
  intros E. destruct (test_single bN) as (eq & Eeq & Es & HT). rewrite E in Es. injection Es as ->.
  exists eq. split; [exact Eeq|].
  destruct HT as (T1 & T2 & T3 & T4 & T5).
  rewrite (getclaim_ok (2 ^ bN) 2); [| pose proof (Nat.pow_nonzero 2 bN); lia | exact T1 | rewrite T2, Nat.pow_add_r; reflexivity
    | rewrite T3, Nat.pow_add_r; reflexivity | exact T4 | exact T5].
  f_equal. unfold table_sum. apply sumn_ext. intros h Hh.
  assert (Hn : forall j, j < 2 ^ (bN + 1) -> nth j (testV bN) 0%F = mkfr (Z.of_nat j)).
  { intros j Hj. unfold testV. rewrite nth_map_seq by exact Hj. unfold Uint64ToFr. f_equal. rewrite nat_N_Z. reflexivity. }
  assert (E2 : 2 ^ (bN + 1) = 2 ^ bN + 2 ^ bN) by (rewrite Nat.add_comm; cbn; lia).
  cbv zeta.
  rewrite <- (Hn (2 ^ bN + h)), <- (Hn h) by lia.
  rewrite <- (claim_summand (nth h eq 0%F) (mkfr 2 : Fr) (nth h (testV bN) 0%F) (nth (2 ^ bN + h) (testV bN) 0%F)
    (nth h (testV bN) 0%F) (nth (2 ^ bN + h) (testV bN) 0%F)).
  apply sumn_ext. intros l Hl. apply sumn_ext. intros r Hr.
  destruct l as [|[|l]]; [| |lia]; (destruct r as [|[|r]]; [| |lia]); rewrite ?Nat.mul_0_l, ?Nat.mul_1_l, ?Nat.add_0_l; reflexivity.
Qed.
