(** Lemmas about the tests of MTests.v: packages polynomial and sumcheck. *)
From Coq Require Import List Arith ZArith NArith Lia Bool Ring Field.
From Verif Require Import Field FrPrime Fr Go MCommon MPoly Spec LSpec LPoly LPoly2 LPoly3 MCircuit SpecCircuit LCircuit MSumcheck SpecSumcheck
  LSumcheck LSumcheck4 LSumcheck5 MTesting LTesting MTests.
Import ListNotations.

Lemma some_inj {A} (x y : A) : Some x = Some y -> x = y.
Proof. congruence. Qed.

Section L.
  Context {F : Field}.
  Add Field FfieldTests : (f_theory F).
  Open Scope F_scope.

  Lemma eqList_refl {A} (eqA : A -> A -> bool) (l : list A) : (forall x, eqA x x = true) -> eqList eqA l l = true.
  Proof. intros H. induction l as [|x l IH]; cbn; [reflexivity|]. rewrite H, IH. reflexivity. Qed.
  Lemma eqTable_refl (t : list F) : eqTable t t = true.
  Proof. apply eqList_refl, feqb_refl. Qed.
  Lemma eqValues_refl (a : list (list (list F))) : eqValues a a = true.
  Proof. apply eqList_refl. intros x. apply eqList_refl, eqTable_refl. Qed.

  Lemma checkAll_true {A} (f : A -> option bool) l : (forall x, In x l -> f x = Some true) -> checkAll f l = Some true.
  Proof.
    intros H. unfold checkAll.
    assert (G : forall b, foldM (fun ok x => y <- f x ;; Some (ok && y)) l b = Some b).
    { induction l as [|x l IH]; intros b; cbn; [reflexivity|]. rewrite H by (left; reflexivity). rewrite andb_true_r.
      apply IH. intros y Hy. apply H. right. exact Hy. }
    apply G.
  Qed.
  Lemma checkAll_none {A} (f : A -> option bool) l : l <> [] -> (forall x, In x l -> f x = None) -> checkAll f l = None.
  Proof. destruct l as [|x l]; [congruence|]. intros _ H. unfold checkAll. cbn. rewrite H by (left; reflexivity). reflexivity. Qed.

  Lemma test_linear_combination n i0 i1 : TestLinearCombination (F:=F) n i0 i1 = Some true.
  Proof.
    unfold TestLinearCombination.
    set (t0 := map (fun i => fnat i) (seq 0 n) : list F). set (t1 := map (fun i => fnat (i * i + 3 * i + 2)) (seq 0 n) : list F).
    assert (L0 : length t0 = n) by (unfold t0; rewrite map_length, seq_length; reflexivity).
    assert (L1 : length t1 = n) by (unfold t1; rewrite map_length, seq_length; reflexivity).
    destruct (linear_combination_spec F t0 t1 (fnat i0) (fnat i1)) as (a & b & E & LB & HB & _); [congruence|].
    rewrite E. f_equal. replace b with (map (fun i => fnat (i0 * i + i1 * (i * i + 3 * i + 2))) (seq 0 n) : list F); [apply eqTable_refl|].
    apply (list_ext 0); [rewrite map_length, seq_length; congruence|]. intros i Hi. rewrite map_length, seq_length in Hi.
    rewrite nth_map_seq by exact Hi. rewrite HB by lia. unfold t0, t1. rewrite !nth_map_seq by exact Hi.
    rewrite !fnat_add, !fnat_mul, !fnat_add, !fnat_mul. reflexivity.
  Qed.

  Lemma test_fold m (r : F) : (2 <= m)%nat -> TestFold m r (r * fnat m) (1 + r * fnat m) = Some true.
  Proof.
    intros Hm. unfold TestFold, TestFold_with. set (t := map (fun i => fnat i) (seq 0 (2 * m)) : list F).
    destruct (fold_spec F t r m) as (t' & E & L & H); [unfold t; rewrite map_length, seq_length; reflexivity|].
    rewrite E. rewrite (get_nth t' 0 0) by lia. rewrite (get_nth t' 1 0) by lia. rewrite !H by lia. unfold t.
    rewrite !nth_map_seq by lia. rewrite !fnat_add. f_equal. apply andb_true_intro. split; apply feqb_eq; cbn [fnat]; ring.
  Qed.
  (** With fewer entries the test panics. *)
  Lemma test_fold_short m (r e0 e1 : F) : (m < 2)%nat -> TestFold m r e0 e1 = None.
  Proof.
    intros Hm. unfold TestFold, TestFold_with. destruct (fold_spec F (map (fun i => fnat i) (seq 0 (2 * m))) r m) as (t' & E & L & _); [rewrite map_length, seq_length; reflexivity|].
    rewrite E. rewrite (get_none t' 1) by lia. destruct (get t' 0); reflexivity.
  Qed.

  Lemma test_func_eval m : (2 <= m)%nat -> TestFuncEval (F:=F) m (fnat m) = Some true.
  Proof.
    intros Hm. unfold TestFuncEval, TestFuncEval_with. rewrite FunctionEvals_spec. rewrite map_length, seq_length.
    replace (2 * m / 2)%nat with m by (rewrite Nat.mul_comm, Nat.div_mul; lia).
    rewrite !(get_nth _ _ 0) by (rewrite map_length, seq_length; lia). rewrite !nth_map_seq by lia.
    rewrite !fnat_add. f_equal. apply andb_true_intro. split; apply feqb_eq; cbn [fnat]; ring.
  Qed.

  Lemma mod_lt x n : (0 < n)%nat -> (N.to_nat (x mod N.of_nat n) < n)%nat.
  Proof. intros H. assert (x mod N.of_nat n < N.of_nat n)%N by (apply N.mod_lt; lia). lia. Qed.

  (** The test compares two functions with each other: it passes for every table and its chunks. *)
  Lemma test_chunked_any (getChunked : list F -> nat -> nat -> option (list (list F))) (getFolded : list F -> option (list F))
      logSize logNChunks (qPrime : list F) hs mixed chunks t :
    (0 < logNChunks <= logSize)%nat ->
    getChunked qPrime (2 ^ logNChunks)%nat 1%nat = Some chunks -> getFolded qPrime = Some t ->
    length t = (2 ^ logSize)%nat -> length chunks = (2 ^ logNChunks)%nat ->
    (forall c, In c chunks -> length c = 2 ^ (logSize - logNChunks))%nat ->
    (forall u s, (u < 2 ^ (logSize - logNChunks))%nat -> (s < 2 ^ logNChunks)%nat ->
       nth u (nth s chunks []) 0 = nth (u * 2 ^ logNChunks + s)%nat t 0) ->
    (forall h, In h hs -> length h = logSize) ->
    (forall hC hL hR, In (hC, hL, hR) mixed -> (logNChunks <= length hC)%nat /\ (length hL + length hC = logSize)%nat /\ length hR = length hL) ->
    TestChunked_with getChunked getFolded Evaluate EvaluateChunked EvaluateMixedChunked EvaluateLeftAndRight
      logSize logNChunks qPrime hs mixed = Some true.
  Proof.
    intros [H0 H1] E1 E2 LT L1 LC HE Hh Hm. unfold TestChunked_with, gosub. replace (logNChunks <=? logSize) with true by (symmetry; apply Nat.leb_le; exact H1).
    set (k := logNChunks) in *. set (m := (logSize - k)%nat) in *.
    assert (L2 : forall s, (s < 2 ^ k)%nat -> length (nth s chunks []) = (2 ^ m)%nat).
    { intros s Hs. apply LC, nth_In. lia. }
    rewrite E1, E2.
    assert (PK : (0 < 2 ^ k)%nat) by (pose proof (Nat.pow_nonzero 2 k); lia).
    assert (PM : (0 < 2 ^ m)%nat) by (pose proof (Nat.pow_nonzero 2 m); lia).
    assert (PP : (2 ^ logSize = 2 ^ m * 2 ^ k)%nat) by (rewrite <- Nat.pow_add_r; f_equal; unfold m; lia).
    assert (HI : interleave (2 ^ m) chunks = t).
    { symmetry. apply interleave_eq; [rewrite LT, L1; exact PP|]. intros u s Hu Hs. rewrite L1 in *. symmetry. apply HE; assumption. }
    rewrite (get_nth t 0 0) by lia. rewrite (get_nth chunks 0 []) by lia. rewrite (get_nth (nth 0 chunks []) 0 0) by (rewrite L2; lia).
    rewrite (get_nth t (2 ^ logSize - 1) 0) by lia. rewrite (get_nth chunks (2 ^ k - 1) []) by lia.
    rewrite (get_nth (nth (2 ^ k - 1) chunks []) (2 ^ m - 1) 0) by (rewrite L2; lia).
    rewrite !HE by lia. replace ((2 ^ m - 1) * 2 ^ k + (2 ^ k - 1))%nat with (2 ^ logSize - 1)%nat by (rewrite PP; nia).
    replace (0 * 2 ^ k + 0)%nat with 0%nat by lia. rewrite !feqb_refl.
    rewrite checkAll_true.
    2:{ intros i Hi. apply in_seq in Hi. rewrite map_length in Hi. cbn [length] in Hi. rewrite !(get_nth _ i 0%nat) by (rewrite map_length; cbn [length]; lia).
        rewrite !(nth_map_lt _ _ i 0%nat 0%N) by (cbn [length]; lia).
        set (u := N.to_nat (_ mod N.of_nat (2 ^ m))). set (s := N.to_nat (_ mod N.of_nat (2 ^ k))).
        assert (Hu : (u < 2 ^ m)%nat) by (apply mod_lt; exact PM). assert (Hs : (s < 2 ^ k)%nat) by (apply mod_lt; exact PK).
        rewrite (get_nth t _ 0) by (rewrite LT, PP; nia). rewrite (get_nth chunks s []) by lia. rewrite (get_nth (nth s chunks []) u 0) by (rewrite L2; lia).
        rewrite HE by assumption. rewrite feqb_refl. reflexivity. }
    rewrite checkAll_true.
    2:{ intros h Hh'. specialize (Hh h Hh'). destruct (evaluate_chunked_spec F chunks h k m H0 L1 LC ltac:(unfold m; lia)) as [E3 E4].
        rewrite E4, HI. rewrite Evaluate_mle by (rewrite LT; f_equal; lia). rewrite feqb_refl. reflexivity. }
    rewrite checkAll_true; [reflexivity|].
    intros [[hC hL] hR] Hin. destruct (Hm _ _ _ Hin) as (M1 & M2 & M3).
    destruct (evaluate_mixed_chunked_spec F chunks hC hL hR k (length hC - k) (length hL) H0 L1) as [E3 E4]; [|lia|reflexivity|exact M3|].
    { intros c Hc. rewrite (LC c Hc). f_equal. unfold m. lia. }
    rewrite E4. replace (length hL + (length hC - k))%nat with m by (unfold m; lia). rewrite HI.
    rewrite EvaluateLeftAndRight_mle by (try lia; rewrite LT; f_equal; lia). rewrite !feqb_refl. reflexivity.
  Qed.


  Lemma test_chunked logSize logNChunks (qPrime : list F) hs mixed :
    (0 < logNChunks <= logSize)%nat -> length qPrime = logSize ->
    (forall h, In h hs -> length h = logSize) ->
    (forall hC hL hR, In (hC, hL, hR) mixed -> (logNChunks <= length hC)%nat /\ (length hL + length hC = logSize)%nat /\ length hR = length hL) ->
    TestChunked logSize logNChunks qPrime hs mixed = Some true.
  Proof.
    intros H Hq Hh Hm.
    destruct (chunked_eq_spec F qPrime logNChunks 1) as (chunks & t & E1 & E2 & L1 & L2 & HE); [lia|lia|].
    destruct (eq_table_spec F qPrime) as (t' & E2' & LT & _ & _). rewrite E2 in E2'. injection E2' as <-.
    rewrite Hq in LT, L2, HE.
    apply test_chunked_any with (chunks := chunks) (t := t); try assumption.
    intros c Hc. apply (In_nth _ _ []) in Hc. destruct Hc as (s & Hs & <-). apply L2. lia.
  Qed.

  (** More chunks than entries of the shared point: EvaluateMixedChunked panics. *)
  Lemma test_chunked_mixed logSize logNChunks (qPrime : list F) hs mixed :
    (0 < logNChunks <= logSize)%nat -> length qPrime = logSize ->
    (forall h, In h hs -> length h = logSize) -> mixed <> [] ->
    (forall hC hL hR, In (hC, hL, hR) mixed -> (length hC < logNChunks)%nat) ->
    TestChunked logSize logNChunks qPrime hs mixed = None.
  Proof.
    intros [H0 H1] Hq Hh Hne Hm. unfold TestChunked, TestChunked_with, gosub. replace (logNChunks <=? logSize) with true by (symmetry; apply Nat.leb_le; exact H1).
    set (k := logNChunks) in *. set (m := (logSize - k)%nat).
    destruct (chunked_eq_spec F qPrime k 1) as (chunks & t & E1 & E2 & L1 & L2 & HE); [lia|lia|].
    rewrite E1, E2.
    rewrite (checkAll_none (fun '(hCommon, hL, hR) => _) mixed Hne).
    - destruct (get t 0); [|reflexivity]. destruct (get chunks 0); [|reflexivity]. destruct (get l 0); [|reflexivity].
      destruct (get t (2 ^ logSize - 1)); [|reflexivity]. destruct (get chunks (2 ^ k - 1)); [|reflexivity]. destruct (get l0 (2 ^ m - 1)); [|reflexivity].
      destruct (checkAll _ (seq 0 _)); [|reflexivity]. destruct (checkAll _ hs); reflexivity.
    - intros [[hC hL] hR] Hin. specialize (Hm _ _ _ Hin). rewrite EvaluateMixedChunked_panics; [reflexivity|].
      rewrite L1. apply Nat.pow_lt_mono_r; lia.
  Qed.

  (** One chunk: EvaluateChunked panics. *)
  Lemma test_chunked_one logSize (qPrime : list F) hs mixed : length qPrime = logSize ->
    hs <> [] -> (forall h, In h hs -> length h = logSize) -> TestChunked logSize 0 qPrime hs mixed = None.
  Proof.
    intros Hq Hne Hh. unfold TestChunked, TestChunked_with, gosub. cbn [Nat.leb].
    destruct (chunked_eq_spec F qPrime 0 1) as (chunks & t & E1 & E2 & L1 & L2 & HE); [lia|lia|].
    rewrite E1, E2. cbn [Nat.pow] in L1. destruct chunks as [|c [|? ?]]; try discriminate.
    rewrite (checkAll_none (fun hPrime => res <- Evaluate t hPrime ;; _) hs Hne).
    - destruct (get t 0); [|reflexivity]. destruct (get [c] 0); [|reflexivity]. destruct (get l 0); [|reflexivity].
      destruct (get t (2 ^ logSize - 1)); [|reflexivity]. destruct (get [c] (2 ^ 0 - 1)); [|reflexivity]. destruct (get l0 _); [|reflexivity].
      destruct (checkAll _ (seq 0 _)); reflexivity.
    - intros h Hin. specialize (Hh h Hin). destruct (Evaluate t h); [|reflexivity].
      destruct (evaluate_chunked_one F c h) as [-> _]; [|reflexivity]. specialize (L2 0%nat ltac:(cbn; lia)). cbn [nth] in L2. rewrite L2, Hq. f_equal. lia.
  Qed.

  Lemma test_folded_eq (a b c d : F) : TestGetFoldedEqTable a b c d = Some true.
  Proof.
    unfold TestGetFoldedEqTable. destruct (eq_table_spec F [a; b; c; d]) as (t & E & L & H & _). rewrite E. f_equal.
    replace t with (correctFoldedEqTable a b c d); [apply eqTable_refl|].
    cbn [length] in L. apply (list_ext 0); [rewrite L; reflexivity|].
    intros i Hi. cbn [correctFoldedEqTable length] in Hi.
    rewrite <- (bits_val_to_bits 4 i Hi). rewrite H by (rewrite to_bits_length; reflexivity).
    do 16 (destruct i as [|i]; [cbn; ring|]). lia.
  Qed.

  Lemma add_claim (a b c d : F) : c * suml (combine [d] [AddGate]) (fun sg => fst sg * geval (snd sg) a b) = geval AddGate a b * d * c.
  Proof. cbn. ring. Qed.
End L.

Lemma test_lagrange domain value : value < domain <= 12 -> TestLagrangeCoefficients (F:=Fr) domain value = Some true.
Proof.
  intros [Hv Hd]. unfold TestLagrangeCoefficients, GetLagrangePolynomial, maxDomainSize.
  replace (domain <? 12 + 1) with true by (symmetry; apply Nat.ltb_lt; lia).
  destruct (lagrange_basis domain) as (rows & E & L & H).
  { assert (12 <= frModulus)%Z by (vm_compute; discriminate). lia. }
  rewrite E. rewrite (get_nth rows value []) by lia. destruct (H value Hv) as [L2 H2]. apply checkAll_true.
  intros i Hi. apply in_seq in Hi. rewrite evaluate_polynomial_spec. specialize (H2 i ltac:(lia)). unfold peval in H2.
  destruct (nth value rows []) as [|r0 row] eqn:ER; [cbn in L2; lia|]. rewrite H2. destruct (i =? value); rewrite feqb_refl; reflexivity.
Qed.
Lemma test_lagrange_panics domain value : 12 < domain \/ domain <= value -> TestLagrangeCoefficients (F:=Fr) domain value = None.
Proof.
  intros H. unfold TestLagrangeCoefficients, GetLagrangePolynomial, maxDomainSize. destruct (domain <? 12 + 1) eqn:E; [|reflexivity].
  apply Nat.ltb_lt in E. destruct (lagrange_basis domain) as (rows & ER & L & _).
  { assert (12 <= frModulus)%Z by (vm_compute; discriminate). lia. }
  rewrite ER. rewrite get_none by lia. reflexivity.
Qed.

Lemma test_sumcheck (ch : list Fr -> Fr) bN bG (v eQ add : list Fr) :
  length v = 2 ^ (bG + bN) -> length eQ = 2 ^ bN -> length add = 2 ^ (bG + bG) ->
  TestSumcheck ch bN bG v eQ add = Some true.
Proof.
  intros HV HE HA.
  assert (HT : tables_ok bG bG bN [AddGate] [add] eQ v v).
  { repeat split; auto. intros t [<-|[]]. exact HA. }
  destruct (complete_Fr ch bN bG _ _ _ _ _ HT ltac:(right; discriminate)) as (proof & qP & qL & qR & HP & HC & HVf & HCo & HL & Q1 & Q2 & Q3 & _).
  { intros g [<-|[]]. apply add_ok. }
  { cbn. lia. }
  unfold TestSumcheck, TestSumcheck_with, DeepCopy. rewrite HC, HP, HVf. cbv zeta beta iota.
  rewrite EvaluateLeftAndRight_mle by (try congruence; rewrite HV; f_equal; lia).
  rewrite Evaluate_mle by (rewrite HE; f_equal; lia). rewrite Evaluate_mle by (rewrite HA, app_length; f_equal; lia).
  cbn [map get nth_error]. rewrite !eqTable_refl, !feqb_refl. cbn [andb]. f_equal. apply feqb_eq.
  rewrite combinator_sum in HCo by (cbn; lia). apply some_inj in HCo. rewrite <- HCo. apply add_claim.
Qed.

Lemma test_get_evals : TestGetEvals (F:=Fr) = Some true.
Proof. vm_compute. reflexivity. Qed.

Lemma test_benchmark_setup (ch : list Fr -> Fr) bN : TestBenchmarkSetup ch bN = Some true.
Proof.
  destruct (test_multi_threaded ch bN 0 1 1 1) as (p & s & claim & proof & qP & qL & qR & fc & fin & _ & E1 & E2 & _ & E3 & _ & _ & E4 & _); try lia.
  unfold TestBenchmarkSetup, TestBenchmarkSetup_with. rewrite E1, E2, E3, E4. reflexivity.
Qed.
