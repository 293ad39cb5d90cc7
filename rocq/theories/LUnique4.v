(** Right proofs of the same lengths are equal; the verifier looks at the first entries only; the statements over Fr. *)
From Coq Require Import List Arith ZArith Lia Bool Ring Field.
From Verif Require Import Field FrPrime Fr Go Trans MCommon Spec MPoly LSpec LCommon LPoly LEffect LPoly2 LPoly3 MCircuit SpecCircuit LCircuit LCircuit2 LCircuit3 MSumcheck SpecSumcheck
  LSumcheck LSumcheck2 LSumcheck3 LSumcheck4 LSumcheck5 MSumPar SpecSumPar MGkr SpecGkr LGkr LGkr2 LGkr3 SpecProof LProof LProof2 SpecUnique LUnique LUnique2 LUnique3.
Import ListNotations.

Lemma firstn_S_nth {A} (l : list A) : forall i x, nth_error l i = Some x -> firstn (S i) l = firstn i l ++ [x].
Proof.
  induction l as [|y l IH]; intros [|i] x H; try discriminate; cbn [nth_error] in H.
  - injection H as ->. reflexivity.
  - cbn [firstn app]. f_equal. exact (IH i x H).
Qed.
Lemma nth_error_ext' {A} : forall l l' : list A, length l = length l' ->
  (forall j, (j < length l)%nat -> nth_error l j = nth_error l' j) -> l = l'.
Proof.
  induction l as [|x l IH]; intros [|x' l'] HL H; try discriminate; [reflexivity|].
  cbn [length] in *. pose proof (H 0%nat ltac:(lia)) as H0. injection H0 as ->. f_equal. apply IH; [lia|].
  intros j Hj. apply (H (S j)). lia.
Qed.

Section L.
  Context {F : Field}.
  Add Field FfieldLUnique4 : (f_theory F).
  Open Scope F_scope.
  Variable ch : list F -> F.

  Lemma coefficients_eq n (p p' : list F) : distinct_upto (F:=F) n -> (length p <= n)%nat -> length p = length p' ->
    (forall t, peval p t = peval p' t) -> p = p'.
  Proof.
    intros HD Hn HL H. apply (poly_unique (domain n)); [apply domain_NoDup; exact HD|exact HL| |intros x _; apply H].
    unfold domain. rewrite map_length, seq_length. exact Hn.
  Qed.

  Lemma rounds_unique (f : list F -> F) n d sp sp' : distinct_upto (F:=F) d -> right_rounds ch f n sp -> right_rounds ch f n sp' ->
    map (@length F) sp = map (@length F) sp' -> (forall p, In p sp -> (length p <= d)%nat) -> sp = sp'.
  Proof.
    intros HD H1 H2 HL Hd. assert (L : length sp = length sp') by (rewrite <- (map_length (@length F) sp), HL, map_length; reflexivity).
    assert (HF : forall i, (i <= length sp)%nat -> firstn i sp = firstn i sp').
    { induction i as [|i IH]; intros Hi; [reflexivity|]. specialize (IH ltac:(lia)).
      destruct (nth_error sp i) as [p|] eqn:E; [|apply nth_error_None in E; lia].
      destruct (nth_error sp' i) as [p'|] eqn:E'; [|apply nth_error_None in E'; lia].
      rewrite (firstn_S_nth sp i p E), (firstn_S_nth sp' i p' E'), IH. f_equal. f_equal.
      apply (coefficients_eq d p p' HD).
      - apply Hd. eapply nth_error_In. exact E.
      - apply (map_nth_error (@length F)) in E. apply (map_nth_error (@length F)) in E'. rewrite HL in E. congruence.
      - intros t. rewrite (H1 i p t E), (H2 i p' t E'), IH. reflexivity. }
    specialize (HF (length sp) (Nat.le_refl _)). rewrite firstn_all, L, firstn_all in HF. exact HF.
  Qed.

  Lemma right_unique (c : list (Layer F)) m k a q qP d pf pf' : distinct_upto (F:=F) d ->
    length (SumcheckProofs pf) = length c -> length (ClaimsLeft pf) = length c -> length (ClaimsRight pf) = length c ->
    length (SumcheckProofs pf') = length c -> length (ClaimsLeft pf') = length c -> length (ClaimsRight pf') = length c ->
    (forall j, (j < length c)%nat -> map (@length F) (nth j (SumcheckProofs pf) []) = map (@length F) (nth j (SumcheckProofs pf') [])) ->
    (forall j p, (j < length c)%nat -> In p (nth j (SumcheckProofs pf) []) -> (length p <= d)%nat) ->
    (forall j, (j < length c)%nat -> right_layer ch pf c m k a q qP j) ->
    (forall j, (j < length c)%nat -> right_layer ch pf' c m k a q qP j) -> pf = pf'.
  Proof.
    intros HD L1 L2 L3 L1' L2' L3' HL Hd HR HR'.
    assert (HE : forall e, (e <= length c)%nat -> forall j, (length c - e <= j < length c)%nat ->
      nth_error (SumcheckProofs pf) j = nth_error (SumcheckProofs pf') j /\
      nth_error (ClaimsLeft pf) j = nth_error (ClaimsLeft pf') j /\ nth_error (ClaimsRight pf) j = nth_error (ClaimsRight pf') j).
    { induction e as [|e IH]; intros He j Hj; [lia|].
      destruct (Nat.eq_dec j (length c - S e)) as [Ej|Ej]; [|apply IH; lia].
      destruct (HR j ltac:(lia)) as (l & Hl & sp & E1 & E2 & E3 & E4 & E5).
      destruct (HR' j ltac:(lia)) as (l' & Hl' & sp' & E1' & E2' & E3' & E4' & E5').
      rewrite Hl in Hl'. injection Hl' as <-. cbv zeta in *.
      assert (ER : run_poly_from ch pf (length c) q qP j l = run_poly_from ch pf' (length c) q qP j l).
      { unfold run_poly_from. destruct (Nat.eqb_spec (S j) (length c)) as [|Hn]; [reflexivity|].
        destruct (IH ltac:(lia) (S j) ltac:(lia)) as (X1 & X2 & X3).
        assert (Y1 : nth (S j) (SumcheckProofs pf) [] = nth (S j) (SumcheckProofs pf') []).
        { rewrite (nth_error_nth' (SumcheckProofs pf) []) in X1 by lia. rewrite (nth_error_nth' (SumcheckProofs pf') []) in X1 by lia. congruence. }
        assert (Y2 : nth (S j) (ClaimsLeft pf) 0 = nth (S j) (ClaimsLeft pf') 0).
        { rewrite (nth_error_nth' (ClaimsLeft pf) 0) in X2 by lia. rewrite (nth_error_nth' (ClaimsLeft pf') 0) in X2 by lia. congruence. }
        assert (Y3 : nth (S j) (ClaimsRight pf) 0 = nth (S j) (ClaimsRight pf') 0).
        { rewrite (nth_error_nth' (ClaimsRight pf) 0) in X3 by lia. rewrite (nth_error_nth' (ClaimsRight pf') 0) in X3 by lia. congruence. }
        unfold ptL, ptR, ptP, chal. rewrite Y1, Y2, Y3. reflexivity. }
      assert (Es : sp = sp').
      { specialize (HL j ltac:(lia)). specialize (Hd j). rewrite (nth_error_nth _ _ [] E1) in HL, Hd. rewrite (nth_error_nth _ _ [] E1') in HL.
        rewrite <- ER in E3'. eapply (rounds_unique _ _ d sp sp' HD E3 E3' HL). intros p Hp. apply Hd; [lia|exact Hp]. }
      subst sp'. split; [congruence|].
      assert (EC : chal ch pf j = chal ch pf' j) by (unfold chal; rewrite (nth_error_nth _ _ [] E1), (nth_error_nth _ _ [] E1'); reflexivity).
      unfold ptL, ptR, ptP in *. rewrite EC in *. split; congruence. }
    specialize (HE (length c) (Nat.le_refl _)).
    destruct pf as [s1 c1 r1], pf' as [s2 c2 r2]. cbn [SumcheckProofs ClaimsLeft ClaimsRight] in *. f_equal.
    - apply nth_error_ext'; [congruence|]. intros j Hj. apply HE. lia.
    - apply nth_error_ext'; [congruence|]. intros j Hj. apply HE. lia.
    - apply nth_error_ext'; [congruence|]. intros j Hj. apply HE. lia.
  Qed.

  (** The verifier reads the first entries of each list only. *)
  Lemma verifyLayers_prefix mm (c : list (Layer F)) bN pf pf' : forall j qP qL qR, (j < length c)%nat ->
    (forall i, (i < length c)%nat -> nth_error (SumcheckProofs pf) i = nth_error (SumcheckProofs pf') i /\
      nth_error (ClaimsLeft pf) i = nth_error (ClaimsLeft pf') i /\ nth_error (ClaimsRight pf) i = nth_error (ClaimsRight pf') i) ->
    verifyLayers ch mm c bN pf j qP qL qR = verifyLayers ch mm c bN pf' j qP qL qR.
  Proof.
    induction j as [|j IH]; intros qP qL qR Hj H; [reflexivity|]. cbn [verifyLayers]. unfold get.
    replace (j + 1)%nat with (S j) by lia.
    destruct (H (S j) Hj) as (_ & X2 & X3). destruct (H j ltac:(lia)) as (Y1 & Y2 & Y3). rewrite X2, X3, Y1, Y2, Y3.
    destruct (nth_error (ClaimsLeft pf') (S j)); [|reflexivity]. destruct (nth_error (ClaimsRight pf') (S j)); [|reflexivity].
    destruct (nth_error (SumcheckProofs pf') j); [|reflexivity]. destruct (nth_error c j); [|reflexivity].
    destruct (Verify _ _ _ _ _) as [[|a1 a2 a3 a4]|]; [reflexivity| |reflexivity]. destruct (EvalEq _ _); [|reflexivity].
    destruct (nth_error (ClaimsLeft pf') j); [|reflexivity]. destruct (nth_error (ClaimsRight pf') j); [|reflexivity].
    destruct (evaluateStaticTablesLinCombs _ _ _ _ _ _ _); [|reflexivity]. destruct (EvaluateCombinator _ _ _ _ _); [|reflexivity].
    destruct (_ =? _); [|reflexivity]. apply IH; [lia|exact H].
  Qed.

  Lemma verify_prefix mm (c : list (Layer F)) bN pf pf' inputs outputs :
    (forall i, (i < length c)%nat -> nth_error (SumcheckProofs pf) i = nth_error (SumcheckProofs pf') i /\
      nth_error (ClaimsLeft pf) i = nth_error (ClaimsLeft pf') i /\ nth_error (ClaimsRight pf) i = nth_error (ClaimsRight pf') i) ->
    GkrVerifyWith ch mm bN c pf inputs outputs = GkrVerifyWith ch mm bN c pf' inputs outputs.
  Proof.
    intros H. unfold GkrVerifyWith. destruct (gosub (length c) 1) as [last|] eqn:E; [|reflexivity].
    assert (Hlast : (S last = length c)%nat).
    { unfold gosub in E. destruct (Nat.leb_spec 1 (length c)); [|discriminate]. injection E as <-. lia. }
    unfold get. destruct (H last ltac:(lia)) as (X1 & X2 & X3). destruct (H 0%nat ltac:(lia)) as (_ & Y2 & Y3). rewrite X1, X2, X3, Y2, Y3.
    destruct (nth_error c last); [|reflexivity]. destruct (GetInitialQPrimeAndQ _ _) as [qP q].
    destruct (EvaluateChunked _ _); [|reflexivity]. destruct (nth_error (SumcheckProofs pf') last); [|reflexivity].
    destruct (Verify _ _ _ _ _) as [[|a1 a2 a3 a4]|]; [reflexivity| |reflexivity]. destruct (EvalEq _ _); [|reflexivity].
    destruct (nth_error (ClaimsLeft pf') last); [|reflexivity]. destruct (nth_error (ClaimsRight pf') last); [|reflexivity].
    destruct (evaluateStaticTables _ _ _ _); [|reflexivity]. destruct (EvaluateCombinator _ _ _ _ _); [|reflexivity].
    destruct (_ =? _); [|reflexivity]. rewrite (verifyLayers_prefix mm c bN pf pf') by (try lia; exact H). reflexivity.
  Qed.

  Lemma verify_padding mm (c : list (Layer F)) bN sps cls crs xs ys zs inputs outputs :
    length sps = length c -> length cls = length c -> length crs = length c ->
    GkrVerifyWith ch mm bN c (MkProof (sps ++ xs) (cls ++ ys) (crs ++ zs)) inputs outputs =
    GkrVerifyWith ch mm bN c (MkProof sps cls crs) inputs outputs.
  Proof.
    intros L1 L2 L3. apply verify_prefix. intros i Hi. cbn [SumcheckProofs ClaimsLeft ClaimsRight].
    rewrite !nth_error_app1 by lia. auto.
  Qed.

  Lemma collision_at_from (c : list (Layer F)) m k a pf llast j : nth_error c (length c - 1) = Some llast ->
    collision_from ch pf c m k a (count (lBGOutputs llast)) (count (m + k)) j -> collision_at ch pf c m k a j.
  Proof.
    intros Hlast (l & Hl & HC). exists l. split; [exact Hl|]. unfold run_poly. cbv zeta in *. unfold run_poly_from in *.
    destruct (Nat.eqb_spec (S j) (length c)) as [E|E]; [|exact HC].
    replace (length c - 1)%nat with j in Hlast by lia. rewrite Hl in Hlast. injection Hlast as ->. exact HC.
  Qed.

  (** An accepted proof without collision is right. *)
  Lemma accepted_right m k b (c : list (Layer F)) inputs a pf outputs llast :
    (forall l, In l c -> wf_layer l /\ gates_once l) -> fits b c -> chunked k m b inputs -> assignment_of c (2 ^ m) inputs a ->
    c <> [] -> (0 < k)%nat -> nth_error c (length c - 1) = Some llast -> chunked k m (lBGOutputs llast) outputs ->
    GkrVerifyWith ch false (m + k) c pf inputs outputs = Some true -> (forall j, ~ collision_at ch pf c m k a j) ->
    output_claim (m + k) m llast outputs = output_claim (m + k) m llast (nth (length c) a []) /\
    forall j, (j < length c)%nat -> right_layer ch pf c m k a (count (lBGOutputs llast)) (count (m + k)) j.
  Proof.
    intros Hl Hf Hin Ha Hc Hk Hlast Hout HV Hno.
    assert (Lq : forall n, length (count (F:=F) n) = n) by (intros n; unfold count; rewrite map_length, seq_length; reflexivity).
    apply (all_right ch m k b c inputs a pf Hl Hf Hin Ha (count (lBGOutputs llast)) (count (m + k))) with (llast := llast) (out := glued (lBGOutputs llast) m outputs); auto.
    - intros j Hj. apply (Hno j). exact (collision_at_from c m k a pf llast j Hlast Hj).
    - apply (verify_accepted ch m k b c inputs a pf); auto.
  Qed.
End L.

Lemma honest_right (ch : list Fr -> Fr) nCore mtProve c b m k inputs a llast :
  (0 < nCore)%nat -> follows_machine ch nCore mtProve ->
  (forall l, In l c -> layer_ok l) -> fits b c -> chunked k m b inputs -> assignment_of c (2 ^ m) inputs a ->
  nth_error c (length c - 1) = Some llast ->
  exists pf, GkrProve ch mtProve c a nCore = Some pf /\
    forall j, (j < length c)%nat -> right_layer ch pf c m k a (count (lBGOutputs llast)) (count (m + k)) j.
Proof.
  intros H1 H2 Hl Hf Hin Ha Hlast. pose proof (Fr_distinct_le 12 ltac:(lia)) as HD.
  destruct (plain_right ch HD m k b c inputs a llast Hl Hf Hin Ha Hlast) as (pf & E & HR).
  exists pf. split; [|exact HR]. rewrite <- E. destruct Hin as [I1 I2]. assert (Hc : c <> []) by (intros ->; discriminate).
  exact (prove_plain ch HD nCore mtProve H1 H2 m k c b inputs a Hl Hf I2 I1 Ha Hc).
Qed.

Lemma coefficients_le (l : Layer Fr) bN x : layer_ok l -> In x (coefficients l bN) -> (x <= 12)%nat.
Proof.
  intros (_ & _ & _ & _ & M1 & M2 & M3) H. unfold coefficients in H. rewrite !in_app_iff in H.
  destruct H as [H|[H|H]]; apply repeat_spec in H; lia.
Qed.

Lemma only_proof (ch : list Fr -> Fr) nCore mtProve c b m k inputs a pf outputs llast :
  (0 < nCore)%nat -> follows_machine ch nCore mtProve ->
  (forall l, In l c -> layer_ok l) -> fits b c -> chunked k m b inputs -> assignment_of c (2 ^ m) inputs a ->
  (0 < k)%nat -> nth_error c (length c - 1) = Some llast -> chunked k m (lBGOutputs llast) outputs ->
  length (SumcheckProofs pf) = length c -> length (ClaimsLeft pf) = length c -> length (ClaimsRight pf) = length c ->
  (forall j l, nth_error c j = Some l -> map (@length Fr) (nth j (SumcheckProofs pf) []) = coefficients l (m + k)) ->
  GkrVerifyWith ch false (m + k) c pf inputs outputs = Some true -> (forall j, ~ collision_at ch pf c m k a j) ->
  GkrProve ch mtProve c a nCore = Some pf.
Proof.
  intros H1 H2 Hl Hf Hin Ha Hk Hlast Hout L1 L2 L3 HL HV Hno.
  assert (Hc : c <> []) by (intros ->; discriminate).
  destruct (accepted_right ch m k b c inputs a pf outputs llast) as [_ HR]; auto.
  { intros l Hli. destruct (Hl l Hli) as (A & B & _). auto. }
  destruct (honest_right ch nCore mtProve c b m k inputs a llast H1 H2 Hl Hf Hin Ha Hlast) as (pf' & E & HR').
  destruct (proof_size ch nCore mtProve c b m k inputs a H1 H2 Hc Hl Hf Hin Ha) as (pf2 & E2 & S1 & S2 & S3 & S4 & _).
  rewrite E in E2. injection E2 as <-. rewrite E. f_equal. symmetry.
  apply (right_unique ch c m k a (count (lBGOutputs llast)) (count (m + k)) 12 pf pf' (Fr_distinct_le 12 ltac:(lia))); auto.
  - intros j Hj. destruct (nth_error c j) as [l|] eqn:El; [|apply nth_error_None in El; lia]. rewrite (HL j l El), (S4 j l El). reflexivity.
  - intros j p Hj Hp. destruct (nth_error c j) as [l|] eqn:El; [|apply nth_error_None in El; lia].
    apply (coefficients_le l (m + k)); [exact (Hl l (nth_error_In _ _ El))|]. rewrite <- (HL j l El). apply in_map. exact Hp.
Qed.
