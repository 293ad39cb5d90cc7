(** The sum-check statements, assembled. *)
From Coq Require Import List Arith ZArith Lia Bool Ring Field.
From Verif Require Import Field Go MCommon Spec MPoly LSpec LCommon LPoly LEffect LPoly2 MCircuit SpecCircuit LCircuit LCircuit2 MSumcheck SpecSumcheck LSumcheck LSumcheck2 LSumcheck3 LSumcheck4 Fr LPoly3.
Import ListNotations.

Section S.
  Context {F : Field}.
  Add Field FfieldLSumcheck5 : (f_theory F).
  Open Scope F_scope.

  Lemma getclaim_ok n g (gates : list (Gate F)) st eq vL vR :
    (0 < n)%nat -> length eq = n -> length vL = (g * n)%nat -> length vR = (g * n)%nat ->
    length st = length gates -> (forall tab, In tab st -> length tab = (g * g)%nat) ->
    GetClaim (NewSingleThreadedProver vL vR eq gates st) = Some (table_sum n g gates st eq vL vR).
  Proof.
    intros H1 H2 H3 H4 H5 H6. rewrite <- psum_table_sum by exact H5. apply GetClaim_spec.
    rewrite New_eq. constructor; cbn [sEq sVL sVR sStatic sGates]; auto.
  Qed.

  Lemma getclaim_cube bG bN (gates : list (Gate F)) st eq vL vR : tables_ok bG bG bN gates st eq vL vR ->
    GetClaim (NewSingleThreadedProver vL vR eq gates st)
    = Some (cube_sum (combinator bG bG gates st eq vL vR) (bG + bG + bN) []).
  Proof.
    intros H. apply tables_shape in H. rewrite (GetClaim_spec _ _ _ H), (psum_cube _ _ _ _ H).
    unfold comb. rewrite New_eq. reflexivity.
  Qed.

  Lemma evals_HL_ok kL kR kN (gates : list (Gate F)) st eq vL vR :
    tables_ok (S kL) kR kN gates st eq vL vR -> gates <> [] -> (forall g, In g gates -> many_ok g) ->
    GetEvalsOnHL (NewSingleThreadedProver vL vR eq gates st) =
    Some (map (fun t => cube_sum (combinator (S kL) kR gates st eq vL vR) (kL + kR + kN) [fnat t]) (seq 0 (maxHL gates + 2))).
  Proof.
    intros H Hne Hm. apply tables_shape in H.
    rewrite (GetEvalsOnHL_spec (2 ^ kN) (2 ^ kL) (2 ^ kR)).
    - rewrite New_eq; cbn [dHL]. rewrite <- Nat.add_assoc. f_equal. apply map_ext. intros t.
      rewrite New_eq in H. rewrite <- (cube_HL kL kR kN) by exact H. reflexivity.
    - apply pow_pos.
    - rewrite New_eq. exact Hne.
    - unfold manys. rewrite New_eq. exact Hm.
    - rewrite Nat.pow_succ_r' in H. exact H.
  Qed.

  Lemma evals_HR_ok kR kN (gates : list (Gate F)) st eq vL vR :
    tables_ok 0 (S kR) kN gates st eq vL vR -> (forall g, In g gates -> many_ok g) ->
    GetEvalsOnHR (NewSingleThreadedProver vL vR eq gates st) =
    Some (map (fun t => cube_sum (combinator 0 (S kR) gates st eq vL vR) (kR + kN) [fnat t]) (seq 0 (maxHR gates + 2))).
  Proof.
    intros H Hm. apply tables_shape in H.
    rewrite (GetEvalsOnHR_spec (2 ^ kN) (2 ^ kR)).
    - rewrite New_eq; cbn [dHR]. rewrite <- Nat.add_assoc. f_equal. apply map_ext. intros t.
      rewrite New_eq in H. rewrite <- (cube_HR kR kN) by exact H. reflexivity.
    - unfold manys. rewrite New_eq. exact Hm.
    - rewrite (Nat.pow_succ_r' 2 kR) in H. exact H.
  Qed.

  Lemma evals_HP_ok kN (gates : list (Gate F)) st eq vL vR :
    tables_ok 0 0 (S kN) gates st eq vL vR ->
    GetEvalsOnHPrime (NewSingleThreadedProver vL vR eq gates st) =
    Some (map (fun t => cube_sum (combinator 0 0 gates st eq vL vR) kN [fnat t]) (seq 0 (maxHP gates + 2))).
  Proof.
    intros H. apply tables_shape in H.
    rewrite (GetEvalsOnHPrime_spec (2 ^ S kN) (2 ^ kN)).
    - rewrite New_eq; cbn [dHPrime]. rewrite <- Nat.add_assoc. f_equal. apply map_ext. intros t.
      rewrite New_eq in H. rewrite <- (cube_HP kN) by exact H. reflexivity.
    - apply half_pow2.
    - exact H.
  Qed.

  Lemma round_degree kL kR kN (gates : list (Gate F)) st eq vL vR rs k :
    tables_ok kL kR kN gates st eq vL vR -> (forall g, In g gates -> degs_ok g) ->
    (length rs + 1 + k = kL + kR + kN)%nat ->
    poly_deg_le (phase_deg kL kR (maxHL gates + 1) (maxHR gates + 1) (maxHP gates + 1) (length rs))
      (fun t => cube_sum (combinator kL kR gates st eq vL vR) k (rs ++ [t])).
  Proof.
    intros H Hd Hk. apply tables_shape in H.
    pose proof (round_deg rs kL kR kN _ k H (New_degs vL vR eq gates st Hd) Hk) as P.
    unfold comb in P. rewrite New_eq in P. exact P.
  Qed.

  Lemma claims_combinator gates (st : list (list F)) eq vL vR (qL qR qP : list F) : length st = length gates ->
    EvaluateCombinator (mle vL (qL ++ qP)) (mle vR (qR ++ qP)) (mle eq qP) gates (map (fun t => mle t (qL ++ qR)) st)
    = Some (combinator (length qL) (length qR) gates st eq vL vR (qL ++ qR ++ qP)).
  Proof.
    intros H. rewrite combinator_sum by (rewrite map_length; lia).
    pose proof (comb_parts (length qL) (length qR) (MkProver vL vR eq gates st 0 0 0) qL qR qP eq_refl eq_refl) as P.
    unfold comb in P. cbn [sEq sVL sVR sStatic sGates] in P. rewrite P. do 2 f_equal.
    rewrite (suml_combine _ (map _ _) gates 0 agate) by (rewrite map_length; lia).
    rewrite (suml_combine _ gates st agate []) by exact H. rewrite map_length, H.
    apply sumn_ext. intros i Hi. cbn [fst snd]. rewrite (nth_map_lt _ st i 0 []) by lia. reflexivity.
  Qed.

  Lemma complete_fit (ch : list F -> F) bN bG (gates : list (Gate F)) st eq vL vR :
    distinct_upto (F:=F) 12 ->
    tables_ok bG bG bN gates st eq vL vR -> (bG = 0%nat \/ gates <> []) -> (forall g, In g gates -> gate_ok g) ->
    (bG = 0 \/ maxHL gates <= 10 /\ maxHR gates <= 10)%nat -> (bN = 0 \/ maxHP gates <= 10)%nat ->
    exists proof qP qL qR,
      let p := NewSingleThreadedProver vL vR eq gates st in
      let claim := table_sum (2 ^ bN) (2 ^ bG) gates st eq vL vR in
      let vl := mle vL (qL ++ qP) in
      let vr := mle vR (qR ++ qP) in
      let e := mle eq qP in
      let sts := map (fun t => mle t (qL ++ qR)) st in
      let fin := combinator bG bG gates st eq vL vR (qL ++ qR ++ qP) in
      Prove ch p = Some (proof, qP, qL, qR, vl :: vr :: e :: sts) /\
      GetClaim p = Some claim /\
      Verify ch claim proof bN bG = Some (Accept qP qL qR fin) /\
      EvaluateCombinator vl vr e gates sts = Some fin /\
      length proof = (2 * bG + bN)%nat /\ length qL = bG /\ length qR = bG /\ length qP = bN /\
      map (@length F) proof = repeat (maxHL gates + 2)%nat bG ++ repeat (maxHR gates + 2)%nat bG ++ repeat (maxHP gates + 2)%nat bN.
  Proof.
    intros Hdist HT Hne Hok M1 M2.
    pose proof (tables_shape _ _ _ _ _ _ _ _ HT) as HS.
    destruct (Prove_spec ch Hdist bN bG (NewSingleThreadedProver vL vR eq gates st)) as (csL & csR & csP & H).
    - rewrite New_eq. exact Hne.
    - split.
      + unfold manys. rewrite New_eq. intros g Hg. apply (Hok g Hg).
      + apply New_degs. intros g Hg. apply (Hok g Hg).
    - rewrite New_eq. cbn [dHL dHR]. lia.
    - rewrite New_eq. cbn [dHPrime]. lia.
    - exact HS.
    - cbn zeta in H. destruct H as (L1 & L2 & L3 & HM & HP & HA). rewrite New_eq in HP, HA.
      cbn [sVL sVR sEq sStatic sGates] in HP, HA.
      destruct HT as (T1 & T2 & T3 & T4 & T5).
      exists (csL ++ csR ++ csP), (map ch csP), (map ch csL), (map ch csR). cbn zeta.
      assert (LL : length (map ch csL) = bG) by (rewrite map_length; exact L1).
      assert (LR : length (map ch csR) = bG) by (rewrite map_length; exact L2).
      assert (LP : length (map ch csP) = bN) by (rewrite map_length; exact L3).
      pose proof (claims_combinator gates st eq vL vR (map ch csL) (map ch csR) (map ch csP) T4) as HC.
      rewrite LL, LR in HC.
      split; [rewrite New_eq; exact HP|]. split; [apply getclaim_ok; rewrite <- ?Nat.pow_add_r; auto; apply pow_pos|].
      split; [|split; [exact HC|split; [rewrite !app_length; lia|split; [auto|split; [auto|split; [auto|]]]]]].
      2: { rewrite HM, New_eq. cbn [dHL dHR dHPrime]. replace (S (maxHL gates + 1)) with (maxHL gates + 2)%nat by lia.
        replace (S (maxHR gates + 1)) with (maxHR gates + 2)%nat by lia. replace (S (maxHP gates + 1)) with (maxHP gates + 2)%nat by lia. reflexivity. }
      apply Verify_accept. split; [|split; [exact LL|split; [exact LR|rewrite !map_app; reflexivity]]].
      rewrite <- psum_table_sum by exact T4.
      replace (combinator bG bG gates st eq vL vR _) with
        (sumn (length gates) (fun i => mle eq (map ch csP) * nth i (map (fun t => mle t (map ch csL ++ map ch csR)) st) 0 *
          geval (nth i gates agate) (mle vL (map ch csL ++ map ch csP)) (mle vR (map ch csR ++ map ch csP)))).
      + rewrite New_eq in *. exact HA.
      + rewrite combinator_sum in HC by (rewrite map_length; lia). injection HC as <-.
        rewrite (suml_combine _ (map _ _) gates 0 agate) by (rewrite map_length; lia).
        rewrite map_length, T4, <- sumn_scal_l. apply sumn_ext. intros i Hi. cbn [fst snd]. ring.
  Qed.

  Lemma complete (ch : list F -> F) bN bG (gates : list (Gate F)) st eq vL vR :
    distinct_upto (F:=F) 12 ->
    tables_ok bG bG bN gates st eq vL vR -> (bG = 0%nat \/ gates <> []) -> (forall g, In g gates -> gate_ok g) ->
    (maxHL gates <= 10 /\ maxHR gates <= 10 /\ maxHP gates <= 10)%nat ->
    exists proof qP qL qR,
      let p := NewSingleThreadedProver vL vR eq gates st in
      let claim := table_sum (2 ^ bN) (2 ^ bG) gates st eq vL vR in
      let vl := mle vL (qL ++ qP) in
      let vr := mle vR (qR ++ qP) in
      let e := mle eq qP in
      let sts := map (fun t => mle t (qL ++ qR)) st in
      let fin := combinator bG bG gates st eq vL vR (qL ++ qR ++ qP) in
      Prove ch p = Some (proof, qP, qL, qR, vl :: vr :: e :: sts) /\
      GetClaim p = Some claim /\
      Verify ch claim proof bN bG = Some (Accept qP qL qR fin) /\
      EvaluateCombinator vl vr e gates sts = Some fin /\
      length proof = (2 * bG + bN)%nat /\ length qL = bG /\ length qR = bG /\ length qP = bN /\
      map (@length F) proof = repeat (maxHL gates + 2)%nat bG ++ repeat (maxHR gates + 2)%nat bG ++ repeat (maxHP gates + 2)%nat bN.
  Proof. intros H1 H2 H3 H4 (M1 & M2 & M3). apply complete_fit; auto. Qed.

  (** Soundness, for tables. *)
  Lemma soundness (ch : list F -> F) bN bG (gates : list (Gate F)) st eq vL vR claim proof qP qL qR fin :
    tables_ok bG bG bN gates st eq vL vR ->
    length proof = (2 * bG + bN)%nat ->
    Verify ch claim proof bN bG = Some (Accept qP qL qR fin) ->
    fin = combinator bG bG gates st eq vL vR (qL ++ qR ++ qP) ->
    claim <> table_sum (2 ^ bN) (2 ^ bG) gates st eq vL vR ->
    exists i c, nth_error proof i = Some c /\
      let true_poly t := cube_sum (combinator bG bG gates st eq vL vR) (2 * bG + bN - S i) (map ch (firstn i proof) ++ [t]) in
      (exists t, peval c t <> true_poly t) /\ peval c (ch c) = true_poly (ch c).
  Proof.
    intros HT HL HV HF HC. pose proof (tables_shape _ _ _ _ _ _ _ _ HT) as HS.
    destruct HT as (T1 & T2 & T3 & T4 & T5).
    apply Verify_accept in HV. destruct HV as (HA & L1 & L2 & E).
    destruct (sound ch (combinator bG bG gates st eq vL vR) proof [] claim fin HA) as (i & c & H1 & H2 & H3).
    - rewrite HF, E. reflexivity.
    - intros ->. apply HC. rewrite <- psum_table_sum by exact T4.
      rewrite (psum_cube _ _ _ _ HS), HL. replace (2 * bG + bN)%nat with (bG + bG + bN)%nat by lia.
      unfold comb. rewrite New_eq. reflexivity.
    - exists i, c. rewrite HL in *. cbn zeta. cbn [app] in *. auto.
  Qed.

  Lemma bad_challenges bN bG (gates : list (Gate F)) st eq vL vR rs c t xs :
    tables_ok bG bG bN gates st eq vL vR -> (forall g, In g gates -> degs_ok g) ->
    (length rs < 2 * bG + bN)%nat ->
    let true_poly t := cube_sum (combinator bG bG gates st eq vL vR) (2 * bG + bN - S (length rs)) (rs ++ [t]) in
    let d := phase_deg bG bG (maxHL gates + 1) (maxHR gates + 1) (maxHP gates + 1) (length rs) in
    (length c <= S d)%nat -> peval c t <> true_poly t ->
    NoDup xs -> (forall x, In x xs -> peval c x = true_poly x) -> (length xs <= d)%nat.
  Proof.
    intros HT Hd Hrs true_poly d Hc Ht Hnd Hx.
    apply (few_collisions d true_poly c t); auto.
    unfold true_poly. apply (round_degree bG bG bN); auto. lia.
  Qed.

  Lemma no_degree_bound (ch : list F -> F) (claim : F) d bN :
    exists proof fin, Verify ch claim proof bN 0 = Some (Accept (map ch proof) [] [] fin) /\
      exists c, In c proof /\ (d < length c)%nat /\ last c 0 <> 0.
  Proof.
    set (c := 0 :: (claim - 1) :: repeat 0 d ++ [1]).
    exists [c], (peval c (ch c)). split.
    - apply Verify_accept. cbn [answers map length app]. split; [|auto].
      split; [discriminate|]. split; [|reflexivity].
      unfold c. rewrite !peval_cons, !peval_app, !peval_cons, !peval_nil, !peval_zeros.
      assert (H1 : forall n, fpow (1 : F) n = 1) by (induction n as [|n IH]; simpl; [reflexivity|rewrite IH; ring]).
      rewrite H1. ring.
    - exists c. split; [left; reflexivity|]. split.
      + unfold c. cbn [length]. rewrite app_length, repeat_length. lia.
      + unfold c. rewrite !app_comm_cons, last_last. apply f_1_neq_0.
  Qed.

  Lemma verify_panics_empty (ch : list F -> F) claim bN bG post : Verify ch claim ([] :: post) bN bG = None.
  Proof. apply Verify_panic. left. exists [], post, claim. split; reflexivity. Qed.
  Lemma verify_panics_short (ch : list F -> F) claim bN bG : (0 < bG)%nat -> Verify ch claim [] bN bG = None.
  Proof. intros H. apply Verify_panic. right. split; [simpl; lia|exists claim; reflexivity]. Qed.

  Lemma verify_no_panic (ch : list F -> F) claim proof bN bG :
    (forall c, In c proof -> c <> []) -> (2 * bG <= length proof)%nat -> Verify ch claim proof bN bG <> None.
  Proof.
    intros H1 H2 E. apply Verify_panic in E. destruct E as [(pre & post & e & -> & _)|[H _]]; [|lia].
    apply (H1 []); [apply in_elt|reflexivity].
  Qed.

  (** Too large a degree: the prover panics in its first round. *)
  Lemma degree_limit (ch : list F -> F) bN bG (gates : list (Gate F)) st eq vL vR :
    tables_ok bG bG bN gates st eq vL vR -> gates <> [] -> (forall g, In g gates -> many_ok g) ->
    (0 < bG)%nat -> (10 < maxHL gates)%nat ->
    Prove ch (NewSingleThreadedProver vL vR eq gates st) = None.
  Proof.
    intros HT Hne Hm HG Hd. destruct bG as [|b]; [lia|].
    pose proof (evals_HL_ok b (S b) bN gates st eq vL vR HT Hne Hm) as HE.
    destruct (tables_shape _ _ _ _ _ _ _ _ HT) as [Hn Heq HvL HvR Hst Htab].
    unfold Prove. rewrite Heq, HvR, godiv_some, Nat.div_mul by lia.
    rewrite !log2ceil_pow2, rounds_S. unfold round at 1. rewrite HE.
    rewrite InterpolateOnRange_limit; [reflexivity|]. rewrite map_length, seq_length. lia.
  Qed.
End S.

(** Interpolation of the round evaluations, over the BN254 field. *)
Lemma interpolate_cube (f : Fr -> Fr) d : (d <= 11)%nat -> poly_deg_le d f ->
  exists c, InterpolateOnRange (map (fun t => f (fnat t)) (seq 0 (d + 1))) = Some c /\ length c = (d + 1)%nat /\
    forall x, peval c x = f x.
Proof.
  intros Hd Hp. destruct (InterpolateOnRange_function f d) as (c & E & L & H).
  - apply Fr_distinct_le. lia.
  - lia.
  - exact Hp.
  - exists c. rewrite Nat.add_1_r. auto.
Qed.

Lemma rounds_everywhere kL kR kN (gates : list (Gate Fr)) st eq vL vR :
  tables_ok (S kL) kR kN gates st eq vL vR -> gates <> [] -> (forall g, In g gates -> gate_ok g) -> (maxHL gates <= 10)%nat ->
  exists evals c, GetEvalsOnHL (NewSingleThreadedProver vL vR eq gates st) = Some evals /\ InterpolateOnRange evals = Some c /\
    length c = length evals /\
    forall x, peval c x = cube_sum (combinator (S kL) kR gates st eq vL vR) (kL + kR + kN) [x].
Proof.
  intros HT Hne Hok Hd.
  destruct (interpolate_cube (fun x => cube_sum (combinator (S kL) kR gates st eq vL vR) (kL + kR + kN) [x]) (maxHL gates + 1)) as (c & E & L & H).
  - lia.
  - apply (round_degree (S kL) kR kN gates st eq vL vR [] (kL + kR + kN) HT); [intros g Hg; apply (Hok g Hg)|simpl; lia].
  - eexists. exists c. split; [apply (evals_HL_ok kL kR kN); auto; intros g Hg; apply (Hok g Hg)|].
    rewrite <- (Nat.add_assoc _ 1 1) in E, L. split; [exact E|]. rewrite map_length, seq_length. split; [exact L|exact H].
Qed.

Lemma rounds_everywhere_HR kR kN (gates : list (Gate Fr)) st eq vL vR :
  tables_ok 0 (S kR) kN gates st eq vL vR -> (forall g, In g gates -> gate_ok g) -> (maxHR gates <= 10)%nat ->
  exists evals c, GetEvalsOnHR (NewSingleThreadedProver vL vR eq gates st) = Some evals /\ InterpolateOnRange evals = Some c /\
    length c = length evals /\
    forall x, peval c x = cube_sum (combinator 0 (S kR) gates st eq vL vR) (kR + kN) [x].
Proof.
  intros HT Hok Hd.
  destruct (interpolate_cube (fun x => cube_sum (combinator 0 (S kR) gates st eq vL vR) (kR + kN) [x]) (maxHR gates + 1)) as (c & E & L & H).
  - lia.
  - apply (round_degree 0 (S kR) kN gates st eq vL vR [] (kR + kN) HT); [intros g Hg; apply (Hok g Hg)|simpl; lia].
  - eexists. exists c. split; [apply (evals_HR_ok kR kN); auto; intros g Hg; apply (Hok g Hg)|].
    rewrite <- (Nat.add_assoc _ 1 1) in E, L. split; [exact E|]. rewrite map_length, seq_length. split; [exact L|exact H].
Qed.

Lemma rounds_everywhere_HP kN (gates : list (Gate Fr)) st eq vL vR :
  tables_ok 0 0 (S kN) gates st eq vL vR -> (forall g, In g gates -> gate_ok g) -> (maxHP gates <= 10)%nat ->
  exists evals c, GetEvalsOnHPrime (NewSingleThreadedProver vL vR eq gates st) = Some evals /\ InterpolateOnRange evals = Some c /\
    length c = length evals /\
    forall x, peval c x = cube_sum (combinator 0 0 gates st eq vL vR) kN [x].
Proof.
  intros HT Hok Hd.
  destruct (interpolate_cube (fun x => cube_sum (combinator 0 0 gates st eq vL vR) kN [x]) (maxHP gates + 1)) as (c & E & L & H).
  - lia.
  - apply (round_degree 0 0 (S kN) gates st eq vL vR [] kN HT); [intros g Hg; apply (Hok g Hg)|simpl; lia].
  - eexists. exists c. split; [apply (evals_HP_ok kN); auto|].
    rewrite <- (Nat.add_assoc _ 1 1) in E, L. split; [exact E|]. rewrite map_length, seq_length. split; [exact L|exact H].
Qed.

Lemma complete_Fr (ch : list Fr -> Fr) bN bG (gates : list (Gate Fr)) st eq vL vR :
  tables_ok bG bG bN gates st eq vL vR -> (bG = 0%nat \/ gates <> []) -> (forall g, In g gates -> gate_ok g) ->
  (maxHL gates <= 10 /\ maxHR gates <= 10 /\ maxHP gates <= 10)%nat ->
  exists proof qP qL qR,
    let p := NewSingleThreadedProver vL vR eq gates st in
    let claim := table_sum (2 ^ bN) (2 ^ bG) gates st eq vL vR in
    let vl := mle vL (qL ++ qP) in
    let vr := mle vR (qR ++ qP) in
    let e := mle eq qP in
    let sts := map (fun t => mle t (qL ++ qR)) st in
    let fin := combinator bG bG gates st eq vL vR (qL ++ qR ++ qP) in
    Prove ch p = Some (proof, qP, qL, qR, vl :: vr :: e :: sts) /\
    GetClaim p = Some claim /\
    Verify ch claim proof bN bG = Some (Accept qP qL qR fin) /\
    EvaluateCombinator vl vr e gates sts = Some fin /\
    length proof = (2 * bG + bN)%nat /\ length qL = bG /\ length qR = bG /\ length qP = bN /\
    map (@length Fr) proof = repeat (maxHL gates + 2)%nat bG ++ repeat (maxHR gates + 2)%nat bG ++ repeat (maxHP gates + 2)%nat bN.
Proof. apply complete. apply Fr_distinct_le. lia. Qed.
