(** The sum-check by itself, and the gadget: the witness is determined. *)
From Coq Require Import List Arith ZArith Lia Bool Ring Field.
From Verif Require Import Field FrPrime Fr Go Trans MCommon Spec MPoly LSpec LCommon LPoly LEffect LPoly2 LPoly3 MCircuit SpecCircuit LCircuit LCircuit2 LCircuit3 MSumcheck SpecSumcheck
  LSumcheck LSumcheck2 LSumcheck3 LSumcheck4 LSumcheck5 MSumPar SpecSumPar MGkr SpecGkr LGkr LGkr2 LGkr3 MHash SpecHash LHash LHash2 LHash3 MSnark SpecSnark LSnark LSnark2 LSnark3 LSnark4 LSnark5 LSnark6 LSnark7 LSnark8 LSnark11
  SpecProof LProof LProof2 SpecUnique LUnique LUnique2 LUnique3 LUnique4.
Import ListNotations.

(** Among the proofs with the right lengths, the verifier of the sum-check accepts the one of the prover only, unless the
    last value is wrong or a challenge collides. *)
Lemma sumcheck_only (ch : list Fr -> Fr) bN bG (gates : list (Gate Fr)) st eq vL vR claim proof qP qL qR fin :
  tables_ok bG bG bN gates st eq vL vR -> (bG = 0%nat \/ gates <> []) -> (forall g, In g gates -> gate_ok g) ->
  (maxHL gates <= 10 /\ maxHR gates <= 10 /\ maxHP gates <= 10)%nat ->
  Verify ch claim proof bN bG = Some (Accept qP qL qR fin) -> fin = combinator bG bG gates st eq vL vR (qL ++ qR ++ qP) ->
  map (@length Fr) proof = repeat (maxHL gates + 2)%nat bG ++ repeat (maxHR gates + 2)%nat bG ++ repeat (maxHP gates + 2)%nat bN ->
  ~ sumcheck_collision ch (combinator bG bG gates st eq vL vR) (2 * bG + bN) proof ->
  claim = table_sum (2 ^ bN) (2 ^ bG) gates st eq vL vR /\
  exists fc, Prove ch (NewSingleThreadedProver vL vR eq gates st) = Some (proof, qP, qL, qR, fc).
Proof.
  intros HT Hne Hok Hmax HV Hfin HL Hno. pose proof (Fr_distinct_le 12 ltac:(lia)) as HD.
  destruct (complete ch bN bG gates st eq vL vR HD HT Hne Hok Hmax) as (proof' & qP' & qL' & qR' & H).
  cbn zeta in H. destruct H as (HP & _ & HV' & _ & Lp' & LL' & LR' & LP' & HL').
  pose proof HV as HA. apply Verify_accept in HA. destruct HA as (HA & LL & LR & Em).
  assert (Lp : length proof = (2 * bG + bN)%nat).
  { rewrite <- (map_length (@length Fr)), HL, !app_length, !repeat_length. lia. }
  set (f := combinator bG bG gates st eq vL vR) in *.
  assert (HR : claim = cube_sum f (2 * bG + bN) [] /\ right_rounds ch f (2 * bG + bN) proof).
  { destruct (rounds_right ch f proof [] claim fin HA) as [Hv HR].
    - rewrite Em. exact Hfin.
    - intros i c Hi Heq t. destruct (f_eq_dec (peval c t) (cube_sum f (length proof - S i) ([] ++ map ch (firstn i proof) ++ [t]))) as [|Hn]; [assumption|].
      exfalso. apply Hno. exists i, c. rewrite <- Lp. split; [apply nth_error_Some; congruence|]. split; [exact Hi|].
      cbv zeta. split; [exists t; exact Hn|exact Heq].
    - rewrite Lp in Hv. split; [exact Hv|]. intros i c t Hi. rewrite (HR i c t Hi), Lp. reflexivity. }
  destruct HR as [Hc HR].
  assert (HR' : right_rounds ch f (2 * bG + bN) proof').
  { edestruct (Prove_right ch HD bN bG (NewSingleThreadedProver vL vR eq gates st) proof' qP' qL' qR') as [HTp _]; [| | |exact HP|].
    - rewrite New_eq. exact Hne.
    - split; [|split].
      + unfold manys. rewrite New_eq. intros g Hgi. apply (Hok g Hgi).
      + apply New_degs. intros g Hgi. apply (Hok g Hgi).
      + rewrite New_eq. cbn [dHL dHR dHPrime]. lia.
    - exact (tables_shape _ _ _ _ _ _ _ _ HT).
    - intros i c t Hi. rewrite (tp_nth ch _ 0 proof' [] i c t HTp Hi), Lp', Nat.add_0_r. unfold comb. rewrite New_eq. reflexivity. }
  assert (E : proof = proof').
  { apply (rounds_unique ch f (2 * bG + bN) 12 proof proof' HD HR HR'); [congruence|].
    intros p Hp. apply (in_map (@length Fr)) in Hp. rewrite HL, !in_app_iff in Hp.
    destruct Hp as [Hp|[Hp|Hp]]; apply repeat_spec in Hp; lia. }
  subst proof'. rewrite HP. pose proof HV' as HA'. apply Verify_accept in HA'. destruct HA' as (_ & _ & _ & Em').
  rewrite Em' in Em.
  assert (E1 : qL' = qL) by (apply (f_equal (firstn bG)) in Em; rewrite !firstn_len_app in Em by assumption; exact Em).
  subst qL'. apply app_inv_head in Em.
  assert (E2 : qR' = qR) by (apply (f_equal (firstn bG)) in Em; rewrite !firstn_len_app in Em by assumption; exact Em).
  subst qR'. apply app_inv_head in Em. subst qP'. split; [|eexists; reflexivity].
  pose proof (getclaim_cube bG bN gates st eq vL vR HT) as G1. fold f in G1.
  assert (G2 : GetClaim (NewSingleThreadedProver vL vR eq gates st) = Some (table_sum (2 ^ bN) (2 ^ bG) gates st eq vL vR)).
  { destruct HT as (T1 & T2 & T3 & T4 & T5). apply getclaim_ok; rewrite <- ?Nat.pow_add_r; auto using pow_pos. }
  rewrite G1 in G2. apply (f_equal (fun o => match o with Some x => x | None => fzero end)) in G2.
  rewrite Hc, <- G2. f_equal. lia.
Qed.

Section G.
  Context {F : Field}.
  Add Field FfieldLUnique5 : (f_theory F).
  Open Scope F_scope.

  Section Mimc.
    Variable arks : list F.
    Hypothesis HA : (91 <= length arks)%nat.
    Notation C := (mimc_layers (firstn 90 arks) (nth 90 arks 0)).
    Notation SC := (smimc (firstn 90 arks) (nth 90 arks 0)).

    Lemma mimc_poly_le bN p (cs : CS F) : proof_vars cs bN SC p -> forall j x, In x (nth j (sSumchecks p) []) -> (length x <= 12)%nat.
    Proof.
      intros (_ & HS & _) j x Hx. destruct (nth_error (sSumchecks p) j) as [sp|] eqn:E.
      2: { apply nth_error_None in E. rewrite nth_overflow in Hx by exact E. destruct Hx. }
      rewrite (nth_error_nth _ _ [] E) in Hx. apply (in_map (@length nat)) in Hx.
      apply (f_equal (fun l => nth_error l j)) in HS. rewrite (map_nth_error _ _ _ E) in HS.
      unfold SAllocateProof in HS. cbn [sSumchecks] in HS. rewrite map_map in HS.
      destruct (nth_error SC j) as [sl|] eqn:Esl.
      2: { apply nth_error_None in Esl. assert (E2 : nth_error (map (fun x => map (@length _) (SAllocateSumcheck (F:=F) bN (sBG x) (sDegHL x) (sDegHR x) (sDegHPrime x))) SC) j = None)
             by (apply nth_error_None; rewrite map_length; exact Esl). rewrite E2 in HS. discriminate. }
      rewrite (map_nth_error _ _ _ Esl) in HS. injection HS as HS. rewrite HS in Hx.
      destruct (Forall2_nth _ _ _ _ _ (smimc_describes _ _) Esl) as (l2 & El2 & Hd).
      rewrite (alloc_lengths _ l2 sl Hd) in Hx.
      assert (Hs : sDegHL sl = 2%nat /\ sDegHR sl = 8%nat /\ sDegHPrime sl = 8%nat).
      { apply nth_error_In in Esl. unfold smimc in Esl. apply in_app_or in Esl. destruct Esl as [H|[<-|[]]]; [|auto].
        apply in_map_iff in H. destruct H as (y & <- & _). auto. }
      destruct Hs as (H1 & H2 & H3). rewrite H1, H2, H3, !in_app_iff in Hx. destruct Hx as [Hx|[Hx|Hx]]; apply repeat_spec in Hx; lia.
    Qed.

    Lemma mimc_witness bN p (cs : CS F) qPI vIn vOut : distinct_upto (F:=F) 12 -> cs_ok cs -> proof_vars cs bN SC p -> vars cs (qPI ++ vIn ++ vOut) ->
      length qPI = bN -> length vIn = (2 * 2 ^ bN)%nat -> length vOut = (2 ^ bN)%nat ->
      exists cs', SGkrAssertValid arks p SC [] qPI vIn vOut cs = Some (tt, cs') /\
        forall w w', satisfied w cs' -> satisfied w' cs' -> map w qPI = map w' qPI -> map w vIn = map w' vIn ->
        exists a, Assign C [map w vIn] = Some a /\
          ((forall j, ~ collision_from (challenge arks) (read_proof w p) C bN 0 a [] (map w qPI) j) ->
           (forall j, ~ collision_from (challenge arks) (read_proof w' p) C bN 0 a [] (map w qPI) j) ->
           (forall j, (j < 91)%nat -> right_layer (challenge arks) (read_proof w p) C bN 0 a [] (map w qPI) j) /\
           read_proof w p = read_proof w' p /\
           forall v, In v (concat (concat (sSumchecks p)) ++ sLeft p ++ sRight p) -> w v = w' v).
    Proof.
      intros HD HO Hp HV L1 L2 L3. destruct (mimc_gadget arks HA bN p cs qPI vIn vOut HO Hp HV L1 L2 L3) as (cs' & E & HO' & HG & HI).
      exists cs'. split; [exact E|]. intros w w' [Hw1 Hw2] [Hw1' Hw2'] Eq Ein.
      apply (HI w Hw1) in Hw2. destruct Hw2 as [_ Hacc]. apply (HI w' Hw1') in Hw2'. destruct Hw2' as [_ Hacc'].
      rewrite <- Eq, <- Ein in Hacc'.
      assert (Hch : chunked 0 bN 1 [map w vIn]).
      { split; [reflexivity|]. intros t [<-|[]]. rewrite map_length, L2. reflexivity. }
      destruct (mimc_assign arks HA bN [map w vIn] 0 bN ltac:(lia) Hch) as (a & EA & Ha & [O1 O2]). exists a. split; [exact EA|].
      intros Hno Hno'.
      assert (HLs : forall l, In l C -> wf_layer l /\ gates_once l) by (intros l Hl; destruct (mimc_layer_ok _ _ l Hl) as (X1 & X2 & _); auto).
      pose proof (mimc_last_nth' arks HA) as Hlast. pose proof (mimc_len arks HA) as HLen.
      assert (Eg : map w vIn = glued 1 bN [map w vIn]) by (unfold glued; rewrite interleave_one by (rewrite map_length, L2; reflexivity); reflexivity).
      destruct (all_right (challenge arks) bN 0 1 C [map w vIn] a (read_proof w p) HLs (mimc_fits _ _) Hch Ha [] (map w qPI) Hno
        _ (map w vOut) (mimc_ne arks HA) Hlast eq_refl) as [_ HR]; [rewrite map_length; lia|rewrite Nat.add_0_r, <- Eg; exact Hacc|].
      destruct (all_right (challenge arks) bN 0 1 C [map w vIn] a (read_proof w' p) HLs (mimc_fits _ _) Hch Ha [] (map w qPI) Hno'
        _ (map w' vOut) (mimc_ne arks HA) Hlast eq_refl) as [_ HR']; [rewrite map_length; lia|rewrite Nat.add_0_r, <- Eg; exact Hacc'|].
      pose proof Hp as (_ & S1 & S2 & S3).
      assert (LS : length SC = length C) by apply (Forall2_len _ _ _ (smimc_describes _ _)).
      assert (S0 : length (sSumchecks p) = length C).
      { rewrite <- LS, <- (map_length (map (@length nat)) (sSumchecks p)), S1. unfold SAllocateProof. cbn [sSumchecks]. rewrite !map_length. reflexivity. }
      assert (EP : read_proof w p = read_proof w' p).
      { apply (right_unique (challenge arks) C bN 0 a [] (map w qPI) 12 (read_proof w p) (read_proof w' p) HD); unfold read_proof;
          cbn [SumcheckProofs ClaimsLeft ClaimsRight]; rewrite ?map_length; try congruence; try assumption.
        - intros j Hj. rewrite !(nth_map_lt _ (sSumchecks p) j [] []) by lia. rewrite !map_map. apply map_ext. intros x. rewrite !map_length. reflexivity.
        - intros j x Hj Hx. rewrite (nth_map_lt _ (sSumchecks p) j [] []) in Hx by lia. apply in_map_iff in Hx. destruct Hx as (y & <- & Hy).
          rewrite map_length. apply (mimc_poly_le bN p cs Hp j y Hy). }
      split; [intros j Hj; apply HR; rewrite HLen; exact Hj|]. split; [exact EP|].
      injection EP as E1 E2 E3.
      assert (HM : forall l, map w l = map w' l -> forall v, In v l -> w v = w' v).
      { induction l as [|y l IH]; intros H v Hv; [destruct Hv|]. injection H as H0 H. destruct Hv as [<-|Hv]; auto. }
      intros v Hv. rewrite !in_app_iff in Hv. destruct Hv as [Hv|[Hv|Hv]].
      - apply (HM (concat (concat (sSumchecks p)))); [|exact Hv]. rewrite !concat_map, E1. reflexivity.
      - exact (HM _ E2 v Hv).
      - exact (HM _ E3 v Hv).
    Qed.
  End Mimc.
End G.

Lemma witness_unique (arks : list Fr) sc c bN p (cs : CS Fr) qPI vIn vOut : (91 <= length arks)%nat ->
  SCreateMimcCircuit arks = Some sc -> CreateMimcCircuit arks = Some c ->
  cs_ok cs -> proof_vars cs bN sc p -> vars cs (qPI ++ vIn ++ vOut) ->
  length qPI = bN -> length vIn = (2 * 2 ^ bN)%nat -> length vOut = (2 ^ bN)%nat ->
  exists cs', SGkrAssertValid arks p sc [] qPI vIn vOut cs = Some (tt, cs') /\
    forall w w', satisfied w cs' -> satisfied w' cs' -> map w qPI = map w' qPI -> map w vIn = map w' vIn ->
    exists a, Assign c [map w vIn] = Some a /\
      ((forall j, ~ collision_from (challenge arks) (read_proof w p) c bN 0 a [] (map w qPI) j) ->
       (forall j, ~ collision_from (challenge arks) (read_proof w' p) c bN 0 a [] (map w qPI) j) ->
       (forall j, (j < 91)%nat -> right_layer (challenge arks) (read_proof w p) c bN 0 a [] (map w qPI) j) /\
       read_proof w p = read_proof w' p /\
       forall v, In v (concat (concat (sSumchecks p)) ++ sLeft p ++ sRight p) -> w v = w' v).
Proof.
  intros HA Esc Ec. rewrite CreateMimcCircuit_ok in Ec by exact HA. apply some_inj in Ec. rewrite SCreateMimcCircuit_ok in Esc by exact HA.
  apply some_inj in Esc. subst. apply (mimc_witness arks HA). apply Fr_distinct_le. lia.
Qed.
