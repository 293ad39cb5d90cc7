(** Exactly when the sum-check provers panic, over the scalar field. *)
From Coq Require Import List Arith ZArith Lia Bool Ring Field.
From Verif Require Import Field Go Trans MCommon Spec MPoly LSpec LCommon LPoly LEffect LPoly2 MCircuit SpecCircuit LCircuit LCircuit2
  MSumcheck SpecSumcheck LSumcheck LSumcheck2 LSumcheck3 LSumcheck4 MSumPar SpecSumPar LSumPar LSumPar2 LSumPar3 LSumPar4 SpecEnds LEnds LEnds2 LEnds3 LEnds4
  FrPrime Fr LPoly3.
Import ListNotations.

Section S.
  Variable ch : list Fr -> Fr.
  Open Scope F_scope.

  Lemma interp_some (e : list Fr) : snd (itp e) = (length e <=? 12)%nat.
  Proof.
    unfold itp. pose proof (interpolation_limit e) as H. destruct (InterpolateOnRange e); cbn [snd].
    - destruct (Nat.leb_spec (length e) 12); [reflexivity|]. destruct H as [_ H]. specialize (H ltac:(lia)). discriminate.
    - destruct (Nat.leb_spec (length e) 12); [|reflexivity]. destruct H as [H _]. specialize (H eq_refl). lia.
  Qed.

  Section P.
    Variables (p0 : Prover Fr) (bG N : nat).
    Hypothesis Hsh : shape N (2 ^ bG) (2 ^ bG) p0.
    Hypothesis Hm : manys p0.
    Hypothesis Hne : bG = 0%nat \/ sGates p0 <> [].
    Let bN := log2ceil N.
    Let T := T ch bG p0.

    Lemma HN : (0 < N)%nat. Proof. apply Hsh. Qed.

    Lemma eq_len j : length (sEq (T j)) = (N / 2 ^ (j - (bG + bG)))%nat.
    Proof.
      induction j as [|j IH]; [cbn [Nat.sub]; unfold T; cbn [LSumPar3.T]; rewrite (sh_eq _ _ _ _ Hsh); change (2 ^ 0)%nat with 1%nat; rewrite Nat.div_1_r; reflexivity|].
      unfold T. cbn [LSumPar3.T]. fold (T j). unfold foldAt. destruct (Nat.ltb_spec j bG) as [H1|H1]; [|destruct (Nat.ltb_spec j (bG + bG)) as [H2|H2]].
      - cbn [foldHL sEq]. rewrite IH. replace (S j - (bG + bG))%nat with (j - (bG + bG))%nat by lia. reflexivity.
      - cbn [foldHR sEq]. rewrite IH. replace (S j - (bG + bG))%nat with (j - (bG + bG))%nat by lia. reflexivity.
      - cbn [foldHP sEq]. rewrite foldv_length, IH. replace (S j - (bG + bG))%nat with (S (j - (bG + bG))) by lia.
        rewrite Nat.pow_succ_r', Nat.div_div, Nat.mul_comm by (try apply Nat.pow_nonzero; lia). reflexivity.
    Qed.

    Lemma okb_deg k q j : N = (2 ^ k * q)%nat -> (j < bG + bG + k)%nat -> okb ch bG p0 j = (degAt bG j p0 <=? 11)%nat.
    Proof.
      intros EN Hj. pose proof HN as HN0. assert (Hq : (0 < q)%nat) by nia.
      assert (S0 : shp bG k q 0 p0) by (unfold shp; rewrite !Nat.sub_0_l, !Nat.sub_0_r, <- EN; exact Hsh).
      pose proof (T_shp ch bG p0 k q _ eq_refl Hq Hne Hm S0 j ltac:(lia)) as SJ.
      destruct (T_gates ch bG p0 j) as (G1 & G2 & G3 & G4).
      destruct (round_facts bG k q 0 j (LSumPar3.T ch bG p0 j)) as (E & _); [exact Hq|exact Hj|rewrite G1; exact Hne|apply T_manys; exact Hm|exact SJ|].
      unfold okb. rewrite E, interp_some, map_length, seq_length.
      assert (D : degAt bG j (LSumPar3.T ch bG p0 j) = degAt bG j p0) by (unfold degAt; rewrite G2, G3, G4; reflexivity). rewrite D.
      destruct (Nat.leb_spec (degAt bG j p0 + 1) 12), (Nat.leb_spec (degAt bG j p0) 11); try reflexivity; lia.
    Qed.

    Definition fine : Prop := (exists c, N = 2 ^ c)%nat /\ (bG = 0 \/ dHL p0 <= 11 /\ dHR p0 <= 11)%nat /\ (N = 1 \/ dHPrime p0 <= 11)%nat.

    Lemma prove_eq0 : Prove ch p0 = if oks ch bG p0 (bG + bG + bN) then
          fc <- finalClaimsOf (T (bG + bG + bN)) ;;
          Some (map (cc ch bG p0) (seq 0 (bG + bG + bN)), map (fun j => ch (cc ch bG p0 j)) (seq (bG + bG) bN),
                map (fun j => ch (cc ch bG p0 j)) (seq 0 bG), map (fun j => ch (cc ch bG p0 j)) (seq bG bG), fc)
        else None.
    Proof.
      rewrite (Prove_eq ch bG p0 bN 0).
      - reflexivity.
      - rewrite (sh_eq _ _ _ _ Hsh), (sh_vR _ _ _ _ Hsh), godiv_some, Nat.div_mul by (pose proof HN; lia). reflexivity.
      - rewrite (sh_eq _ _ _ _ Hsh). unfold bN. lia.
    Qed.

    Lemma oks_at k j : oks ch bG p0 k = true -> (j < k)%nat -> okb ch bG p0 j = true.
    Proof. intros H Hj. unfold oks in H. rewrite forallb_forall in H. apply H. apply in_seq. lia. Qed.

    Lemma prove_exact : Prove ch p0 <> None <-> fine.
    Proof.
      pose proof HN as HN0. destruct (log2ceil_spec N HN0) as [B1 B2]. fold bN in B1, B2. rewrite prove_eq0. split.
      - intros H. destruct (oks ch bG p0 (bG + bG + bN)) eqn:Eo; [|congruence].
        assert (EN : N = (2 ^ bN)%nat).
        { destruct (Nat.eq_dec N (2 ^ bN)) as [E|E]; [exact E|]. exfalso. apply H. unfold finalClaimsOf.
          assert (L : length (sEq (T (bG + bG + bN))) = 0%nat) by (rewrite eq_len; replace (bG + bG + bN - (bG + bG))%nat with bN by lia; apply Nat.div_small; lia).
          destruct (sEq (T (bG + bG + bN))); [|discriminate]. destruct (get (sVL (T (bG + bG + bN))) 0); [|reflexivity].
          destruct (get (sVR (T (bG + bG + bN))) 0); reflexivity. }
        assert (D : forall j, (j < bG + bG + bN)%nat -> (degAt bG j p0 <= 11)%nat).
        { intros j Hj. apply Nat.leb_le. rewrite <- (okb_deg bN 1 j) by lia. exact (oks_at _ j Eo Hj). }
        split; [exists bN; exact EN|]. unfold degAt in D. split.
        + destruct (Nat.eq_dec bG 0) as [->|Hb]; [left; reflexivity|right]. split.
          * specialize (D 0%nat ltac:(lia)). destruct (Nat.ltb_spec 0 bG); [exact D|lia].
          * specialize (D bG ltac:(lia)). rewrite Nat.ltb_irrefl in D. destruct (Nat.ltb_spec bG (bG + bG)); [exact D|lia].
        + destruct (Nat.eq_dec N 1) as [->|H1]; [left; reflexivity|right]. assert (bN <> 0%nat) by (intros E0; rewrite E0 in EN; cbn in EN; lia).
          specialize (D (bG + bG)%nat ltac:(lia)). destruct (Nat.ltb_spec (bG + bG) bG); [lia|]. rewrite Nat.ltb_irrefl in D. exact D.
      - intros ((c & EN) & HG & HP). assert (Ec : bN = c) by (unfold bN; rewrite EN; apply log2ceil_pow2). 
        assert (Eo : oks ch bG p0 (bG + bG + bN) = true).
        { unfold oks. apply forallb_forall. intros j Hj. apply in_seq in Hj. rewrite (okb_deg bN 1 j) by (try lia; rewrite Ec; lia).
          apply Nat.leb_le. unfold degAt. destruct (Nat.ltb_spec j bG); [destruct HG; lia|]. destruct (Nat.ltb_spec j (bG + bG)); [destruct HG; lia|].
          destruct HP as [E1|]; [|assumption]. rewrite E1 in EN. destruct c; [lia|]. cbn in EN. pose proof (pow_pos c). lia. }
        rewrite Eo.
        assert (S0 : shp bG bN 1 0 p0) by (unfold shp; rewrite !Nat.sub_0_l, !Nat.sub_0_r, Nat.mul_1_r, Ec, <- EN; exact Hsh).
        pose proof (T_shp ch bG p0 bN 1 _ eq_refl ltac:(lia) Hne Hm S0 (bG + bG + bN)%nat ltac:(lia)) as SK. fold (T (bG + bG + bN)) in SK. unfold shp in SK.
        replace (bN - (bG + bG + bN - (bG + bG)))%nat with 0%nat in SK by lia.
        replace (bG - (bG + bG + bN))%nat with 0%nat in SK by lia.
        replace (bG - (bG + bG + bN - bG))%nat with 0%nat in SK by lia.
        cbn [Nat.pow] in SK. destruct SK as [_ U2 U3 U4 U5 U6]. unfold finalClaimsOf.
        rewrite (get_nth (sVL _) 0 0), (get_nth (sVR _) 0 0), (get_nth (sEq _) 0 0) by lia.
        rewrite (mapM_some (fun tab : list Fr => get tab 0) (fun tab => nth 0 tab 0)); [discriminate|].
        intros tab Ht. apply get_nth. rewrite (U6 tab Ht). lia.
    Qed.
  End P.

  Lemma whole_exact (p : MTProver Fr) n k bG : mt_ok p n k bG -> (Prove ch (whole p k bG) <> None <-> mt_fine p n k bG).
  Proof.
    intros Hok. rewrite (prove_exact (whole p k bG) bG (2 ^ k * n)).
    - unfold fine, mt_fine, whole. rewrite New_eq. cbn [dHL dHR dHPrime]. pose proof Hok as (Hn & _). pose proof (pow_pos k).
      assert (E1 : (exists c, 2 ^ k * n = 2 ^ c)%nat <-> (exists c, n = 2 ^ c)%nat).
      { split; intros (c & Ec).
        - exists (c - k)%nat. assert (Hk : (k <= c)%nat). { destruct (Nat.le_gt_cases k c) as [Hk|Hk]; [exact Hk|]. apply (Nat.pow_lt_mono_r 2) in Hk; [nia|lia]. }
          replace c with (k + (c - k))%nat in Ec by lia. rewrite Nat.pow_add_r in Ec. nia.
        - exists (k + c)%nat. rewrite Nat.pow_add_r, Ec. reflexivity. }
      assert (E2 : (2 ^ k * n = 1)%nat <-> (k = 0 /\ n = 1)%nat).
      { split; [intros Ee|intros [-> ->]; reflexivity]. destruct k; [cbn in Ee; lia|]. exfalso. rewrite Nat.pow_succ_r' in Ee. pose proof (pow_pos k). nia. }
      rewrite E1, E2. intuition lia.
    - exact (whole_shape p n k bG Hok).
    - unfold manys, whole. rewrite New_eq. cbn [sGates]. apply Hok.
    - unfold whole. rewrite New_eq. cbn [sGates]. apply Hok.
  Qed.

  Lemma mt_exact (p : MTProver Fr) n k bG nCore : mt_ok p n k bG -> (0 < nCore)%nat ->
    mtPrepare p = Some (n, bG, bG + bG + k, log2ceil n)%nat /\
    (mt_fine p n k bG -> exists out, Prove ch (whole p k bG) = Some out /\
       must (mt_step ch p nCore n bG (bG + bG + k) (log2ceil n)) (fun s => main s = MEnd out) (mt_init nCore n)) /\
    (~ mt_fine p n k bG -> Prove ch (whole p k bG) = None /\ fails (mt_step ch p nCore n bG (bG + bG + k) (log2ceil n)) (mt_init nCore n)).
  Proof.
    intros Hok HC. split; [exact (mt_prepare p n k bG nCore Hok HC)|]. pose proof (whole_exact p n k bG Hok) as HW. split; intros Hf.
    - apply HW in Hf. destruct (Prove ch (whole p k bG)) as [out|] eqn:E; [|contradiction]. exists out. split; [reflexivity|].
      eapply must_mono; cycle 1; [exact (proj2 (mt_same_result ch p n k bG nCore out Hok HC E))|]. intros s Hs. exact (proj1 Hs).
    - destruct (Prove ch (whole p k bG)) as [out|] eqn:E; [exfalso; apply Hf, HW; discriminate|]. split; [reflexivity|].
      exact (mt_fails ch p n k bG nCore Hok HC E).
  Qed.
End S.

Section R.
  Context {F : Field}.
  Variable ch : list F -> F.
  Variables (p : MTProver F) (n bG K rest : nat).
  Hypothesis HP : mtPrepare p = Some (n, bG, K, rest).

  Let nr (s : Sub F) := subG s + subG s + subN s.

  Lemma prep_pos : 0 < n.
  Proof.
    unfold mtPrepare, get in HP. destruct (tEq p) as [|e l]; [discriminate HP|]. destruct (tVL p) as [|v l']; [discriminate HP|]. cbn [nth_error] in HP. cbv beta iota zeta in HP.
    match type of HP with context [godiv ?a ?b] => destruct (godiv a b); [|discriminate HP] end. injection HP as H _ _ _. rewrite <- H. cbn. lia.
  Qed.

  Lemma subInit_rounds x : (exists s, subInit p x = Some s) <-> (exists r, rounds_of p x r).
  Proof.
    unfold subInit, rounds_of, get. split.
    - intros (s & H). destruct (nth_error (tVL p) x) as [vL|]; [|discriminate]. destruct (nth_error (tVR p) x) as [vR|]; [|discriminate].
      destruct (nth_error (tEq p) x) as [eq|]; [|discriminate]. rewrite New_eq in H. cbn [sEq sVR] in H. destruct (godiv (length vR) (length eq)) eqn:Eg; [|discriminate H]. assert (Hl : 0 < length eq) by (unfold godiv in Eg; destruct (length eq); [discriminate Eg|lia]).
      eexists. exists vL, vR, eq. repeat (split; [reflexivity|]). split; [exact Hl|reflexivity].
    - intros (r & vL & vR & eq & -> & -> & -> & Hl & _). rewrite New_eq. cbn [sEq sVR]. rewrite godiv_some by lia. eexists. reflexivity.
  Qed.

  Lemma subInit_nr x s : subInit p x = Some s -> rounds_of p x (nr s).
  Proof.
    unfold subInit, rounds_of, get. intros H. destruct (nth_error (tVL p) x) as [vL|]; [|discriminate]. destruct (nth_error (tVR p) x) as [vR|]; [|discriminate].
    destruct (nth_error (tEq p) x) as [eq|]; [|discriminate]. rewrite New_eq in H. cbn [sEq sVR] in H.
    destruct (Nat.eq_dec (length eq) 0) as [E0|E0]; [rewrite E0 in H; discriminate H|]. rewrite godiv_some in H by lia. injection H as <-. unfold nr. cbn [subG subN].
    exists vL, vR, eq. repeat (split; [reflexivity|]). split; lia.
  Qed.

  Lemma rounds_unique x r r' : rounds_of p x r -> rounds_of p x r' -> r = r'.
  Proof. intros (vL & vR & eq & H1 & H2 & H3 & H4 & H5) (vL' & vR' & eq' & H1' & H2' & H3' & H4' & H5'). congruence. Qed.

  Lemma par_finite nCore : ends (mt_step ch p nCore n bG K rest) (fun _ => True) (mt_init nCore n).
  Proof.
    unfold mt_step, mt_init. apply (mt_finite [] (fzero (f:=F)) zSub n nCore K (subInit p) subMore subEvals subFold consumeEvals (mtRound ch bG) (mergeSub n) (mtFinish ch rest) nr).
    - intros j s. reflexivity.
    - intros j s r s' H. exact (subFold_nr j s r s' H).
    - exact prep_pos.
  Qed.

  Lemma par_returns nCore s o x : reach (mt_step ch p nCore n bG K rest) (mt_init nCore n) s -> main s = MEnd o -> x < n -> rounds_of p x K.
  Proof.
    intros Hr Hm Hx.
    destruct (mt_returns [] (fzero (f:=F)) zSub n nCore K (subInit p) subMore subEvals subFold consumeEvals (mtRound ch bG) (mergeSub n) (mtFinish ch rest) nr
      (fun j s => eq_refl) (fun j s r s' H => subFold_nr j s r s' H) prep_pos _ s o x Hr Hm Hx) as (q & H1 & H2).
    rewrite <- H2. apply subInit_nr. exact H1.
  Qed.

  Lemma par_ends nCore : 0 < nCore -> (forall x r, x < n -> rounds_of p x r -> r = K) ->
    ends (mt_step ch p nCore n bG K rest) (fun s => exists o, main s = MEnd o /\ ws s = repeat WEnd n /\ toks s = nCore) (mt_init nCore n).
  Proof.
    intros HC HU. unfold mt_step, mt_init.
    apply (mt_ends [] (fzero (f:=F)) zSub n nCore K (subInit p) subMore subEvals subFold consumeEvals (mtRound ch bG) (mergeSub n) (mtFinish ch rest) nr).
    - intros j s. reflexivity.
    - intros j s r s' H. exact (subFold_nr j s r s' H).
    - exact prep_pos.
    - intros x s Hx Hs. apply (HU x); [exact Hx|]. apply subInit_nr. exact Hs.
    - exact HC.
  Qed.

  Lemma par_missing nCore x : 0 < nCore -> (forall x r, x < n -> rounds_of p x r -> r = K) -> x < n -> ~ (exists r, rounds_of p x r) ->
    fails (mt_step ch p nCore n bG K rest) (mt_init nCore n).
  Proof.
    intros HC HU Hx Hn. unfold fails. eapply ends_reach; [exact (par_ends nCore HC HU)|].
    intros s Hr (o & Hm & _). apply Hn. exists K. exact (par_returns nCore s o x Hr Hm Hx).
  Qed.

  Lemma par_unequal nCore x r : x < n -> rounds_of p x r -> r <> K ->
    ends (mt_step ch p nCore n bG K rest) (fun s => forall o, main s <> MEnd o) (mt_init nCore n).
  Proof.
    intros Hx Hr Hk. eapply ends_reach; [exact (par_finite nCore)|].
    intros s Hs _ o Hm. apply Hk. apply (rounds_unique x); [exact Hr|]. exact (par_returns nCore s o x Hs Hm Hx).
  Qed.

  Lemma par_no_core : ends (mt_step ch p 0 n bG K rest) (fun s => forall o, main s <> MEnd o) (mt_init 0 n).
  Proof. eapply ends_reach; [exact (par_finite 0)|]. intros s Hs _. exact (mt_stuck ch p n bG K rest s prep_pos Hs). Qed.
End R.

Lemma single_exact (ch : list Fr -> Fr) (vL vR eq : list Fr) (gates : list (Gate Fr)) (st : list (list Fr)) bG :
  0 < length eq -> length vL = 2 ^ bG * length eq -> length vR = 2 ^ bG * length eq -> length st = length gates ->
  (forall tab, In tab st -> length tab = 2 ^ bG * 2 ^ bG) -> (bG = 0 \/ gates <> []) -> (forall g, In g gates -> many_ok g) ->
  (Prove ch (NewSingleThreadedProver vL vR eq gates st) <> None <->
   (exists c, length eq = 2 ^ c) /\ (bG = 0 \/ maxHL gates <= 10 /\ maxHR gates <= 10) /\ (length eq = 1 \/ maxHP gates <= 10)).
Proof.
  intros H1 H2 H3 H4 H5 H6 H7. rewrite New_eq. rewrite (prove_exact ch _ bG (length eq)).
  - unfold fine. cbn [dHL dHR dHPrime]. intuition lia.
  - constructor; cbn [sEq sVL sVR sStatic sGates]; auto.
  - exact H7.
  - exact H6.
Qed.

Lemma claim_sum {F : Field} (p : MTProver F) nCore (cl : nat -> F) : 0 < nCore ->
  (forall x, x < length (tEq p) -> chunkClaim p x = Some (cl x)) ->
  must (claim_step p nCore) (fun s => cmn s = CRet (sumn (length (tEq p)) cl) /\ cws s = repeat CEnd (length (tEq p)) /\ ctok s = nCore /\ cbuf (cch s) = [])
    (claim_init p nCore).
Proof. intros H1 H2. exact (claim_must p nCore cl H2 H1). Qed.
Lemma claim_panics {F : Field} (p : MTProver F) nCore x : 0 < nCore -> x < length (tEq p) -> chunkClaim p x = None ->
  fails (claim_step p nCore) (claim_init p nCore).
Proof. intros H1 H2 H3. exact (claim_fails p nCore H1 x H2 H3). Qed.
