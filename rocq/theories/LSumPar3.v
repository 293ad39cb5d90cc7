(** The run of the multi-threaded prover, from that of the single-threaded one. *)
From Coq Require Import List Arith ZArith Lia Bool Ring Field Permutation.
From Verif Require Import Field Go Trans MCommon Spec MPoly LSpec LCommon LPoly LEffect LPoly2 MCircuit SpecCircuit LCircuit LCircuit2
  MSumcheck SpecSumcheck LSumcheck LSumcheck2 LSumcheck3 LSumcheck4 MSumPar SpecSumPar LSumPar LSumPar2.
Import ListNotations.

Lemma nodup_perm_seq (l : list nat) n : NoDup l -> (forall y, In y l -> y < n) -> length l = n -> Permutation l (seq 0 n).
Proof.
  intros H1 H2 H3. apply NoDup_Permutation_bis; [exact H1|rewrite seq_length; lia|].
  intros y Hy. apply in_seq. pose proof (H2 y Hy). lia.
Qed.

Section S.
  Context {F : Field}.
  Add Field FfieldLSumPar3 : (f_theory F).
  Open Scope F_scope.
  Variable ch : list F -> F.

  Lemma rounds_add a b evals fold (st : Prover F * list (list F) * list F) :
    rounds ch (a + b) evals fold st = (st' <- rounds ch a evals fold st ;; rounds ch b evals fold st').
  Proof.
    revert st; induction a as [|a IH]; intros st; [reflexivity|].
    change (S a + b)%nat with (S (a + b)). rewrite !rounds_S. destruct (round ch evals fold st) as [st'|]; [apply IH|reflexivity].
  Qed.

  Section Traj.
    Variable bG : nat.
    Variable p0 : Prover F.
    Definition pol (j : nat) (p : Prover F) : list F :=
      match evalsAt bG j p with Some e => match InterpolateOnRange e with Some c => c | None => [] end | None => [] end.
    Fixpoint T (j : nat) : Prover F :=
      match j with O => p0 | S j => foldAt bG j (T j) (ch (pol j (T j))) end.
    Definition cc (j : nat) : list F := pol j (T j).
    Definition okAt (j : nat) : Prop := exists e, evalsAt bG j (T j) = Some e /\ InterpolateOnRange e = Some (cc j).

    Lemma rounds_T evals fold k : forall o proof q st,
      (forall j, (o <= j < o + k)%nat -> evals (T j) = evalsAt bG j (T j) /\ forall r, fold (T j) r = Some (foldAt bG j (T j) r)) ->
      rounds ch k evals fold (T o, proof, q) = Some st ->
      st = (T (o + k), proof ++ map cc (seq o k), q ++ map (fun j => ch (cc j)) (seq o k)) /\
      forall j, (o <= j < o + k)%nat -> okAt j.
    Proof.
      induction k as [|k IH]; intros o proof q st H E.
      - cbn in E. injection E as <-. rewrite Nat.add_0_r. cbn. rewrite !app_nil_r. split; [reflexivity|lia].
      - rewrite rounds_S in E. destruct (round ch evals fold (T o, proof, q)) as [st'|] eqn:R; [|discriminate].
        unfold round in R. destruct (H o) as [H1 H2]; [lia|]. rewrite H1 in R.
        destruct (evalsAt bG o (T o)) as [e|] eqn:Ee; [|discriminate].
        destruct (InterpolateOnRange e) as [c|] eqn:Ec; [|discriminate].
        cbv beta iota zeta in R. rewrite H2 in R. cbv beta iota zeta in R. injection R as <-.
        assert (Hc : cc o = c) by (unfold cc, pol; rewrite Ee, Ec; reflexivity).
        assert (HT : foldAt bG o (T o) (ch c) = T (S o)) by (cbn [T]; fold (cc o); rewrite Hc; reflexivity).
        rewrite HT in E. apply IH in E; [|intros j Hj; apply H; lia]. destruct E as [-> Hok].
        cbn [seq map]. rewrite Hc, <- !app_assoc. cbn [app].
        split; [f_equal; f_equal; f_equal; lia|]. intros j Hj. destruct (Nat.eq_dec j o) as [->|]; [|apply Hok; lia].
        exists e. rewrite Hc. auto.
    Qed.

    Lemma T_gates j : sGates (T j) = sGates p0 /\ dHL (T j) = dHL p0 /\ dHR (T j) = dHR p0 /\ dHPrime (T j) = dHPrime p0.
    Proof.
      induction j as [|j (H1 & H2 & H3 & H4)]; [auto|]. cbn [T]. unfold foldAt. destruct (j <? bG)%nat, (j <? bG + bG)%nat; cbn; auto.
    Qed.
    Lemma T_manys j : manys p0 -> manys (T j).
    Proof. unfold manys. rewrite (proj1 (T_gates j)). auto. Qed.
    Lemma T_shp k q K : K = (bG + bG + k)%nat -> (0 < q)%nat -> (bG = 0%nat \/ sGates p0 <> []) -> manys p0 ->
      shp bG k q 0 p0 -> forall j, (j <= K)%nat -> shp bG k q j (T j).
    Proof.
      intros -> Hq Hne Hm HS. induction j as [|j IH]; intros Hj; [exact HS|].
      apply (round_facts bG k q 0 j (T j)); [exact Hq|lia|rewrite (proj1 (T_gates j)); exact Hne|apply T_manys; exact Hm|apply IH; lia].
    Qed.
    Lemma evalsAt_cases j : (j < bG)%nat \/ (bG <= j < bG + bG)%nat \/ (bG + bG <= j)%nat ->
      (j < bG -> GetEvalsOnHL (T j) = evalsAt bG j (T j) /\ forall r, FoldHL (T j) r = Some (foldAt bG j (T j) r))%nat /\
      (bG <= j < bG + bG -> GetEvalsOnHR (T j) = evalsAt bG j (T j) /\ forall r, FoldHR (T j) r = Some (foldAt bG j (T j) r))%nat /\
      (bG + bG <= j -> GetEvalsOnHPrime (T j) = evalsAt bG j (T j) /\ forall r, FoldHPrime (T j) r = Some (foldAt bG j (T j) r))%nat.
    Proof.
      intros _. unfold evalsAt, foldAt.
      destruct (Nat.ltb_spec j bG); destruct (Nat.ltb_spec j (bG + bG)); (split; [|split]); intros ?; try lia;
        (split; [reflexivity|intros r; first [apply FoldHL_eq|apply FoldHR_eq|apply FoldHP_eq]]).
    Qed.
    Lemma case_HL j : (j < bG)%nat -> GetEvalsOnHL (T j) = evalsAt bG j (T j) /\ forall r, FoldHL (T j) r = Some (foldAt bG j (T j) r).
    Proof. intros H. apply evalsAt_cases; lia. Qed.
    Lemma case_HR j : (bG <= j < bG + bG)%nat -> GetEvalsOnHR (T j) = evalsAt bG j (T j) /\ forall r, FoldHR (T j) r = Some (foldAt bG j (T j) r).
    Proof. intros H. apply evalsAt_cases; lia. Qed.
    Lemma case_HP j : (bG + bG <= j)%nat -> GetEvalsOnHPrime (T j) = evalsAt bG j (T j) /\ forall r, FoldHPrime (T j) r = Some (foldAt bG j (T j) r).
    Proof. intros H. apply evalsAt_cases; lia. Qed.

    Lemma Prove_T bN out : godiv (length (sVR p0)) (length (sEq p0)) = Some (2 ^ bG)%nat -> log2ceil (length (sEq p0)) = bN ->
      Prove ch p0 = Some out ->
      exists fc, finalClaimsOf (T (bG + bG + bN)) = Some fc /\
        out = (map cc (seq 0 (bG + bG + bN)), map (fun j => ch (cc j)) (seq (bG + bG) bN),
               map (fun j => ch (cc j)) (seq 0 bG), map (fun j => ch (cc j)) (seq bG bG), fc) /\
        (forall j, (j < bG + bG + bN)%nat -> okAt j) /\
        forall a b proof q, (a + b = bN)%nat ->
          rounds ch b GetEvalsOnHPrime FoldHPrime (T (bG + bG + a), proof, q) =
            Some (T (bG + bG + bN), proof ++ map cc (seq (bG + bG + a) b), q ++ map (fun j => ch (cc j)) (seq (bG + bG + a) b)).
    Proof.
      intros Hd HN E. unfold Prove in E. rewrite Hd in E. cbv beta iota zeta in E. rewrite HN, log2ceil_pow2 in E.
      destruct (rounds ch bG GetEvalsOnHL FoldHL (p0, [], [])) as [st1|] eqn:E1; [|discriminate].
      change p0 with (T 0) in E1. apply rounds_T in E1; [|intros j Hj; apply case_HL; lia]. destruct E1 as [-> Ok1].
      cbn [app Nat.add] in E. cbv beta iota in E.
      match type of E with context [rounds ch bG GetEvalsOnHR FoldHR ?s] => destruct (rounds ch bG GetEvalsOnHR FoldHR s) as [st2|] eqn:E2; [|discriminate] end.
      apply rounds_T in E2; [|intros j Hj; apply case_HR; lia]. destruct E2 as [-> Ok2]. cbn [app] in E. cbv beta iota in E.
      match type of E with context [rounds ch bN GetEvalsOnHPrime FoldHPrime ?s] => destruct (rounds ch bN GetEvalsOnHPrime FoldHPrime s) as [st3|] eqn:E3; [|discriminate] end.
      assert (HPall : forall proof q st, rounds ch bN GetEvalsOnHPrime FoldHPrime (T (bG + bG), proof, q) = Some st ->
         forall a b proof q, (a + b = bN)%nat ->
          rounds ch b GetEvalsOnHPrime FoldHPrime (T (bG + bG + a), proof, q) =
            Some (T (bG + bG + bN), proof ++ map cc (seq (bG + bG + a) b), q ++ map (fun j => ch (cc j)) (seq (bG + bG + a) b))).
      { clear - ch. intros proof q st Hst a b proof' q' Hab.
        assert (Hok : forall j, (bG + bG <= j < bG + bG + bN)%nat -> okAt j).
        { apply rounds_T in Hst; [apply Hst|]. intros j Hj. apply case_HP. lia. }
        clear Hst. revert a proof' q' Hab. induction b as [|b IH]; intros a proof' q' Hab.
        - cbn. rewrite !app_nil_r. replace (bG + bG + a)%nat with (bG + bG + bN)%nat by lia. reflexivity.
        - rewrite rounds_S. unfold round. destruct (case_HP (bG + bG + a)) as [C1 C2]; [lia|]. rewrite C1.
          destruct (Hok (bG + bG + a)%nat) as (e & He & Hc); [lia|]. rewrite He. cbv beta iota zeta. rewrite Hc. cbv beta iota zeta.
          rewrite C2. cbv beta iota zeta.
          change (foldAt bG (bG + bG + a) (T (bG + bG + a)) (ch (cc (bG + bG + a)))) with (T (S (bG + bG + a))).
          replace (S (bG + bG + a))%nat with (bG + bG + S a)%nat by lia.
          rewrite IH by lia. cbn [seq map]. rewrite <- !app_assoc. cbn [app].
          replace (S (bG + bG + a))%nat with (bG + bG + S a)%nat by lia. reflexivity. }
      pose proof (HPall _ _ _ E3) as HP.
      apply rounds_T in E3; [|intros j Hj; apply case_HP; lia]. destruct E3 as [-> Ok3]. cbn [app] in E. cbv beta iota in E.
      destruct (finalClaimsOf (T (bG + bG + bN))) as [fc|] eqn:Ef; [|discriminate]. injection E as <-.
      exists fc. split; [reflexivity|]. split; [|split].
      - rewrite !seq_app, !map_app. reflexivity.
      - intros j Hj. destruct (Nat.lt_ge_cases j bG); [apply Ok1; lia|]. destruct (Nat.lt_ge_cases j (bG + bG)); [apply Ok2; lia|apply Ok3; lia].
      - intros a b proof q Hab. apply HP. exact Hab.
    Qed.
  End Traj.

  Lemma consume_sum (a b : list F) : length b = length a ->
    consumeEvals (Some a) b = Some (map (fun i => nth i a 0 + nth i b 0) (seq 0 (length a))).
  Proof.
    intros H. unfold consumeEvals, forN.
    apply (foldM_write 0 (fun i => nth i a 0 + nth i b 0)); [reflexivity|].
    intros t i Hi Ht Hs. rewrite (get_nth t i 0), (get_nth b i 0) by lia. rewrite (Hs i) by lia.
    rewrite set_some by lia. reflexivity.
  Qed.

  Lemma whole_shape (p : MTProver F) n k bG : mt_ok p n k bG -> shape (2 ^ k * n) (2 ^ bG) (2 ^ bG) (whole p k bG).
  Proof.
    intros (Hn & H1 & H2 & H3 & _ & _ & _ & H4 & H5 & _). unfold whole. rewrite New_eq. pose proof (pow_pos k).
    constructor; cbn [sEq sVL sVR sStatic sGates]; auto.
    - nia.
    - rewrite interleave_length, H1. reflexivity.
    - rewrite interleave_length, H2, Nat.pow_add_r. lia.
    - rewrite interleave_length, H3, Nat.pow_add_r. lia.
  Qed.

  Lemma whole_part (p : MTProver F) n k bG x : mt_ok p n k bG -> (x < n)%nat ->
    part n x (whole p k bG) = NewSingleThreadedProver (nth x (tVL p) []) (nth x (tVR p) []) (nth x (tEq p) []) (tGates p) (tStatic p).
  Proof.
    intros (Hn & H1 & H2 & H3 & L1 & L2 & L3 & _) Hx. unfold whole. rewrite !New_eq. unfold part. cbn [sEq sVL sVR sStatic sGates dHL dHR dHPrime].
    rewrite !(chunk_eq n) by assumption. reflexivity.
  Qed.

  Lemma part_val bG k n j (p : Prover F) : (0 < n)%nat -> shp bG k n j p -> val bG k n j p = sumn n (fun s => val bG k 1 j (part n s p)).
  Proof.
    intros Hn H. unfold val. rewrite (psum_parts n _ _ _ p Hn H). apply sumn_ext. intros s Hs. rewrite Nat.mul_1_r. reflexivity.
  Qed.
  Lemma part_shp bG k n j (p : Prover F) s : (0 < n)%nat -> shp bG k n j p -> shp bG k 1 j (part n s p).
  Proof. intros Hn H. unfold shp in *. rewrite Nat.mul_1_r. apply part_shape; [exact Hn|apply pow_pos|exact H]. Qed.

  Lemma prover_eta (p : Prover F) : MkProver (sVL p) (sVR p) (sEq p) (sGates p) (sStatic p) (dHL p) (dHR p) (dHPrime p) = p.
  Proof. destruct p; reflexivity. Qed.

  Section Run.
    Variable p : MTProver F.
    Variables n k bG nCore : nat.
    Hypothesis Hok : mt_ok p n k bG.
    Hypothesis HnCore : (0 < nCore)%nat.
    Let p0 := whole p k bG.
    Variable out : list (list F) * list F * list F * list F * list F.
    Hypothesis Hout : Prove ch p0 = Some out.
    Let c := log2ceil n.
    Let K := (bG + bG + k)%nat.
    Let T := T bG p0.
    Let cc := cc bG p0.

    Let Hn : (0 < n)%nat. Proof. apply Hok. Qed.
    Let Hs0 : shp bG k n 0 p0.
    Proof. unfold shp. rewrite !Nat.sub_0_l, !Nat.sub_0_r. exact (whole_shape p n k bG Hok). Qed.
    Let Hg0 : sGates p0 = tGates p. Proof. unfold p0, whole. rewrite New_eq. reflexivity. Qed.
    Let Hm0 : manys p0. Proof. unfold manys. rewrite Hg0. apply Hok. Qed.
    Let Hne0 : bG = 0%nat \/ sGates p0 <> []. Proof. rewrite Hg0. apply Hok. Qed.
    Let HT j : (j <= K)%nat -> shp bG k n j (T j).
    Proof. apply (T_shp bG p0 k n K eq_refl Hn Hne0 Hm0 Hs0). Qed.
    Let Hne j : bG = 0%nat \/ sGates (T j) <> [].
    Proof. unfold T. rewrite (proj1 (T_gates bG p0 j)). exact Hne0. Qed.
    Let Hm j : manys (T j). Proof. apply T_manys. exact Hm0. Qed.

    Definition pval (x j t : nat) : F := val bG k 1 (S j) (foldAt bG j (part n x (T j)) (fnat t)).
    Definition nev (j : nat) : nat := (degAt bG j (T j) + 1)%nat.

    Lemma degAt_part x j (q : Prover F) : degAt bG j (part n x q) = degAt bG j q.
    Proof. unfold degAt. destruct (j <? bG)%nat, (j <? bG + bG)%nat; reflexivity. Qed.

    Lemma run_evals x j : (x < n)%nat -> (j < K)%nat -> evalsAt bG j (part n x (T j)) = Some (map (pval x j) (seq 0 (nev j))).
    Proof.
      intros Hx Hj. unfold nev, pval. rewrite <- (degAt_part x j (T j)).
      apply (round_facts bG k 1 0 j); [lia|exact Hj|exact (Hne j)|exact (Hm j)|apply part_shp; [exact Hn|apply HT; lia]].
    Qed.

    Lemma run_part x j : (x < n)%nat -> (j < K)%nat -> forall r, part n x (foldAt bG j (T j) r) = foldAt bG j (part n x (T j)) r.
    Proof.
      intros Hx Hj r.
      apply (round_facts bG k n n j (T j)); auto; apply HT; lia.
    Qed.

    Lemma run_whole j : (j < K)%nat -> evalsAt bG j (T j) = Some (map (fun t => sumn n (fun x => pval x j t)) (seq 0 (nev j))).
    Proof.
      intros Hj. destruct (round_facts bG k n n j (T j)) as (E1 & E2 & E3); auto; [apply HT; lia|].
      rewrite E1. f_equal. apply map_ext_in. intros t _. rewrite part_val by auto. apply sumn_ext. intros x Hx. unfold pval.
      rewrite run_part by assumption. reflexivity.
    Qed.

    Definition ms (j : nat) : MLoc :=
      MkLoc (map cc (seq 0 j)) (map (fun i => ch (cc i)) (seq (bG + bG) (j - (bG + bG))))
        (map (fun i => ch (cc i)) (seq 0 (Nat.min j bG))) (map (fun i => ch (cc i)) (seq bG (Nat.min (j - bG) bG))).
    Definition Acc (j : nat) (l : list nat) (a : option (list F)) : Prop :=
      a = match l with [] => None | _ => Some (map (fun t => suml l (fun x => pval x j t)) (seq 0 (nev j))) end.

    Definition Mrg (l : list nat) (g : option (Merged (F:=F))) : Prop :=
      match l with
      | [] => g = None
      | _ => exists vL vR eq, g = Some (vL, vR, eq, sGates (T K), sStatic (T K)) /\
          length vL = n /\ length vR = n /\ length eq = n /\
          forall x, In x l -> nth x vL 0 = nth x (sVL (T K)) 0 /\ nth x vR 0 = nth x (sVR (T K)) 0 /\ nth x eq 0 = nth x (sEq (T K)) 0
      end.

    Let TK : shape n 1 1 (T K).
    Proof.
      pose proof (HT K (le_n _)) as H. unfold shp, K in H.
      replace (k - (bG + bG + k - (bG + bG)))%nat with 0%nat in H by lia.
      replace (bG - (bG + bG + k))%nat with 0%nat in H by lia.
      replace (bG - (bG + bG + k - bG))%nat with 0%nat in H by lia.
      cbn [Nat.pow] in H. rewrite Nat.mul_1_l in H. exact H.
    Qed.
    Lemma chunk1 x (t : list F) : length t = (1 * n)%nat -> (x < n)%nat -> get (chunkOf n x t) 0 = Some (nth x t 0).
    Proof.
      intros Ht Hx. rewrite (get_nth _ 0 0) by (rewrite (chunkOf_length n x t 1) by assumption; lia).
      rewrite (chunkOf_nth n x t 1) by (try assumption; lia). reflexivity.
    Qed.

    Lemma Mrg_step l g x : Mrg l g -> (x < n)%nat ->
      exists g', mergeSub n g (x, MkSub (part n x (T K)) bG k) = Some g' /\ Mrg (l ++ [x]) (Some g').
    Proof.
      intros HM Hx. destruct TK as [S1 S2 S3 S4 S5 S6].
      assert (exists vL vR eq, (match g with None => (repeat 0 n, repeat 0 n, repeat 0 n, sGates (T K), sStatic (T K)) | Some g => g end)
                 = (vL, vR, eq, sGates (T K), sStatic (T K)) /\ length vL = n /\ length vR = n /\ length eq = n /\
          forall x, In x l -> nth x vL 0 = nth x (sVL (T K)) 0 /\ nth x vR 0 = nth x (sVR (T K)) 0 /\ nth x eq 0 = nth x (sEq (T K)) 0)
        as (vL & vR & eq & E & L1 & L2 & L3 & HH).
      { destruct l as [|y l].
        - cbn in HM. subst g. do 3 eexists. split; [reflexivity|]. rewrite repeat_length. repeat (split; [reflexivity|]). intros y [].
        - destruct HM as (vL & vR & eq & -> & H). exists vL, vR, eq. split; [reflexivity|exact H]. }
      unfold mergeSub. cbn [snd fst subProver part sVL sVR sEq sGates sStatic].
      change (option_map (fun x => x) g) with g.
      match goal with |- context [match ?a with Some g => g | None => ?b end] => change (match a with Some g => g | None => b end) with (match g with None => (repeat 0 n, repeat 0 n, repeat 0 n, sGates (T K), sStatic (T K)) | Some g => g end) end.
      rewrite E. rewrite !chunk1 by (rewrite ?Nat.mul_1_l in *; assumption).
      rewrite !set_some by lia. eexists. split; [reflexivity|].
      assert (Hnn : exists z l', l ++ [x] = z :: l') by (destruct l; cbn; eauto). destruct Hnn as (z & l' & Hz).
      unfold Mrg. rewrite Hz. do 3 eexists. split; [reflexivity|]. rewrite !upd_length. repeat (split; [assumption|]).
      rewrite <- Hz. intros y Hy. destruct (Nat.eq_dec y x) as [->|Hne'].
      - rewrite !nth_upd_same by lia. auto.
      - rewrite !nth_upd_other by auto. apply HH. apply in_app_iff in Hy. destruct Hy as [Hy|[Hy|[]]]; [exact Hy|congruence].
    Qed.

    Lemma mt_prepare : mtPrepare p = Some (n, bG, K, c).
    Proof.
      destruct Hok as (_ & H1 & H2 & H3 & L1 & L2 & L3 & _). unfold mtPrepare. rewrite H1.
      rewrite (get_nth (tEq p) 0 []), (get_nth (tVL p) 0 []) by lia. cbv beta iota zeta.
      rewrite (L1 (nth 0 (tEq p) [])), (L2 (nth 0 (tVL p) [])) by (apply nth_In; lia).
      pose proof (pow_pos k). rewrite godiv_some by nia. cbv beta iota zeta.
      replace (n * 2 ^ (bG + k))%nat with (2 ^ bG * (n * 2 ^ k))%nat by (rewrite Nat.pow_add_r; lia).
      rewrite Nat.div_mul, log2ceil_pow2, log2ceil_mul by nia. fold c. unfold K.
      replace (2 * bG + (k + c) - c)%nat with (bG + bG + k)%nat by lia.
      rewrite Nat.min_l by lia. reflexivity.
    Qed.

    Lemma mt_run : must (mt_step ch p nCore n bG K c)
      (fun s => main s = MEnd out /\ ws s = repeat WEnd n /\ toks s = nCore /\ rCs s = repeat (MkChan [] true) n /\
         evC s = MkChan [] true /\ finC s = MkChan [] true) (mt_init nCore n).
    Proof.
      destruct (whole_shape p n k bG Hok) as [S1 S2 S3 S4 S5 S6]. fold p0 in S1, S2, S3, S4, S5, S6.
      destruct (Prove_T bG p0 (k + c) out) as (fc & Hfc & Eout & HokAt & HP); [| |exact Hout|].
      { rewrite S2, S4, godiv_some, Nat.div_mul by lia. reflexivity. }
      { rewrite S2, Nat.mul_comm. apply log2ceil_mul. lia. }
      apply (mt_must [] 0 zSub n nCore K (subInit p) subMore subEvals subFold consumeEvals (mtRound ch bG) (mergeSub n) (mtFinish ch c)
        (fun x j => MkSub (part n x (T j)) bG k) (fun x j => map (pval x j) (seq 0 (nev j))) (fun j => ch (cc j)) ms out Acc Mrg);
        try assumption.
      - intros x Hx. destruct Hok as (_ & H1 & H2 & H3 & L1 & L2 & L3 & _).
        unfold subInit. rewrite (get_nth (tVL p) x []), (get_nth (tVR p) x []), (get_nth (tEq p) x []) by lia. cbv beta iota zeta.
        change (T 0) with p0. unfold p0. rewrite (whole_part p n k bG x Hok Hx). rewrite New_eq. cbn [sEq sVR].
        rewrite (L1 (nth x (tEq p) [])), (L3 (nth x (tVR p) [])) by (apply nth_In; lia).
        pose proof (pow_pos k). rewrite godiv_some by lia. rewrite Nat.pow_add_r, Nat.div_mul, !log2ceil_pow2 by lia. reflexivity.
      - intros x j Hx Hj. reflexivity.
      - intros x j Hx Hj. unfold subEvals. cbn [subG subProver]. exact (run_evals x j Hx Hj).
      - intros x j Hx Hj. unfold subFold. cbn [subG subN subProver]. 
        change (T (S j)) with (foldAt bG j (T j) (ch (cc j))). rewrite run_part by assumption.
        unfold foldAt. destruct (j <? bG)%nat; [rewrite FoldHL_eq; reflexivity|].
        destruct (j <? bG + bG)%nat; [rewrite FoldHR_eq|rewrite FoldHP_eq]; reflexivity.
      - intros j. reflexivity.
      - intros j l a x Hj HA Hnd Hlt. unfold Acc in *. subst a. destruct l as [|y l].
        + eexists. split; [reflexivity|]. cbn [app]. f_equal. apply map_ext. intros t. cbn. ring.
        + rewrite consume_sum by (rewrite !map_length; reflexivity). eexists. split; [reflexivity|].
          cbn [app]. f_equal. rewrite map_length, seq_length. apply map_ext_in. intros t Ht. apply in_seq in Ht.
          rewrite !nth_map_seq by lia. change (y :: l ++ [x]) with ((y :: l) ++ [x]). rewrite suml_app. cbn [suml fold_right]. cbn. ring.
      - intros j l a Hj HA Hnd Hlt Hlen. unfold Acc in HA. destruct l as [|y l]; [discriminate|].
        assert (E : a = map (fun t => suml (y :: l) (fun x => pval x j t)) (seq 0 (nev j))) by congruence. subst a. clear HA.
        assert (E : map (fun t => suml (y :: l) (fun x => pval x j t)) (seq 0 (nev j)) = map (fun t => sumn n (fun x => pval x j t)) (seq 0 (nev j))).
        { apply map_ext. intros t. apply suml_perm. apply nodup_perm_seq; assumption. }
        rewrite E. destruct (HokAt j) as (e & He & Hc); [unfold K in Hj; lia|].
        pose proof (run_whole j Hj) as HW. unfold T in HW. rewrite He in HW. injection HW as ->.
        unfold mtRound. fold cc in Hc. etransitivity; [rewrite Hc; reflexivity|]. cbv beta iota zeta. f_equal. f_equal.
        unfold ms. cbn [lProof lQP lQL lQR]. rewrite (seq_S j 0), map_app. cbn [Nat.add map].
        replace (2 * bG)%nat with (bG + bG)%nat by lia.
        destruct (Nat.ltb_spec j bG) as [H1|H1]; [|destruct (Nat.ltb_spec j (bG + bG)) as [H2|H2]].
        + rewrite !(Nat.min_l _ bG) by lia. replace (S j - (bG + bG))%nat with (j - (bG + bG))%nat by lia.
          replace (S j - bG)%nat with (j - bG)%nat by lia. rewrite (seq_S j 0), (map_app (fun i => ch (cc i))). reflexivity.
        + rewrite (Nat.min_r j bG), (Nat.min_r (S j) bG), (Nat.min_l (j - bG) bG), (Nat.min_l (S j - bG) bG) by lia. replace (S j - (bG + bG))%nat with (j - (bG + bG))%nat by lia.
          replace (S j - bG)%nat with (S (j - bG)) by lia. rewrite (seq_S (j - bG) bG), (map_app (fun i => ch (cc i))).
          replace (bG + (j - bG))%nat with j by lia. reflexivity.
        + rewrite !(Nat.min_r _ bG) by lia. replace (S j - (bG + bG))%nat with (S (j - (bG + bG))) by lia.
          rewrite (seq_S (j - (bG + bG)) (bG + bG)), (map_app (fun i => ch (cc i))).
          replace (bG + bG + (j - (bG + bG)))%nat with j by lia. reflexivity.
      - reflexivity.
      - intros l g x HM _ Hlt. apply Mrg_step; [exact HM|]. apply Hlt. apply in_app_iff. right. left. reflexivity.
      - intros l g HM Hnd Hlt Hlen. unfold Mrg in HM. destruct l as [|y l]; [cbn in Hlen; lia|].
        destruct HM as (vL & vR & eq & E & L1 & L2 & L3 & HH). injection E as ->. destruct TK as [U1 U2 U3 U4 U5 U6].
        assert (Hall : forall x, (x < n)%nat -> In x (y :: l)).
        { intros x Hx. apply (Permutation_in x (Permutation_sym (nodup_perm_seq (y :: l) n Hnd Hlt Hlen))). apply in_seq. lia. }
        assert (vL = sVL (T K)) as -> by (apply (list_ext 0); [lia|intros x Hx; apply HH, Hall; lia]).
        assert (vR = sVR (T K)) as -> by (apply (list_ext 0); [lia|intros x Hx; apply HH, Hall; lia]).
        assert (eq = sEq (T K)) as -> by (apply (list_ext 0); [lia|intros x Hx; apply HH, Hall; lia]).
        unfold mtFinish. rewrite New_eq.
        destruct (T_gates bG p0 K) as (G1 & G2 & G3 & G4). fold T in G1, G2, G3, G4.
        assert (D : dHL p0 = (maxHL (sGates (T K)) + 1)%nat /\ dHR p0 = (maxHR (sGates (T K)) + 1)%nat /\ dHPrime p0 = (maxHP (sGates (T K)) + 1)%nat).
        { rewrite G1, Hg0. unfold p0, whole. rewrite New_eq. auto. }
        destruct D as (D1 & D2 & D3). rewrite <- D1, <- D2, <- D3, <- G2, <- G3, <- G4, prover_eta.
        unfold T, K. rewrite (HP k c) by reflexivity. cbv beta iota zeta. rewrite Hfc. rewrite Eout.
        unfold ms, lProof, lQP, lQL, lQR. cbv beta iota zeta. fold cc.
        rewrite Nat.min_r, Nat.min_r by lia. replace (bG + bG + k - (bG + bG))%nat with k by lia.
        rewrite (Nat.add_assoc (bG + bG) k c), (seq_app (bG + bG + k) c 0), (seq_app k c (bG + bG)), !map_app. reflexivity.
      - unfold ms. cbn. reflexivity.
    Qed.
  End Run.
End S.
