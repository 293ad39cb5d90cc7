(** What a sub-prover goroutine counts (lemmas for PCost5.v). *)
From Coq Require Import List Arith ZArith Lia Bool.
From Verif Require Import Field Go MCommon LCommon MPoly LPoly MCircuit MSumcheck LSumcheck MSumPar SpecSumPar LSumPar3 LSumPar4 LSumcheck4 SpecSumcheck MCost SpecCost LCost LCost2 LCost3 LCost5 MCost5 SpecCost5.
Import ListNotations.

Lemma a_list {S X} (I : nat -> S -> Prop) (P : X -> Prop) (f : S -> X -> W S) A B : (forall b s x, P x -> I (1 + b) s -> atmost (f s x) (I b) (A + 2 ^ b * B)) ->
  forall l s, Forall P l -> I (length l) s -> atmost (foldW f l s) (I 0) (length l * A + (2 ^ length l - 1) * B).
Proof.
  intros H. induction l as [|x l IH]; intros s HP Hs; [apply (a_costs _ _ 0); [apply c_ret, Hs|apply Nat.le_0_l]|].
  inversion HP; subst. cbn [foldW length] in *. apply (a_bind _ _ (I (length l)) _ (A + 2 ^ length l * B) (length l * A + (2 ^ length l - 1) * B)); [apply H; assumption|intros s' Hs'; apply IH; assumption|].
  cbn [Nat.pow]. assert (1 <= 2 ^ length l) by (clear; induction l; cbn; lia).
  replace (2 * 2 ^ length l - 1) with (2 ^ length l + (2 ^ length l - 1)) by lia. lia.
Qed.

Lemma in_range {A} a (l : list A) : Forall (fun jr : nat * A => a <= fst jr < a + length l) (combine (seq a (length l)) l).
Proof. apply Forall_forall. intros [j r] H. apply in_combine_l, in_seq in H. exact H. Qed.

Lemma len_range {A} a (l : list A) : length (combine (seq a (length l)) l) = length l.
Proof. rewrite combine_length, seq_length. apply Nat.min_id. Qed.

Section S.
  Context {F : Field}.
  Open Scope nat_scope.

  (* ---------------------------------------------------------------- values *)
  Lemma sub_evals gs cs j (s : Sub F) : Forall2 priced gs cs -> sGates (subProver s) = map wbase gs -> erase (WsubEvals gs j s) = subEvals j s.
  Proof.
    intros HP Hg. assert (H := all_priced gs cs HP). unfold WsubEvals, subEvals. destruct (j <? subG s); [|destruct (j <? subG s + subG s)].
    - apply er_HL; [|exact Hg]. intros g Hin. destruct (H g Hin) as (c & P1 & P2 & P3 & _). exact P2.
    - apply er_HR; [|exact Hg]. intros g Hin. destruct (H g Hin) as (c & P1 & P2 & P3 & _). exact P3.
    - apply er_HPrime; [|exact Hg]. intros g Hin x y. destruct (H g Hin) as (c & P1 & _). rewrite P1. reflexivity.
  Qed.

  Lemma sub_fold j (s : Sub F) r : erase (WsubFold j s r) = subFold j s r.
  Proof.
    unfold WsubFold, subFold. apply er_bind'; [|reflexivity]. destruct (j <? subG s); [apply er_FoldHL|]. destruct (j <? subG s + subG s); [apply er_FoldHR|apply er_FoldHPrime].
  Qed.

  Lemma fold_gates j (s s' : Sub F) r : subFold j s r = Some s' -> sGates (subProver s') = sGates (subProver s).
  Proof.
    assert (HL : forall p p' : Prover F, FoldHL p r = Some p' -> sGates p' = sGates p).
    { unfold FoldHL. intros p p' E. destruct (mapM _ _); [|discriminate E]. destruct (Fold _ _); [|discriminate E]. injection E as <-. reflexivity. }
    assert (HR : forall p p' : Prover F, FoldHR p r = Some p' -> sGates p' = sGates p).
    { unfold FoldHR. intros p p' E. destruct (mapM _ _); [|discriminate E]. destruct (Fold _ _); [|discriminate E]. injection E as <-. reflexivity. }
    assert (HQ : forall p p' : Prover F, FoldHPrime p r = Some p' -> sGates p' = sGates p).
    { unfold FoldHPrime. intros p p' E. destruct (Fold _ _); [|discriminate E]. destruct (Fold _ _); [|discriminate E]. destruct (Fold _ _); [|discriminate E]. injection E as <-. reflexivity. }
    unfold subFold. intros E. destruct (j <? subG s); [|destruct (j <? subG s + subG s)].
    - destruct (FoldHL _ _) as [q|] eqn:Ef; [|discriminate E]. injection E as <-. exact (HL _ _ Ef).
    - destruct (FoldHR _ _) as [q|] eqn:Ef; [|discriminate E]. injection E as <-. exact (HR _ _ Ef).
    - destruct (FoldHPrime _ _) as [q|] eqn:Ef; [|discriminate E]. injection E as <-. exact (HQ _ _ Ef).
  Qed.

  Lemma sub_rounds gs cs : Forall2 priced gs cs -> forall l (s : Sub F), sGates (subProver s) = map wbase gs ->
    erase (foldW (WsubRound gs) l s) = foldM sub_round l s /\ forall s', foldM sub_round l s = Some s' -> sGates (subProver s') = map wbase gs.
  Proof.
    intros HP. induction l as [|[j r] l IH]; intros s Hs; [split; [reflexivity|intros s' [= <-]; exact Hs]|].
    cbn [foldW foldM]. rewrite er_bind. unfold WsubRound at 1, sub_round at 1 3. cbn [fst snd].
    destruct (subMore j s); [|split; [reflexivity|discriminate]]. rewrite er_bind, (sub_evals gs cs j s HP Hs).
    destruct (subEvals j s); [|split; [reflexivity|discriminate]]. rewrite sub_fold. destruct (subFold j s r) as [s1|] eqn:E; [|split; [reflexivity|discriminate]].
    apply IH. rewrite (fold_gates _ _ _ _ E). exact Hs.
  Qed.

  Lemma sub_values gs cs qL qR qP (s : Sub F) : Forall2 priced gs cs -> sGates (subProver s) = map wbase gs ->
    erase (WsubRun gs qL qR qP s) = sub_run qL qR qP s.
  Proof.
    intros HP Hs. unfold WsubRun, sub_run. rewrite er_bind. destruct (sub_rounds gs cs HP (combine (seq 0 (length qL)) qL) s Hs) as [-> H1].
    destruct (foldM sub_round (combine (seq 0 (length qL)) qL) s) as [s1|]; [|reflexivity]. specialize (H1 s1 eq_refl).
    rewrite er_bind. destruct (sub_rounds gs cs HP (combine (seq (length qL) (length qR)) qR) s1 H1) as [-> H2].
    destruct (foldM sub_round (combine (seq (length qL) (length qR)) qR) s1) as [s2|]; [|reflexivity]. specialize (H2 s2 eq_refl).
    apply (sub_rounds gs cs HP _ s2 H2).
  Qed.

  (* ---------------------------------------------------------------- counts *)
  Section Sub.
    Variables (gs : list (WGate F)) (cs : list Price).
    Hypothesis HP : Forall2 priced gs cs.
    Variables (dl dr dp n g bG m : nat) (ss : list nat).
    Hypotheses (Hn : 0 < n) (Hg : 0 < g).

    Definition dims (s : Sub F) : Prop := subG s = bG /\ subN s = m.
    Definition iL (b : nat) (s : Sub F) : Prop := invL gs dl dr dp n g ss b (subProver s, [], []) /\ dims s.
    Definition iR (b : nat) (s : Sub F) : Prop := invR gs dl dr dp n ss b (subProver s, [], []) /\ dims s.
    Definition iP (b : nat) (s : Sub F) : Prop := invP gs dl dr dp b (subProver s, [], []) /\ dims s.

    Lemma sub_L b s (jr : nat * F) : 0 <= fst jr < bG -> iL (1 + b) s ->
      atmost (WsubRound gs s jr) (iL b) (n * over (fun c => cVL c (dl + 1) + (dl + 1)) ss cs + 2 ^ b * (length cs * (g * (dl + 1 + 1)) + n)).
    Proof.
      destruct s as [p sg sn], jr as [j r]. cbn [fst]. intros Hj [(He & Hr & Hv & Ht & Hd) [Dg Dn]]. cbn [fst subProver subG subN] in *. subst sg sn. set (e := dl + 1).
      assert (Hc : length gs = length cs) by exact (F2_len _ _ _ HP).
      replace (2 ^ (1 + b) * g) with (2 * (2 ^ b * g)) in Ht by (cbn; lia). replace (2 ^ (1 + b) * n) with (2 * (2 ^ b * n)) in Hv by (cbn; lia).
      destruct Hd as (D1 & D2 & D3). unfold WsubRound, WsubEvals, WsubFold. cbn [fst snd subProver subG subN].
      destruct (subMore _ _); [|intros ? ? X; discriminate X]. replace (j <? bG) with true by (symmetry; apply Nat.ltb_lt; lia).
      apply (a_bind _ _ (fun r => length r = e) _ (n * over (fun c => cVL c e + e) ss cs + length cs * (2 ^ b * g * e)) (length cs * (2 ^ b * g) + 2 ^ b * n)).
      - pose proof (live_ok gs n g ss Hn Hg _ _ Ht) as HL. destruct Ht as (T1 & T2 & T3). eapply a_costs; [unfold e; rewrite <- D1; apply (c_HL gs cs HP p n g (2 ^ b)); assumption|].
        unfold round_left. unfold e. rewrite <- D1. pose proof (over_le (fun c => cVL c (dHL p + 1) + (dHL p + 1)) _ _ cs HL). nia.
      - intros _ _. apply (a_bind _ _ (fun p' => invL gs dl dr dp n g ss b (p', [], [])) _ (length cs * (2 ^ b * g) + 2 ^ b * n) 0); [|intros p' Hp'; apply (a_costs _ _ 0); [apply c_ret; split; [exact Hp'|split; reflexivity]|lia]|lia].
        unfold WFoldHL. apply (a_bind _ _ (fun ts => ts = map (fun t => foldv t r) (sStatic p)) _ (length cs * (2 ^ b * g)) (2 ^ b * n)); [|intros ts ->|lia].
        + eapply a_costs; [apply (c_Folds _ _ (2 ^ b * g)); apply Ht|]. destruct Ht as (T1 & _). rewrite T1, Hc. lia.
        + apply (a_bind _ _ (fun t => t = foldv (sVL p) r) _ (2 ^ b * n) 0); [eapply a_costs; [apply c_Fold|rewrite Hv, half2; lia]| |lia].
          intros t ->. apply (a_costs _ _ 0); [|lia]. apply c_ret. unfold invL. cbn [fst sEq sVR sVL sStatic]. split; [exact He|]. split; [exact Hr|]. split; [rewrite foldv_length, Hv; apply half2|].
          split; [exact (fold_ok gs n g ss Hn Hg _ _ _ Ht)|]. split; [exact D1|split; assumption].
      - nia.
    Qed.

    Lemma sub_R b s (jr : nat * F) : bG <= fst jr < bG + bG -> iR (1 + b) s ->
      atmost (WsubRound gs s jr) (iR b) (n * over (fun c => cVR c (dr + 1) + (dr + 1)) ss cs + 2 ^ b * (length cs * (dr + 1 + 1) + n)).
    Proof.
      destruct s as [p sg sn], jr as [j r]. cbn [fst]. intros Hj [(He & Hr & Hv & Ht & Hd) [Dg Dn]]. cbn [fst subProver subG subN] in *. subst sg sn. set (e := dr + 1).
      assert (Hc : length gs = length cs) by exact (F2_len _ _ _ HP).
      replace (2 ^ (1 + b)) with (2 * 2 ^ b) in Ht, Hr by (cbn; lia).
      destruct Hd as (D1 & D2 & D3). unfold WsubRound, WsubEvals, WsubFold. cbn [fst snd subProver subG subN].
      destruct (subMore _ _); [|intros ? ? X; discriminate X]. replace (j <? bG) with false by (symmetry; apply Nat.ltb_ge; lia). replace (j <? bG + bG) with true by (symmetry; apply Nat.ltb_lt; lia).
      apply (a_bind _ _ (fun r => length r = e) _ (n * over (fun c => cVR c e + e) ss cs + length cs * (2 ^ b * e)) (length cs * 2 ^ b + 2 ^ b * n)).
      - pose proof (live_ok gs n g ss Hn Hg _ _ Ht) as HL. destruct Ht as (T1 & T2 & T3). eapply a_costs; [unfold e; rewrite <- D2; apply (c_HR gs cs HP p n (2 ^ b)); assumption|].
        unfold round_right. unfold e. rewrite <- D2. pose proof (over_le (fun c => cVR c (dHR p + 1) + (dHR p + 1)) _ _ cs HL). nia.
      - intros _ _. apply (a_bind _ _ (fun p' => invR gs dl dr dp n ss b (p', [], [])) _ (length cs * 2 ^ b + 2 ^ b * n) 0); [|intros p' Hp'; apply (a_costs _ _ 0); [apply c_ret; split; [exact Hp'|split; reflexivity]|lia]|lia].
        unfold WFoldHR. apply (a_bind _ _ (fun ts => ts = map (fun t => foldv t r) (sStatic p)) _ (length cs * 2 ^ b) (2 ^ b * n)); [|intros ts ->|lia].
        + eapply a_costs; [apply (c_Folds _ _ (2 ^ b)); apply Ht|]. destruct Ht as (T1 & _). rewrite T1, Hc. lia.
        + apply (a_bind _ _ (fun t => t = foldv (sVR p) r) _ (2 ^ b * n) 0); [eapply a_costs; [apply c_Fold|rewrite Hr, <- Nat.mul_assoc, half2; lia]| |lia].
          intros t ->. apply (a_costs _ _ 0); [|lia]. apply c_ret. unfold invR. cbn [fst sEq sVR sVL sStatic]. split; [exact He|]. split; [rewrite foldv_length, Hr, <- Nat.mul_assoc; apply half2|]. split; [exact Hv|].
          split; [exact (fold_ok gs n g ss Hn Hg _ _ _ Ht)|]. split; [exact D1|split; assumption].
      - nia.
    Qed.

    Lemma sub_P b s (jr : nat * F) : bG + bG <= fst jr < bG + bG + m -> iP (1 + b) s ->
      atmost (WsubRound gs s jr) (iP b) (length cs * (dp + 1) + 2 ^ b * (list_sum (map (fun c => (dp + 1) * (cEval c + 1)) cs) + 3)).
    Proof.
      destruct s as [p sg sn], jr as [j r]. cbn [fst]. intros Hj [(He & Hr & Hv & Ht & Hd) [Dg Dn]]. cbn [fst subProver subG subN] in *. subst sg sn. set (e := dp + 1).
      replace (2 ^ (1 + b)) with (2 * 2 ^ b) in He, Hr, Hv by (cbn; lia). destruct Hd as (D1 & D2 & D3). unfold WsubRound, WsubEvals, WsubFold. cbn [fst snd subProver subG subN].
      destruct (subMore _ _); [|intros ? ? X; discriminate X]. replace (j <? bG) with false by (symmetry; apply Nat.ltb_ge; lia). replace (j <? bG + bG) with false by (symmetry; apply Nat.ltb_ge; lia).
      apply (a_bind _ _ (fun r => length r = e) _ (2 ^ b * list_sum (map (fun c => e * (cEval c + 1)) cs) + length cs * e) (3 * 2 ^ b)).
      - eapply a_costs; [unfold e; rewrite <- D3; apply (c_HPrime gs cs HP p Ht)|]. unfold round_prime. rewrite He, half2. unfold e. rewrite <- D3. lia.
      - intros _ _. apply (a_bind _ _ (fun p' => invP gs dl dr dp b (p', [], [])) _ (3 * 2 ^ b) 0); [|intros p' Hp'; apply (a_costs _ _ 0); [apply c_ret; split; [exact Hp'|split; reflexivity]|lia]|lia].
        unfold WFoldHPrime.
        apply (a_bind _ _ (fun t => t = foldv (sVR p) r) _ (2 ^ b) (2 * 2 ^ b)); [eapply a_costs; [apply c_Fold|rewrite Hr, half2; lia]| |lia]. intros t ->.
        apply (a_bind _ _ (fun t => t = foldv (sVL p) r) _ (2 ^ b) (2 ^ b)); [eapply a_costs; [apply c_Fold|rewrite Hv, half2; lia]| |lia]. intros t ->.
        apply (a_bind _ _ (fun t => t = foldv (sEq p) r) _ (2 ^ b) 0); [eapply a_costs; [apply c_Fold|rewrite He, half2; lia]| |lia]. intros t ->.
        apply (a_costs _ _ 0); [|lia]. apply c_ret. unfold invP. cbn [fst sEq sVR sVL sStatic]. rewrite !foldv_length, He, Hr, Hv, half2. repeat split; assumption.
      - nia.
    Qed.
  End Sub.

  Lemma a_sub gs cs qL qR qP (s : Sub F) bG m : Forall2 priced gs cs -> let p := subProver s in
    subG s = bG -> subN s = m -> length qL = bG -> length qR = bG -> length qP = m ->
    length (sEq p) = 2 ^ m -> length (sVL p) = 2 ^ bG * 2 ^ m -> length (sVR p) = 2 ^ bG * 2 ^ m ->
    length (sStatic p) = length gs -> (forall t, In t (sStatic p) -> length t = 2 ^ bG * 2 ^ bG) ->
    atmost (WsubRun gs qL qR qP s) (fun _ => True) (sub_work (dHL p + 1) (dHR p + 1) (dHPrime p + 1) bG m (map support (sStatic p)) cs).
  Proof.
    intros HP p Sg Sn Lq Rq Pq He Hl Hr Hs Ht. unfold WsubRun, sub_work. assert (HN : 0 < 2 ^ m) by (clear; induction m; cbn; lia). assert (HG : 0 < 2 ^ bG) by (clear; induction bG; cbn; lia).
    set (ss := map support (sStatic p)). set (dl := dHL p). set (dr := dHR p). set (dp := dHPrime p).
    apply (a_bind _ _ (iL gs dl dr dp (2 ^ m) (2 ^ bG) bG m ss 0) _ (sub_left (dl + 1) bG m ss cs) (sub_right (dr + 1) bG m ss cs + sub_prime (dp + 1) m cs)); [| |lia].
    - set (A := 2 ^ m * over (fun c => cVL c (dl + 1) + (dl + 1)) ss cs). set (B := length cs * (2 ^ bG * (dl + 1 + 1)) + 2 ^ m).
      apply (a_weak _ (iL gs dl dr dp (2 ^ m) (2 ^ bG) bG m ss 0) _ (length (combine (seq 0 (length qL)) qL) * A + (2 ^ length (combine (seq 0 (length qL)) qL) - 1) * B));
        [|rewrite len_range, Lq; apply Nat.le_refl|auto].
      apply (a_list (iL gs dl dr dp (2 ^ m) (2 ^ bG) bG m ss) (fun jr : nat * F => 0 <= fst jr < bG)).
      + intros b s0 x Hx Hb. apply sub_L; assumption.
      + rewrite <- Lq. exact (in_range 0 qL).
      + rewrite len_range, Lq. split; [|split; assumption]. unfold invL. cbn [fst]. repeat split; try assumption. unfold ss, p. clear. induction (sStatic (subProver s)); constructor; auto.
    - intros s1 [(E1 & E2 & E3 & (T1 & T2 & T3) & D) S1]. cbn [fst] in *.
      apply (a_bind _ _ (iR gs dl dr dp (2 ^ m) bG m ss 0) _ (sub_right (dr + 1) bG m ss cs) (sub_prime (dp + 1) m cs)); [| |lia].
      + set (A := 2 ^ m * over (fun c => cVR c (dr + 1) + (dr + 1)) ss cs). set (B := length cs * (dr + 1 + 1) + 2 ^ m).
        apply (a_weak _ (iR gs dl dr dp (2 ^ m) bG m ss 0) _ (length (combine (seq (length qL) (length qR)) qR) * A + (2 ^ length (combine (seq (length qL) (length qR)) qR) - 1) * B));
          [|rewrite len_range, Rq; apply Nat.le_refl|auto].
        apply (a_list (iR gs dl dr dp (2 ^ m) bG m ss) (fun jr : nat * F => bG <= fst jr < bG + bG)).
        * intros b s0 x Hx Hb. apply sub_R with (g := 2 ^ bG); assumption.
        * rewrite Lq. pose proof (in_range bG qR) as HH. rewrite Rq in *. exact HH.
        * rewrite len_range, Rq. split; [|exact S1]. unfold invR. cbn [fst]. split; [exact E1|]. split; [exact E2|]. split; [rewrite E3; cbn; lia|]. split; [|exact D]. split; [exact T1|]. split; [|exact T3].
          intros t Hin. rewrite (T2 t Hin). cbn; lia.
      + intros s2 [(R1 & R2 & R3 & (U1 & U2 & U3) & D') S2]. cbn [fst] in *.
        set (A := length cs * (dp + 1)). set (B := list_sum (map (fun c => (dp + 1) * (cEval c + 1)) cs) + 3).
        apply (a_weak _ (iP gs dl dr dp bG m 0) _ (length (combine (seq (length qL + length qR) (length qP)) qP) * A + (2 ^ length (combine (seq (length qL + length qR) (length qP)) qP) - 1) * B));
          [|rewrite len_range, Pq; apply Nat.le_refl|auto].
        apply (a_list (iP gs dl dr dp bG m) (fun jr : nat * F => bG + bG <= fst jr < bG + bG + m)).
        * intros b s0 x Hx Hb. apply sub_P with (n := 2 ^ m) (g := 2 ^ bG); assumption.
        * pose proof (in_range (bG + bG) qP) as HH. rewrite Lq, Rq, Pq in *. exact HH.
        * rewrite len_range, Pq. split; [|exact S2]. unfold invP. cbn [fst]. split; [exact R1|]. split; [rewrite R2; cbn; lia|]. split; [exact R3|]. split; [exact U1|exact D'].
  Qed.

  Lemma sub_cost gs cs (p : MTProver F) n m bG i s qL qR qP s' : Forall2 priced gs cs -> tGates p = map wbase gs -> mt_ok p n m bG -> subInit p i = Some s ->
    length qL = bG -> length qR = bG -> length qP = m -> sub_run qL qR qP s = Some s' ->
    exists c, WsubRun gs qL qR qP s = Some (s', c) /\
      c <= sub_work (maxHL (tGates p) + 2) (maxHR (tGates p) + 2) (maxHP (tGates p) + 2) bG m (map support (tStatic p)) cs.
  Proof.
    intros HP Hg (_ & _ & _ & _ & L1 & L2 & L3 & L4 & L5 & _) Hi Lq Rq Pq E. unfold subInit in Hi.
    destruct (get (tVL p) i) as [vL|] eqn:EL; [|discriminate Hi]. destruct (get (tVR p) i) as [vR|] eqn:ER; [|discriminate Hi]. destruct (get (tEq p) i) as [eq|] eqn:EE; [|discriminate Hi].
    apply nth_error_In in EL, ER, EE. specialize (L1 _ EE). specialize (L2 _ EL). specialize (L3 _ ER). rewrite Nat.pow_add_r in L2, L3.
    cbv zeta in Hi. rewrite New_eq in Hi. cbn [sEq sVR] in Hi. assert (0 < 2 ^ m) by (clear; induction m; cbn; lia).
    rewrite L1, L3, godiv_some, Nat.div_mul, !log2ceil_pow2 in Hi by lia. injection Hi as Hi. rewrite <- Hi in *.
    rewrite <- (sub_values gs cs) in E; [|exact HP|exact Hg]. destruct (erased _ _ E) as [c Ec]. exists c. split; [exact Ec|].
    replace (maxHL (tGates p) + 2) with (maxHL (tGates p) + 1 + 1) by lia. replace (maxHR (tGates p) + 2) with (maxHR (tGates p) + 1 + 1) by lia.
    replace (maxHP (tGates p) + 2) with (maxHP (tGates p) + 1 + 1) by lia.
    refine (proj2 (a_sub gs cs qL qR qP _ bG m HP _ _ Lq Rq Pq _ _ _ _ _ _ _ Ec)); cbn [subProver subG subN sEq sVL sVR sStatic]; try assumption; try reflexivity.
    rewrite L4, Hg, map_length. reflexivity.
  Qed.

  Lemma main_round (ch : list F -> F) bG i l evals x : mtRound ch bG i l evals = Some x -> WmtRound ch bG i l evals = Some (x, length evals * length evals).
  Proof.
    unfold mtRound, WmtRound. intros E. destruct (InterpolateOnRange evals) as [c|] eqn:Ei; [|discriminate E]. rewrite (interpolate_exact _ _ Ei). unfold bindW.
    cbv zeta in *. injection E as <-. cbn [ret]. unfold ret. rewrite Nat.add_0_r. reflexivity.
  Qed.

  Lemma merged_atmost gs cs (ch : list F -> F) k l vL vR eq st out c : Forall2 priced gs cs ->
    length vL = 2 ^ k -> length vR = 2 ^ k -> length eq = 2 ^ k -> length st = length gs ->
    WmtFinish gs ch k l (vL, vR, eq, map wbase gs, st) = Some (out, c) -> c <= work_prime (maxHP (map wbase gs) + 2) k cs.
  Proof.
    intros HP HL HR HE Hs Ec. replace (maxHP (map wbase gs) + 2) with (maxHP (map wbase gs) + 1 + 1) by lia. set (dp := maxHP (map wbase gs) + 1).
    set (p := NewSingleThreadedProver vL vR eq (map wbase gs) st). assert (Ep : p = MkProver vL vR eq (map wbase gs) st (maxHL (map wbase gs) + 1) (maxHR (map wbase gs) + 1) dp) by apply New_eq.
    assert (A : atmost (WmtFinish gs ch k l (vL, vR, eq, map wbase gs, st)) (fun _ => True) (work_prime (dp + 1) k cs)); [|exact (proj2 (A _ _ Ec))].
    unfold WmtFinish. cbv zeta. fold p. apply (a_bind _ _ (fun _ => True) _ (work_prime (dp + 1) k cs) 0); [| |lia].
    - unfold work_prime, Wrounds, forW. set (dl := maxHL (map wbase gs) + 1) in *. set (dr := maxHR (map wbase gs) + 1) in *.
      apply (a_weak _ (invP gs dl dr dp 0) _ (k * (length cs * (dp + 1) + (dp + 1) * (dp + 1)) + (2 ^ k - 1) * (list_sum (map (fun c => (dp + 1) * (cEval c + 1)) cs) + 3))); [|lia|auto].
      apply (a_rounds (invP gs dl dr dp)); [intros b s Hb; apply round_P with (n := 1) (g := 1); try assumption; lia|].
      unfold invP. cbn [fst]. rewrite Ep. cbn [sEq sVL sVR sStatic]. repeat split; assumption.
    - intros [[p3 pf3] q3] _. destruct (finalClaimsOf p3); [apply (a_costs _ _ 0); [apply c_ret; exact I|lia]|]. intros ? ? X. discriminate X.
  Qed.

  Lemma finish_cost gs cs (ch : list F -> F) k l vL vR eq st out : Forall2 priced gs cs ->
    length vL = 2 ^ k -> length vR = 2 ^ k -> length eq = 2 ^ k -> length st = length gs ->
    mtFinish ch k l (vL, vR, eq, map wbase gs, st) = Some out ->
    exists c, WmtFinish gs ch k l (vL, vR, eq, map wbase gs, st) = Some (out, c) /\ c <= work_prime (maxHP (map wbase gs) + 2) k cs.
  Proof.
    intros HP HL HR HE Hs E. set (dp := maxHP (map wbase gs) + 1).
    set (p := NewSingleThreadedProver vL vR eq (map wbase gs) st). assert (Ep : p = MkProver vL vR eq (map wbase gs) st (maxHL (map wbase gs) + 1) (maxHR (map wbase gs) + 1) dp) by apply New_eq.
    assert (Er : erase (WmtFinish gs ch k l (vL, vR, eq, map wbase gs, st)) = Some out).
    { rewrite <- E. unfold WmtFinish, mtFinish. cbv zeta. fold p. rewrite er_bind.
      rewrite (fun a b c d => proj1 (er_rounds gs ch (WGetEvalsOnHPrime gs) GetEvalsOnHPrime WFoldHPrime FoldHPrime a b c k p (lProof l) (lQP l) d)).
      - destruct (rounds _ _ _ _ _) as [[[p1 pf] q]|]; [|reflexivity]. destruct (finalClaimsOf p1); reflexivity.
      - intros p1 Hp1. apply er_HPrime; [|exact Hp1]. intros g Hin x y. destruct (all_priced gs cs HP g Hin) as (c & P1 & _). rewrite P1. reflexivity.
      - apply er_FoldHPrime.
      - intros p1 p2 r. unfold FoldHPrime. intros X. destruct (Fold _ _); [|discriminate X]. destruct (Fold _ _); [|discriminate X]. destruct (Fold _ _); [|discriminate X]. injection X as <-. reflexivity.
      - rewrite Ep. reflexivity. }
    destruct (erased _ _ Er) as [c Ec]. exists c. split; [exact Ec|].
    exact (merged_atmost gs cs ch k l vL vR eq st out c HP HL HR HE Hs Ec).
  Qed.

  Lemma threads_overhead el er ep bG m k supports cs :
    threads_work el er ep bG m k supports cs =
    work_left el bG (k + m) supports cs + work_right er bG (k + m) supports cs + work_prime ep (k + m) cs
    + (2 ^ k - 1) * ((2 ^ bG - 1) * (length cs * (2 ^ bG * (el + 1) + (er + 1))) + m * (length cs * ep)).
  Proof.
    unfold threads_work, sub_work, sub_left, sub_right, sub_prime, work_left, work_right, work_prime. rewrite Nat.pow_add_r.
    assert (HK : exists K, 2 ^ k = S K) by (exists (2 ^ k - 1); assert (0 < 2 ^ k) by (clear; induction k; cbn; lia); lia).
    assert (HM : exists M, 2 ^ m = S M) by (exists (2 ^ m - 1); assert (0 < 2 ^ m) by (clear; induction m; cbn; lia); lia).
    destruct HK as [K ->], HM as [M ->]. replace (S K * S M - 1) with (K * M + K + M) by lia.
    replace (S K - 1) with K by lia. replace (S M - 1) with M by lia.
    generalize (2 ^ bG - 1) (2 ^ bG) (over (fun c => cVL c el + el) supports cs) (over (fun c => cVR c er + er) supports cs) (list_sum (map (fun c => ep * (cEval c + 1)) cs)) (length cs).
    intros. ring.
  Qed.
End S.
