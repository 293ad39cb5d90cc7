(** A sub-prover goroutine returns on any challenges (lemmas for PCost5.v). *)
From Coq Require Import List Arith ZArith Lia Bool.
From Verif Require Import Field Go MCommon LCommon MPoly LPoly MCircuit SpecCircuit MSumcheck SpecSumcheck LSumcheck LSumcheck2 LSumcheck4 MSumPar SpecSumPar LSumPar2 LSumPar3 MCost SpecCost MCost5 SpecCost5 LCost13.
Import ListNotations.

Section S.
  Context {F : Field}.
  Open Scope nat_scope.

  (** Before iteration [j] of the goroutine. *)
  Definition sub_at (bG m j : nat) (s : Sub F) : Prop :=
    subG s = bG /\ subN s = m /\ (bG = 0 \/ sGates (subProver s) <> []) /\ manys (subProver s) /\ shp bG m 1 j (subProver s).

  Lemma foldAt_gates bG j (p : Prover F) r : sGates (foldAt bG j p r) = sGates p.
  Proof. unfold foldAt. destruct (j <? bG); [reflexivity|]. destruct (j <? bG + bG); reflexivity. Qed.

  Lemma round_ok bG m j s (r : F) : j < bG + bG + m -> sub_at bG m j s -> exists s', sub_round s (j, r) = Some s' /\ sub_at bG m (S j) s'.
  Proof.
    intros Hj (Hg & Hn & Hne & Hm & HS). destruct (round_facts bG m 1 0 j (subProver s)) as (E & H & _); [lia|exact Hj|exact Hne|exact Hm|exact HS|].
    exists (MkSub (foldAt bG j (subProver s) r) bG m). split.
    - unfold sub_round, subMore. cbn [fst snd]. rewrite Hg, Hn. replace (j <? bG + bG + m) with true by (symmetry; apply Nat.ltb_lt; exact Hj).
      unfold evalsAt in E. unfold subEvals. rewrite Hg, E. unfold subFold. rewrite Hg, Hn. unfold foldAt.
      destruct (j <? bG); [rewrite FoldHL_eq; reflexivity|]. destruct (j <? bG + bG); [rewrite FoldHR_eq|rewrite FoldHP_eq]; reflexivity.
    - split; [reflexivity|]. split; [reflexivity|]. cbn [subProver]. unfold manys in *. rewrite foldAt_gates. split; [exact Hne|]. split; [exact Hm|apply H].
  Qed.

  Lemma loop_ok bG m : forall l a s, a + length l <= bG + bG + m -> sub_at bG m a s ->
    exists s', foldM sub_round (combine (seq a (length l)) l) s = Some s' /\ sub_at bG m (a + length l) s'.
  Proof.
    induction l as [|r l IH]; intros a s Ha Hs; cbn [length] in *.
    - exists s. split; [reflexivity|]. rewrite Nat.add_0_r. exact Hs.
    - cbn [seq combine foldM]. destruct (round_ok bG m a s r) as (s1 & -> & H1); [lia|exact Hs|]. destruct (IH (S a) s1) as (s2 & -> & H2); [lia|exact H1|].
      exists s2. split; [reflexivity|]. replace (a + S (length l)) with (S a + length l) by lia. exact H2.
  Qed.

  Lemma sub_returns (p : MTProver F) n m bG i (qL qR qP : list F) : mt_ok p n m bG -> i < n -> length qL = bG -> length qR = bG -> length qP = m ->
    exists s s', subInit p i = Some s /\ sub_run qL qR qP s = Some s' /\
      length (sVL (subProver s')) = 1 /\ length (sVR (subProver s')) = 1 /\ length (sEq (subProver s')) = 1.
  Proof.
    intros Hok Hi Lq Rq Pq. destruct Hok as (_ & H1 & H2 & H3 & L1 & L2 & L3 & L4 & L5 & L6 & L7).
    unfold subInit. rewrite (get_nth (tVL p) i []), (get_nth (tVR p) i []), (get_nth (tEq p) i []) by lia. cbv beta iota zeta. rewrite New_eq. cbn [sEq sVR].
    assert (E1 : length (nth i (tEq p) []) = 2 ^ m) by (apply L1, nth_In; lia).
    assert (E2 : length (nth i (tVL p) []) = 2 ^ (bG + m)) by (apply L2, nth_In; lia).
    assert (E3 : length (nth i (tVR p) []) = 2 ^ (bG + m)) by (apply L3, nth_In; lia).
    rewrite Nat.pow_add_r in E2, E3. assert (0 < 2 ^ m) by (clear; induction m; cbn; lia).
    rewrite E1, E3, godiv_some, Nat.div_mul, !log2ceil_pow2 by lia.
    eexists. set (s := MkSub _ bG m).
    assert (Hs : sub_at bG m 0 s).
    { split; [reflexivity|]. split; [reflexivity|]. cbn [s subProver]. split; [exact L6|]. split; [exact L7|].
      unfold shp. rewrite !Nat.sub_0_l, !Nat.sub_0_r. constructor; cbn [s subProver sEq sVL sVR sStatic sGates]; auto; nia. }
    destruct (loop_ok bG m qL 0 s) as (s1 & F1 & G1); [lia|exact Hs|].
    destruct (loop_ok bG m qR (length qL) s1) as (s2 & F2 & G2); [lia|exact G1|].
    destruct (loop_ok bG m qP (length qL + length qR) s2) as (s3 & F3 & G3); [lia|exact G2|].
    assert (E : sub_run qL qR qP s = Some s3) by (unfold sub_run; rewrite F1, F2; exact F3).
    exists s3. split; [reflexivity|]. split; [exact E|].
    destruct G3 as (_ & _ & _ & _ & HS). rewrite Lq, Rq, Pq in HS. unfold shp in HS. replace (m - (bG + bG + m - (bG + bG))) with 0 in HS by lia.
    replace (bG - (bG + bG + m)) with 0 in HS by lia. replace (bG - (bG + bG + m - bG)) with 0 in HS by lia. destruct HS. cbn in *. repeat split; lia.
  Qed.
End S.
