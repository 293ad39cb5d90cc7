(** The work of all goroutines of the multi-threaded sum-check together (lemmas for PCost5.v). *)
From Coq Require Import List Arith ZArith Lia Bool.
From Verif Require Import Field Go MCommon LCommon MPoly LPoly MCircuit SpecCircuit MSumcheck SpecSumcheck LSumcheck LSumcheck2 LSumcheck4 MSumPar SpecSumPar LSumPar2 LSumPar3 MCost SpecCost LCost LCost5 MCost5 SpecCost5 LCost13 LCost14.
Import ListNotations.

Lemma sum_le (f : nat -> nat) B : forall n a, (forall i, a <= i < a + n -> f i <= B) -> list_sum (map f (seq a n)) <= n * B.
Proof.
  induction n as [|n IH]; intros a H; [apply Nat.le_0_l|]. cbn [seq map]. change (list_sum (?x :: ?r)) with (x + list_sum r).
  specialize (IH (S a) (fun i Hi => H i ltac:(lia))). specialize (H a ltac:(lia)). lia.
Qed.

Section S.
  Context {F : Field}.
  Open Scope nat_scope.

  Definition degs_of (gates : list (Gate F)) (p : Prover F) : Prop := dHL p = maxHL gates + 1 /\ dHR p = maxHR gates + 1 /\ dHPrime p = maxHP gates + 1.

  Lemma sent_length bG m gates : forall l a s, a + length l < bG + bG + m -> sub_at bG m a s -> degs_of gates (subProver s) ->
    exists s' ev, foldM sub_round (combine (seq a (length l)) l) s = Some s' /\ subEvals (a + length l) s' = Some ev /\ length ev = evaluations gates bG (a + length l).
  Proof.
    induction l as [|r l IH]; intros a s Ha Hs Hd; cbn [length] in *.
    - exists s. rewrite Nat.add_0_r in *. destruct Hs as (Hg & Hn & Hne & Hm & HS).
      destruct (round_facts bG m 1 0 a (subProver s)) as (E & _ & _); [lia|lia|exact Hne|exact Hm|exact HS|].
      eexists. split; [reflexivity|]. split; [unfold subEvals; rewrite Hg; exact E|]. rewrite map_length, seq_length. destruct Hd as (D1 & D2 & D3).
      unfold degAt, evaluations. rewrite D1, D2, D3. destruct (a <? bG); [lia|]. destruct (a <? bG + bG); lia.
    - cbn [seq combine foldM]. destruct (round_ok bG m a s r) as (s1 & E1 & H1); [lia|exact Hs|]. rewrite E1.
      assert (D1 : degs_of gates (subProver s1)).
      { destruct Hs as (Hg & _). unfold sub_round in E1. cbn [fst snd] in E1. destruct (subMore a s); [|discriminate E1]. destruct (subEvals a s); [|discriminate E1].
        unfold subFold in E1. rewrite FoldHL_eq, FoldHR_eq, FoldHP_eq in E1.
        destruct (a <? subG s); [|destruct (a <? subG s + subG s)]; injection E1 as <-; exact Hd. }
      destruct (IH (S a) s1) as (s2 & ev & E2 & H2 & H3); [lia|exact H1|exact D1|]. exists s2, ev. replace (a + S (length l)) with (S a + length l) by lia. auto.
  Qed.

  Lemma init_at (p : MTProver F) n m bG i s : mt_ok p n m bG -> subInit p i = Some s -> sub_at bG m 0 s /\ degs_of (tGates p) (subProver s).
  Proof.
    intros (_ & H1 & H2 & H3 & L1 & L2 & L3 & L4 & L5 & L6 & L7) Hi. unfold subInit in Hi.
    destruct (get (tVL p) i) as [vL|] eqn:EL; [|discriminate Hi]. destruct (get (tVR p) i) as [vR|] eqn:ER; [|discriminate Hi]. destruct (get (tEq p) i) as [eq|] eqn:EE; [|discriminate Hi].
    apply nth_error_In in EL, ER, EE. specialize (L1 _ EE). specialize (L2 _ EL). specialize (L3 _ ER). rewrite Nat.pow_add_r in L2, L3.
    cbv zeta in Hi. rewrite New_eq in Hi. cbn [sEq sVR] in Hi. assert (0 < 2 ^ m) by (clear; induction m; cbn; lia).
    rewrite L1, L3, godiv_some, Nat.div_mul, !log2ceil_pow2 in Hi by lia. injection Hi as <-. split; [|repeat split].
    split; [reflexivity|]. split; [reflexivity|]. cbn [subProver]. split; [exact L6|]. split; [exact L7|].
    unfold shp. rewrite !Nat.sub_0_l, !Nat.sub_0_r. constructor; cbn [subProver sEq sVL sVR sStatic sGates]; auto; nia.
  Qed.

  Lemma sent (p : MTProver F) n m bG i s (q : list F) : mt_ok p n m bG -> subInit p i = Some s -> length q < bG + bG + m ->
    exists s' ev, foldM sub_round (combine (seq 0 (length q)) q) s = Some s' /\ subEvals (length q) s' = Some ev /\ length ev = evaluations (tGates p) bG (length q).
  Proof. intros Hok Hi Hq. destruct (init_at p n m bG i s Hok Hi) as [H1 H2]. exact (sent_length bG m (tGates p) q 0 s Hq H1 H2). Qed.

  Lemma interpolations gates bG m : list_sum (map (fun j => evaluations (F := F) gates bG j * evaluations gates bG j) (seq 0 (bG + bG + m))) =
    bG * ((maxHL gates + 2) * (maxHL gates + 2)) + bG * ((maxHR gates + 2) * (maxHR gates + 2)) + m * ((maxHP gates + 2) * (maxHP gates + 2)).
  Proof.
    assert (C : forall f c n a, (forall j, a <= j < a + n -> f j = c) -> list_sum (map f (seq a n)) = n * c).
    { intros f c. induction n as [|n IH]; intros a H; [reflexivity|]. cbn [seq map]. change (list_sum (?x :: ?r)) with (x + list_sum r). rewrite IH by (intros; apply H; lia). rewrite (H a) by lia. reflexivity. }
    rewrite !seq_app, !map_app, !list_sum_app. cbn [Nat.add].
    rewrite (C _ ((maxHL gates + 2) * (maxHL gates + 2))); [rewrite (C _ ((maxHR gates + 2) * (maxHR gates + 2))); [rewrite (C _ ((maxHP gates + 2) * (maxHP gates + 2))); [lia|]|]|];
      intros j Hj; unfold evaluations; destruct (Nat.ltb_spec j bG); try lia; destruct (Nat.ltb_spec j (bG + bG)); lia.
  Qed.

  Lemma together gs cs (p : MTProver F) m k bG qL qR qP (count : nat -> nat) (ch : list F -> F) l vL vR eq st out c :
    Forall2 priced gs cs -> tGates p = map wbase gs -> mt_ok p (2 ^ k) m bG -> length qL = bG -> length qR = bG -> length qP = m ->
    (forall i, i < 2 ^ k -> exists s s', subInit p i = Some s /\ WsubRun gs qL qR qP s = Some (s', count i)) ->
    length vL = 2 ^ k -> length vR = 2 ^ k -> length eq = 2 ^ k -> length st = length gs ->
    WmtFinish gs ch k l (vL, vR, eq, tGates p, st) = Some (out, c) ->
    list_sum (map count (seq 0 (2 ^ k))) + list_sum (map (fun j => evaluations (tGates p) bG j * evaluations (tGates p) bG j) (seq 0 (bG + bG + m))) + c
    <= threads_work (maxHL (tGates p) + 2) (maxHR (tGates p) + 2) (maxHP (tGates p) + 2) bG m k (map support (tStatic p)) cs.
  Proof.
    intros HP Hg Hok Lq Rq Pq Hc LL LR LE Ls Hf. rewrite interpolations. unfold threads_work.
    assert (H1 : list_sum (map count (seq 0 (2 ^ k))) <= 2 ^ k * sub_work (maxHL (tGates p) + 2) (maxHR (tGates p) + 2) (maxHP (tGates p) + 2) bG m (map support (tStatic p)) cs).
    { apply sum_le. intros i Hi. destruct (Hc i) as (s & s' & Ei & Er); [lia|].
      assert (Es : sub_run qL qR qP s = Some s').
      { rewrite <- (sub_values gs cs); [rewrite Er; reflexivity|exact HP|]. unfold subInit in Ei.
        destruct (get (tVL p) i); [|discriminate Ei]. destruct (get (tVR p) i); [|discriminate Ei]. destruct (get (tEq p) i); [|discriminate Ei]. cbv zeta in Ei.
        destruct (godiv _ _); [|discriminate Ei]. injection Ei as <-. cbn [subProver]. rewrite New_eq. exact Hg. }
      destruct (sub_cost gs cs p (2 ^ k) m bG i s qL qR qP s' HP Hg Hok Ei Lq Rq Pq Es) as (c' & E' & Hle). rewrite Er in E'. injection E' as <-. exact Hle. }
    assert (H2 : c <= work_prime (maxHP (tGates p) + 2) k cs).
    { rewrite Hg in *. exact (merged_atmost gs cs ch k l vL vR eq st out c HP LL LR LE Ls Hf). }
    lia.
  Qed.
End S.
