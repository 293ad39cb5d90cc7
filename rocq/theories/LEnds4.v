(** The multi-threaded prover panics whenever the single-threaded one does on the interleaved tables. *)
From Coq Require Import List Arith ZArith Lia Bool Ring Field Permutation.
From Verif Require Import Field Go Trans MCommon Spec MPoly LSpec LCommon LPoly LEffect LPoly2 MCircuit SpecCircuit LCircuit LCircuit2
  MSumcheck SpecSumcheck LSumcheck LSumcheck2 LSumcheck3 LSumcheck4 MSumPar SpecSumPar LSumPar LSumPar2 LSumPar3 SpecEnds LEnds LEnds2 LEnds3.
Import ListNotations.

(** A machine and the one that carries on after main's failures, remembering them. *)
Section Flag.
  Context {Wk E R MS G Out : Type}.
  Variables (zE : E) (zR : R) (zW : Wk).
  Variables n nTok K : nat.
  Variable winit : nat -> option Wk.
  Variable wmore : nat -> Wk -> bool.
  Variable wevals : nat -> Wk -> option E.
  Variable wfold : nat -> Wk -> R -> option Wk.
  Variable consume : option E -> E -> option E.
  Variable mround : nat -> MS -> E -> option (MS * R).
  Variable merge : option G -> nat * Wk -> option G.
  Variable mfinish : MS -> G -> option Out.
  Variable mround2 : nat -> MS * bool -> E -> option ((MS * bool) * R).
  Variable mfinish2 : MS * bool -> G -> option (option Out).
  Hypothesis Hround : forall i l e l' r, mround i l e = Some (l', r) -> mround2 i (l, true) e = Some ((l', true), r).
  Hypothesis Hfinish : forall l g o, mfinish l g = Some o -> mfinish2 (l, true) g = Some (Some o).

  Notation st1 := (@st Wk E R MS G Out).
  Notation st2 := (@st Wk E R (MS * bool) G (option Out)).
  Notation step1 := (step zE zR zW n nTok K winit wmore wevals wfold consume mround merge mfinish).
  Notation step2 := (step zE zR zW n nTok K winit wmore wevals wfold consume mround2 merge mfinish2).

  Definition fm (m : @mpc E R G Out) : @mpc E R G (option Out) :=
    match m with
    | MSpawn k => MSpawn k | MCons i k a => MCons i k a | MRound i e => MRound i e | MGo i r k => MGo i r k | MWait i => MWait i
    | MMerge k g => MMerge k g | MFinish g => MFinish g | MCloseE o => MCloseE (Some o) | MCloseF o => MCloseF (Some o) | MEnd o => MEnd (Some o)
    end.
  Definition fl (s : st1) : st2 := MkSt (fm (main s)) (loc s, true) (evC s) (finC s) (rCs s) (wg s) (hs s) (ws s) (toks s).

  Lemma fl_run a s s' : run zE zR zW n nTok K winit wmore wevals wfold consume mround merge mfinish a s = Gives s' ->
    run zE zR zW n nTok K winit wmore wevals wfold consume mround2 merge mfinish2 a (fl s) = Gives (fl s').
  Proof.
    destruct s as [pc l eC fC rC w h t k0]. unfold fl. cbn [main loc evC finC rCs wg hs ws toks]. destruct a as [|x|x]; cbn [run]; intros H.
    - unfold step_main in *. destruct pc as [k|i m acc|i e|i r k|i|m g|g|o|o|o]; cbn [fm].
      + destruct (k <? n); injection H as <-; cbn [main loc evC finC rCs wg hs ws toks fm]; [reflexivity|]. unfold head. destruct (0 <? K); reflexivity.
      + destruct (crecv zE eC) as [| |[e c]]; [discriminate|discriminate|]. destruct (consume acc e); [|discriminate]. injection H as <-.
        cbn [main loc evC finC rCs wg hs ws toks]. destruct (S m <? n); reflexivity.
      + destruct (mround i l e) as [[l' r]|] eqn:Em; [|discriminate]. injection H as <-. rewrite (Hround _ _ _ _ _ Em). reflexivity.
      + destruct (k <? length rC); injection H as <-; reflexivity.
      + destruct w; [|discriminate]. injection H as <-. cbn [main loc evC finC rCs wg hs ws toks]. unfold head. destruct (S i <? K); reflexivity.
      + destruct (crecv (0, zW) fC) as [| |[e c]]; [discriminate|discriminate|]. destruct (merge g e); [|discriminate]. injection H as <-.
        cbn [main loc evC finC rCs wg hs ws toks]. destruct (S m <? n); reflexivity.
      + destruct (mfinish l g) as [o|] eqn:Em; [|discriminate]. injection H as <-. rewrite (Hfinish _ _ _ Em). reflexivity.
      + destruct (cclose eC); [discriminate|discriminate|]. injection H as <-. reflexivity.
      + destruct (cclose fC); [discriminate|discriminate|]. injection H as <-. reflexivity.
      + discriminate.
    - unfold step_helper in *. destruct (nth_error h x) as [q|]; [|discriminate]. destruct q as [|r| |]; destruct (nth_error rC x) as [c|]; try discriminate.
      + destruct (csend 1 c r); [discriminate|discriminate|]. injection H as <-. reflexivity.
      + destruct w; [discriminate|]. injection H as <-. reflexivity.
      + destruct w; [discriminate|]. injection H as <-. reflexivity.
    - unfold step_worker in *. destruct (nth_error t x) as [u|]; [|discriminate].
      destruct u as [| | |j p|j p e|j p|j p|j p r|j p r|p| | |]; try discriminate.
      + destruct k0; [discriminate|]. injection H as <-. reflexivity.
      + destruct (winit x); [|discriminate]. injection H as <-. reflexivity.
      + destruct (wmore j p); [destruct (wevals j p); [|discriminate]|]; injection H as <-; reflexivity.
      + destruct (csend n eC e); [discriminate|discriminate|]. injection H as <-. reflexivity.
      + destruct (k0 <? nTok); [|discriminate]. injection H as <-. reflexivity.
      + destruct (nth_error rC x) as [c0|]; [|discriminate]. destruct (crecv zR c0) as [| |[r c1]]; [discriminate|discriminate|]. injection H as <-. reflexivity.
      + destruct k0; [discriminate|]. injection H as <-. reflexivity.
      + destruct (wfold j p r); [|discriminate]. injection H as <-. reflexivity.
      + destruct (csend n fC (x, p)); [discriminate|discriminate|]. injection H as <-. reflexivity.
      + destruct (k0 <? nTok); [|discriminate]. injection H as <-. reflexivity.
      + destruct (nth_error rC x) as [c0|]; [|discriminate]. destruct (cclose c0); [discriminate|discriminate|]. injection H as <-. reflexivity.
  Qed.

  Lemma fl_reach s0 s : reach step1 s0 s -> reach step2 (fl s0) (fl s).
  Proof.
    induction 1 as [|z s s' Hr IH Hs]; [apply reach_refl|]. eapply reach_step; [exact IH|]. inversion Hs as [a s1 Ha E0|]; subst.
    eapply step_ok. exact (fl_run a s s' Ha).
  Qed.

  Lemma end_stays o s s' : main s = MEnd o -> step2 s (Some s') -> main s' = MEnd o.
  Proof.
    destruct s as [pc l eC fC rC w h t k0]. cbn [main]. intros -> H. inversion H as [a s1 Ha E0|]; subst. clear H. destruct a as [|x|x]; cbn [run] in Ha.
    - discriminate.
    - unfold step_helper in Ha. destruct (nth_error h x) as [q|]; [|discriminate]. destruct q as [|r| |]; destruct (nth_error rC x) as [c|]; try discriminate.
      + destruct (csend 1 c r); [discriminate|discriminate|]. injection Ha as <-. reflexivity.
      + destruct w; [discriminate|]. injection Ha as <-. reflexivity.
      + destruct w; [discriminate|]. injection Ha as <-. reflexivity.
    - unfold step_worker in Ha. destruct (nth_error t x) as [u|]; [|discriminate].
      destruct u as [| | |j p|j p e|j p|j p|j p r|j p r|p| | |]; try discriminate.
      + destruct k0; [discriminate|]. injection Ha as <-. reflexivity.
      + destruct (winit x); [|discriminate]. injection Ha as <-. reflexivity.
      + destruct (wmore j p); [destruct (wevals j p); [|discriminate]|]; injection Ha as <-; reflexivity.
      + destruct (csend n eC e); [discriminate|discriminate|]. injection Ha as <-. reflexivity.
      + destruct (k0 <? nTok); [|discriminate]. injection Ha as <-. reflexivity.
      + destruct (nth_error rC x) as [c0|]; [|discriminate]. destruct (crecv zR c0) as [| |[r c1]]; [discriminate|discriminate|]. injection Ha as <-. reflexivity.
      + destruct k0; [discriminate|]. injection Ha as <-. reflexivity.
      + destruct (wfold j p r); [|discriminate]. injection Ha as <-. reflexivity.
      + destruct (csend n fC (x, p)); [discriminate|discriminate|]. injection Ha as <-. reflexivity.
      + destruct (k0 <? nTok); [|discriminate]. injection Ha as <-. reflexivity.
      + destruct (nth_error rC x) as [c0|]; [|discriminate]. destruct (cclose c0); [discriminate|discriminate|]. injection Ha as <-. reflexivity.
  Qed.

  Lemma must_end o o' s : must step2 (fun s => main s = MEnd o) s -> main s = MEnd o' -> o' = o.
  Proof.
    intros H. induction H as [s Hp Hs IH Hd]. intros Em.
    assert (D : (exists s', step2 s (Some s')) \/ forall s', ~ step2 s (Some s')).
    { assert (D : forall a, (exists s', run zE zR zW n nTok K winit wmore wevals wfold consume mround2 merge mfinish2 a s = Gives s') \/
        forall s', run zE zR zW n nTok K winit wmore wevals wfold consume mround2 merge mfinish2 a s <> Gives s').
      { intros a. destruct (run zE zR zW n nTok K winit wmore wevals wfold consume mround2 merge mfinish2 a s) as [| |s']; [right; discriminate|right; discriminate|left; eauto]. }
      (* main is blocked; a helper or worker beyond the lists is blocked *)
      assert (B : forall f : nat -> tid, (forall x, x < length (hs s) + length (ws s) \/ run zE zR zW n nTok K winit wmore wevals wfold consume mround2 merge mfinish2 (f x) s = Blocks) ->
        (exists x s', run zE zR zW n nTok K winit wmore wevals wfold consume mround2 merge mfinish2 (f x) s = Gives s') \/
        forall x s', run zE zR zW n nTok K winit wmore wevals wfold consume mround2 merge mfinish2 (f x) s <> Gives s').
      { intros f Hf. set (m := length (hs s) + length (ws s)) in *.
        assert (Q : forall k, (exists x s', run zE zR zW n nTok K winit wmore wevals wfold consume mround2 merge mfinish2 (f x) s = Gives s') \/
          forall x s', x < k -> run zE zR zW n nTok K winit wmore wevals wfold consume mround2 merge mfinish2 (f x) s <> Gives s').
        { induction k as [|k [Q|Q]]; [right; lia|left; exact Q|]. destruct (D (f k)) as [(s' & E0)|N]; [left; eauto|].
          right. intros x s' Hx. destruct (Nat.eq_dec x k) as [->|]; [apply N|apply Q; lia]. }
        destruct (Q m) as [Q1|Q1]; [left; exact Q1|]. right. intros x s' E0. destruct (Hf x) as [H1|H1]; [exact (Q1 x s' H1 E0)|congruence]. }
      destruct (B THelper) as [(x & s' & E0)|N1].
      { intros x. destruct (Nat.lt_ge_cases x (length (hs s))) as [H1|H1]; [left; lia|]. right. cbn [run]. destruct s as [pc l eC fC rC w h t k0]. cbn in *.
        unfold step_helper. rewrite (proj2 (nth_error_None h x) H1). destruct (nth_error rC x); reflexivity. }
      { left. exists s'. eapply step_ok. exact E0. }
      destruct (B TWorker) as [(x & s' & E0)|N2].
      { intros x. destruct (Nat.lt_ge_cases x (length (ws s))) as [H1|H1]; [left; lia|]. right. cbn [run]. destruct s as [pc l eC fC rC w h t k0]. cbn in *.
        unfold step_worker. rewrite (proj2 (nth_error_None t x) H1). reflexivity. }
      { left. exists s'. eapply step_ok. exact E0. }
      right. intros s' H1. inversion H1 as [a s1 Ha E0|]; subst. destruct a as [|x|x]; [|exact (N1 x s' Ha)|exact (N2 x s' Ha)].
      destruct s as [pc l eC fC rC w h t k0]. cbn [main] in Em. subst pc. discriminate. }
    destruct D as [(s' & E0)|N].
    - exact (IH s' E0 (end_stays o' s s' Em E0)).
    - assert (main s = MEnd o); [|congruence]. apply Hd. intros [s'|]; [apply N|exact Hp].
  Qed.

  Lemma must_reach o s0 s : must step2 (fun s => main s = MEnd o) s0 -> reach step2 s0 s -> must step2 (fun s => main s = MEnd o) s.
  Proof.
    intros Hm Hr. induction Hr as [|z s1 s2 Hr IH Hs]; [exact Hm|]. destruct (IH Hm) as [s1 Hp Hss Hd]. apply Hss. exact Hs.
  Qed.

  Lemma flag_result m o s o' : must step2 (fun s => main s = MEnd o) (init n nTok (m, true)) -> reach step1 (init n nTok m) s -> main s = MEnd o' -> Some o' = o.
  Proof.
    intros Hm Hr Em. apply fl_reach in Hr. change (fl (init n nTok m)) with (@init Wk E R (MS * bool) G (option Out) n nTok (m, true)) in Hr.
    apply (must_end o (Some o') (fl s)); [exact (must_reach o _ _ Hm Hr)|]. unfold fl. cbn [main]. rewrite Em. reflexivity.
  Qed.
End Flag.

Section S.
  Context {F : Field}.
  Add Field FfieldLEnds4 : (f_theory F).
  Open Scope F_scope.
  Variable ch : list F -> F.

  Definition record (bG i : nat) (l : MLoc) (c : list F) : MLoc (F:=F) :=
    let r := ch c in
    let proof := lProof l ++ [c] in
    (if i <? bG then MkLoc proof (lQP l) (lQL l ++ [r]) (lQR l)
     else if i <? 2 * bG then MkLoc proof (lQP l) (lQL l) (lQR l ++ [r])
     else MkLoc proof (lQP l ++ [r]) (lQL l) (lQR l))%nat.
  Definition itp (e : list F) : list F * bool := match InterpolateOnRange e with Some c => (c, true) | None => ([], false) end.
  Definition mtRound2 (bG i : nat) (l : MLoc * bool) (e : list F) : option ((MLoc * bool) * F) :=
    let c := itp e in Some ((record bG i (fst l) (fst c), snd l && snd c), ch (fst c)).
  Definition mtFinish2 (k : nat) (l : MLoc * bool) (g : Merged) := Some (if snd l then mtFinish ch k (fst l) g else None).

  Section Traj2.
    Variable bG : nat.
    Variable p0 : Prover F.
    Notation T := (T ch bG p0).
    Notation cc := (cc ch bG p0).
    Definition okb (j : nat) : bool :=
      match evalsAt bG j (T j) with Some e => snd (itp e) | None => false end.
    Definition oks (j : nat) : bool := forallb okb (seq 0 j).

    Lemma rounds_ok evals fold k : forall o proof q,
      (forall j, (o <= j < o + k)%nat -> evals (T j) = evalsAt bG j (T j) /\ forall r, fold (T j) r = Some (foldAt bG j (T j) r)) ->
      rounds ch k evals fold (T o, proof, q) =
        if forallb okb (seq o k) then Some (T (o + k), proof ++ map cc (seq o k), q ++ map (fun j => ch (cc j)) (seq o k)) else None.
    Proof.
      induction k as [|k IH]; intros o proof q H.
      - cbn. rewrite Nat.add_0_r, !app_nil_r. reflexivity.
      - rewrite rounds_S. unfold round. destruct (H o) as [H1 H2]; [lia|]. rewrite H1. cbn [seq forallb map]. unfold okb at 1.
        destruct (evalsAt bG o (T o)) as [e|] eqn:Ee; [|reflexivity]. cbv beta iota zeta. unfold itp.
        destruct (InterpolateOnRange e) as [c|] eqn:Ec; [|reflexivity]. cbn [snd andb]. cbv beta iota zeta. rewrite H2. cbv beta iota zeta.
        assert (Hc : cc o = c) by (unfold LSumPar3.cc, pol; rewrite Ee, Ec; reflexivity).
        assert (HT : foldAt bG o (T o) (ch c) = T (S o)) by (cbn [LSumPar3.T]; fold (cc o); rewrite Hc; reflexivity).
        rewrite HT, IH by (intros j Hj; apply H; lia). rewrite Hc, <- !app_assoc. cbn [app]. replace (S o + k)%nat with (o + S k)%nat by lia. reflexivity.
    Qed.

    Lemma Prove_eq k c : godiv (length (sVR p0)) (length (sEq p0)) = Some (2 ^ bG)%nat -> log2ceil (length (sEq p0)) = (k + c)%nat ->
      Prove ch p0 =
        if oks (bG + bG + k) then
          '(p, proof, q) <- rounds ch c GetEvalsOnHPrime FoldHPrime (T (bG + bG + k), map cc (seq 0 (bG + bG + k)), map (fun j => ch (cc j)) (seq (bG + bG) k)) ;;
          fc <- finalClaimsOf p ;;
          Some (proof, q, map (fun j => ch (cc j)) (seq 0 bG), map (fun j => ch (cc j)) (seq bG bG), fc)
        else None.
    Proof.
      intros Hd HN. unfold Prove. rewrite Hd. cbv beta iota zeta. rewrite HN, log2ceil_pow2.
      change (p0, @nil (list F), @nil F) with (T 0, @nil (list F), @nil F). rewrite (rounds_ok GetEvalsOnHL FoldHL bG 0) by (intros j Hj; apply case_HL; lia).
      unfold oks. rewrite !seq_app, !forallb_app. cbn [Nat.add app].
      destruct (forallb okb (seq 0 bG)); [|reflexivity]. cbv beta iota. cbn [andb].
      rewrite (rounds_ok GetEvalsOnHR FoldHR bG bG) by (intros j Hj; apply case_HR; lia).
      destruct (forallb okb (seq bG bG)); [|reflexivity]. cbv beta iota. cbn [andb].
      rewrite rounds_add, (rounds_ok GetEvalsOnHPrime FoldHPrime k (bG + bG)) by (intros j Hj; apply case_HP; lia).
      destruct (forallb okb (seq (bG + bG) k)); [|reflexivity]. cbv beta iota. cbn [app]. rewrite !map_app. reflexivity.
    Qed.
  End Traj2.

  Section Run2.
    Variable p : MTProver F.
    Variables n k bG nCore : nat.
    Hypothesis Hok : mt_ok p n k bG.
    Hypothesis HnCore : (0 < nCore)%nat.
    Let p0 := whole p k bG.
    Let c := log2ceil n.
    Let K := (bG + bG + k)%nat.
    Let T := T ch bG p0.
    Let cc := cc ch bG p0.
    Let pval := pval ch p n k bG.
    Let nev := nev ch p k bG.
    Let ms := ms ch p k bG.

    Lemma mt_run2 : must (step (Wk:=Sub F) (E:=list F) (R:=F) (MS:=MLoc * bool) (G:=Merged) [] 0 zSub n nCore K
        (subInit p) subMore subEvals subFold consumeEvals (mtRound2 bG) (mergeSub n) (mtFinish2 c))
      (fun s => main s = MEnd (Prove ch p0)) (init n nCore (MkLoc [] [] [] [], true)).
    Proof.
      destruct (whole_shape p n k bG Hok) as [S1 S2 S3 S4 S5 S6]. fold p0 in S1, S2, S3, S4, S5, S6.
      pose proof Hok as (Hn & _).
      assert (EP : Prove ch p0 = if oks bG p0 K then
          '(p, proof, q) <- rounds ch c GetEvalsOnHPrime FoldHPrime (T K, map cc (seq 0 K), map (fun j => ch (cc j)) (seq (bG + bG) k)) ;;
          fc <- finalClaimsOf p ;;
          Some (proof, q, map (fun j => ch (cc j)) (seq 0 bG), map (fun j => ch (cc j)) (seq bG bG), fc) else None).
      { apply Prove_eq.
        - rewrite S2, S4, godiv_some, Nat.div_mul by lia. reflexivity.
        - rewrite S2, Nat.mul_comm. apply log2ceil_mul. lia. }
      eapply must_mono; cycle 1.
      apply (mt_must [] 0 zSub n nCore K (subInit p) subMore subEvals subFold consumeEvals (mtRound2 bG) (mergeSub n) (mtFinish2 c)
        (fun x j => MkSub (part n x (T j)) bG k) (fun x j => map (pval x j) (seq 0 (nev j))) (fun j => ch (cc j)) (fun j => (ms j, oks bG p0 j)) (Prove ch p0)
        (Acc ch p n k bG) (Mrg ch p n k bG)); try assumption.
      - intros x Hx. destruct Hok as (_ & H1 & H2 & H3 & L1 & L2 & L3 & _).
        unfold subInit. rewrite (get_nth (tVL p) x []), (get_nth (tVR p) x []), (get_nth (tEq p) x []) by lia. cbv beta iota zeta.
        change (T 0) with p0. unfold p0. rewrite (whole_part p n k bG x Hok Hx). rewrite New_eq. cbn [sEq sVR].
        rewrite (L1 (nth x (tEq p) [])), (L3 (nth x (tVR p) [])) by (apply nth_In; lia).
        pose proof (pow_pos k). rewrite godiv_some by lia. rewrite Nat.pow_add_r, Nat.div_mul, !log2ceil_pow2 by lia. reflexivity.
      - intros x j Hx Hj. reflexivity.
      - intros x j Hx Hj. unfold subEvals. cbn [subG subProver]. exact (run_evals ch p n k bG nCore Hok HnCore x j Hx Hj).
      - intros x j Hx Hj. unfold subFold. cbn [subG subN subProver].
        change (T (S j)) with (foldAt bG j (T j) (ch (cc j))). unfold T. rewrite (run_part ch p n k bG nCore Hok HnCore) by assumption.
        unfold foldAt. destruct (j <? bG)%nat; [rewrite FoldHL_eq; reflexivity|].
        destruct (j <? bG + bG)%nat; [rewrite FoldHR_eq|rewrite FoldHP_eq]; reflexivity.
      - intros j. reflexivity.
      - intros j l a x Hj HA Hnd Hlt. unfold Acc in *. subst a. unfold pval, nev. destruct l as [|y l].
        + eexists. split; [reflexivity|]. cbn [app]. f_equal. apply map_ext. intros t. cbn. ring.
        + rewrite consume_sum by (rewrite !map_length; reflexivity). eexists. split; [reflexivity|].
          cbn [app]. f_equal. rewrite map_length, seq_length. apply map_ext_in. intros t Ht. apply in_seq in Ht.
          rewrite !nth_map_seq by lia. change (y :: l ++ [x]) with ((y :: l) ++ [x]). rewrite suml_app. cbn [suml fold_right]. cbn. ring.
      - intros j l a Hj HA Hnd Hlt Hlen. unfold Acc in HA. destruct l as [|y l]; [discriminate|].
        assert (E : a = map (fun t => suml (y :: l) (fun x => pval x j t)) (seq 0 (nev j))) by (unfold pval, nev; congruence). subst a. clear HA.
        assert (E : map (fun t => suml (y :: l) (fun x => pval x j t)) (seq 0 (nev j)) = map (fun t => sumn n (fun x => pval x j t)) (seq 0 (nev j))).
        { apply map_ext. intros t. apply suml_perm. apply nodup_perm_seq; assumption. }
        rewrite E. pose proof (run_whole ch p n k bG nCore Hok HnCore j Hj) as HW. fold p0 pval nev in HW. fold T in HW.
        set (e := map (fun t => sumn n (fun x => pval x j t)) (seq 0 (nev j))) in *.
        assert (Hc : fst (itp e) = cc j). { unfold cc, LSumPar3.cc, pol, itp. unfold T in HW. rewrite HW. destruct (InterpolateOnRange e); reflexivity. }
        assert (Hb : snd (itp e) = okb bG p0 j). { unfold okb. unfold T in HW. rewrite HW. reflexivity. }
        unfold mtRound2. cbn [fst snd]. cbv zeta. rewrite Hc, Hb. f_equal. f_equal. unfold oks. rewrite seq_S, forallb_app. cbn [forallb Nat.add]. rewrite andb_true_r. f_equal.
        unfold record, ms, LSumPar3.ms. fold p0. fold cc. cbn [lProof lQP lQL lQR]. rewrite (seq_S j 0), map_app. cbn [Nat.add map].
        replace (2 * bG)%nat with (bG + bG)%nat by lia.
        destruct (Nat.ltb_spec j bG) as [H1|H1]; [|destruct (Nat.ltb_spec j (bG + bG)) as [H2|H2]].
        + rewrite !(Nat.min_l _ bG) by lia. replace (S j - (bG + bG))%nat with (j - (bG + bG))%nat by lia.
          replace (S j - bG)%nat with (j - bG)%nat by lia. rewrite (seq_S j 0), (map_app (fun i => ch (cc i))). reflexivity.
        + rewrite (Nat.min_r j bG), (Nat.min_r (S j) bG), (Nat.min_l (j - bG) bG), (Nat.min_l (S j - bG) bG) by lia. replace (S j - (bG + bG))%nat with (j - (bG + bG))%nat by lia.
          replace (S j - bG)%nat with (S (j - bG)) by lia. rewrite (seq_S (j - bG) bG), (map_app (fun i => ch (cc i))).
          replace (bG + (j - bG))%nat with j by lia. reflexivity.
        + rewrite !(Nat.min_r _ bG) by lia. replace (S j - (bG + bG))%nat with (S (j - (bG + bG))) by lia.
          rewrite (seq_S (j - (bG + bG)) (bG + bG)), (map_app (fun i => ch (cc i))).
          replace (bG + bG + (j - (bG + bG)))%nat with j by lia. reflexivity.
      - reflexivity.
      - intros l g x HM _ Hlt. apply (Mrg_step ch p n k bG nCore Hok HnCore); [exact HM|]. apply Hlt. apply in_app_iff. right. left. reflexivity.
      - intros l g HM Hnd Hlt Hlen. unfold Mrg in HM. destruct l as [|y l]; [cbn in Hlen; lia|].
        destruct HM as (vL & vR & eq & E & L1 & L2 & L3 & HH). injection E as ->. fold p0 in HH. fold T in HH. change (bG + bG + k)%nat with K in HH.
        assert (Hall : forall x, (x < n)%nat -> In x (y :: l)).
        { intros x Hx. apply (Permutation_in x (Permutation_sym (nodup_perm_seq (y :: l) n Hnd Hlt Hlen))). apply in_seq. lia. }
        assert (TK : shape n 1 1 (T K)).
        { assert (H : shp bG k n K (T K)).
          { apply (T_shp ch bG p0 k n K eq_refl Hn); [| | |apply le_n].
            - unfold p0, whole. rewrite New_eq. cbn [sGates]. apply Hok.
            - unfold manys, p0, whole. rewrite New_eq. cbn [sGates]. apply Hok.
            - unfold shp. rewrite !Nat.sub_0_l, !Nat.sub_0_r. exact (whole_shape p n k bG Hok). }
          unfold shp, K in H.
          replace (k - (bG + bG + k - (bG + bG)))%nat with 0%nat in H by lia.
          replace (bG - (bG + bG + k))%nat with 0%nat in H by lia.
          replace (bG - (bG + bG + k - bG))%nat with 0%nat in H by lia.
          cbn [Nat.pow] in H. rewrite Nat.mul_1_l in H. exact H. }
        destruct TK as [U1 U2 U3 U4 U5 U6].
        assert (vL = sVL (T K)) as -> by (apply (list_ext 0); [lia|intros x Hx; apply HH, Hall; lia]).
        assert (vR = sVR (T K)) as -> by (apply (list_ext 0); [lia|intros x Hx; apply HH, Hall; lia]).
        assert (eq = sEq (T K)) as -> by (apply (list_ext 0); [lia|intros x Hx; apply HH, Hall; lia]).
        unfold mtFinish2. cbn [fst snd]. rewrite EP. destruct (oks bG p0 K); [|reflexivity]. f_equal.
        unfold mtFinish. fold p0. fold T. change (bG + bG + k)%nat with K. rewrite New_eq.
        destruct (T_gates ch bG p0 K) as (G1 & G2 & G3 & G4). fold T in G1, G2, G3, G4.
        assert (D : dHL p0 = (maxHL (sGates (T K)) + 1)%nat /\ dHR p0 = (maxHR (sGates (T K)) + 1)%nat /\ dHPrime p0 = (maxHP (sGates (T K)) + 1)%nat).
        { rewrite G1. unfold p0, whole. rewrite New_eq. auto. }
        destruct D as (D1 & D2 & D3). rewrite <- D1, <- D2, <- D3, <- G2, <- G3, <- G4, prover_eta.
        unfold ms, LSumPar3.ms, lProof, lQP, lQL, lQR. cbv beta iota zeta. fold p0. fold cc.
        rewrite (Nat.min_r K bG), (Nat.min_r (K - bG) bG) by (unfold K; lia). replace (K - (bG + bG))%nat with k by (unfold K; lia). reflexivity.
      - unfold ms, LSumPar3.ms. cbn. reflexivity.
      - intros s Hs. exact (proj1 Hs).
    Qed.

    Lemma subInit_ok x : (x < n)%nat -> exists s, subInit p x = Some s /\ (subG s + subG s + subN s = K)%nat.
    Proof.
      intros Hx. destruct Hok as (_ & H1 & H2 & H3 & L1 & L2 & L3 & _).
      unfold subInit. rewrite (get_nth (tVL p) x []), (get_nth (tVR p) x []), (get_nth (tEq p) x []) by lia. cbv beta iota zeta. rewrite New_eq. cbn [sEq sVR].
      rewrite (L1 (nth x (tEq p) [])), (L3 (nth x (tVR p) [])) by (apply nth_In; lia).
      pose proof (pow_pos k). rewrite godiv_some by lia. rewrite Nat.pow_add_r, Nat.div_mul, !log2ceil_pow2 by lia. eexists. split; [reflexivity|]. reflexivity.
    Qed.

    Lemma subFold_nr j (s : Sub F) r s' : subFold j s r = Some s' -> (subG s' + subG s' + subN s' = subG s + subG s + subN s)%nat.
    Proof.
      unfold subFold. destruct (j <? subG s)%nat; [|destruct (j <? subG s + subG s)%nat];
        match goal with |- context [match ?f with Some _ => _ | None => _ end] => destruct f; [|discriminate] end; intros H; injection H as <-; reflexivity.
    Qed.

    Lemma mt_fails : Prove ch p0 = None -> fails (mt_step ch p nCore n bG K c) (mt_init nCore n).
    Proof.
      intros HN. pose proof Hok as (Hn & _). unfold fails. eapply ends_reach.
      - unfold mt_step, mt_init. apply (mt_ends [] 0 zSub n nCore K (subInit p) subMore subEvals subFold consumeEvals (mtRound ch bG) (mergeSub n) (mtFinish ch c)
          (fun s => subG s + subG s + subN s)%nat).
        + intros j s. reflexivity.
        + intros j s r s' H. exact (subFold_nr j s r s' H).
        + exact Hn.
        + intros x s Hx Hs. destruct (subInit_ok x Hx) as (s' & E & H). rewrite E in Hs. injection Hs as <-. exact H.
        + exact HnCore.
      - intros s Hr (o & Em & _). pose proof mt_run2 as HM. rewrite HN in HM.
        assert (H : Some o = None); [|discriminate].
        eapply (flag_result [] 0 zSub n nCore K (subInit p) subMore subEvals subFold consumeEvals (mtRound ch bG) (mergeSub n) (mtFinish ch c) (mtRound2 bG) (mtFinish2 c));
          [| |exact HM|exact Hr|exact Em].
        + intros i l e l' r. unfold mtRound, mtRound2, itp. destruct (InterpolateOnRange e) as [d|]; [|discriminate]. cbn [fst snd andb]. intros H. injection H as <- <-. reflexivity.
        + intros l g o0 H. unfold mtFinish2. cbn [fst snd]. rewrite H. reflexivity.
    Qed.
  End Run2.
End S.
