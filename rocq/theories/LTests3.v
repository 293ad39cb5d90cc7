(** What the tests of MTests.v notice. *)
From Coq Require Import List Arith ZArith NArith Lia Bool Ring Field.
From Verif Require Import Field FrPrime Fr Go MCommon MPoly Spec LSpec LPoly LPoly2 LPoly3 MCircuit SpecCircuit LCircuit MSumcheck SpecSumcheck
  LSumcheck LSumcheck5 MTesting LTesting MSumPar MGkr MHash SpecGkr MArk MTests SpecTests LTests LTests2.
Import ListNotations.

Lemma eqList_eq {A} (eqA : A -> A -> bool) (a b : list A) :
  (forall x y, eqA x y = true <-> x = y) -> eqList eqA a b = true <-> a = b.
Proof.
  intros H. revert b; induction a as [|x a IH]; intros [|y b]; cbn; try (split; congruence).
  rewrite andb_true_iff, H, IH. split; [intros [-> ->]; reflexivity|intros [= -> ->]; auto].
Qed.

Lemma checkAll_iff {A} (f : A -> option bool) l : checkAll f l = Some true <-> forall x, In x l -> f x = Some true.
Proof.
  split; [|apply checkAll_true]. unfold checkAll.
  assert (G : forall b, foldM (fun ok x => y <- f x ;; Some (ok && y)) l b = Some true ->
              b = true /\ forall x, In x l -> f x = Some true).
  { induction l as [|x l IH]; intros b E; cbn in E; [injection E as ->; split; [reflexivity|intros ? []]|].
    destruct (f x) as [y|] eqn:Ef; [|discriminate]. apply IH in E. destruct E as [E H].
    apply andb_true_iff in E. destruct E as [-> ->]. split; [reflexivity|].
    intros z [<-|Hz]; auto. }
  intros E. apply (G true E).
Qed.

(** Turn an equation about a chain of options into its components. *)
Ltac chain H :=
  repeat match type of H with
  | context [match ?e with Some _ => _ | None => None end] =>
      let E := fresh "E" in destruct e eqn:E; [|discriminate H]
  | context [let '(_, _) := ?p in _] => destruct p
  | context [match ?p with (_, _) => _ end] => destruct p
  end.

Section L.
  Context {F : Field}.
  Add Field FfieldTests3 : (f_theory F).
  Open Scope F_scope.

  Lemma eqTable_iff (a b : list F) : eqTable a b = true <-> a = b.
  Proof. apply eqList_eq. intros. apply feqb_eq. Qed.
  Lemma eqValues_iff (a b : list (list (list F))) : eqValues a b = true <-> a = b.
  Proof. apply eqList_eq. intros. apply eqList_eq. intros. apply eqTable_iff. Qed.

  Lemma fold_detects (f : list F -> F -> option (list F)) m r e0 e1 :
    TestFold_with f m r e0 e1 = Some true <->
    exists rest, f (map (fun i => fnat i) (seq 0 (2 * m))) r = Some (e0 :: e1 :: rest).
  Proof.
    unfold TestFold_with. cbv zeta. destruct (f _ r) as [t|]; [|split; [discriminate|intros (? & E); discriminate]].
    destruct t as [|x [|y t]]; cbn [get nth_error]; try (split; [discriminate|intros (? & E); discriminate]).
    split.
    - intros [= E]. apply andb_true_iff in E. rewrite !feqb_eq in E. destruct E as [-> ->]. exists t. reflexivity.
    - intros (rest & [= -> -> ->]). rewrite !feqb_refl. reflexivity.
  Qed.

  Lemma func_eval_detects (f : list F -> option (list F)) m e :
    TestFuncEval_with f m e = Some true <->
    exists rest, f (map (fun i => fnat i) (seq 0 (2 * m))) = Some (e :: e :: rest).
  Proof.
    unfold TestFuncEval_with. cbv zeta. destruct (f _) as [t|]; [|split; [discriminate|intros (? & E); discriminate]].
    destruct t as [|x [|y t]]; cbn [get nth_error]; try (split; [discriminate|intros (? & E); discriminate]).
    split.
    - intros [= E]. apply andb_true_iff in E. rewrite !feqb_eq in E. destruct E as [<- <-]. exists t. reflexivity.
    - intros (rest & [= -> -> ->]). rewrite !feqb_refl. reflexivity.
  Qed.

  Section Chunked.
    Variable getChunked : list F -> nat -> nat -> option (list (list F)).
    Variable getFolded : list F -> option (list F).
    Variable evaluate : list F -> list F -> option F.
    Variable evaluateChunked : list (list F) -> list F -> option F.
    Variable evaluateMixed : list (list F) -> list F -> list F -> list F -> option (F * F).
    Variable evaluateLR : list F -> list F -> list F -> list F -> option (F * F).

    Lemma chunked_detects logSize logNChunks (qPrime : list F) hs mixed : (logNChunks <= logSize)%nat ->
      TestChunked_with getChunked getFolded evaluate evaluateChunked evaluateMixed evaluateLR logSize logNChunks qPrime hs mixed = Some true ->
      exists ec e, getChunked qPrime (2 ^ logNChunks)%nat 1%nat = Some ec /\ getFolded qPrime = Some e /\
        (forall u s, In (u, s) (probes (2 ^ (logSize - logNChunks)) (2 ^ logNChunks)) ->
           exists x, nth_error e (u * 2 ^ logNChunks + s) = Some x /\ cell ec s u = Some x) /\
        (forall h, In h hs -> exists v, evaluate e h = Some v /\ evaluateChunked ec h = Some v) /\
        (forall hC hL hR, In (hC, hL, hR) mixed ->
           exists a b, evaluateLR e hC hL hR = Some (a, b) /\ evaluateMixed ec hC hL hR = Some (a, b)).
    Proof.
      intros Hk H. unfold TestChunked_with in H. rewrite gosub_some in H by assumption. cbv zeta in H.
      set (cs := (2 ^ (logSize - logNChunks))%nat) in *. set (nC := (2 ^ logNChunks)%nat) in *.
      assert (Hs : (2 ^ logSize = cs * nC)%nat) by (unfold cs, nC; rewrite <- Nat.pow_add_r; f_equal; lia).
      assert (Hc0 : (0 < cs)%nat) by (unfold cs; pose proof (Nat.pow_nonzero 2 (logSize - logNChunks)); lia).
      assert (Hn0 : (0 < nC)%nat) by (unfold nC; pose proof (Nat.pow_nonzero 2 logNChunks); lia).
      destruct (getChunked qPrime nC 1) as [ec|] eqn:E1; [|discriminate H].
      destruct (getFolded qPrime) as [e|] eqn:E2; [|discriminate H].
      destruct (get e 0) as [a|] eqn:Ea; [|discriminate H].
      destruct (get ec 0) as [c|] eqn:Ec; [|discriminate H].
      destruct (get c 0) as [a'|] eqn:Ea'; [|discriminate H].
      destruct (get e (2 ^ logSize - 1)) as [b|] eqn:Eb; [|discriminate H].
      destruct (get ec (nC - 1)) as [d|] eqn:Ed; [|discriminate H].
      destruct (get d (cs - 1)) as [b'|] eqn:Eb'; [|discriminate H].
      destruct (checkAll _ (seq 0 _)) as [ok1|] eqn:K1; [|discriminate H].
      destruct (checkAll _ hs) as [ok2|] eqn:K2; [|discriminate H].
      destruct (checkAll _ mixed) as [ok3|] eqn:K3; [|discriminate H].
      injection H as H. rewrite !andb_true_iff, !feqb_eq in H. destruct H as ((((-> & ->) & ->) & ->) & ->).
      pose proof (proj1 (checkAll_iff _ _) K1) as K1'. pose proof (proj1 (checkAll_iff _ _) K2) as K2'.
      pose proof (proj1 (checkAll_iff _ _) K3) as K3'. clear K1 K2 K3. rename K1' into K1, K2' into K2, K3' into K3.
      exists ec, e. split; [reflexivity|]. split; [reflexivity|].
      unfold get in *. split; [|split].
      - intros u s Hin. cbn [probes In] in Hin. destruct Hin as [Hin|[Hin|Hin]].
        + injection Hin as <- <-. exists a'. split; [exact Ea|]. unfold cell. rewrite Ec. exact Ea'.
        + injection Hin as <- <-. exists b'. split.
          * rewrite <- Eb. f_equal. rewrite Hs. nia.
          * unfold cell. rewrite Ed. exact Eb'.
        + assert (G : forall i, (i < 3)%nat -> In i (seq 0 (length (map (fun x => N.to_nat (x mod N.of_nat cs)) [1897979; 987950; 4547687]%N)))).
          { intros i Hi. apply in_seq. rewrite map_length. cbn [length]. lia. }
          assert (D' : forall u s, (x <- nth_error e (u * nC + s) ;; t <- nth_error ec s ;; y <- nth_error t u ;; Some (x =? y)) = Some true ->
             exists x, nth_error e (u * nC + s) = Some x /\ cell ec s u = Some x).
          { intros u' s'. destruct (nth_error e (u' * nC + s')) as [x|]; [|discriminate]. intros H.
            destruct (nth_error ec s') as [t|] eqn:X2; [|discriminate H].
            destruct (nth_error t u') as [y|] eqn:X3; [|discriminate H].
            injection H as H. apply feqb_eq in H. subst y. exists x. split; [reflexivity|]. unfold cell. rewrite X2. exact X3. }
          destruct Hin as [Hin|[Hin|[Hin|[]]]]; injection Hin as <- <-.
          * specialize (K1 0%nat (G 0%nat ltac:(lia))). cbn [map nth_error] in K1.
            eapply D'; exact K1.
          * specialize (K1 1%nat (G 1%nat ltac:(lia))). cbn [map nth_error] in K1.
            eapply D'; exact K1.
          * specialize (K1 2%nat (G 2%nat ltac:(lia))). cbn [map nth_error] in K1.
            eapply D'; exact K1.
      - intros h Hh. specialize (K2 h Hh). cbv beta in K2. destruct (evaluate e h) as [v|]; [|discriminate].
        destruct (evaluateChunked ec h) as [w|]; [|discriminate]. injection K2 as K2. apply feqb_eq in K2. subst w.
        exists v. auto.
      - intros hC hL hR Hin. specialize (K3 (hC, hL, hR) Hin). cbv beta iota in K3.
        destruct (evaluateMixed ec hC hL hR) as [[x y]|]; [|discriminate].
        destruct (evaluateLR e hC hL hR) as [[x' y']|]; [|discriminate].
        injection K3 as K3. apply andb_true_iff in K3. rewrite !feqb_eq in K3. destruct K3 as [-> ->].
        exists x, y. auto.
    Qed.
  End Chunked.

  (** TestChunked compares the two tables only with each other. *)
  Lemma chunked_blind (T : list F -> list F) logSize logNChunks (qPrime : list F) hs mixed :
    (0 < logNChunks <= logSize)%nat -> (forall q, length (T q) = 2 ^ logSize)%nat ->
    (forall h, In h hs -> length h = logSize) ->
    (forall hC hL hR, In (hC, hL, hR) mixed -> (logNChunks <= length hC)%nat /\ (length hL + length hC = logSize)%nat /\ length hR = length hL) ->
    TestChunked_with
      (fun q n _ => Some (map (fun s => map (fun u => nth (u * n + s) (T q) 0) (seq 0 (2 ^ logSize / n))) (seq 0 n)))
      (fun q => Some (T q)) Evaluate EvaluateChunked EvaluateMixedChunked EvaluateLeftAndRight
      logSize logNChunks qPrime hs mixed = Some true.
  Proof.
    intros Hk HT Hh Hm.
    assert (Hd : (2 ^ logSize / 2 ^ logNChunks = 2 ^ (logSize - logNChunks))%nat).
    { replace logSize with ((logSize - logNChunks) + logNChunks)%nat at 1 by lia. rewrite Nat.pow_add_r.
      apply Nat.div_mul, Nat.pow_nonzero. lia. }
    eapply test_chunked_any with (t := T qPrime); try eassumption; try reflexivity.
    - apply HT.
    - rewrite map_length, seq_length. reflexivity.
    - intros c Hc. apply in_map_iff in Hc. destruct Hc as (s & <- & _). rewrite map_length, seq_length. exact Hd.
    - intros u s Hu Hs. rewrite nth_map_seq by exact Hs. rewrite nth_map_seq by lia. reflexivity.
  Qed.

  Lemma sumcheck_detects (getClaim : Prover F -> option F) prove verify (evaluate : list F -> list F -> option F)
      (evaluateLR : list F -> list F -> list F -> list F -> option (F * F)) bN bG (v eQ add : list F) :
    TestSumcheck_with getClaim prove verify evaluate evaluateLR bN bG v eQ add = Some true <->
    exists claim proof qPrime qL qR vL vR e s rest,
      let p := NewSingleThreadedProver v v eQ [AddGate] [add] in
      getClaim p = Some claim /\ prove p = Some (proof, qPrime, qL, qR, vL :: vR :: e :: s :: rest) /\
      verify claim proof bN bG = Some (Accept qPrime qL qR ((vL + vR) * s * e)) /\
      evaluateLR v qPrime qL qR = Some (vL, vR) /\ evaluate eQ qPrime = Some e /\ evaluate add (qL ++ qR) = Some s.
  Proof.
    unfold TestSumcheck_with, DeepCopy. cbv zeta. set (p := NewSingleThreadedProver v v eQ [AddGate] [add]). split.
    - intros H. destruct (getClaim p) as [claim|]; [|discriminate H].
      destruct (prove p) as [[[[[proof qP] qL] qR] subs]|]; [|discriminate H].
      destruct (verify claim proof bN bG) as [[|qP' qL' qR' fc]|] eqn:EV; [| |discriminate H].
      + destruct (evaluateLR v [] [] []) as [[? ?]|]; [|discriminate H]. destruct (evaluate eQ []); [|discriminate H].
        destruct (evaluate add _); [|discriminate H]. repeat (destruct (get subs _); [|discriminate H]). discriminate H.
      + destruct (evaluateLR v qP' qL' qR') as [[vL vR]|] eqn:E1; [|discriminate H].
        destruct (evaluate eQ qP') as [e|] eqn:E2; [|discriminate H].
        destruct (evaluate add (qL' ++ qR')) as [s|] eqn:E3; [|discriminate H].
        destruct subs as [|s0 [|s1 [|s2 [|s3 rest]]]]; cbn [get nth_error] in H; try discriminate H.
        injection H as H. rewrite !andb_true_iff, !feqb_eq, !eqTable_iff in H.
        destruct H as ((((-> & ->) & ->) & ((-> & ->) & ->) & ->) & ->).
        exists claim, proof, qP', qL', qR', s0, s1, s2, s3, rest. repeat split; try assumption.
    - intros (claim & proof & qP & qL & qR & vL & vR & e & s & rest & -> & -> & -> & -> & -> & ->).
      cbn [get nth_error]. rewrite !eqTable_refl, !feqb_refl. reflexivity.
  Qed.

  Lemma get_evals_detects (getClaim : Prover F -> option F) (onHL onHR onHPrime : Prover F -> option (list F)) foldHL foldHR :
    TestGetEvals_with getClaim onHL onHR onHPrime foldHL foldHR = Some true <->
    let v := [fnat 0; fnat 1; fnat 2; fnat 3] in
    let p := NewSingleThreadedProver v v [fnat 0; fnat 1] [AddGate] [[fnat 0; fnat 0; fnat 1; fnat 0]] in
    exists p1 p2 r0 r1 r2,
      getClaim p = Some (fnat 4) /\ onHL p = Some (fnat 0 :: fnat 4 :: fnat 12 :: r0) /\
      foldHL p (fnat 1) = Some p1 /\ onHR p1 = Some (fnat 4 :: fnat 0 :: - fnat 8 :: r1) /\
      foldHR p1 (fnat 0) = Some p2 /\ onHPrime p2 = Some (fnat 0 :: fnat 4 :: fnat 12 :: r2).
  Proof.
    unfold TestGetEvals_with, DeepCopy. cbv zeta. set (p := NewSingleThreadedProver _ _ _ _ _). split.
    - intros H. destruct (getClaim p) as [c|]; [|discriminate H].
      destruct (onHL p) as [[|a0 [|a1 [|a2 r0]]]|]; cbn [get nth_error] in H; try discriminate H.
      destruct (foldHL p _) as [p1|] eqn:E1; [|discriminate H].
      destruct (onHR p1) as [[|b0 [|b1 [|b2 r1]]]|] eqn:E2; cbn [get nth_error] in H; try discriminate H.
      destruct (foldHR p1 _) as [p2|] eqn:E3; [|discriminate H].
      destruct (onHPrime p2) as [[|c0 [|c1 [|c2 r2]]]|] eqn:E4; cbn [get nth_error] in H; try discriminate H.
      injection H as H. rewrite !andb_true_iff, !feqb_eq in H.
      destruct H as (((((((((-> & ->) & ->) & ->) & ->) & ->) & ->) & ->) & ->) & ->).
      exists p1, p2, r0, r1, r2. repeat split; try reflexivity; assumption.
    - intros (p1 & p2 & r0 & r1 & r2 & -> & -> & -> & -> & -> & ->).
      cbn [get nth_error]. rewrite !feqb_refl. reflexivity.
  Qed.

  Lemma gkr_detects (assign : Circuit F -> list (list F) -> option (Assignment F)) prove verify c bN inputs expected :
    testGkr_with assign prove verify c bN inputs expected = Some true <->
    exists outputs pf, assign c inputs = Some expected /\ nth_error expected 2 = Some outputs /\
      prove c expected 1%nat = Some pf /\ verify bN c pf inputs outputs = Some true.
  Proof.
    unfold testGkr_with, get. split.
    - intros H. destruct (assign c inputs) as [a|]; [|discriminate H].
      destruct (nth_error a 2) as [o|] eqn:E1; [|discriminate H].
      destruct (prove c a 1%nat) as [pf|] eqn:E2; [|discriminate H].
      destruct (verify bN c pf inputs o) as [b|] eqn:E3; [|discriminate H].
      injection H as H. apply andb_true_iff in H. destruct H as [-> H]. apply eqValues_iff in H. subst a.
      exists o, pf. auto.
    - intros (o & pf & -> & -> & -> & ->). rewrite eqValues_refl. reflexivity.
  Qed.

  Lemma mimc_detects arks (assign : Circuit F -> list (list F) -> option (Assignment F)) permutation combinator intermediate initial
      (getClaim : MTProver F -> option F) prove verify bN nChunks inputs :
    TestMimc_with arks assign permutation combinator intermediate initial getClaim prove verify bN nChunks inputs = Some true ->
    exists c a l0 pf h p0 p1 pI,
      let half := (2 * 2 ^ bN / nChunks / 2)%nat in
      let x := nth 0 (nth 0 inputs []) 0 in
      let key := nth half (nth 0 inputs []) 0 in
      let o := nth 0 (nth 0 (nth 91 a []) []) 0 in
      let r0 := nth 0 (nth 0 (nth 1 a []) []) 0 in
      let r1 := nth half (nth 0 (nth 1 a []) []) 0 in
      let q := repeat 0 bN in
      CreateMimcCircuit arks = Some c /\ assign c inputs = Some a /\ nth_error c 0 = Some l0 /\
      permutation (x - key) key = Some h /\ o = h + key /\
      combinator key x 1 (lGates l0) [1; 0] = Some r0 /\ combinator key x 1 (lGates l0) [0; 1] = Some r1 /\
      intermediate c a 0%nat q [0] [0] 1 0 1%nat = Some p0 /\ getClaim p0 = Some r0 /\
      intermediate c a 0%nat q [1] [0] 1 0 1%nat = Some p1 /\ getClaim p1 = Some r1 /\
      initial c a q [] 1%nat = Some pI /\ getClaim pI = Some o /\
      prove c a 1%nat = Some pf /\ verify bN c pf inputs (nth 91 a []) = Some true.
  Proof.
    unfold TestMimc_with. intros H.
    destruct (CreateMimcCircuit arks) as [c|]; [|discriminate H].
    destruct nChunks as [|n']; [discriminate H|]. set (n := S n') in *.
    rewrite godiv_some in H by (unfold n; lia). set (half := (2 * 2 ^ bN / n / 2)%nat) in *. cbv zeta in H.
    destruct (assign c inputs) as [a|] eqn:Eas; [|discriminate H].
    destruct (get a 91) as [outs|] eqn:Eo; [|discriminate H]. apply (get_some_nth _ _ _ []) in Eo.
    destruct (get inputs 0) as [inp|] eqn:Ei; [|discriminate H]. apply (get_some_nth _ _ _ []) in Ei.
    destruct (get inp 0) as [x|] eqn:Ex; [|discriminate H]. apply (get_some_nth _ _ _ 0) in Ex.
    destruct (get inp half) as [key|] eqn:Ek; [|discriminate H]. apply (get_some_nth _ _ _ 0) in Ek.
    destruct (permutation (x - key) key) as [h|] eqn:Eh; [|discriminate H].
    destruct (get outs 0) as [out|] eqn:Eout; [|discriminate H]. apply (get_some_nth _ _ _ []) in Eout.
    destruct (get out 0) as [o|] eqn:Eoo; [|discriminate H]. apply (get_some_nth _ _ _ 0) in Eoo.
    destruct (get a 1) as [l1|] eqn:E1; [|discriminate H]. apply (get_some_nth _ _ _ []) in E1.
    destruct (get c 0) as [l0|] eqn:E0; [|discriminate H].
    destruct (combinator key x 1 (lGates l0) [1; 0]) as [f0|] eqn:Ef0; [|discriminate H].
    destruct (combinator key x 1 (lGates l0) [0; 1]) as [f1|] eqn:Ef1; [|discriminate H].
    destruct (get l1 0) as [row|] eqn:Er; [|discriminate H]. apply (get_some_nth _ _ _ []) in Er.
    destruct (get row 0) as [r0|] eqn:Er0; [|discriminate H]. apply (get_some_nth _ _ _ 0) in Er0.
    destruct (get row half) as [r1|] eqn:Er1; [|discriminate H]. apply (get_some_nth _ _ _ 0) in Er1.
    destruct (intermediate c a 0%nat (repeat 0 bN) [0] [0] 1 0 1%nat) as [p0|] eqn:Ep0; [|discriminate H].
    destruct (intermediate c a 0%nat (repeat 0 bN) [1] [0] 1 0 1%nat) as [p1|] eqn:Ep1; [|discriminate H].
    destruct (getClaim p0) as [c0|] eqn:Ec0; [|discriminate H].
    destruct (getClaim p1) as [c1|] eqn:Ec1; [|discriminate H].
    destruct (initial c a (repeat 0 bN) [] 1%nat) as [pI|] eqn:EpI; [|discriminate H].
    destruct (getClaim pI) as [cI|] eqn:EcI; [|discriminate H].
    destruct (prove c a 1%nat) as [pf|] eqn:Epf; [|discriminate H].
    destruct (verify bN c pf inputs outs) as [b|] eqn:Ev; [|discriminate H].
    injection H as H. rewrite !andb_true_iff, !feqb_eq in H.
    destruct H as ((((HA & HB & HC) & HD & HE) & HG) & ->).
    exists c, a, l0, pf, h, p0, p1, pI. cbv zeta. rewrite Ei, Eo, Eout, E1, Er, Ex, Ek, Eoo, Er0, Er1.
    repeat split; try assumption; try exact E0; congruence.
  Qed.

  (** ** A verifier that accepts everything passes the tests *)

  Lemma mimc_blind_any arks (assign : Circuit F -> list (list F) -> option (Assignment F)) permutation combinator intermediate initial
      (getClaim : MTProver F -> option F) prove verify bN nChunks inputs :
    TestMimc_with arks assign permutation combinator intermediate initial getClaim prove verify bN nChunks inputs = Some true ->
    TestMimc_with arks assign permutation combinator intermediate initial getClaim prove (fun _ _ _ _ _ => Some true) bN nChunks inputs = Some true.
  Proof.
    unfold TestMimc_with. cbv zeta. intros H.
    repeat match type of H with
    | match ?e with Some _ => _ | None => None end = _ => destruct e; [|discriminate H]
    end.
    injection H as H. apply andb_true_iff in H. destruct H as [H _]. rewrite H. reflexivity.
  Qed.

  Lemma gkr_blind (assign : Circuit F -> list (list F) -> option (Assignment F)) prove c bN inputs a outputs pf :
    assign c inputs = Some a -> nth_error a 2 = Some outputs -> prove c a 1%nat = Some pf ->
    testGkr_with assign prove (fun _ _ _ _ _ => Some true) c bN inputs a = Some true.
  Proof. intros H1 H2 H3. apply gkr_detects. exists outputs, pf. auto. Qed.

  Lemma replay_loop_ok ch v proof acc rs e : verify_loop (F:=F) ch v proof acc = Some (Some (rs, e)) ->
    exists rs', replay_loop ch v proof = Some (rs', e) /\ rs = acc ++ rs'.
  Proof.
    revert v acc. induction proof as [|c proof IH]; intros v acc H; cbn in *.
    - injection H as <- <-. exists []. rewrite app_nil_r. auto.
    - destruct (EvaluatePolynomial c 0) as [a0|]; [|discriminate]. destruct (EvaluatePolynomial c 1) as [a1|]; [|discriminate].
      destruct (v =? a0 + a1); [|discriminate]. destruct (EvaluatePolynomial c (ch c)) as [e'|]; [|discriminate].
      destruct (IH _ _ H) as (rs' & -> & ->). exists (ch c :: rs'). rewrite <- app_assoc. auto.
  Qed.

  (** On an accepted proof the replay gives what Verify gives. *)
  Lemma replay_ok ch claim proof bN bG qPrime qL qR fc :
    Verify (F:=F) ch claim proof bN bG = Some (Accept qPrime qL qR fc) ->
    replay ch claim proof bN bG = Some (Accept qPrime qL qR fc).
  Proof.
    unfold Verify, replay. intros H. destruct (verify_loop ch claim proof []) as [[[rs e]|]|] eqn:E; [|discriminate|discriminate].
    destruct (replay_loop_ok _ _ _ _ _ _ E) as (rs' & -> & ->). cbn [app] in H.
    destruct (slice rs' 0 bG) as [l|] eqn:S1; [|discriminate]. destruct (slice rs' bG (2 * bG)) as [r|] eqn:S2; [|discriminate].
    destruct (slice rs' (2 * bG) (length rs')) as [p|] eqn:S3; [|discriminate].
    injection H as <- <- <- <-. unfold slice in *.
    destruct (_ && _); [|discriminate]. injection S1 as <-.
    destruct (_ && _); [|discriminate]. injection S2 as <-.
    destruct (_ && _); [|discriminate]. injection S3 as <-.
    cbn [skipn]; rewrite ?Nat.sub_0_r. do 2 f_equal.
    - symmetry. apply firstn_all2. rewrite skipn_length. lia.
    - f_equal. lia.
  Qed.

  Lemma replay_unsound (ch : list F -> F) claim : claim <> 0 ->
    replay ch claim [[0]; [0]; [0]] 1 1 = Some (Accept [ch [0]] [ch [0]] [ch [0]] 0) /\
    Verify ch claim [[0]; [0]; [0]] 1 1 = Some Reject.
  Proof.
    intros H. split; [reflexivity|]. unfold Verify. cbn. replace (0 + 0) with (0 : F) by ring.
    destruct (claim =? 0) eqn:E; [apply feqb_eq in E; contradiction|reflexivity].
  Qed.
End L.

(** The real sum-check test with a verifier that checks nothing. *)
Lemma sumcheck_blind (ch : list Fr -> Fr) bN bG (v eQ add : list Fr) :
  length v = (2 ^ (bG + bN))%nat -> length eQ = (2 ^ bN)%nat -> length add = (2 ^ (bG + bG))%nat ->
  TestSumcheck_with GetClaim (Prove ch) (replay ch) Evaluate EvaluateLeftAndRight bN bG v eQ add = Some true.
Proof.
  intros H1 H2 H3. pose proof (test_sumcheck ch bN bG v eQ add H1 H2 H3) as H. unfold TestSumcheck in H.
  apply sumcheck_detects in H. apply sumcheck_detects.
  destruct H as (cl & pf & qP & qL & qR & vL & vR & e & s & rest & A1 & A2 & A3 & A4 & A5 & A6).
  exists cl, pf, qP, qL, qR, vL, vR, e, s, rest. repeat split; try assumption. apply replay_ok. exact A3.
Qed.

Lemma benchmark_blind (ch : list Fr -> Fr) bN :
  TestBenchmarkSetup_with GetClaim (Prove ch) (fun _ _ _ _ => Some (Accept [] [] [] 0%F)) bN = Some true.
Proof.
  pose proof (test_benchmark_setup ch bN) as H. unfold TestBenchmarkSetup, TestBenchmarkSetup_with in *.
  destruct (InitializeProverForTests bN); [|discriminate]. destruct (GetClaim p); [|discriminate].
  destruct (Prove ch p) as [[[[[? ?] ?] ?] ?]|]; [|discriminate]. reflexivity.
Qed.

Lemma benchmark_detects getClaim prove verify bN : TestBenchmarkSetup_with getClaim prove verify bN = Some true <->
  exists p claim proof qP qL qR fin vP vL vR vc, InitializeProverForTests bN = Some p /\ getClaim p = Some claim /\
    prove p = Some (proof, qP, qL, qR, fin) /\ verify claim proof 1 1 = Some (Accept vP vL vR vc).
Proof.
  unfold TestBenchmarkSetup_with. split.
  - intros H. destruct (InitializeProverForTests bN) as [p|]; [|discriminate H]. destruct (getClaim p) as [claim|] eqn:E1; [|discriminate H].
    destruct (prove p) as [[[[[proof qP] qL] qR] fin]|] eqn:E2; [|discriminate H].
    destruct (verify claim proof 1 1) as [[|vP vL vR vc]|] eqn:E3; try discriminate H.
    exists p, claim, proof, qP, qL, qR, fin, vP, vL, vR, vc. auto.
  - intros (p & claim & proof & qP & qL & qR & fin & vP & vL & vR & vc & -> & -> & -> & E). cbv beta iota. rewrite E. reflexivity.
Qed.

Lemma mimc_blind (ch : list Fr -> Fr) mtProve mtClaim m k inputs :
  follows_machine ch 1 (mtProve 1) -> follows_claim 1 (mtClaim 1) -> 0 < k -> chunked k m 1 inputs ->
  TestMimc_with Arks Assign (MimcPermutation Arks) EvaluateCombinator IntermediateRoundsSumcheckProver InitialRoundSumcheckProver
    (mtClaim 1) (GkrProve ch (mtProve 1)) (fun _ _ _ _ _ => Some true) (m + k) (2 ^ k) inputs = Some true.
Proof.
  intros H1 H2 H3 H4. exact (mimc_blind_any _ _ _ _ _ _ _ _ _ _ _ _ (test_mimc ch mtProve mtClaim m k inputs H1 H2 H3 H4)).
Qed.

Lemma log2_detects f g : TestLog2_with f g = true <-> forall x : Z, (1 <= x <= 9)%Z -> f x = Z.log2 x /\ g x = Z.log2_up x.
Proof.
  unfold TestLog2_with. cbv zeta. rewrite andb_true_iff, !(eqList_eq Z.eqb) by (intros; apply Z.eqb_eq). cbn [map]. split.
  - intros [H1 H2] x Hx. injection H1 as F1 F2 F3 F4 F5 F6 F7 F8 F9. injection H2 as G1 G2 G3 G4 G5 G6 G7 G8 G9.
    assert (C : (x = 1 \/ x = 2 \/ x = 3 \/ x = 4 \/ x = 5 \/ x = 6 \/ x = 7 \/ x = 8 \/ x = 9)%Z) by lia.
    repeat (destruct C as [->|C]; [split; [symmetry; assumption|symmetry; assumption]|]). subst x. split; symmetry; assumption.
  - intros H. split; repeat f_equal; symmetry; apply H; lia.
Qed.
