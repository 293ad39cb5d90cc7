(** Proofs whose last sum-check consists of zero polynomials. *)
From Coq Require Import List Arith Lia Bool ZArith Ring Field.
From Verif Require Import Field Go MCommon Spec LSpec LCommon MPoly LPoly LPoly2 LPoly3 Trans MCircuit SpecCircuit LCircuit LCircuit2
  LCircuit3 MSumcheck LSumcheck SpecSumcheck LSumcheck4 LSumcheck5 MSumPar SpecSumPar LSumPar4 MGkr SpecGkr LGkr LGkr2 LGkr3 LGkr4 MHash SpecHash LHash LHash2 LHash3 MSnark SpecSnark LSnark8.
Import ListNotations.

Section L.
  Context {F : Field}.
  Add Field FfieldForge : (f_theory F).
  Open Scope F_scope.

  Lemma upd_same {A} (l : list A) i v : (i < length l)%nat -> nth_error (upd l i v) i = Some v.
  Proof. revert i. induction l as [|x l IH]; intros i H; destruct i; cbn in *; try lia; [reflexivity|]. apply IH. lia. Qed.

  Lemma map_repeat {A B} (f : A -> B) x n : map f (repeat x n) = repeat (f x) n.
  Proof. induction n as [|n IH]; cbn; congruence. Qed.

  Lemma answers_zero (ch : list F -> F) cs : (forall p, In p cs -> exists n, p = repeat 0 (S n)) -> answers ch 0 cs 0.
  Proof.
    induction cs as [|p cs IH]; intros H; [reflexivity|]. cbn [answers].
    destruct (H p (or_introl eq_refl)) as (n & ->). split; [discriminate|]. rewrite !peval_zeros. split; [ring|].
    apply IH. intros p' Hp. apply H. right. exact Hp.
  Qed.

  (** The zero polynomials of a layer. *)
  Definition zero_polys (l : Layer F) (bN : nat) : list (list F) :=
    repeat (repeat 0 (maxHL (lGates l) + 2)) (lBGInputs l) ++ repeat (repeat 0 (maxHR (lGates l) + 2)) (lBGInputs l) ++
    repeat (repeat 0 (maxHP (lGates l) + 2)) bN.

  Lemma zero_polys_zero l bN p : In p (zero_polys l bN) -> exists n, p = repeat 0 (S n).
  Proof.
    unfold zero_polys. rewrite !in_app_iff. intros [H|[H|H]]; apply repeat_spec in H; rewrite H; eexists;
      rewrite Nat.add_succ_r; reflexivity.
  Qed.

  Section Circ.
    Variable ch : list F -> F.
    Hypothesis Hdist : distinct_upto (F:=F) 12.
    Variables m k : nat.
    Variable c : list (Layer F).
    Variable b : nat.
    Variable inputs : list (list F).
    Variable a : list (list (list F)).
    Hypothesis Hlayers : forall l, In l c -> layer_ok l.
    Hypothesis Hfits : fits b c.
    Hypothesis Hin : chunked k m b inputs.
    Hypothesis Ha : assignment_of c (2 ^ m) inputs a.

    Theorem zero_top l q qP out : c <> [] -> nth_error c (length c - 1) = Some l ->
      length q = lBGOutputs l -> length qP = (m + k)%nat -> mle out (q ++ qP) = 0 ->
      layer_poly l (fun o => chi (to_bits (lBGOutputs l) o) q) qP (glued (lBGInputs l) m (nth (length c - 1) a []))
        (map ch (zero_polys l (m + k))) = 0 ->
      exists pf, plen c pf /\ pshape m k c 0 pf /\
        forall mm, accepted ch mm c (m + k) pf q qP out (glued b m inputs).
    Proof.
      destruct Hin as [Hlen Hinp]. intros Hc Hl' Lq LqP Hout Hzero.
      destruct (length c) as [|last] eqn:ELc; [destruct c; [congruence|discriminate]|].
      assert (Hl : nth_error c last = Some l) by (rewrite <- Hl'; f_equal; lia).
      replace (S last - 1)%nat with last in * by lia.
      pose proof (Hlayers l (nth_error_In _ _ Hl)) as Hok. pose proof Hok as (Hwf & Hg & _).
      destruct (nth_error c 0) as [l0|] eqn:Hl0; [|apply nth_error_None in Hl0; lia].
      pose proof Ha as (A1 & A2 & A3).
      destruct (statics_ok l q Hwf Lq) as (st & Est & Lst & Sst).
      set (V := glued (lBGInputs l) m (nth last a [])) in *.
      set (Z := zero_polys l (m + k)) in *.
      set (qL' := firstn (lBGInputs l) (map ch Z)).
      set (qR' := firstn (lBGInputs l) (skipn (lBGInputs l) (map ch Z))).
      set (qP' := skipn (lBGInputs l + lBGInputs l) (map ch Z)).
      assert (LZ : length (map ch Z) = (lBGInputs l + lBGInputs l + (m + k))%nat).
      { unfold Z, zero_polys. rewrite map_length, !app_length, !repeat_length. lia. }
      assert (LL : length qL' = lBGInputs l) by (unfold qL'; rewrite firstn_length; lia).
      assert (LR : length qR' = lBGInputs l) by (unfold qR'; rewrite firstn_length, skipn_length; lia).
      assert (LP : length qP' = (m + k)%nat) by (unfold qP'; rewrite skipn_length; lia).
      assert (EZ : map ch Z = qL' ++ qR' ++ qP').
      { unfold qL', qR', qP'. rewrite <- skipn_add, !firstn_skipn. reflexivity. }
      assert (HV : Verify ch 0 Z (m + k) (lBGInputs l) = Some (Accept qP' qL' qR' 0)).
      { apply Verify_accept. split; [apply answers_zero; apply zero_polys_zero|]. auto. }
      assert (HC : EvaluateCombinator (mle V (qL' ++ qP')) (mle V (qR' ++ qP')) (eqprod qP qP') (lGates l)
                     (map (fun t => mle t (qL' ++ qR')) st) = Some 0).
      { pose proof (claims_combinator (lGates l) st (eqtab qP) V V qL' qR' qP' Lst) as HCC.
        rewrite mle_eqtab in HCC by congruence. rewrite HCC, LL, LR, <- EZ. f_equal.
        rewrite (combinator_layer_poly l st (fun o => chi (to_bits (lBGOutputs l) o) q)); auto.
        - apply weights_static; auto.
        - rewrite LZ, LqP. reflexivity. }
      set (pf0 := MkProof (upd (repeat [] (S last)) last Z) (upd (repeat 0 (S last)) last (mle V (qL' ++ qP')))
                   (upd (repeat 0 (S last)) last (mle V (qR' ++ qP')))).
      assert (HL0 : plen c pf0) by (unfold plen, pf0; cbn [SumcheckProofs ClaimsLeft ClaimsRight]; rewrite !upd_length, !repeat_length; auto).
      assert (HC0 : claims_at m k c a last pf0 qP' qL' qR').
      { exists l. unfold pf0. cbn [ClaimsLeft ClaimsRight]. rewrite !upd_same by (rewrite repeat_length; lia). auto 10. }
      assert (LM : poly_lengths m k l Z).
      { unfold poly_lengths, Z, zero_polys. rewrite !map_app, !map_repeat, !repeat_length. reflexivity. }
      assert (HS0 : pshape m k c last pf0).
      { intros i li Hi Hli. assert (i < length c)%nat by (apply nth_error_Some; congruence). assert (i = last) by lia. subst i.
        rewrite Hl in Hli. injection Hli as <-. unfold pf0. cbn [SumcheckProofs]. rewrite nth_upd_same by (rewrite repeat_length; lia). exact LM. }
      destruct (prove_loop ch 1 (mtWhole ch) Hdist (le_n 1) (mtWhole_follows ch 1) m k c b inputs a Hlayers Hfits Hinp Hlen Ha
                  last pf0 qP' qL' qR' HL0 HS0 HC0) as (pf & qP2 & qL2 & qR2 & _ & HL2 & HS2 & HC2 & HG & HVL).
      exists pf. split; [exact HL2|]. split; [exact HS2|].
      intros mm. destruct (HG last ltac:(lia)) as (G1 & G2 & G3). unfold pf0 in G1, G2, G3.
      cbn [SumcheckProofs ClaimsLeft ClaimsRight] in G1, G2, G3.
      rewrite upd_same in G1 by (rewrite repeat_length; lia). rewrite upd_same in G2 by (rewrite repeat_length; lia). rewrite upd_same in G3 by (rewrite repeat_length; lia).
      destruct HC2 as (l0' & Hl0' & LqP2 & LqL2 & LqR2 & CL & CR). rewrite Hl0 in Hl0'. injection Hl0' as <-.
      assert (Hb0 : lBGInputs l0 = b) by (destruct c; [discriminate|]; injection Hl0 as ->; exact (proj1 Hfits)).
      unfold LV in CL, CR. rewrite A2, Hb0 in CL, CR.
      exists l, Z, qP', qL', qR', 0, (mle V (qL' ++ qP')), (mle V (qR' ++ qP')),
        (map (fun t => mle t (qL' ++ qR')) st), qP2, qL2, qR2.
      rewrite ELc. replace (S last - 1)%nat with last by lia.
      split; [exact Hl|]. split; [exact G1|]. split; [rewrite Hout; exact HV|]. split; [lia|]. split; [exact G2|]. split; [exact G3|].
      split; [exact (evaluateStaticTables_ok l q st qL' qR' Hwf Lq Est LL LR)|]. split; [exact HC|]. split; [apply HVL|].
      split; [exact LqP2|]. split; [congruence|]. split; [|split; [exact CL|exact CR]].
      rewrite LqL2, Hb0. unfold glued. rewrite interleave_length, Hlen, <- Nat.pow_add_r. f_equal. lia.
    Qed.
  End Circ.

  (** The same for the verifier of the code. *)
  Theorem zero_native (ch : list F -> F) m k (c : list (Layer F)) b inputs a l outputs : distinct_upto (F:=F) 12 ->
    (forall l, In l c -> layer_ok l) -> fits b c -> (0 < k)%nat -> chunked k m b inputs -> assignment_of c (2 ^ m) inputs a ->
    c <> [] -> nth_error c (length c - 1) = Some l -> chunked k m (lBGOutputs l) outputs -> output_claim (m + k) m l outputs = 0 ->
    layer_poly l (fun o => chi (to_bits (lBGOutputs l) o) (count (lBGOutputs l))) (count (m + k))
      (glued (lBGInputs l) m (nth (length c - 1) a [])) (map ch (zero_polys l (m + k))) = 0 ->
    exists pf, length (SumcheckProofs pf) = length c /\ length (ClaimsLeft pf) = length c /\ length (ClaimsRight pf) = length c /\
      (forall j l, nth_error c j = Some l -> map (@length F) (nth j (SumcheckProofs pf) []) =
         repeat (maxHL (lGates l) + 2)%nat (lBGInputs l) ++ repeat (maxHR (lGates l) + 2)%nat (lBGInputs l) ++ repeat (maxHP (lGates l) + 2)%nat (m + k)) /\
      forall mm, GkrVerifyWith ch mm (m + k) c pf inputs outputs = Some true.
  Proof.
    intros Hd HL Hf Hk Hin Ha Hc Hl Ho Hz Hp.
    destruct (zero_top ch Hd m k c b inputs a HL Hf Hin Ha l (count (lBGOutputs l)) (count (m + k)) (glued (lBGOutputs l) m outputs)) as (pf & (P1 & P2 & P3) & P4 & P5);
      auto using count_length.
    exists pf. do 3 (split; [assumption|]). split; [intros j l' Hj; apply (P4 j l' ltac:(lia) Hj)|].
    intros mm. apply (accepted_verify ch mm m k b c l); auto.
  Qed.

  (** ** Tables that are constant on the diagonal *)

  (** [v] everywhere, except [v + d] at index [2^n] and [v - d] at index 1. *)
  Definition bumped (n : nat) (v d : F) : list F :=
    map (fun h => v + (if (h =? 2 ^ n)%nat then d else 0) - (if (h =? 1)%nat then d else 0)) (seq 0 (2 ^ S n)).

  Lemma chi_zeros n (x : list F) : chi (repeat false n) x = prodl (firstn n x) (fun y => 1 - y).
  Proof. revert x. induction n as [|n IH]; intros [|y x]; cbn [repeat chi firstn prodl]; auto. rewrite IH. reflexivity. Qed.

  Lemma to_bits_zero n : to_bits n 0 = repeat false n.
  Proof. induction n as [|n IH]; [reflexivity|]. cbn [to_bits repeat]. pose proof (pow_pos n). destruct (Nat.leb_spec (2 ^ n) 0); [lia|]. rewrite IH. reflexivity. Qed.

  Lemma to_bits_top n : to_bits (S n) (2 ^ n) = true :: repeat false n.
  Proof. cbn [to_bits]. rewrite Nat.leb_refl, Nat.sub_diag, to_bits_zero. reflexivity. Qed.

  Lemma to_bits_one n : to_bits (S n) 1 = repeat false n ++ [true].
  Proof.
    induction n as [|n IH]; [reflexivity|]. change (to_bits (S (S n)) 1) with (if (2 ^ S n <=? 1)%nat then true :: to_bits (S n) (1 - 2 ^ S n) else false :: to_bits (S n) 1).
    destruct (Nat.leb_spec (2 ^ S n) 1) as [H|_]; [cbn in H; pose proof (pow_pos n); lia|]. rewrite IH. reflexivity.
  Qed.

  Lemma mle_bumped n v d (x : list F) : length x = S n ->
    mle (bumped n v d) x = v + d * (chi (to_bits (S n) (2 ^ n)) x - chi (to_bits (S n) 1) x).
  Proof.
    intros Hx. rewrite mle_sumn, Hx.
    rewrite (sumn_ext _ _ (fun j => v * chi (to_bits (S n) j) x + (d * (if (j =? 2 ^ n)%nat then chi (to_bits (S n) j) x else 0)
       + (- d) * (if (j =? 1)%nat then chi (to_bits (S n) j) x else 0)))).
    2: { intros j Hj. unfold bumped. rewrite nth_map_seq by exact Hj. destruct (j =? 2 ^ n)%nat, (j =? 1)%nat; ring. }
    rewrite !sumn_add, !sumn_scal_l.
    assert (E1 : sumn (2 ^ S n) (fun j => chi (to_bits (S n) j) x) = 1).
    { rewrite <- (chi_sum x), Hx, sum_cube. reflexivity. }
    rewrite E1, !(sumn_delta _ _ (fun j => chi (to_bits (S n) j) x)); [ring| |];
      pose proof (pow_pos n); cbn; lia.
  Qed.

  Lemma mle_bumped_diagonal n v d (r : F) : mle (bumped n v d) (repeat r (S n)) = v.
  Proof.
    rewrite mle_bumped by apply repeat_length. rewrite to_bits_top, to_bits_one.
    change (repeat r (S n)) with (r :: repeat r n) at 1. cbn [chi].
    replace (repeat r (S n)) with (repeat r n ++ [r]) by (symmetry; apply (repeat_cons n r)).
    rewrite chi_app by (rewrite !repeat_length; reflexivity). cbn [chi]. ring.
  Qed.

  Lemma bumped_shift n v d w : map (fun key => key + w) (bumped n v d) = bumped n (v + w) d.
  Proof. unfold bumped. rewrite map_map. apply map_ext. intros h. ring. Qed.

  Lemma bumped_length n v d : length (bumped n v d) = (2 ^ S n)%nat.
  Proof. unfold bumped. rewrite map_length, seq_length. reflexivity. Qed.

  Lemma mle_repeat v n (x : list F) : length x = n -> mle (repeat v (2 ^ n)) x = v.
  Proof.
    intros Hx. rewrite mle_sumn, Hx. rewrite (sumn_ext _ _ (fun j => v * chi (to_bits n j) x)).
    - rewrite sumn_scal_l. assert (E1 : sumn (2 ^ n) (fun j => chi (to_bits n j) x) = 1) by (rewrite <- (chi_sum x), Hx, sum_cube; reflexivity).
      rewrite E1. ring.
    - intros j Hj. rewrite (nth_indep _ 0 v) by (rewrite repeat_length; exact Hj). rewrite nth_repeat. reflexivity.
  Qed.

  Lemma mle_two_rows (S0 K : list F) t x : length S0 = (2 ^ length x)%nat ->
    mle (S0 ++ K) (t :: x) = (1 - t) * mle S0 x + t * mle K x.
  Proof.
    intros HS. rewrite mle_cons. unfold mle. rewrite <- !suml_scal_l, <- suml_add. apply suml_ext. intros b Hb.
    apply in_cube in Hb. pose proof (bits_val_lt b) as H. rewrite Hb in H. rewrite app_nth1 by lia. rewrite app_nth2 by lia.
    replace (2 ^ length x + bits_val b - length S0)%nat with (bits_val b) by lia. ring.
  Qed.

  (** State [s] and keys [key] on the diagonal. *)
  Lemma state_value n s key d t (r : F) : mle (repeat s (2 ^ S n) ++ bumped n key d) (t :: repeat r (S n)) = (1 - t) * s + t * key.
  Proof.
    rewrite mle_two_rows by (rewrite !repeat_length; reflexivity). rewrite mle_repeat by apply repeat_length.
    rewrite mle_bumped_diagonal. reflexivity.
  Qed.

  Lemma mimc_last_poly (ch : list F -> F) a0 qP n s key d :
    (let t := ch (repeat 0 3) in let r := ch (repeat 0 9) in
     (1 - t) * s + t * key + fpow ((1 - r) * s + r * key + a0) 7 = 0) ->
    layer_poly (mimc_last a0) (fun o => chi (to_bits (lBGOutputs (mimc_last a0)) o) []) qP (repeat s (2 ^ S n) ++ bumped n key d)
      (map ch (zero_polys (mimc_last a0) (S n))) = 0.
  Proof.
    cbv zeta. intros Hv. unfold zero_polys, layer_poly. change (lBGInputs (mimc_last a0)) with 1%nat.
    rewrite !map_app, !map_repeat. change (maxHP (lGates (mimc_last a0)) + 2)%nat with 9%nat.
    change (maxHR (lGates (mimc_last a0)) + 2)%nat with 9%nat. change (maxHL (lGates (mimc_last a0)) + 2)%nat with 3%nat.
    set (t := ch (repeat 0 3)) in *. set (r := ch (repeat 0 9)) in *.
    cbn [repeat app firstn skipn Nat.add]. cbn [mimc_last NewLayer Wires wO wL wR wGate suml].
    change (r :: repeat r n) with (repeat r (S n)). rewrite !state_value, cipher_eval, Hv. ring.
  Qed.

  (** ** The MiMC circuit *)
  Lemma choose_list N (P : nat -> F -> Prop) : (forall i, (i < N)%nat -> exists x, P i x) ->
    exists l, length l = N /\ forall i, (i < N)%nat -> P i (nth i l 0).
  Proof.
    induction N as [|N IH]; intros H; [exists []; split; [reflexivity|lia]|].
    destruct IH as (l & L & Hl); [auto|]. destruct (H N ltac:(lia)) as (x & Hx). exists (l ++ [x]).
    split; [rewrite app_length; cbn; lia|]. intros i Hi. destruct (Nat.eq_dec i N) as [->|].
    - rewrite app_nth2, L, Nat.sub_diag by lia. exact Hx.
    - rewrite app_nth1 by lia. apply Hl. lia.
  Qed.

  Lemma split_table b m k (T : list F) : length T = (2 ^ b * 2 ^ (m + k))%nat -> exists inputs, chunked k m b inputs /\ glued b m inputs = T.
  Proof.
    intros HL. assert (HL' : length T = (2 ^ (b + m) * 2 ^ k)%nat) by (rewrite HL, !Nat.pow_add_r; lia).
    exists (chunksOf T (2 ^ k)). split; [split; [apply chunksOf_length|]|apply interleave_chunksOf; [apply pow_pos|exact HL']].
    intros t Ht. apply (In_nth _ _ []) in Ht. destruct Ht as (i & Hi & <-). rewrite chunksOf_length in Hi.
    rewrite chunksOf_nth, map_length, seq_length, HL', Nat.div_mul, Nat.pow_add_r by (auto; pose proof (pow_pos k); lia). reflexivity.
  Qed.

  Section Mimc.
    Hypothesis Hsurj : forall y : F, exists x, fpow x 7 = y.

    (** Any state can be reached before the last round. *)
    Lemma reach_state (k : F) cs : forall y, exists x, fold_left (fun x a => k + fpow (x + a) 7) cs x = y.
    Proof.
      induction cs as [|a cs IH] using rev_ind; intros y; [exists y; reflexivity|].
      destruct (Hsurj (y - k)) as (z & Hz). destruct (IH (z - a)) as (x & Hx). exists x.
      rewrite fold_left_app, Hx. cbn [fold_left]. replace (z - a + a) with z by ring. rewrite Hz. ring.
    Qed.

    (** The state before the last round is [v] everywhere and the keys are [K]. *)
    Lemma mimc_state (cs : list F) a0 m k n v K : (m + k)%nat = S n -> length K = (2 ^ S n)%nat ->
      exists inputs, chunked k m 1 inputs /\ forall asg, assignment_of (mimc_layers cs a0) (2 ^ m) inputs asg ->
        glued 1 m (nth (length cs) asg []) = repeat v (2 ^ S n) ++ K /\
        glued 0 m (nth (S (length cs)) asg []) = map (fun key => key + fpow (v + a0) 7) K.
    Proof.
      intros En LK.
      destruct (choose_list (2 ^ S n) (fun h x => fold_left (fun x a => nth h K 0 + fpow (x + a) 7) cs x = v)) as (X & LX & HX).
      { intros h _. apply reach_state. }
      destruct (split_table 1 m k (X ++ K)) as (inputs & Hch & Hgl).
      { rewrite app_length, LX, LK, En. cbn. lia. }
      exists inputs. split; [exact Hch|]. intros asg Hasg. destruct Hch as [I1 I2].
      pose proof (@a_layer F 1 (le_n 1) m k _ 1 inputs asg (mimc_layer_ok cs a0) (mimc_fits cs a0) I2 I1 Hasg) as HLay. unfold LV in HLay. rewrite En in HLay.
      pose proof Hasg as (_ & A2 & A3).
      assert (Hmid : forall j, (j <= length cs)%nat -> forall h, (h < 2 ^ S n)%nat ->
        nth h (glued 1 m (nth j asg [])) 0 = fold_left (fun x a => nth h K 0 + fpow (x + a) 7) (firstn j cs) (nth h X 0) /\
        nth (2 ^ S n + h) (glued 1 m (nth j asg [])) 0 = nth h K 0).
      { induction j as [|j IH]; intros Hj h Hh.
        - rewrite A2, Hgl. rewrite app_nth1 by lia. rewrite app_nth2 by lia. split; [reflexivity|]. f_equal. lia.
        - assert (EL : nth_error (mimc_layers cs a0) j = Some (mimc_mid (nth j cs 0))).
          { unfold mimc_layers. rewrite nth_error_app1 by (rewrite map_length; lia). apply map_nth_error. apply nth_error_nth'. lia. }
          destruct (IH ltac:(lia) h Hh) as [E1 E2].
          destruct (mid_value _ _ _ _ (HLay j _ EL) h Hh) as [V1 V2].
          rewrite mid_outputs in V1, V2. change (lBGInputs (mimc_mid (nth j cs 0))) with 1%nat in V1, V2.
          rewrite V1, V2, E1, E2. split; [|reflexivity].
          rewrite (firstn_S_nth _ j 0) by lia. rewrite fold_left_app. reflexivity. }
      assert (EL : nth_error (mimc_layers cs a0) (length cs) = Some (mimc_last a0)).
      { unfold mimc_layers. rewrite nth_error_app2 by (rewrite map_length; lia). rewrite map_length, Nat.sub_diag. reflexivity. }
      destruct (@a_chunks F 1 (le_n 1) m k _ 1 inputs asg (mimc_fits cs a0) I2 I1 Hasg (length cs) _ EL) as [L1 _].
      assert (LG : length (glued 1 m (nth (length cs) asg [])) = (2 ^ S n + 2 ^ S n)%nat).
      { unfold glued. rewrite interleave_length, L1, <- Nat.pow_add_r. replace (1 + m + k)%nat with (S (S n)) by lia. cbn. lia. }
      assert (E90 : glued 1 m (nth (length cs) asg []) = repeat v (2 ^ S n) ++ K).
      { apply (list_ext 0); [rewrite LG, app_length, repeat_length, LK; reflexivity|]. rewrite LG. intros i Hi.
        destruct (Nat.lt_ge_cases i (2 ^ S n)) as [H|H].
        - rewrite app_nth1 by (rewrite repeat_length; exact H). rewrite (proj1 (Hmid (length cs) (le_n _) i H)), firstn_all, HX by exact H.
          rewrite (nth_indep _ 0 v) by (rewrite repeat_length; exact H). symmetry. apply nth_repeat.
        - rewrite app_nth2, repeat_length by (rewrite repeat_length; exact H).
          destruct (Hmid (length cs) (le_n _) (i - 2 ^ S n)%nat ltac:(lia)) as [_ E]. rewrite <- E. f_equal. lia. }
      split; [exact E90|].
      destruct (last_value _ _ _ _ (HLay _ _ EL)) as [LO HO]. rewrite last_outputs in LO, HO. change (lBGInputs (mimc_last a0)) with 1%nat in HO.
      apply (list_ext 0); [rewrite LO, map_length, LK; reflexivity|]. rewrite LO. intros h Hh.
      rewrite HO, E90 by exact Hh. rewrite app_nth2, repeat_length by (rewrite repeat_length; lia). rewrite app_nth1 by (rewrite repeat_length; exact Hh).
      rewrite (nth_indep (repeat v _) 0 v) by (rewrite repeat_length; exact Hh). rewrite nth_repeat.
      rewrite (nth_map_lt _ K h 0 0) by lia. f_equal. f_equal. lia.
    Qed.

    Theorem mimc_forgery (arks : list F) s key d : distinct_upto (F:=F) 12 -> (91 <= length arks)%nat ->
      forall m k n, (m + k)%nat = S n -> exists c inputs a,
        CreateMimcCircuit arks = Some c /\ chunked k m 1 inputs /\ Assign c inputs = Some a /\ chunked k m 0 (nth 91 a []) /\
        glued 0 m (nth 91 a []) = bumped n (key + fpow (s + nth 90 arks 0) 7) d /\
        forall ch qP, length qP = (m + k)%nat ->
          (let t := ch (repeat 0 3) in let r := ch (repeat 0 9) in
           (1 - t) * s + t * key + fpow ((1 - r) * s + r * key + nth 90 arks 0) 7 = 0) ->
          exists pf, plen c pf /\ pshape m k c 0 pf /\
            forall mm, accepted ch mm c (m + k) pf [] qP (repeat 0 (2 ^ (m + k))) (glued 1 m inputs).
    Proof.
      intros Hd HA m k n En. set (C := mimc_layers (firstn 90 arks) (nth 90 arks 0)).
      assert (L90 : length (firstn 90 arks) = 90%nat) by (rewrite firstn_length; lia).
      destruct (mimc_state (firstn 90 arks) (nth 90 arks 0) m k n s (bumped n key d) En (bumped_length _ _ _)) as (inputs & Hch & HS).
      destruct (mimc_assign arks HA (m + k) inputs k m eq_refl Hch) as (a & EA & Ha & Ho).
      destruct (HS a Ha) as [E90 E91]. rewrite L90 in E90, E91. rewrite bumped_shift in E91.
      exists C, inputs, a. split; [apply CreateMimcCircuit_ok; exact HA|]. split; [exact Hch|]. split; [exact EA|].
      split; [exact Ho|]. split; [exact E91|]. intros ch qP HqP Hv.
      assert (HL : length C = 91%nat) by apply (mimc_len arks HA).
      apply (zero_top ch Hd m k C 1 inputs a (mimc_layer_ok _ _) (mimc_fits _ _) Hch Ha (mimc_last (nth 90 arks 0)) [] qP).
      - apply (mimc_ne arks HA).
      - apply (mimc_last_nth' arks HA).
      - reflexivity.
      - exact HqP.
      - apply mle_repeat. exact HqP.
      - rewrite HL. change (91 - 1)%nat with 90%nat. change (lBGInputs (mimc_last (nth 90 arks 0))) with 1%nat. rewrite E90, En.
        apply mimc_last_poly. exact Hv.
    Qed.

    (** State and keys that suit the challenges, when those differ. *)
    Lemma suitable (a0 t r : F) : t <> r -> exists s key, (1 - t) * s + t * key + fpow ((1 - r) * s + r * key + a0) 7 = 0.
    Proof.
      intros H. assert (Ht : t - r <> 0) by (intros E; apply H; replace t with (t - r + r) by ring; rewrite E; ring).
      set (dd := a0 * finv (t - r)). exists (- a0 - r * dd), (- a0 - r * dd + dd).
      replace ((1 - r) * (- a0 - r * dd) + r * (- a0 - r * dd + dd) + a0) with (0 : F) by ring.
      replace ((1 - t) * (- a0 - r * dd) + t * (- a0 - r * dd + dd)) with (- a0 + (t - r) * dd) by ring.
      unfold dd. cbn [fpow]. field. exact Ht.
    Qed.
  End Mimc.
End L.
