(** Univariate polynomials, MiMC and the sum-check verifier in a circuit. *)
From Coq Require Import List Arith Lia Bool Ring Field.
From Verif Require Import Field Go MCommon Spec LSpec LCommon MPoly LPoly LPoly2 MHash SpecHash LHash MCircuit MSumcheck SpecSumcheck
  LSumcheck4 MSnark SpecSnark LSnark LSnark2.
Import ListNotations.

Section L.
  Context {F : Field}.
  Add Field FfieldSnark3 : (f_theory F).
  Open Scope F_scope.

  Lemma peval_nil (x : F) : peval [] x = 0.
  Proof. reflexivity. Qed.

  (** ** univariate.go *)
  Lemma SUniEval_ok (cs : CS F) c x fc fx : cs_ok cs -> vals cs c fc -> val1 cs x fx ->
    exists r cs', SUniEval c x cs = Some (r, cs') /\ computes cs cs' /\ val1 cs' r (fun w => peval (fc w) (fx w)).
  Proof.
    intros HO Vc Vx. pose proof (computes_refl _ HO) as HC. unfold SUniEval.
    step (cConstant_ok cs 0 HO) as res0 V0.
    step (cConstant_ok _ 0 HO) as aux0 V1.
    destruct (mfold_ok (fun '(res, aux) i => mbind (if (i =? length c - 1)%nat then ret res else cMul aux x) (fun res =>
        mbind (lift (get c i)) (fun c => mbind (cAdd res c []) (fun aux => ret (res, aux))))) (rev (seq 0 (length c))) 0%nat
      (fun j '(res, aux) cs => val1 cs aux (fun w => peval (skipn (length c - j) (fc w)) (fx w)) /\
         (res < nbWires cs)%nat /\ (j = 0%nat -> val1 cs res (fun _ => 0))) (res0, aux0) s0 HO) as ([res aux] & s1 & E & C & Va & _ & _).
    - split; [|split; [apply V0|auto]]. apply (val1_iff _ _ _ _ V1). intros w Hw. rewrite Nat.sub_0_r.
      rewrite skipn_all2 by (rewrite (vals_length _ _ _ _ Vc Hw); lia). reflexivity.
    - intros j [res aux] cs1 Hj C1 (Va & Hr & Hr0). rewrite rev_length, seq_length in Hj. adv C1.
      rewrite rev_nth by (rewrite seq_length; exact Hj). rewrite seq_length, seq_nth by lia. cbn [Nat.add].
      set (i := (length c - S j)%nat). assert (Hi : (i < length c)%nat) by (unfold i; lia).
      pose proof (computes_refl _ HO) as HC1.
      assert (HR : exists r cs2, (if (i =? length c - 1)%nat then ret res else cMul aux x) cs1 = Some (r, cs2) /\ computes cs1 cs2 /\
        val1 cs2 r (fun w => fx w * peval (skipn (S i) (fc w)) (fx w))).
      { replace (S i) with (length c - j)%nat by (unfold i; lia). destruct (Nat.eqb_spec i (length c - 1)) as [Ei|Ei].
        - exists res, cs1. split; [reflexivity|]. split; [exact HC1|]. assert (j = 0%nat) by (unfold i in Ei; lia). subst j.
          apply (val1_iff _ _ _ _ (Hr0 eq_refl)). intros w Hw. rewrite Nat.sub_0_r.
          rewrite skipn_all2 by (rewrite (vals_length _ _ _ _ Vc Hw); lia). rewrite peval_nil. ring.
        - last_step (cMul_ok _ _ _ _ _ HO Va Vx) as r V. apply (val1_iff _ _ _ _ V). intros w _. ring. }
      step HR as r Vr. rewrite (bind_lift _ _ _ _ (get_nth c i 0%nat Hi)).
      destruct (cAdd2_ok _ _ _ _ _ HO Vr (vals_nth _ _ _ _ Vc Hi)) as (a & s3 & E & C & V). rewrite (bind_eq _ _ _ _ _ E). adv C.
      exists (r, a), s3. split; [reflexivity|]. split; [exact HC1|]. split; [|split; [apply Vr|discriminate]].
      apply (val1_iff _ _ _ _ V). intros w Hw. fold i.
      rewrite (skipn_S_nth (fc w) i 0) by (rewrite (vals_length _ _ _ _ Vc Hw); exact Hi). rewrite peval_cons. ring.
    - rewrite (bind_eq _ _ _ _ _ E). adv C.
      step (cConstant_ok _ 1 HO) as one Vone.
      last_step (cMul_ok _ _ _ _ _ HO Va Vone) as r V. apply (val1_iff _ _ _ _ V). intros w _.
      rewrite rev_length, seq_length, Nat.sub_diag. cbn [skipn]. ring.
  Qed.

  Lemma peval_01 (c : list F) : peval c 0 + peval c 1 = nth 0 c 0 + suml c (fun x => x).
  Proof.
    assert (H0 : forall l : list F, peval l 0 = nth 0 l 0) by (intros [|a l]; [reflexivity|rewrite peval_cons; cbn [nth]; ring]).
    rewrite H0. f_equal. induction c as [|a c IH]; [reflexivity|]. rewrite peval_cons, IH. cbn [suml]. ring.
  Qed.

  Lemma SZeroAndOne_ok (cs : CS F) c fc : cs_ok cs -> vals cs c fc -> c <> [] ->
    exists r cs', SZeroAndOne c cs = Some (r, cs') /\ computes cs cs' /\ val1 cs' r (fun w => peval (fc w) 0 + peval (fc w) 1).
  Proof.
    intros HO Vc Hc. pose proof (computes_refl _ HO) as HC. unfold SZeroAndOne.
    destruct c as [|c0 c]; [congruence|]. clear Hc. set (l := c0 :: c) in *.
    assert (HL : length l = S (length c)) by reflexivity.
    rewrite (bind_lift _ _ _ _ (get_nth l 0 0%nat ltac:(lia))).
    rewrite (bind_lift _ _ _ (firstn (length c) (skipn 1 l))) by (rewrite slice_some by lia; repeat f_equal; lia).
    pose proof (vals_nth _ _ _ 0%nat Vc ltac:(lia)) as V0.
    last_step (cAdd_ok _ _ _ _ _ _ _ HO V0 V0 (vals_sub _ _ _ 1%nat (length c) Vc)) as r V.
    apply (val1_iff _ _ _ _ V). intros w Hw. rewrite peval_01. pose proof (vals_length _ _ _ _ Vc Hw) as HW.
    destruct (fc w) as [|a v]; [discriminate|]. cbn [nth skipn suml]. cbn [length] in HW. rewrite HL in HW. injection HW as HW.
    rewrite <- HW, firstn_all. reflexivity.
  Qed.

  (** ** mimc.go *)
  Section Mimc.
    Variable Arks : list F.
    Hypothesis Hlen : (91 <= length Arks)%nat.
    (** The native hash (LHash.MimcHash_ok). *)
    Definition mch (m : list F) : F := fold_left (mimc_compress (firstn 91 Arks)) m 0.

    Lemma SMimcRound_ok (cs : CS F) m state i fm fs : cs_ok cs -> (i < 91)%nat -> val1 cs m fm -> val1 cs state fs ->
      exists r cs', SMimcRound Arks m state i cs = Some (r, cs') /\ computes cs cs' /\
        val1 cs' r (fun w => fpow (fs w + fm w + nth i (firstn 91 Arks) 0) 7).
    Proof.
      intros HO Hi Vm Vs. pose proof (computes_refl _ HO) as HC. unfold SMimcRound.
      assert (HiA : (i < length Arks)%nat) by lia. rewrite (bind_lift _ _ _ _ (get_nth Arks i 0 HiA)).
      step (cConstant_ok cs (nth i Arks 0) HO) as k Vk.
      step (cAdd_ok _ _ _ _ _ _ _ HO Vm Vs (vals_cons _ _ _ _ _ Vk (vals_nil _))) as st Vst.
      step (cMul_ok _ _ _ _ _ HO Vst Vst) as t2 V2.
      step (cMul_ok _ _ _ _ _ HO Vst V2) as t3 V3.
      step (cMul_ok _ _ _ _ _ HO V3 V3) as t6 V6.
      last_step (cMul_ok _ _ _ _ _ HO Vst V6) as r V.
      apply (val1_iff _ _ _ _ V). intros w _. cbn [suml]. rewrite nth_firstn by exact Hi. cbn [fpow]. ring.
    Qed.

    Lemma cipher_firstn_S i (k s : F) : (i < 91)%nat ->
      mimc_cipher (firstn (S i) Arks) k s = fpow (mimc_cipher (firstn i Arks) k s + k + nth i Arks 0) 7.
    Proof.
      intros Hi. unfold mimc_cipher.
      assert (E : firstn (S i) Arks = firstn i Arks ++ [nth i Arks 0]).
      { apply (list_ext 0); [rewrite app_length, !firstn_length; cbn [length]; lia|]. intros j Hj. rewrite firstn_length in Hj.
        rewrite nth_firstn by lia. destruct (Nat.eq_dec j i) as [->|].
        - rewrite app_nth2 by (rewrite firstn_length; lia). rewrite firstn_length, Nat.min_l, Nat.sub_diag by lia. reflexivity.
        - rewrite app_nth1 by (rewrite firstn_length; lia). rewrite nth_firstn by lia. reflexivity. }
      rewrite E, fold_left_app. reflexivity.
    Qed.

    Lemma SMimcHash_ok (cs : CS F) ms fms : cs_ok cs -> vals cs ms fms ->
      exists r cs', SMimcHash Arks ms cs = Some (r, cs') /\ computes cs cs' /\ val1 cs' r (fun w => mch (fms w)).
    Proof.
      intros HO Vm. pose proof (computes_refl _ HO) as HC. unfold SMimcHash.
      step (cConstant_ok cs 0 HO) as st V0.
      destruct (mfold_ok (fun state m => mbind (mfold (SMimcRound Arks m) (seq 0 MimcRounds) state) (fun state' => cAdd state' state [m]))
        ms 0%nat (fun j st c => val1 c st (fun w => fold_left (mimc_compress (firstn 91 Arks)) (firstn j (fms w)) 0)) st s HO) as (r & s1 & E & C & V).
      - exact V0.
      - intros j st1 cs1 Hj C1 V1. adv C1. pose proof (computes_refl _ HO) as HC1.
        pose proof (vals_nth _ _ _ j Vm Hj) as Vj.
        destruct (mfold_ok (SMimcRound Arks (nth j ms 0%nat)) (seq 0 MimcRounds) 0%nat
          (fun i st c => val1 c st (fun w => mimc_cipher (firstn i Arks) (nth j (fms w) 0) (fold_left (mimc_compress (firstn 91 Arks)) (firstn j (fms w)) 0)))
          st1 cs1 HO) as (st2 & cs2 & E2 & C2 & V2).
        + exact V1.
        + intros i st2 cs2 Hi C2 V2. rewrite seq_length in Hi. rewrite seq_nth by exact Hi. cbn [Nat.add]. adv C2.
          unfold MimcRounds in Hi. destruct (SMimcRound_ok cs2 _ st2 i _ _ HO Hi Vj V2) as (st3 & cs3 & E3 & C3 & V3).
          exists st3, cs3. split; [exact E3|]. split; [exact C3|]. apply (val1_iff _ _ _ _ V3). intros w _.
          rewrite nth_firstn by exact Hi. rewrite cipher_firstn_S by exact Hi. reflexivity.
        + rewrite (bind_eq _ _ _ _ _ E2). adv C2. rewrite seq_length in V2.
          last_step (cAdd_ok _ _ _ _ _ _ _ HO V2 V1 (vals_cons _ _ _ _ _ Vj (vals_nil _))) as r V.
          apply (val1_iff _ _ _ _ V). intros w Hw. cbn [suml].
          assert (E4 : firstn (S j) (fms w) = firstn j (fms w) ++ [nth j (fms w) 0]).
          { pose proof (vals_length _ _ _ _ Vm Hw) as HL.
            apply (list_ext 0); [rewrite app_length, !firstn_length; cbn [length]; lia|]. intros i Hi. rewrite firstn_length in Hi.
            rewrite nth_firstn by lia. destruct (Nat.eq_dec i j) as [->|].
            - rewrite app_nth2 by (rewrite firstn_length; lia). rewrite firstn_length, Nat.min_l, Nat.sub_diag by lia. reflexivity.
            - rewrite app_nth1 by (rewrite firstn_length; lia). rewrite nth_firstn by lia. reflexivity. }
          rewrite E4, fold_left_app. cbn [fold_left]. unfold mimc_compress at 3. change MimcRounds with 91%nat. ring.
      - exists r, s1. split; [exact E|]. adv C. split; [exact HC|]. apply (val1_iff _ _ _ _ V). intros w Hw.
        rewrite <- (vals_length _ _ _ _ Vm Hw), firstn_all. reflexivity.
    Qed.

    (** ** sumcheck.go *)

    (** The checks of the verifier, one equation per round, and the claim that is left. *)
    Fixpoint chain (ch : list F -> F) (v : F) (cs : list (list F)) : Prop :=
      match cs with
      | [] => True
      | c :: cs' => peval c 0 + peval c 1 = v /\ chain ch (peval c (ch c)) cs'
      end.
    Definition final (ch : list F -> F) (v : F) (cs : list (list F)) : F := fold_left (fun _ c => peval c (ch c)) cs v.

    Lemma answers_chain ch cs : forall v fin, answers ch v cs fin <-> ~ In [] cs /\ chain ch v cs /\ fin = final ch v cs.
    Proof.
      induction cs as [|c cs IH]; intros v fin; cbn [answers chain In final fold_left].
      - tauto.
      - rewrite IH. unfold final at 1. split.
        + intros (H1 & H2 & H3 & H4 & H5). split; [|auto]. intros [->|H]; [congruence|tauto].
        + intros (H1 & (H2 & H3) & H4). split; [intros ->; tauto|]. split; [auto|]. split; [tauto|auto].
    Qed.

    Lemma sumcheck_loop polys : forall (cs : CS F) hs claim fh fc, cs_ok cs -> vals cs hs fh -> val1 cs claim fc ->
      Forall (vars cs) polys -> ~ In [] polys ->
      exists hs' claim' cs', mfold (fun '(hs, claimCurr) poly =>
          mbind (SZeroAndOne poly) (fun z => mbind (cAssertIsEqual z claimCurr) (fun _ => mbind (SMimcHash Arks poly) (fun h =>
          mbind (SUniEval poly h) (fun claimCurr => ret (hs ++ [h], claimCurr)))))) polys (hs, claim) cs = Some ((hs', claim'), cs') /\
        imposes cs cs' (fun w => chain mch (fc w) (map (map w) polys)) /\
        length hs' = (length hs + length polys)%nat /\
        vals cs' hs' (fun w => fh w ++ map mch (map (map w) polys)) /\
        val1 cs' claim' (fun w => final mch (fc w) (map (map w) polys)).
    Proof.
      induction polys as [|c polys IH]; intros cs hs claim fh fc HO Vh Vc HP HN.
      - exists hs, claim, cs. split; [reflexivity|]. split; [apply computes_imposes, computes_refl; exact HO|].
        split; [cbn; lia|]. split; [|exact Vc]. apply (vals_iff _ _ _ _ Vh). intros w _. cbn [map]. rewrite app_nil_r. reflexivity.
      - inversion HP as [|? ? Wc HP']. subst. pose proof (vals_map _ _ Wc) as V.
        pose proof (computes_imposes _ _ (computes_refl _ HO)) as HI. cbn [mfold].
        assert (Hc : c <> []) by (intros ->; apply HN; left; reflexivity).
        assert (HW : forall s, computes cs s -> Forall (vars s) polys).
        { intros s (_ & (HNn & _) & _). eapply Forall_impl; [|exact HP']. intros l Hl v Hv. specialize (Hl v Hv). lia. }
        destruct (SZeroAndOne_ok _ _ _ HO V Hc) as (z & s1 & E1 & C1 & Vz). adv C1.
        destruct (cAssert_ok _ _ _ _ _ HO Vz Vc) as (s2 & E2 & I2). advI I2.
        destruct (SMimcHash_ok _ _ _ HO V) as (h & s3 & E3 & C3 & V3). adv C3.
        destruct (SUniEval_ok _ _ _ _ _ HO V V3) as (e & s4 & E4 & C4 & V4). adv C4.
        destruct (IH s4 (hs ++ [h]) e _ _ HO (vals_app _ _ _ _ _ Vh (vals_cons _ _ _ _ _ V3 (vals_nil _))) V4) as (hs' & claim' & cs' & E & I & L & V5 & V6).
        { destruct HI as (_ & (HNn & _) & _). eapply Forall_impl; [|exact HP']. intros l Hl v Hv. specialize (Hl v Hv). lia. }
        { intros H. apply HN. right. exact H. }
        exists hs', claim', cs'. split.
        { erewrite bind_eq; [exact E|]. rewrite (bind_eq _ _ _ _ _ E1), (bind_eq _ _ _ _ _ E2), (bind_eq _ _ _ _ _ E3), (bind_eq _ _ _ _ _ E4). reflexivity. }
        split; [|split; [|split]].
        + pose proof (imposes_trans _ _ _ _ _ HI I) as HI'. apply (imposes_iff _ _ _ _ HI'). intros w _. cbn [map chain]. tauto.
        + rewrite L, app_length. cbn. lia.
        + apply (vals_iff _ _ _ _ V5). intros w _. cbn [map]. rewrite <- app_assoc. reflexivity.
        + exact V6.
    Qed.

    Lemma SSumcheck_ok (cs : CS F) polys claim bG fc : cs_ok cs -> val1 cs claim fc -> Forall (vars cs) polys -> ~ In [] polys ->
      (2 * bG <= length polys)%nat ->
      exists hL hR hP last cs', SSumcheckAssertValid Arks polys claim bG cs = Some ((hL, hR, hP, last), cs') /\
        imposes cs cs' (fun w => chain mch (fc w) (map (map w) polys)) /\
        (length hL = bG /\ length hR = bG /\ length hP = (length polys - 2 * bG)%nat) /\
        vals cs' hL (fun w => firstn bG (map mch (map (map w) polys))) /\
        vals cs' hR (fun w => firstn bG (skipn bG (map mch (map (map w) polys)))) /\
        vals cs' hP (fun w => skipn (bG + bG) (map mch (map (map w) polys))) /\
        val1 cs' last (fun w => final mch (fc w) (map (map w) polys)).
    Proof.
      intros HO Vc HP HN HL. unfold SSumcheckAssertValid.
      destruct (sumcheck_loop polys cs [] claim _ _ HO (vals_nil _) Vc HP HN) as (hs & last & cs' & E & I & L & V & Vl).
      cbn [length Nat.add] in L. cbn [app] in V.
      rewrite (bind_eq _ _ _ _ _ E). rewrite (bind_lift _ _ _ (firstn bG hs)) by (rewrite slice_some by lia; rewrite Nat.sub_0_r; reflexivity).
      rewrite (bind_lift _ _ _ (firstn bG (skipn bG hs))) by (rewrite slice_some by lia; repeat f_equal; lia).
      rewrite (bind_lift _ _ _ (firstn (length hs - 2 * bG) (skipn (2 * bG) hs))) by (rewrite slice_some by lia; reflexivity).
      exists (firstn bG hs), (firstn bG (skipn bG hs)), (firstn (length hs - 2 * bG) (skipn (2 * bG) hs)), last, cs'.
      split; [reflexivity|]. split; [exact I|].
      split; [rewrite !firstn_length, !skipn_length; lia|].
      split; [exact (vals_sub _ _ _ 0%nat bG V)|]. split; [exact (vals_sub _ _ _ bG bG V)|]. split; [|exact Vl].
      pose proof (vals_sub _ _ _ (2 * bG)%nat (length hs - 2 * bG)%nat V) as V'. apply (vals_iff _ _ _ _ V'). intros w Hw.
      replace (bG + bG)%nat with (2 * bG)%nat by lia.
      apply firstn_all2. rewrite skipn_length, !map_length. lia.
    Qed.

    (** Against the native verifier. *)
    Lemma SSumcheck_native (cs : CS F) polys claim bN bG : cs_ok cs -> vars cs [claim] -> Forall (vars cs) polys -> ~ In [] polys ->
      (2 * bG <= length polys)%nat ->
      exists hL hR hP last cs', SSumcheckAssertValid Arks polys claim bG cs = Some ((hL, hR, hP, last), cs') /\
        vars cs' (hL ++ hR ++ hP ++ [last]) /\
        imposes cs cs' (fun w => Verify mch (w claim) (map (map w) polys) bN bG = Some (Accept (map w hP) (map w hL) (map w hR) (w last))) /\
        forall w, gates_ok w cs' ->
          Verify mch (w claim) (map (map w) polys) bN bG = Some Reject \/
          Verify mch (w claim) (map (map w) polys) bN bG = Some (Accept (map w hP) (map w hL) (map w hR) (w last)).
    Proof.
      intros HO Wc HP HN HL.
      destruct (SSumcheck_ok cs polys claim bG (fun w => w claim) HO (val1_id _ _ (Wc claim (or_introl eq_refl))) HP HN HL)
        as (hL & hR & hP & last & cs' & E & I & (L1 & L2 & L3) & V1 & V2 & V3 & V4).
      exists hL, hR, hP, last, cs'. split; [exact E|].
      split. { intros v Hv. rewrite !in_app_iff in Hv. destruct Hv as [H|[H|[H|[<-|[]]]]];
        [apply V1|apply V2|apply V3|apply V4]; exact H. }
      assert (HN' : forall w : nat -> F, ~ In [] (map (map w) polys)).
      { intros w H. apply in_map_iff in H. destruct H as (l & H & Hl). destruct l; [tauto|discriminate]. }
      assert (HV : forall w, gates_ok w cs' -> (Verify mch (w claim) (map (map w) polys) bN bG = Some (Accept (map w hP) (map w hL) (map w hR) (w last))
        <-> chain mch (w claim) (map (map w) polys))).
      { intros w Hw. rewrite Verify_accept, answers_chain, !map_length, (proj2 V1 w Hw), (proj2 V2 w Hw), (proj2 V3 w Hw), (proj2 V4 w Hw).
        split; [tauto|]. intros H. split; [split; [apply HN'|split; [exact H|reflexivity]]|]. split; [exact L1|]. split; [exact L2|].
        rewrite app_assoc. set (q := map mch _). rewrite <- skipn_add, (app_assoc_reverse).
        rewrite (firstn_skipn bG (skipn bG q)), firstn_skipn. reflexivity. }
      split.
      - apply (imposes_iff _ _ _ _ I). intros w Hw. rewrite (HV w Hw). reflexivity.
      - intros w Hw. destruct (Verify mch (w claim) (map (map w) polys) bN bG) as [[|qP qL qR e]|] eqn:EV; [left; reflexivity| |].
        + right. rewrite <- EV. apply HV; [exact Hw|]. apply Verify_accept in EV. destruct EV as (EA & _). apply answers_chain in EA. tauto.
        + exfalso. apply Verify_panic in EV. destruct EV as [(pre & post & e & EQ & _)|[EL _]].
          * apply (HN' w). rewrite EQ. apply in_or_app. right. left. reflexivity.
          * rewrite map_length in EL. lia.
    Qed.
  End Mimc.
End L.
