(** The sum-check provers in memory: results are those of the value-level models, and only the provers' tables are
    written. *)
From Coq Require Import List Arith Lia Bool.
From Verif Require Import Field Go Trans MCommon MPoly LPoly MCircuit MSumcheck MSumPar SpecSumPar MHeap SpecHeap LHeap LHeap2
  MSumHeap SpecSumHeap LSumHeap LSumPar LSumPar3 LSumPar4.
Import ListNotations.

Lemma fop_app_l {A} (R : A -> A -> Prop) l k : ForallOrdPairs R (l ++ k) -> ForallOrdPairs R l.
Proof.
  induction l as [|a l IH]; intros H; [constructor|]. inversion H as [|? ? H1 H2]; subst. constructor; [|auto].
  rewrite Forall_app in H1. apply H1.
Qed.
Lemma fop_nth {A} (R : A -> A -> Prop) l : (forall x y, R x y -> R y x) -> ForallOrdPairs R l ->
  forall i j x y, i <> j -> nth_error l i = Some x -> nth_error l j = Some y -> R x y.
Proof.
  intros Hs. induction 1 as [|a l Ha Hl IH]; intros i j x y Hn Hi Hj; [destruct i; discriminate|].
  rewrite Forall_forall in Ha. destruct i as [|i], j as [|j]; cbn in Hi, Hj; try lia.
  - injection Hi as <-. apply Ha. eapply nth_error_In; eauto.
  - injection Hj as <-. apply Hs, Ha. eapply nth_error_In; eauto.
  - apply (IH i j); auto.
Qed.

Section S.
  Context {F : Field}.
  Open Scope F_scope.
  Implicit Types (m : list F) (s : Slice).

  Lemma apart_sym s s' : apart s s' -> apart s' s.
  Proof. intros H a Ha Hb. exact (H a Hb Ha). Qed.

  Definition halve s : Slice := MkSlice (base s) (slen s / 2) (scap s).
  Lemma halve_cell s a : cell (halve s) a -> cell s a.
  Proof. unfold cell, halve. cbn [base slen]. pose proof (Nat.div_le_upper_bound (slen s) 2 (slen s) ltac:(lia) ltac:(lia)). lia. Qed.
  Lemma halve_apart s s' : apart s s' -> apart (halve s) s'.
  Proof. intros H a Ha. apply H, halve_cell, Ha. Qed.
  Lemma halve_apart_r s s' : apart s s' -> apart s (halve s').
  Proof. intros H. apply apart_sym, halve_apart, apart_sym, H. Qed.

  (** outside the slices [ss] nothing changed *)
  Definition keeps (ss : list Slice) m m' : Prop :=
    length m' = length m /\ forall a, (forall s, In s ss -> ~ cell s a) -> nth a m' 0 = nth a m 0.
  Lemma keeps_trans ss m m1 m2 : keeps ss m m1 -> keeps ss m1 m2 -> keeps ss m m2.
  Proof. intros [A1 A2] [B1 B2]. split; [lia|]. intros a Ha. rewrite B2, A2 by assumption. reflexivity. Qed.
  Lemma keeps_incl ss ss' m m' : keeps ss m m' -> (forall s a, In s ss -> cell s a -> exists s', In s' ss' /\ cell s' a) -> keeps ss' m m'.
  Proof.
    intros [A1 A2] H. split; [exact A1|]. intros a Ha. apply A2. intros s Hs Hc. destruct (H s a Hs Hc) as (s' & H1 & H2).
    exact (Ha s' H1 H2).
  Qed.
  Lemma tab_same m m' s : (forall a, cell s a -> nth a m' 0 = nth a m 0) -> tab m' s = tab m s.
  Proof. intros H. unfold tab. apply map_ext_in. intros i Hi. apply in_seq in Hi. unfold rd. apply H. unfold cell. lia. Qed.
  Lemma keeps_tab ss m m' s : keeps ss m m' -> (forall s', In s' ss -> apart s s') -> tab m' s = tab m s.
  Proof. intros [_ H] Ha. apply tab_same. intros a Hc. apply H. intros s' Hs. apply (Ha s' Hs a Hc). Qed.
  Lemma keeps_swf ss m m' s : keeps ss m m' -> swf m s -> swf m' s.
  Proof. intros [H _]. apply swf_len. exact H. Qed.

  Lemma HFold_keeps m s r : swf m s -> exists m', HFold m s r = Some (m', halve s) /\ keeps [s] m m' /\ swf m' (halve s) /\
    tab m' (halve s) = foldv (tab m s) r.
  Proof.
    intros W. destruct (HFold_ok m s r W) as (m' & s' & E & L & Es & W' & T & _ & K). subst s'.
    exists m'. split; [exact E|]. split; [|split; [exact W'|exact T]]. split; [exact L|]. intros a Ha. apply K.
    specialize (Ha s (or_introl eq_refl)). unfold cell in Ha. pose proof (Nat.mul_div_le (slen s) 2 ltac:(lia)). lia.
  Qed.

  Lemma HFoldAll_ok r ss : forall m acc, (forall s, In s ss -> swf m s) -> ForallOrdPairs apart ss ->
    exists m', foldM (fun '(m, acc) s => '(m, s') <- HFold m s r ;; Some (m, acc ++ [s'])) ss (m, acc) = Some (m', acc ++ map halve ss) /\
      keeps ss m m' /\ (forall s, In s ss -> swf m' (halve s)) /\ map (tab m') (map halve ss) = map (fun s => foldv (tab m s) r) ss.
  Proof.
    induction ss as [|s ss IH]; intros m acc W A.
    - exists m. cbn. rewrite app_nil_r. split; [reflexivity|]. split; [split; auto|]. split; [intros ? []|reflexivity].
    - inversion A as [|? ? A1 A2]; subst. rewrite Forall_forall in A1. cbn [foldM map].
      destruct (HFold_keeps m s r (W s (or_introl eq_refl))) as (m1 & E & K & W1 & T). rewrite E. cbv beta iota zeta.
      destruct (IH m1 (acc ++ [halve s])) as (m' & E' & K' & W' & T'); auto.
      { intros s' Hs'. eapply keeps_swf; [exact K|]. apply W. right. exact Hs'. }
      exists m'. rewrite E', <- app_assoc. split; [reflexivity|].
      assert (Hk : tab m' (halve s) = tab m1 (halve s)).
      { eapply keeps_tab; [exact K'|]. intros s' Hs'. apply halve_apart, A1, Hs'. }
      split; [|split].
      + eapply keeps_trans; [eapply keeps_incl; [exact K|]|eapply keeps_incl; [exact K'|]].
        * intros s' a [<-|[]] Hc. exists s. cbn; auto.
        * intros s' a Hs' Hc. exists s'. cbn; auto.
      + intros s' [<-|Hs']; [eapply keeps_swf; [exact K'|exact W1]|apply W'; exact Hs'].
      + rewrite Hk, T, T'. f_equal. apply map_ext_in. intros s' Hs'. f_equal. eapply keeps_tab; [exact K|].
        intros s2 [<-|[]]. apply apart_sym, A1, Hs'.
  Qed.

  (** ** Folding a prover *)
  Definition sep (p : HProver F) : Prop :=
    apart (pVL p) (pVR p) /\ apart (pVL p) (pEq p) /\ apart (pVR p) (pEq p) /\
    (forall s, In s (pStatic p) -> apart (pVL p) s /\ apart (pVR p) s /\ apart (pEq p) s) /\ ForallOrdPairs apart (pStatic p).
  Definition goodp m (p : HProver F) : Prop := (forall s, In s (tables1 p) -> swf m s) /\ sep p.
  Lemma separate1_good m p : separate1 m p -> goodp m p.
  Proof.
    intros [H A]. split; [exact H|]. unfold tables1 in A. inversion A as [|? ? A1 A2]; subst. inversion A2 as [|? ? B1 B2]; subst.
    inversion B2 as [|? ? C1 C2]; subst. rewrite Forall_forall in A1, B1, C1. cbn [In] in *. unfold sep. repeat split; auto.
  Qed.

  (** the folded prover lives in the cells of the old one *)
  Definition inside (p' p : HProver F) : Prop :=
    forall s' a, In s' (tables1 p') -> cell s' a -> exists s, In s (tables1 p) /\ cell s a.
  Definition folds (fold : list F -> HProver F -> F -> option (list F * HProver F)) (fold0 : Prover F -> F -> option (Prover F)) : Prop :=
    forall m p r, goodp m p -> exists m' p', fold m p r = Some (m', p') /\ fold0 (view m p) r = Some (view m' p') /\
      goodp m' p' /\ inside p' p /\ keeps (tables1 p) m m'.

  Lemma mapM_foldv (l : list (list F)) r : mapM (fun t => Fold t r) l = Some (map (fun t => foldv t r) l).
  Proof. induction l as [|t l IH]; [reflexivity|]. cbn. rewrite Fold_foldv, IH. reflexivity. Qed.

  Lemma fop_halve ss : ForallOrdPairs apart ss -> ForallOrdPairs apart (map halve ss).
  Proof.
    induction 1 as [|s ss H1 H2 IH]; cbn [map]; constructor; [|exact IH]. rewrite Forall_forall in *. intros s' Hs'.
    apply in_map_iff in Hs'. destruct Hs' as (s1 & <- & Hs1). apply halve_apart, halve_apart_r, H1, Hs1.
  Qed.

  Lemma folds_HL : folds HFoldHL FoldHL.
  Proof.
    intros m p r [W (A1 & A2 & A3 & A4 & A5)]. unfold HFoldHL, HFoldAll.
    destruct (HFoldAll_ok r (pStatic p) m []) as (m1 & E & K & W1 & T); auto.
    { intros s Hs. apply W. right; right; right. exact Hs. }
    rewrite E. cbv beta iota zeta. cbn [app].
    destruct (HFold_keeps m1 (pVL p) r) as (m2 & E2 & K2 & W2 & T2).
    { eapply keeps_swf; [exact K|]. apply W. left. reflexivity. }
    rewrite E2. eexists _, _. split; [reflexivity|].
    assert (TS : map (tab m2) (map halve (pStatic p)) = map (fun s => foldv (tab m s) r) (pStatic p)).
    { rewrite <- T. apply map_ext_in. intros s Hs. apply in_map_iff in Hs. destruct Hs as (s1 & <- & Hs1).
      eapply keeps_tab; [exact K2|]. intros s' [<-|[]]. apply halve_apart, apart_sym, A4, Hs1. }
    assert (KK : keeps (tables1 p) m m2).
    { eapply keeps_trans; [eapply keeps_incl; [exact K|]|eapply keeps_incl; [exact K2|]].
      - intros s a Hs Hc. exists s. unfold tables1. cbn; auto.
      - intros s a [<-|[]] Hc. exists (pVL p). unfold tables1. cbn; auto. }
    assert (Tk : forall s, apart s (pVL p) -> (forall s', In s' (pStatic p) -> apart s s') -> tab m2 s = tab m s).
    { intros s H1 H2. rewrite (keeps_tab _ _ _ _ K2); [|intros s' [<-|[]]; exact H1]. eapply keeps_tab; eauto. }
    split; [|split; [|split; [|exact KK]]].
    - unfold FoldHL, view. cbn [sStatic sVL sVR sEq sGates dHL dHR dHPrime pVL pVR pEq pGates pStatic pHL pHR pHPrime].
      rewrite mapM_foldv, Fold_foldv. cbv beta iota zeta. rewrite T2, TS, map_map. do 2 f_equal.
      + f_equal. symmetry. eapply keeps_tab; [exact K|]. intros s Hs. apply A4, Hs.
      + symmetry. apply Tk; [apply apart_sym; exact A1|]. intros s Hs. apply A4, Hs.
      + symmetry. apply Tk; [apply apart_sym; exact A2|]. intros s Hs. apply A4, Hs.
    - split.
      + intros s [<-|[<-|[<-|Hs]]]; cbn [pVL pVR pEq pStatic] in *; auto.
        * eapply keeps_swf; [exact KK|]. apply W. unfold tables1. cbn; auto.
        * eapply keeps_swf; [exact KK|]. apply W. unfold tables1. cbn; auto.
        * apply in_map_iff in Hs. destruct Hs as (s1 & <- & Hs1). eapply keeps_swf; [exact K2|]. apply W1, Hs1.
      + unfold sep. cbn [pVL pVR pEq pStatic]. repeat split; auto using halve_apart, fop_halve.
        * apply in_map_iff in H. destruct H as (s1 & <- & Hs1). apply halve_apart, halve_apart_r, A4, Hs1.
        * apply in_map_iff in H. destruct H as (s1 & <- & Hs1). apply halve_apart_r, A4, Hs1.
        * apply in_map_iff in H. destruct H as (s1 & <- & Hs1). apply halve_apart_r, A4, Hs1.
    - unfold inside, tables1. intros s a Hs Hc. cbn [pVL pVR pEq pStatic In] in *. destruct Hs as [<-|[<-|[<-|Hs]]].
      + exists (pVL p). auto using halve_cell.
      + exists (pVR p). auto.
      + exists (pEq p). auto.
      + apply in_map_iff in Hs. destruct Hs as (s1 & <- & Hs1). exists s1. auto using halve_cell.
  Qed.

  Lemma folds_HR : folds HFoldHR FoldHR.
  Proof.
    intros m p r [W (A1 & A2 & A3 & A4 & A5)]. unfold HFoldHR, HFoldAll.
    destruct (HFoldAll_ok r (pStatic p) m []) as (m1 & E & K & W1 & T); auto.
    { intros s Hs. apply W. right; right; right. exact Hs. }
    rewrite E. cbv beta iota zeta. cbn [app].
    destruct (HFold_keeps m1 (pVR p) r) as (m2 & E2 & K2 & W2 & T2).
    { eapply keeps_swf; [exact K|]. apply W. right. left. reflexivity. }
    rewrite E2. eexists _, _. split; [reflexivity|].
    assert (TS : map (tab m2) (map halve (pStatic p)) = map (fun s => foldv (tab m s) r) (pStatic p)).
    { rewrite <- T. apply map_ext_in. intros s Hs. apply in_map_iff in Hs. destruct Hs as (s1 & <- & Hs1).
      eapply keeps_tab; [exact K2|]. intros s' [<-|[]]. apply halve_apart, apart_sym, A4, Hs1. }
    assert (KK : keeps (tables1 p) m m2).
    { eapply keeps_trans; [eapply keeps_incl; [exact K|]|eapply keeps_incl; [exact K2|]].
      - intros s a Hs Hc. exists s. unfold tables1. cbn; auto.
      - intros s a [<-|[]] Hc. exists (pVR p). unfold tables1. cbn; auto. }
    assert (Tk : forall s, apart s (pVR p) -> (forall s', In s' (pStatic p) -> apart s s') -> tab m2 s = tab m s).
    { intros s H1 H2. rewrite (keeps_tab _ _ _ _ K2); [|intros s' [<-|[]]; exact H1]. eapply keeps_tab; eauto. }
    split; [|split; [|split; [|exact KK]]].
    - unfold FoldHR, view. cbn [sStatic sVL sVR sEq sGates dHL dHR dHPrime pVL pVR pEq pGates pStatic pHL pHR pHPrime].
      rewrite mapM_foldv, Fold_foldv. cbv beta iota zeta. rewrite T2, TS, map_map. do 2 f_equal.
      + symmetry. apply Tk; [exact A1|]. intros s Hs. apply A4, Hs.
      + f_equal. symmetry. eapply keeps_tab; [exact K|]. intros s Hs. apply A4, Hs.
      + symmetry. apply Tk; [apply apart_sym; exact A3|]. intros s Hs. apply A4, Hs.
    - split.
      + intros s [<-|[<-|[<-|Hs]]]; cbn [pVL pVR pEq pStatic] in *; auto.
        * eapply keeps_swf; [exact KK|]. apply W. unfold tables1. cbn; auto.
        * eapply keeps_swf; [exact KK|]. apply W. unfold tables1. cbn; auto.
        * apply in_map_iff in Hs. destruct Hs as (s1 & <- & Hs1). eapply keeps_swf; [exact K2|]. apply W1, Hs1.
      + unfold sep. cbn [pVL pVR pEq pStatic]. repeat split; auto using halve_apart, halve_apart_r, fop_halve.
        * apply in_map_iff in H. destruct H as (s1 & <- & Hs1). apply halve_apart_r, A4, Hs1.
        * apply in_map_iff in H. destruct H as (s1 & <- & Hs1). apply halve_apart, halve_apart_r, A4, Hs1.
        * apply in_map_iff in H. destruct H as (s1 & <- & Hs1). apply halve_apart_r, A4, Hs1.
    - unfold inside, tables1. intros s a Hs Hc. cbn [pVL pVR pEq pStatic In] in *. destruct Hs as [<-|[<-|[<-|Hs]]].
      + exists (pVL p). auto.
      + exists (pVR p). auto using halve_cell.
      + exists (pEq p). auto.
      + apply in_map_iff in Hs. destruct Hs as (s1 & <- & Hs1). exists s1. auto using halve_cell.
  Qed.

  Lemma folds_HPrime : folds HFoldHPrime FoldHPrime.
  Proof.
    intros m p r [W (A1 & A2 & A3 & A4 & A5)]. unfold HFoldHPrime.
    destruct (HFold_keeps m (pVR p) r) as (m1 & E1 & K1 & W1 & T1). { apply W. unfold tables1. cbn; auto. }
    rewrite E1. cbv beta iota zeta.
    destruct (HFold_keeps m1 (pVL p) r) as (m2 & E2 & K2 & W2 & T2). { eapply keeps_swf; [exact K1|]. apply W. unfold tables1. cbn; auto. }
    rewrite E2. cbv beta iota zeta.
    destruct (HFold_keeps m2 (pEq p) r) as (m3 & E3 & K3 & W3 & T3).
    { eapply keeps_swf; [exact K2|]. eapply keeps_swf; [exact K1|]. apply W. unfold tables1. cbn; auto. }
    rewrite E3. eexists _, _. split; [reflexivity|].
    assert (KK : keeps (tables1 p) m m3).
    { eapply keeps_trans; [eapply keeps_incl; [exact K1|]|eapply keeps_trans; [eapply keeps_incl; [exact K2|]|eapply keeps_incl; [exact K3|]]];
        (intros s a [<-|[]] Hc; eexists; split; [|exact Hc]; unfold tables1; cbn; auto). }
    assert (X1 : forall s, apart s (pVR p) -> tab m1 s = tab m s) by (intros s H; eapply keeps_tab; [exact K1|intros s' [<-|[]]; exact H]).
    assert (X2 : forall s, apart s (pVL p) -> tab m2 s = tab m1 s) by (intros s H; eapply keeps_tab; [exact K2|intros s' [<-|[]]; exact H]).
    assert (X3 : forall s, apart s (pEq p) -> tab m3 s = tab m2 s) by (intros s H; eapply keeps_tab; [exact K3|intros s' [<-|[]]; exact H]).
    split; [|split; [|split; [|exact KK]]].
    - unfold FoldHPrime, view. cbn [sStatic sVL sVR sEq sGates dHL dHR dHPrime pVL pVR pEq pGates pStatic pHL pHR pHPrime].
      rewrite !Fold_foldv. cbv beta iota zeta. do 2 f_equal.
      + rewrite X3 by (apply halve_apart; exact A2). rewrite T2, X1 by exact A1. reflexivity.
      + rewrite X3 by (apply halve_apart; exact A3). rewrite X2 by (apply halve_apart, apart_sym; exact A1). rewrite T1. reflexivity.
      + rewrite T3, X2, X1 by (apply apart_sym; assumption). reflexivity.
      + apply map_ext_in. intros s Hs. destruct (A4 s Hs) as (B1 & B2 & B3). rewrite X3, X2, X1 by (apply apart_sym; assumption). reflexivity.
    - split.
      + intros s [<-|[<-|[<-|Hs]]]; cbn [pVL pVR pEq pStatic] in *; auto.
        * eapply keeps_swf; [exact K3|exact W2].
        * eapply keeps_swf; [exact K3|]. eapply keeps_swf; [exact K2|exact W1].
        * eapply keeps_swf; [exact KK|]. apply W. unfold tables1. cbn; auto.
      + unfold sep. cbn [pVL pVR pEq pStatic]. repeat split; auto using halve_apart, halve_apart_r; apply halve_apart, A4, H.
    - unfold inside, tables1. intros s a Hs Hc. cbn [pVL pVR pEq pStatic In] in *. destruct Hs as [<-|[<-|[<-|Hs]]].
      + exists (pVL p). auto using halve_cell.
      + exists (pVR p). auto using halve_cell.
      + exists (pEq p). auto using halve_cell.
      + exists s. auto.
  Qed.
End S.
