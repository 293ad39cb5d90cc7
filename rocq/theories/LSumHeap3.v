(** The sum-check provers in memory, continued. *)
From Coq Require Import List Arith Lia Bool.
From Verif Require Import Field Go Trans MCommon MPoly LPoly MCircuit MSumcheck MSumPar SpecSumPar MHeap SpecHeap LHeap LHeap2
  MSumHeap SpecSumHeap LSumHeap LSumHeap2 LSumPar LSumPar3 LSumPar4.
Import ListNotations.

Section S.
  Context {F : Field}.
  Open Scope F_scope.
  Implicit Types (m : list F) (s : Slice).
  Variable ch : list F -> F.

  Lemma inside_refl (p : HProver F) : inside p p.
  Proof. intros s a H1 H2. eauto. Qed.
  Lemma inside_trans (p1 p2 p3 : HProver F) : inside p1 p2 -> inside p2 p3 -> inside p1 p3.
  Proof. intros A B s a H1 H2. destruct (A s a H1 H2) as (s' & H3 & H4). exact (B s' a H3 H4). Qed.

  Lemma hrounds_ok k evals fold fold0 : folds fold fold0 -> forall m p proof q, goodp m p ->
    match hrounds ch k evals fold (m, p, proof, q) with
    | Some (m', p', proof', q') =>
      rounds ch k evals fold0 (view m p, proof, q) = Some (view m' p', proof', q') /\ goodp m' p' /\ inside p' p /\ keeps (tables1 p) m m'
    | None => rounds ch k evals fold0 (view m p, proof, q) = None
    end.
  Proof.
    intros Hf. unfold hrounds, rounds, forN. generalize (seq 0 k). intros l. induction l as [|i l IH]; intros m p proof q G.
    - cbn. split; [reflexivity|]. split; [exact G|]. split; [apply inside_refl|]. split; auto.
    - cbn [foldM]. unfold hround at 1, round at 1 3.
      destruct (evals (view m p)) as [e|]; [|reflexivity]. destruct (InterpolateOnRange e) as [c|]; [|reflexivity].
      cbv beta zeta. destruct (Hf m p (ch c) G) as (m1 & p1 & E1 & E2 & G1 & I1 & K1). rewrite E1, E2. cbv beta iota zeta.
      specialize (IH m1 p1 (proof ++ [c]) (q ++ [ch c]) G1).
      destruct (foldM _ l (m1, p1, _, _)) as [[[[m' p'] proof'] q']|]; [|exact IH].
      destruct IH as (E & G' & I' & K'). split; [exact E|]. split; [exact G'|]. split; [eapply inside_trans; eauto|].
      eapply keeps_trans; [exact K1|]. eapply keeps_incl; [exact K'|]. intros s a Hs Hc. exact (I1 s a Hs Hc).
  Qed.

  Lemma HProve_ok m p : separate1 m p ->
    match HProve ch m p with
    | Some (m', out) => Prove ch (view m p) = Some out /\ only (tables1 p) m m'
    | None => Prove ch (view m p) = None
    end.
  Proof.
    intros H. apply separate1_good in H. unfold HProve, Prove. cbn [view sEq sVR]. rewrite !tab_length.
    change (MkProver (tab m (pVL p)) (tab m (pVR p)) (tab m (pEq p)) (pGates p) (map (tab m) (pStatic p)) (pHL p) (pHR p) (pHPrime p)) with (view m p).
    destruct (godiv (slen (pVR p)) (slen (pEq p))) as [g|]; [|reflexivity].
    pose proof (hrounds_ok (log2ceil g) GetEvalsOnHL HFoldHL FoldHL folds_HL m p [] [] H) as R1.
    destruct (hrounds ch (log2ceil g) GetEvalsOnHL HFoldHL (m, p, [], [])) as [[[[m1 p1] proof1] qL]|]; [|rewrite R1; reflexivity].
    destruct R1 as (-> & G1 & I1 & K1).
    pose proof (hrounds_ok (log2ceil g) GetEvalsOnHR HFoldHR FoldHR folds_HR m1 p1 proof1 [] G1) as R2.
    destruct (hrounds ch (log2ceil g) GetEvalsOnHR HFoldHR (m1, p1, proof1, [])) as [[[[m2 p2] proof2] qR]|]; [|rewrite R2; reflexivity].
    destruct R2 as (-> & G2 & I2 & K2).
    pose proof (hrounds_ok (log2ceil (slen (pEq p))) GetEvalsOnHPrime HFoldHPrime FoldHPrime folds_HPrime m2 p2 proof2 [] G2) as R3.
    destruct (hrounds ch (log2ceil (slen (pEq p))) GetEvalsOnHPrime HFoldHPrime (m2, p2, proof2, [])) as [[[[m3 p3] proof3] qP]|]; [|rewrite R3; reflexivity].
    destruct R3 as (-> & G3 & I3 & K3).
    destruct (finalClaimsOf (view m3 p3)) as [fc|]; [|reflexivity]. split; [reflexivity|].
    assert (KK : keeps (tables1 p) m m3).
    { eapply keeps_trans; [exact K1|]. eapply keeps_trans; (eapply keeps_incl; [eassumption|]); intros s a Hs Hc.
      - exact (I1 s a Hs Hc).
      - exact (inside_trans _ _ _ I2 I1 s a Hs Hc). }
    destruct KK as [L K]. split; [lia|]. intros a _ Ha. apply K. exact Ha.
  Qed.

  (** ** The multi-threaded prover *)
  Lemma HCopyAll_ok ss : forall m acc, (forall s, In s ss -> swf m s) ->
    exists m' ds, foldM (fun '(m, acc) s => '(m, d) <- HDeepCopy m s ;; Some (m, acc ++ [d])) ss (m, acc) = Some (m', acc ++ ds) /\
      ext m m' /\ (forall d, In d ds -> swf m' d /\ (length m <= base d)%nat) /\ ForallOrdPairs apart ds /\ map (tab m') ds = map (tab m) ss.
  Proof.
    induction ss as [|s ss IH]; intros m acc W.
    - exists m, []. cbn. rewrite app_nil_r. split; [reflexivity|]. split; [apply ext_refl|]. split; [intros ? []|]. split; [constructor|reflexivity].
    - cbn [foldM map]. destruct (HDeepCopy_ok m s (W s (or_introl eq_refl))) as (m1 & d & E & X & W1 & B & L & T). rewrite E. cbv beta iota zeta.
      destruct (IH m1 (acc ++ [d])) as (m' & ds & E' & X' & W' & A' & T').
      { intros s' Hs'. eapply ext_swf; [exact X|]. apply W. right. exact Hs'. }
      exists m', (d :: ds). rewrite E', <- app_assoc. split; [reflexivity|]. split; [eapply ext_trans; eauto|]. split; [|split].
      + intros d' [<-|Hd']; [split; [eapply ext_swf; eauto|lia]|]. destruct (W' d' Hd') as [? ?]. split; [assumption|]. destruct X. lia.
      + constructor; [|exact A']. rewrite Forall_forall. intros d' Hd' a Ha Hb. destruct (W' d' Hd') as [_ Hd]. destruct W1 as [W1 W2].
        unfold cell in *. lia.
      + cbn [map]. rewrite T', (ext_tab m1 m' d) by assumption. rewrite T. f_equal. apply map_ext_in. intros s' Hs'.
        eapply ext_tab; [exact X|]. apply W. right. exact Hs'.
  Qed.

  Lemma get_tab m s i : swf m s -> get (tab m s) i = hget m s i.
  Proof.
    intros W. destruct (Nat.lt_ge_cases i (slen s)) as [H|H].
    - rewrite (get_nth _ _ 0) by (rewrite tab_length; exact H). rewrite tab_nth by exact H. symmetry. apply hget_rd; assumption.
    - rewrite get_none by (rewrite tab_length; exact H). unfold hget. rewrite (proj2 (Nat.ltb_ge _ _) H). reflexivity.
  Qed.

  Section MT.
    Variable m0 : list F.
    Variable P : HMT F.

    (** Ghost state: the owner of every address. *)
    Definition Owner := nat -> option nat.
    Definition owned (o : Owner) (x : option nat) s : Prop := forall a, cell s a -> o a = x.
    Definition kept m s : Prop := swf m s /\ tab m s = tab m0 s.

    Definition Irun (o : Owner) (x : nat) m (w : HSub F) : Prop :=
      goodp m (hsubProver w) /\ forall s, In s (tables1 (hsubProver w)) -> owned o (Some x) s.
    Definition Ipre (o : Owner) (x : nat) m : Prop :=
      (forall s, In s (hStatic P) -> kept m s /\ owned o None s) /\
      (forall s, nth_error (hVL P) x = Some s \/ nth_error (hVR P) x = Some s \/ nth_error (hEq P) x = Some s -> kept m s /\ owned o (Some x) s) /\
      (forall s s', nth_error (hVL P) x = Some s -> nth_error (hVR P) x = Some s' -> apart s s') /\
      (forall s s', nth_error (hVL P) x = Some s -> nth_error (hEq P) x = Some s' -> apart s s') /\
      (forall s s', nth_error (hVR P) x = Some s -> nth_error (hEq P) x = Some s' -> apart s s').
    Definition IG (o : Owner) (y : nat) m (g : HMerged (F:=F)) : Prop :=
      forall s, In s (snd g) -> swf m s /\ owned o (Some y) s.
    Definition Ifr (own0 : Owner) (o : Owner) m : Prop :=
      (length m0 <= length m)%nat /\ forall a, (a < length m0)%nat -> o a = own0 a /\ (own0 a = None -> nth a m 0 = nth a m0 0).
    Definition chg (x : nat) (o : Owner) m (o' : Owner) (m' : list F) : Prop :=
      (length m <= length m')%nat /\ forall a, (a < length m)%nat -> o' a = o a /\ (o a <> Some x -> nth a m' 0 = nth a m 0).

    Lemma swf_cell m s a : swf m s -> cell s a -> (a < length m)%nat.
    Proof. intros [W1 W2]. unfold cell. lia. Qed.
    Lemma chg_swf x o m o' m' s : chg x o m o' m' -> swf m s -> swf m' s.
    Proof. intros [H _] [W1 W2]. split; lia. Qed.
    Lemma chg_owned x o m o' m' s y : chg x o m o' m' -> swf m s -> owned o y s -> owned o' y s.
    Proof. intros [_ H] W Ho a Ha. destruct (H a (swf_cell m s a W Ha)) as [-> _]. auto. Qed.
    Lemma chg_tab x o m o' m' s y : chg x o m o' m' -> swf m s -> owned o y s -> y <> Some x -> tab m' s = tab m s.
    Proof. intros [_ H] W Ho Hn. apply tab_same. intros a Ha. apply (H a (swf_cell m s a W Ha)). rewrite (Ho a Ha). exact Hn. Qed.

    Lemma chg_pre x y o m o' m' : chg x o m o' m' -> x <> y -> Ipre o y m -> Ipre o' y m'.
    Proof.
      intros C Hn (A1 & A2 & A3). split; [|split; [|exact A3]].
      - intros s Hs. destruct (A1 s Hs) as [[W T] O]. split; [split|].
        + eapply chg_swf; eauto.
        + rewrite <- T. eapply chg_tab; eauto. discriminate.
        + eapply chg_owned; eauto.
      - intros s Hs. destruct (A2 s Hs) as [[W T] O]. split; [split|].
        + eapply chg_swf; eauto.
        + rewrite <- T. eapply chg_tab; eauto. congruence.
        + eapply chg_owned; eauto.
    Qed.
    Lemma chg_run x y o m o' m' w : chg x o m o' m' -> x <> y -> Irun o y m w -> Irun o' y m' w /\ viewSub m' w = viewSub m w.
    Proof.
      intros C Hn [[W S] O]. assert (T : forall s, In s (tables1 (hsubProver w)) -> tab m' s = tab m s).
      { intros s Hs. eapply chg_tab; eauto. congruence. }
      split; [split; [split|]|].
      - intros s Hs. eapply chg_swf; eauto.
      - exact S.
      - intros s Hs. eapply chg_owned; eauto.
      - unfold viewSub, view. unfold tables1 in T. cbn [In] in T. f_equal. f_equal; try (apply T; auto).
        apply map_ext_in. intros s Hs. apply T. auto.
    Qed.
    Lemma chg_G x y o m o' m' g : chg x o m o' m' -> x <> y -> IG o y m g -> IG o' y m' g /\ viewMerged m' g = viewMerged m g.
    Proof.
      intros C Hn H. destruct g as [[[[a b] c] gs] st]. unfold IG in *. cbn [snd] in *. split.
      - intros s Hs. destruct (H s Hs) as [W O]. split; [eapply chg_swf; eauto|eapply chg_owned; eauto].
      - unfold viewMerged. f_equal. apply map_ext_in. intros s Hs. destruct (H s Hs) as [W O]. eapply chg_tab; eauto. congruence.
    Qed.
    Lemma chg_fr own0 x o m o' m' : (forall a, own0 a = Some x \/ True) -> chg x o m o' m' -> Ifr own0 o m -> Ifr own0 o' m'.
    Proof.
      intros _ [C1 C2] [H1 H2]. split; [lia|]. intros a Ha. destruct (H2 a Ha) as [O N]. destruct (C2 a ltac:(lia)) as [O' N'].
      split; [congruence|]. intros Hn. rewrite N', N by congruence. reflexivity.
    Qed.

    Lemma init_ok o x m : Ipre o x m ->
      match hsubInit P x m with
      | None => subInit (viewMT m0 P) x = None
      | Some (m', w) => subInit (viewMT m0 P) x = Some (viewSub m' w) /\ exists o', Irun o' x m' w /\ chg x o m o' m'
      end.
    Proof.
      intros (A1 & A2 & A3 & A4 & A5). unfold hsubInit, HCopyAll, subInit, viewMT. cbn [tVL tVR tEq tGates tStatic].
      destruct (HCopyAll_ok (hStatic P) m []) as (m' & ds & E & X & W & AP & T).
      { intros s Hs. apply (A1 s Hs). }
      rewrite E. cbv beta iota zeta. cbn [app]. unfold get. rewrite !nth_error_map.
      destruct (nth_error (hVL P) x) as [vL|] eqn:EL; cbn [option_map]; [|reflexivity].
      destruct (nth_error (hVR P) x) as [vR|] eqn:ER; cbn [option_map]; [|reflexivity].
      destruct (nth_error (hEq P) x) as [eq|] eqn:EE; cbn [option_map]; [|reflexivity].
      destruct (A2 vL ltac:(auto)) as [[WL TL] OL]. destruct (A2 vR ltac:(auto)) as [[WR TR] OR]. destruct (A2 eq ltac:(auto)) as [[WE TE] OE].
      cbv beta zeta. cbn [pEq pVR NewHP sEq sVR].
      assert (Hs : forall a b c g st, sVR (NewSingleThreadedProver a b c g st) = b /\ sEq (NewSingleThreadedProver (F:=F) a b c g st) = c).
      { intros a b c g st. unfold NewSingleThreadedProver. destruct (fold_left _ g _) as [[? ?] ?]. split; reflexivity. }
      rewrite !(proj1 (Hs _ _ _ _ _)), !(proj2 (Hs _ _ _ _ _)), !tab_length.
      destruct (godiv (slen vR) (slen eq)) as [g|]; [|reflexivity]. split.
      - f_equal. unfold viewSub, view. cbn [hsubProver hsubG hsubN]. f_equal.
        unfold NewHP, NewSingleThreadedProver. cbn [pVL pVR pEq pGates pStatic pHL pHR pHPrime].
        destruct (fold_left _ (hGates P) _) as [[d1 d2] d3]. cbn [dHL dHR dHPrime].
        rewrite T, !(ext_tab m m') by assumption. rewrite TL, TR, TE. f_equal.
        apply map_ext_in. intros s Hs'. destruct (A1 s Hs') as [[_ Ts] _]. congruence.
      - exists (fun a => if (a <? length m)%nat then o a else Some x). destruct X as [X1 X2]. split; [split; [split|]|].
        + intros s Hs'. unfold tables1, NewHP in Hs'. cbn [hsubProver pVL pVR pEq pStatic] in Hs'.
          destruct Hs' as [<-|[<-|[<-|Hs']]]; try (eapply ext_swf; [split; eassumption|assumption]). apply (W s Hs').
        + unfold sep, NewHP. cbn [hsubProver pVL pVR pEq pStatic]. repeat split; eauto.
          * intros a Ha Hb. destruct (W s H) as [_ Hl]. pose proof (swf_cell m _ a WL Ha). unfold cell in Hb. lia.
          * intros a Ha Hb. destruct (W s H) as [_ Hl]. pose proof (swf_cell m _ a WR Ha). unfold cell in Hb. lia.
          * intros a Ha Hb. destruct (W s H) as [_ Hl]. pose proof (swf_cell m _ a WE Ha). unfold cell in Hb. lia.
        + intros s Hs' a Ha. unfold tables1, NewHP in Hs'. cbn [hsubProver pVL pVR pEq pStatic] in Hs'.
          destruct Hs' as [<-|[<-|[<-|Hs']]].
          * rewrite (proj2 (Nat.ltb_lt _ _) (swf_cell m _ a WL Ha)). auto.
          * rewrite (proj2 (Nat.ltb_lt _ _) (swf_cell m _ a WR Ha)). auto.
          * rewrite (proj2 (Nat.ltb_lt _ _) (swf_cell m _ a WE Ha)). auto.
          * destruct (W s Hs') as [_ Hl]. destruct (Nat.ltb_spec a (length m)); [|reflexivity]. unfold cell in Ha. lia.
        + split; [exact X1|]. intros a Ha. rewrite (proj2 (Nat.ltb_lt _ _) Ha). auto.
    Qed.

    Lemma fold_ok o x m w j r : Irun o x m w ->
      match hsubFold j w r m with
      | None => subFold j (viewSub m w) r = None
      | Some (m', w') => subFold j (viewSub m w) r = Some (viewSub m' w') /\ exists o', Irun o' x m' w' /\ chg x o m o' m'
      end.
    Proof.
      intros [G O]. unfold hsubFold, subFold, viewSub. cbn [subProver subG subN].
      assert (K : forall fold fold0, folds fold fold0 ->
        match ('(m1, sp) <- fold m (hsubProver w) r ;; Some (m1, MkHSub sp (hsubG w) (hsubN w))) with
        | None => (sp <- fold0 (view m (hsubProver w)) r ;; Some (MkSub sp (hsubG w) (hsubN w))) = None
        | Some (m', w') => (sp <- fold0 (view m (hsubProver w)) r ;; Some (MkSub sp (hsubG w) (hsubN w))) = Some (viewSub m' w') /\
            exists o', Irun o' x m' w' /\ chg x o m o' m'
        end).
      { intros fold fold0 Hf. destruct (Hf m (hsubProver w) r G) as (m' & p' & E1 & E2 & G' & I' & K'). rewrite E1, E2.
        split; [reflexivity|]. exists o. split; [split; [exact G'|]|].
        - intros s Hs a Ha. destruct (I' s a Hs Ha) as (s' & H1 & H2). exact (O s' H1 a H2).
        - destruct K' as [L K']. split; [lia|]. intros a Ha. split; [reflexivity|]. intros Hn. apply K'. intros s Hs Hc. apply Hn. exact (O s Hs a Hc). }
      destruct (j <? hsubG w)%nat; [apply (K _ _ folds_HL)|]. destruct (j <? hsubG w + hsubG w)%nat; [apply (K _ _ folds_HR)|apply (K _ _ folds_HPrime)].
    Qed.

    Lemma merge_read n o x m w newVL newVR newEq gates st : Irun o x m w ->
      (a <- get (tab m (pVL (hsubProver w))) 0 ;; newVL <- set newVL x a ;;
       b <- get (tab m (pVR (hsubProver w))) 0 ;; newVR <- set newVR x b ;;
       c <- get (tab m (pEq (hsubProver w))) 0 ;; newEq <- set newEq x c ;;
       Some (newVL, newVR, newEq, gates, map (tab m) st)) =
      option_map (viewMerged m)
       (a <- hget m (pVL (hsubProver w)) 0 ;; newVL <- set newVL x a ;;
        b <- hget m (pVR (hsubProver w)) 0 ;; newVR <- set newVR x b ;;
        c <- hget m (pEq (hsubProver w)) 0 ;; newEq <- set newEq x c ;;
        Some (newVL, newVR, newEq, gates, st)) /\ n = n :> nat.
    Proof.
      intros [[W _] _]. split; [|reflexivity]. unfold tables1 in W. cbn [In] in W.
      rewrite !get_tab by (apply W; auto).
      destruct (hget m (pVL (hsubProver w)) 0); [|reflexivity]. destruct (set newVL x _); [|reflexivity].
      destruct (hget m (pVR (hsubProver w)) 0); [|reflexivity]. destruct (set newVR x _); [|reflexivity].
      destruct (hget m (pEq (hsubProver w)) 0); [|reflexivity]. destruct (set newEq x _); reflexivity.
    Qed.
    Lemma merge_static n m g x (w : HSub F) g' : hmergeSub n m g (x, w) = Some g' ->
      snd g' = match g with None => pStatic (hsubProver w) | Some g => snd g end.
    Proof.
      unfold hmergeSub. cbn [fst snd]. destruct g as [[[[[a b] c] gs] st]|];
        (destruct (hget m (pVL (hsubProver w)) 0); [|discriminate]; destruct (set _ x _); [|discriminate];
         destruct (hget m (pVR (hsubProver w)) 0); [|discriminate]; destruct (set _ x _); [|discriminate];
         destruct (hget m (pEq (hsubProver w)) 0); [|discriminate]; destruct (set _ x _); [|discriminate];
         intros E; injection E as <-; reflexivity).
    Qed.

    Lemma merge0_ok n o x m w : Irun o x m w ->
      mergeSub n None (x, viewSub m w) = option_map (viewMerged m) (hmergeSub n m None (x, w)) /\
      forall g, hmergeSub n m None (x, w) = Some g -> IG o x m g.
    Proof.
      intros H. split.
      - unfold mergeSub, hmergeSub. cbn [fst snd subProver viewSub view sVL sVR sEq sGates sStatic]. apply (merge_read n o x m w _ _ _ _ _ H).
      - intros g E. apply merge_static in E. unfold IG. rewrite E. intros s Hs. destruct H as [[W _] O].
        split; [apply W|apply O]; unfold tables1; cbn; auto.
    Qed.
    Lemma merge1_ok n o x y m w g : Irun o x m w -> IG o y m g ->
      mergeSub n (Some (viewMerged m g)) (x, viewSub m w) = option_map (viewMerged m) (hmergeSub n m (Some g) (x, w)) /\
      forall g', hmergeSub n m (Some g) (x, w) = Some g' -> IG o y m g'.
    Proof.
      intros H HG. split.
      - destruct g as [[[[a b] c] gs] st]. unfold mergeSub, hmergeSub. cbn [fst snd subProver viewSub view sVL sVR sEq sGates sStatic viewMerged].
        apply (merge_read n o x m w _ _ _ _ _ H).
      - intros g' E. apply merge_static in E. unfold IG. rewrite E. exact HG.
    Qed.

    (** The owner of an address at the start. *)
    Definition inb (a : nat) (s : option Slice) : bool :=
      match s with None => false | Some s => (base s <=? a)%nat && (a <? base s + slen s)%nat end.
    Definition own0 (a : nat) : option nat :=
      find (fun x => inb a (nth_error (hVL P) x) || inb a (nth_error (hVR P) x) || inb a (nth_error (hEq P) x)) (seq 0 (length (hEq P))).
    Lemma inb_cell a s : inb a (Some s) = true <-> cell s a.
    Proof. unfold inb, cell. rewrite andb_true_iff, Nat.leb_le, Nat.ltb_lt. reflexivity. Qed.

    Section Sep.
      Variable n : nat.
      Hypothesis LL : length (hVL P) = n.
      Hypothesis LR : length (hVR P) = n.
      Hypothesis LE : length (hEq P) = n.
      Hypothesis Hsep : separateMT m0 P.

      (** [s] is a table of chunk [x], of the [i]-th kind *)
      Definition at_ (x i : nat) s : Prop := nth_error (tablesMT P) (i * n + x) = Some s.
      Lemma at_L x s : nth_error (hVL P) x = Some s -> (x < n)%nat /\ at_ x 0 s.
      Proof.
        intros H. assert (x < n)%nat by (rewrite <- LL; apply nth_error_Some; congruence). split; [assumption|].
        unfold at_, tablesMT. cbn [Nat.mul Nat.add]. rewrite nth_error_app1 by lia. exact H.
      Qed.
      Lemma at_R x s : nth_error (hVR P) x = Some s -> (x < n)%nat /\ at_ x 1 s.
      Proof.
        intros H. assert (x < n)%nat by (rewrite <- LR; apply nth_error_Some; congruence). split; [assumption|].
        unfold at_, tablesMT. rewrite nth_error_app2 by lia. rewrite nth_error_app1 by lia. rewrite <- H. f_equal. lia.
      Qed.
      Lemma at_E x s : nth_error (hEq P) x = Some s -> (x < n)%nat /\ at_ x 2 s.
      Proof.
        intros H. assert (x < n)%nat by (rewrite <- LE; apply nth_error_Some; congruence). split; [assumption|].
        unfold at_, tablesMT. rewrite nth_error_app2 by lia. rewrite nth_error_app2 by lia. rewrite <- H. f_equal. lia.
      Qed.
      Lemma at_any x s : nth_error (hVL P) x = Some s \/ nth_error (hVR P) x = Some s \/ nth_error (hEq P) x = Some s ->
        (x < n)%nat /\ exists i, at_ x i s.
      Proof.
        intros [H|[H|H]]; [apply at_L in H|apply at_R in H|apply at_E in H]; destruct H as [H1 H2]; eauto.
      Qed.
      Lemma at_apart x i s y j s' : (x < n)%nat -> (y < n)%nat -> at_ x i s -> at_ y j s' -> (x <> y \/ i <> j) -> apart s s'.
      Proof.
        intros Hx Hy H1 H2 Hn. destruct Hsep as (_ & A & _).
        apply (fop_nth apart (tablesMT P) apart_sym A (i * n + x) (j * n + y) s s'); auto.
        destruct (lt_eq_lt_dec i j) as [[H|H]|H]; nia.
      Qed.

      Lemma own0_of x s a : nth_error (hVL P) x = Some s \/ nth_error (hVR P) x = Some s \/ nth_error (hEq P) x = Some s ->
        cell s a -> own0 a = Some x.
      Proof.
        intros Hs Hc. destruct (at_any x s Hs) as [Hx [i Hi]]. unfold own0.
        destruct (find _ (seq 0 (length (hEq P)))) as [y|] eqn:Ef.
        - apply find_some in Ef. destruct Ef as [Hy Hb]. f_equal.
          assert (Hy' : exists s', (nth_error (hVL P) y = Some s' \/ nth_error (hVR P) y = Some s' \/ nth_error (hEq P) y = Some s') /\ cell s' a).
          { rewrite !orb_true_iff in Hb. destruct Hb as [[Hb|Hb]|Hb].
            - destruct (nth_error (hVL P) y) as [s'|]; [|discriminate]. apply inb_cell in Hb. eauto.
            - destruct (nth_error (hVR P) y) as [s'|]; [|discriminate]. apply inb_cell in Hb. eauto.
            - destruct (nth_error (hEq P) y) as [s'|]; [|discriminate]. apply inb_cell in Hb. eauto. }
          destruct Hy' as (s' & Hs' & Hc'). destruct (at_any y s' Hs') as [Hyn [j Hj]].
          destruct (Nat.eq_dec x y) as [->|Hn]; [reflexivity|]. exfalso.
          apply (at_apart x i s y j s' Hx Hyn Hi Hj (or_introl Hn) a Hc Hc').
        - exfalso. assert (Hf := find_none _ _ Ef x ltac:(apply in_seq; lia)). cbn beta in Hf.
          rewrite !orb_false_iff in Hf. destruct Hf as [[F1 F2] F3].
          destruct Hs as [Hs|[Hs|Hs]]; rewrite Hs in *; apply inb_cell in Hc; congruence.
      Qed.
      Lemma own0_none a : (forall s, In s (tablesMT P) -> ~ cell s a) -> own0 a = None.
      Proof.
        intros H. destruct (own0 a) as [y|] eqn:Ef; [|reflexivity]. exfalso. unfold own0 in Ef. apply find_some in Ef. destruct Ef as [_ Hb].
        rewrite !orb_true_iff in Hb. unfold tablesMT in H.
        assert (K : forall l s', nth_error l y = Some s' -> (forall s, In s l -> In s (hVL P ++ hVR P ++ hEq P)) -> inb a (Some s') = true -> False).
        { intros l s' Hs Hin Hi. apply inb_cell in Hi. apply (H s'); [|exact Hi]. apply Hin. eapply nth_error_In; eauto. }
        destruct Hb as [[Hb|Hb]|Hb].
        - destruct (nth_error (hVL P) y) as [s'|] eqn:E; [|discriminate]. eapply K; eauto. intros s Hs. apply in_app_iff. auto.
        - destruct (nth_error (hVR P) y) as [s'|] eqn:E; [|discriminate]. eapply K; eauto. intros s Hs. rewrite !in_app_iff. auto.
        - destruct (nth_error (hEq P) y) as [s'|] eqn:E; [|discriminate]. eapply K; eauto. intros s Hs. rewrite !in_app_iff. auto.
      Qed.

      Lemma pre0 x : Ipre own0 x m0.
      Proof.
        pose proof Hsep as (W & A & B). split; [|split; [|split; [|split]]].
        - intros s Hs. split; [split; [apply W; apply in_app_iff; auto|reflexivity]|]. intros a Ha. apply own0_none. intros s' Hs' Hc.
          apply (B s' s Hs' Hs a Hc Ha).
        - intros s Hs. split; [split; [|reflexivity]|].
          + apply W. apply in_app_iff. left. unfold tablesMT. rewrite !in_app_iff. destruct Hs as [Hs|[Hs|Hs]]; apply nth_error_In in Hs; auto.
          + intros a Ha. eapply own0_of; eauto.
        - intros s s' H1 H2. apply at_L in H1. apply at_R in H2. destruct H1 as [Hx H1]. destruct H2 as [_ H2]. eapply at_apart; [exact Hx|exact Hx|eauto|eauto|]. right. discriminate.
        - intros s s' H1 H2. apply at_L in H1. apply at_E in H2. destruct H1 as [Hx H1]. destruct H2 as [_ H2]. eapply at_apart; [exact Hx|exact Hx|eauto|eauto|]. right. discriminate.
        - intros s s' H1 H2. apply at_R in H1. apply at_E in H2. destruct H1 as [Hx H1]. destruct H2 as [_ H2]. eapply at_apart; [exact Hx|exact Hx|eauto|eauto|]. right. discriminate.
      Qed.
    End Sep.
  End MT.

  Lemma map_pc_repeat m (l : list (wpc (Wk:=HSub F) (E:=list F) (R:=F))) : forall n, map (pcmap (viewSub m)) l = repeat WEnd n -> l = repeat WEnd n.
  Proof.
    induction l as [|p l IH]; intros [|n] H; cbn in *; auto; try discriminate. injection H as H1 H2. f_equal; [|apply IH; exact H2].
    destruct p; cbn in H1; congruence.
  Qed.

  Theorem hmt_same_result m P n k bG nCore out : separateMT m P -> mt_ok (viewMT m P) n k bG -> (0 < nCore)%nat ->
    Prove ch (whole (viewMT m P) k bG) = Some out ->
    hmtPrepare P = Some (n, bG, (bG + bG + k)%nat, log2ceil n) /\
    must (hmt_step ch P nCore n bG (bG + bG + k) (log2ceil n))
      (fun sm => main (fst sm) = MEnd out /\ ws (fst sm) = repeat WEnd n /\ toks (fst sm) = nCore /\
         rCs (fst sm) = repeat (MkChan [] true) n /\ evC (fst sm) = MkChan [] true /\ finC (fst sm) = MkChan [] true /\
         only (tablesMT P) m (snd sm))
      (hmt_init nCore n m).
  Proof.
    intros Hsep Hok Hc HP. destruct (mt_same_result ch (viewMT m P) n k bG nCore out Hok Hc HP) as [Hprep Hmust].
    pose proof Hok as (_ & L1 & L2 & L3 & _). unfold viewMT in L1, L2, L3. cbn [tEq tVL tVR] in L1, L2, L3. rewrite map_length in L1, L2, L3.
    split.
    - rewrite <- Hprep. unfold hmtPrepare, mtPrepare, viewMT. cbn [tEq tVL]. unfold get. rewrite !nth_error_map, map_length.
      destruct (nth_error (hEq P) 0) as [e0|]; cbn [option_map]; [|reflexivity]. destruct (nth_error (hVL P) 0) as [v0|]; cbn [option_map]; [|reflexivity].
      rewrite !tab_length. reflexivity.
    - eapply must_mono; [|unfold hmt_step, mt_step in *; eapply (sim_must (Gh:=Owner) [] 0 hzSub zSub n nCore (bG + bG + k) (hsubInit P) hsubMore hsubEvals hsubFold
        consumeEvals (mtRound ch bG) (hmergeSub n) (hmtFinish ch (log2ceil n)) (subInit (viewMT m P)) subMore subEvals subFold (mergeSub n)
        (mtFinish ch (log2ceil n)) viewSub viewMerged (Ipre m P) Irun IG (Ifr m (own0 P)) chg) with (o := own0 P); try exact Hmust].
      + intros [s m'] [(A1 & A2 & A3 & A4 & A5 & A6) [o I]]. cbn [fst snd] in *. destruct s as [pc l eC fC rC w h t k0].
        unfold stmap in *. cbn [main ws toks rCs evC finC loc wg hs] in *. split.
        { destruct pc; cbn in A1; congruence. }
        split; [eapply map_pc_repeat; exact A2|]. split; [exact A3|]. split; [exact A4|]. split; [exact A5|]. split.
        { destruct fC as [b c]. unfold chmap in A6. cbn [cbuf cclosed] in A6. injection A6 as E1 E2. apply map_eq_nil in E1. congruence. }
        destruct I as (_ & _ & _ & _ & _ & [F1 F2]). split; [exact F1|]. intros a Ha Hn. apply F2; [exact Ha|]. apply own0_none. exact Hn.
      + intros o x m1. apply init_ok.
      + intros o x m1 w j _. reflexivity.
      + intros o x m1 w j _. reflexivity.
      + intros o x m1 w j r. apply fold_ok.
      + apply chg_pre.
      + apply chg_run.
      + apply chg_G.
      + intros x o m1 o' m' C. apply (chg_fr m (own0 P) x); auto.
      + intros o x m1 w. apply merge0_ok.
      + intros o x y m1 w g. apply merge1_ok.
      + intros o y m1 l g _. reflexivity.
      + unfold stmap, init, mt_init. cbn [main ws toks rCs evC finC loc wg hs mpcmap]. unfold init. f_equal.
        symmetry. clear. induction n as [|n IH]; cbn; [reflexivity|]. f_equal. exact IH.
      + unfold Inv, init. cbn [main ws toks rCs evC finC loc wg hs cbuf cclosed emptyChan]. split; [|split; [|split; [|split; [|split]]]].
        * intros x p Hx. apply nth_error_In, repeat_spec in Hx. subst p. split; [|cbn; discriminate]. intros _. apply (pre0 m P n L2 L3 L1 Hsep).
        * intros x w [].
        * intros ? ? [H|H]; discriminate.
        * discriminate.
        * intros k' x p _ _ Hx. apply nth_error_In, repeat_spec in Hx. exact Hx.
        * split; [lia|]. intros a Ha. auto.
  Qed.
End S.
