(** The multi-threaded prover has no data race. *)
From Coq Require Import List Arith Lia Bool.
From Verif Require Import Field Go Trans MCommon MPoly MCircuit MSumcheck MSumPar SpecSumPar MHeap SpecHeap MSumHeap SpecSumHeap SpecRace
  LSumHeap LSumHeap2 LSumHeap3.
Import ListNotations.

Section L.
  Context {F : Field}.
  Open Scope F_scope.
  Variable ch : list F -> F.
  Implicit Types m : list F.
  Notation state := (st (Wk:=HSub F) (E:=list F) (R:=F) (MS:=MLoc (F:=F)) (G:=HMerged (F:=F))
    (Out:=list (list F) * list F * list F * list F * list F)).

  (** ** What the accesses are *)
  Definition orel {X Y} (R : X -> Y -> Prop) (o1 : option X) (o2 : option Y) : Prop :=
    match o1, o2 with Some x, Some y => R x y | None, None => True | _, _ => False end.
  Lemma obind_rel {X Y X' Y'} (R : X -> Y -> Prop) (R' : X' -> Y' -> Prop) o1 o2 f g :
    orel R o1 o2 -> (forall x y, R x y -> orel R' (f x) (g y)) ->
    orel R' (match o1 with Some x => f x | None => None end) (match o2 with Some x => g x | None => None end).
  Proof. intros H K. destruct o1, o2; cbn in *; auto; contradiction. Qed.
  Lemma foldM_rel {A X Y} (R : X -> Y -> Prop) f g (l : list A) :
    (forall a x y, In a l -> R x y -> orel R (f x a) (g y a)) -> forall x y, R x y -> orel R (foldM f l x) (foldM g l y).
  Proof.
    induction l as [|a l IH]; intros H x y Hxy; cbn; [exact Hxy|].
    eapply obind_rel; [apply H; [left; reflexivity|exact Hxy]|]. intros x' y'. apply IH. intros b x0 y0 Hb. apply H. right. exact Hb.
  Qed.

  Lemma get_agree A (m1 m2 : list F) a : agree A m1 m2 -> A a -> get m1 a = get m2 a.
  Proof.
    intros [L H] Ha. unfold get. destruct (Nat.lt_ge_cases a (length m1)) as [Hl|Hl].
    - rewrite !(nth_error_nth' _ 0) by lia. rewrite H by exact Ha. reflexivity.
    - rewrite !(proj2 (nth_error_None _ _)) by lia. reflexivity.
  Qed.
  Lemma hget_agree (A : nat -> Prop) m1 m2 s i : agree A m1 m2 -> (forall a, cell s a -> A a) -> hget m1 s i = hget m2 s i.
  Proof.
    intros H C. unfold hget. destruct (Nat.ltb_spec i (slen s)); [|reflexivity]. apply (get_agree A); [exact H|]. apply C. unfold cell. lia.
  Qed.
  Lemma nth_upd_F (m : list F) i v a : nth a (upd m i v) 0 = if (Nat.eqb a i && Nat.ltb i (length m))%bool then v else nth a m 0.
  Proof.
    revert i a. induction m as [|x m IH]; intros [|i] [|a]; cbn; auto; try (rewrite andb_false_r; reflexivity).
    apply IH.
  Qed.
  Lemma hset_agree (A : nat -> Prop) m1 m2 s i v : agree A m1 m2 -> orel (agree A) (hset m1 s i v) (hset m2 s i v).
  Proof.
    intros [L H]. unfold hset, set. destruct (i <? slen s)%nat; [|exact I]. rewrite L.
    destruct (base s + i <? length m2)%nat; [|exact I]. split; [rewrite !upd_length; exact L|].
    intros a Ha. rewrite !nth_upd_F, L, H by exact Ha. reflexivity.
  Qed.
  Lemma hslice_cell s a b s' x : hslice s a b = Some s' -> (b <= slen s)%nat -> cell s' x -> cell s x.
  Proof.
    unfold hslice. destruct ((a <=? b)%nat && _)%bool eqn:E; [|discriminate]. apply andb_true_iff in E. destruct E as [E _]. apply Nat.leb_le in E.
    intros E' Hb. injection E' as <-. unfold cell. cbn. lia.
  Qed.

  Definition prel {X} (A : nat -> Prop) (p1 p2 : list F * X) : Prop := agree A (fst p1) (fst p2) /\ snd p1 = snd p2.

  Lemma HFold_agree (A : nat -> Prop) m1 m2 s r : agree A m1 m2 -> (forall a, cell s a -> A a) -> orel (prel A) (HFold m1 s r) (HFold m2 s r).
  Proof.
    intros H C. unfold HFold. assert (Hd : (slen s / 2 <= slen s)%nat) by (apply Nat.div_le_upper_bound; lia).
    destruct (hslice s 0 (slen s / 2)) as [bot|] eqn:Eb; [|exact I].
    destruct (hslice s (slen s / 2) (slen s)) as [top|] eqn:Et; [|exact I].
    assert (Cb : forall a, cell bot a -> A a) by (intros a Ha; apply C; eapply hslice_cell; [exact Eb|exact Hd|exact Ha]).
    assert (Ct : forall a, cell top a -> A a) by (intros a Ha; apply C; eapply hslice_cell; [exact Et|lia|exact Ha]).
    eapply obind_rel with (R := agree A).
    - apply foldM_rel; [|exact H]. intros i x y _ Hxy.
      rewrite (hget_agree A x y top i Hxy Ct), (hget_agree A x y bot i Hxy Cb).
      destruct (hget y top i) as [ti|]; [|exact I]. destruct (hget y bot i) as [bi|]; [|exact I].
      eapply obind_rel; [apply (hset_agree A); exact Hxy|]. clear x y Hxy. intros x y Hxy.
      rewrite (hget_agree A x y top i Hxy Ct). destruct (hget y top i) as [ti'|]; [|exact I].
      eapply obind_rel; [apply (hset_agree A); exact Hxy|]. clear x y Hxy. intros x y Hxy.
      rewrite (hget_agree A x y top i Hxy Ct), (hget_agree A x y bot i Hxy Cb).
      destruct (hget y bot i) as [bi'|]; [|exact I]. destruct (hget y top i) as [ti''|]; [|exact I].
      apply hset_agree. exact Hxy.
    - intros x y Hxy. split; [exact Hxy|reflexivity].
  Qed.

  Lemma HFold_cells m s r m' s' : HFold m s r = Some (m', s') -> forall a, cell s' a -> cell s a.
  Proof.
    unfold HFold. assert (Hd : (slen s / 2 <= slen s)%nat) by (apply Nat.div_le_upper_bound; lia).
    destruct (hslice s 0 (slen s / 2)) as [bot|] eqn:Eb; [|discriminate].
    destruct (hslice s (slen s / 2) (slen s)) as [top|] eqn:Et; [|discriminate].
    destruct (forN _ _ m) as [m1|]; [|discriminate]. intros E. injection E as _ <-. intros a. eapply hslice_cell; eauto.
  Qed.

  Lemma HFoldAll_agree (A : nat -> Prop) ss r : (forall s a, In s ss -> cell s a -> A a) -> forall m1 m2, agree A m1 m2 ->
    orel (prel A) (HFoldAll m1 ss r) (HFoldAll m2 ss r).
  Proof.
    intros C m1 m2 H. unfold HFoldAll. apply foldM_rel; [|split; [exact H|reflexivity]].
    intros s [x1 acc1] [x2 acc2] Hs [Hx Ha]. cbn [fst snd] in Hx, Ha. subst acc2.
    eapply obind_rel; [apply (HFold_agree A); [exact Hx|intros a; apply C; exact Hs]|].
    intros [y1 s1] [y2 s2] [Hy Hs']. cbn [fst snd] in *. subst s2. split; [exact Hy|reflexivity].
  Qed.

  Definition foldable (A : nat -> Prop) (fold : list F -> HProver F -> F -> option (list F * HProver F)) : Prop :=
    forall m1 m2 p r, (forall a, cells (tables1 p) a -> A a) -> agree A m1 m2 -> orel (prel A) (fold m1 p r) (fold m2 p r).

  Lemma fold_HL A : foldable A HFoldHL.
  Proof.
    intros m1 m2 p r C H. unfold HFoldHL.
    eapply obind_rel; [apply (HFoldAll_agree A); [|exact H]|].
    { intros s a Hs Ha. apply C. exists s. split; [cbn; auto|exact Ha]. }
    intros [x1 s1] [x2 s2] [Hx Hs]. cbn [fst snd] in *. subst s2.
    eapply obind_rel; [apply (HFold_agree A); [exact Hx|]|].
    { intros a Ha. apply C. eexists. split; [|exact Ha]. cbn; auto. }
    intros [y1 v1] [y2 v2] [Hy Hv]. cbn [fst snd] in *. subst v2. split; [exact Hy|reflexivity].
  Qed.
  Lemma fold_HR A : foldable A HFoldHR.
  Proof.
    intros m1 m2 p r C H. unfold HFoldHR.
    eapply obind_rel; [apply (HFoldAll_agree A); [|exact H]|].
    { intros s a Hs Ha. apply C. exists s. split; [cbn; auto|exact Ha]. }
    intros [x1 s1] [x2 s2] [Hx Hs]. cbn [fst snd] in *. subst s2.
    eapply obind_rel; [apply (HFold_agree A); [exact Hx|]|].
    { intros a Ha. apply C. eexists. split; [|exact Ha]. cbn; auto. }
    intros [y1 v1] [y2 v2] [Hy Hv]. cbn [fst snd] in *. subst v2. split; [exact Hy|reflexivity].
  Qed.
  Lemma fold_HPrime A : foldable A HFoldHPrime.
  Proof.
    intros m1 m2 p r C H. unfold HFoldHPrime.
    eapply obind_rel; [apply (HFold_agree A); [exact H|]|].
    { intros a Ha. apply C. eexists. split; [|exact Ha]. cbn; auto. }
    intros [x1 s1] [x2 s2] [Hx Hs]. cbn [fst snd] in *. subst s2.
    eapply obind_rel; [apply (HFold_agree A); [exact Hx|]|].
    { intros a Ha. apply C. eexists. split; [|exact Ha]. cbn; auto. }
    intros [y1 v1] [y2 v2] [Hy Hv]. cbn [fst snd] in *. subst v2.
    eapply obind_rel; [apply (HFold_agree A); [exact Hy|]|].
    { intros a Ha. apply C. eexists. split; [|exact Ha]. cbn; auto. }
    intros [z1 w1] [z2 w2] [Hz Hw]. cbn [fst snd] in *. subst w2. split; [exact Hz|reflexivity].
  Qed.
  Lemma hsubFold_agree (A : nat -> Prop) m1 m2 j (w : HSub F) r : (forall a, cells (tables1 (hsubProver w)) a -> A a) -> agree A m1 m2 ->
    orel (prel A) (hsubFold j w r m1) (hsubFold j w r m2).
  Proof.
    intros C H. unfold hsubFold. eapply obind_rel with (R := prel A).
    - destruct (j <? hsubG w)%nat; [apply fold_HL; auto|]. destruct (j <? hsubG w + hsubG w)%nat; [apply fold_HR; auto|apply fold_HPrime; auto].
    - intros [x1 s1] [x2 s2] [Hx Hs]. cbn [fst snd] in *. subst s2. split; [exact Hx|reflexivity].
  Qed.

  (** Copying: agreement also at the new addresses. *)
  Definition up (A : nat -> Prop) (n a : nat) : Prop := A a \/ (n <= a)%nat.
  Lemma agree_up (A : nat -> Prop) n m1 m2 : agree A m1 m2 -> (length m1 <= n)%nat -> agree (up A n) m1 m2.
  Proof.
    intros [L H] Hn. split; [exact L|]. intros a [Ha|Ha]; [apply H; exact Ha|]. rewrite !nth_overflow by lia. reflexivity.
  Qed.
  Lemma halloc_agree (A : nat -> Prop) m1 m2 n : agree A m1 m2 -> prel A (halloc m1 n) (halloc m2 n).
  Proof.
    intros [L H]. unfold halloc. split; cbn [fst snd]; [|rewrite L; reflexivity].
    split; [rewrite !app_length, L; reflexivity|]. intros a Ha.
    destruct (Nat.lt_ge_cases a (length m1)) as [Hl|Hl]; [rewrite !app_nth1 by lia; apply H; exact Ha|].
    rewrite !app_nth2 by lia. rewrite L. reflexivity.
  Qed.
  Lemma HDeepCopy_agree (A : nat -> Prop) m1 m2 s : agree A m1 m2 -> (forall a, cell s a -> A a) -> orel (prel A) (HDeepCopy m1 s) (HDeepCopy m2 s).
  Proof.
    intros H C. unfold HDeepCopy. pose proof (halloc_agree A m1 m2 (slen s) H) as [Hm Hd].
    destruct (halloc m1 (slen s)) as [x1 d1]. destruct (halloc m2 (slen s)) as [x2 d2]. cbn [fst snd] in *. subst d2.
    eapply obind_rel with (R := agree A).
    - unfold hcopy. apply foldM_rel; [|exact Hm]. intros i x y _ Hxy. rewrite (hget_agree A x y s i Hxy C).
      destruct (hget y s i); [|exact I]. apply hset_agree. exact Hxy.
    - intros x y Hxy. split; [exact Hxy|reflexivity].
  Qed.
  Lemma HCopyAll_agree (A : nat -> Prop) ss m1 m2 : agree A m1 m2 -> (forall a, cells ss a -> A a) ->
    orel (prel A) (HCopyAll m1 ss) (HCopyAll m2 ss).
  Proof.
    intros H C. unfold HCopyAll. apply foldM_rel; [|split; [exact H|reflexivity]].
    intros s [x1 acc1] [x2 acc2] Hs [Hx Ha]. cbn [fst snd] in Hx, Ha. subst acc2.
    eapply obind_rel; [apply (HDeepCopy_agree A); [exact Hx|intros a Ha; apply C; exists s; auto]|].
    intros [y1 s1] [y2 s2] [Hy Hs']. cbn [fst snd] in *. subst s2. split; [exact Hy|reflexivity].
  Qed.
  Lemma hsubInit_agree (A : nat -> Prop) P x m1 m2 : agree A m1 m2 -> (forall a, cells (hStatic P) a -> A a) ->
    orel (prel A) (hsubInit P x m1) (hsubInit P x m2).
  Proof.
    intros H C. unfold hsubInit. eapply obind_rel; [apply (HCopyAll_agree A); [exact H|exact C]|].
    intros [x1 s1] [x2 s2] [Hx Hs]. cbn [fst snd] in *. subst s2.
    destruct (get (hVL P) x); [|exact I]. destruct (get (hVR P) x); [|exact I]. destruct (get (hEq P) x); [|exact I].
    cbv zeta. destruct (godiv _ _); [|exact I]. split; [exact Hx|reflexivity].
  Qed.

  Lemma tab_agree (A : nat -> Prop) m1 m2 s : agree A m1 m2 -> (forall a, cell s a -> A a) -> tab m1 s = tab m2 s.
  Proof.
    intros [_ H] C. unfold tab. apply map_ext_in. intros i Hi. apply in_seq in Hi. unfold rd. apply H, C. unfold cell. lia.
  Qed.
  Lemma view_agree (A : nat -> Prop) m1 m2 (p : HProver F) : agree A m1 m2 -> (forall a, cells (tables1 p) a -> A a) -> view m1 p = view m2 p.
  Proof.
    intros H C. assert (T : forall s, In s (tables1 p) -> tab m1 s = tab m2 s).
    { intros s Hs. apply (tab_agree A); [exact H|]. intros a Ha. apply C. exists s. auto. }
    unfold view. rewrite (T (pVL p)), (T (pVR p)), (T (pEq p)) by (cbn; auto). f_equal. apply map_ext_in. intros s Hs. apply T. cbn; auto.
  Qed.
  Lemma hsubEvals_agree (A : nat -> Prop) m1 m2 j (w : HSub F) : agree A m1 m2 -> (forall a, cells (tables1 (hsubProver w)) a -> A a) ->
    hsubEvals m1 j w = hsubEvals m2 j w.
  Proof. intros H C. unfold hsubEvals. rewrite (view_agree A m1 m2 _ H C). reflexivity. Qed.
  Lemma hmergeSub_agree (A : nat -> Prop) n m1 m2 g x (w : HSub F) : agree A m1 m2 ->
    (forall a, cells [pVL (hsubProver w); pVR (hsubProver w); pEq (hsubProver w)] a -> A a) ->
    hmergeSub n m1 g (x, w) = hmergeSub n m2 g (x, w).
  Proof.
    intros H C. unfold hmergeSub. cbn [fst snd].
    rewrite (hget_agree A m1 m2 (pVL (hsubProver w)) 0 H), (hget_agree A m1 m2 (pVR (hsubProver w)) 0 H), (hget_agree A m1 m2 (pEq (hsubProver w)) 0 H).
    - reflexivity.
    - intros a Ha. apply C. eexists. split; [|exact Ha]. cbn; auto.
    - intros a Ha. apply C. eexists. split; [|exact Ha]. cbn; auto.
    - intros a Ha. apply C. eexists. split; [|exact Ha]. cbn; auto.
  Qed.
  Lemma hmtFinish_agree (A : nat -> Prop) k m1 m2 l (g : HMerged (F:=F)) : agree A m1 m2 -> (forall a, cells (snd g) a -> A a) ->
    hmtFinish ch k m1 l g = hmtFinish ch k m2 l g.
  Proof.
    intros H C. unfold hmtFinish. f_equal. destruct g as [[[[? ?] ?] ?] st]. cbn [snd] in C. unfold viewMerged. f_equal.
    apply map_ext_in. intros s Hs. apply (tab_agree A); [exact H|]. intros a Ha. apply C. exists s. auto.
  Qed.

  (** ** Only the written cells change *)
  Definition wr (A : nat -> Prop) m m' : Prop :=
    (length m <= length m')%nat /\ forall a, (a < length m)%nat -> ~ A a -> nth a m' 0 = nth a m 0.
  Lemma wr_refl (A : nat -> Prop) m : wr A m m.
  Proof. split; auto. Qed.
  Lemma wr_trans (A : nat -> Prop) m1 m2 m3 : wr A m1 m2 -> wr A m2 m3 -> wr A m1 m3.
  Proof. intros [L1 H1] [L2 H2]. split; [lia|]. intros a Ha Hn. rewrite H2 by (auto; lia). auto. Qed.
  Lemma wr_weaken (A B : nat -> Prop) m m' : (forall a, (a < length m)%nat -> A a -> B a) -> wr A m m' -> wr B m m'.
  Proof. intros H [L H1]. split; [exact L|]. intros a Ha Hn. apply H1; auto. Qed.
  Lemma foldM_keep {X Y} (Q : Y -> Y -> Prop) (f : Y -> X -> option Y) (l : list X) :
    (forall y, Q y y) -> (forall y1 y2 y3, Q y1 y2 -> Q y2 y3 -> Q y1 y3) ->
    (forall a y y', In a l -> f y a = Some y' -> Q y y') -> forall y y', foldM f l y = Some y' -> Q y y'.
  Proof.
    intros R T. induction l as [|a l IH]; intros H y y' E; cbn in E; [injection E as <-; apply R|].
    destruct (f y a) as [y1|] eqn:E1; [|discriminate]. eapply T; [eapply H; [left; reflexivity|exact E1]|].
    apply IH; [|exact E]. intros b z z' Hb. apply H. right. exact Hb.
  Qed.
  Lemma hset_wr (A : nat -> Prop) m s i v m' : (forall a, cell s a -> (a < length m)%nat -> A a) -> hset m s i v = Some m' ->
    length m' = length m /\ wr A m m'.
  Proof.
    intros C. unfold hset, set. destruct (Nat.ltb_spec i (slen s)) as [Hi|]; [|discriminate].
    destruct (Nat.ltb_spec (base s + i) (length m)) as [Hb|]; [|discriminate]. intros E. injection E as <-.
    rewrite upd_length. split; [reflexivity|]. split; [rewrite upd_length; lia|]. intros a Ha Hn. rewrite nth_upd_F.
    destruct (Nat.eqb_spec a (base s + i)) as [->|]; [|reflexivity]. exfalso. apply Hn. apply C; [unfold cell; lia|exact Ha].
  Qed.
  Lemma HFold_wr (A : nat -> Prop) m s r m' s' : (forall a, cell s a -> A a) -> HFold m s r = Some (m', s') ->
    wr A m m'.
  Proof.
    intros C. unfold HFold. assert (Hd : (slen s / 2 <= slen s)%nat) by (apply Nat.div_le_upper_bound; lia).
    destruct (hslice s 0 (slen s / 2)) as [bot|] eqn:Eb; [|discriminate].
    destruct (hslice s (slen s / 2) (slen s)) as [top|] eqn:Et; [|discriminate].
    assert (Cb : forall a, cell bot a -> A a) by (intros a Ha; apply C; eapply hslice_cell; [exact Eb|exact Hd|exact Ha]).
    assert (Ct : forall a, cell top a -> A a) by (intros a Ha; apply C; eapply hslice_cell; [exact Et|lia|exact Ha]).
    match goal with |- context [forN ?n ?f m] => destruct (forN n f m) as [m1|] eqn:E1; [|discriminate] end.
    intros E. injection E as <- _. revert E1. unfold forN.
    apply (foldM_keep (wr A)); [apply wr_refl|apply wr_trans|]. intros i y y' _.
    destruct (hget y top i) as [ti|]; [|discriminate]. destruct (hget y bot i) as [bi|]; [|discriminate].
    destruct (hset y top i (ti - bi)) as [y1|] eqn:E1; [|discriminate]. apply (hset_wr A) in E1; [|intros; apply Ct; assumption].
    destruct (hget y1 top i) as [ti'|]; [|discriminate].
    destruct (hset y1 top i (ti' * r)) as [y2|] eqn:E2; [|discriminate]. apply (hset_wr A) in E2; [|intros; apply Ct; assumption].
    destruct (hget y2 bot i) as [bi'|]; [|discriminate]. destruct (hget y2 top i) as [ti''|]; [|discriminate].
    intros E3. apply (hset_wr A) in E3; [|intros; apply Cb; assumption].
    eapply wr_trans; [apply E1|]. eapply wr_trans; [apply E2|apply E3].
  Qed.
  Lemma HFoldAll_wr (A : nat -> Prop) ss r m m' ss' : (forall s a, In s ss -> cell s a -> A a) -> HFoldAll m ss r = Some (m', ss') -> wr A m m'.
  Proof.
    intros C E. unfold HFoldAll in E.
    apply (foldM_keep (fun x y : list F * list Slice => wr A (fst x) (fst y))) in E; auto using wr_refl.
    - intros x y z. apply wr_trans.
    - intros s [y acc] [y' acc'] Hs. destruct (HFold y s r) as [[y1 s1]|] eqn:E1; [|discriminate]. intros E2. injection E2 as <- <-.
      cbn [fst]. eapply HFold_wr; [|exact E1]. intros a. apply C. exact Hs.
  Qed.
  Lemma hsubFold_wr (A : nat -> Prop) m j (w : HSub F) r m' w' : (forall a, cells (tables1 (hsubProver w)) a -> A a) ->
    hsubFold j w r m = Some (m', w') -> wr A m m'.
  Proof.
    intros C. unfold hsubFold. set (p := hsubProver w) in *.
    assert (C0 : forall s a, In s (tables1 p) -> cell s a -> A a) by (intros s a Hs Ha; apply C; exists s; auto).
    assert (CS : forall s a, In s (pStatic p) -> cell s a -> A a) by (intros s a Hs; apply C0; cbn; auto).
    match goal with |- context [match ?x with Some _ => _ | None => None end] => destruct x as [[m1 sp]|] eqn:E1; [|discriminate] end.
    intros E. injection E as <- _. revert E1. destruct (j <? hsubG w)%nat; [|destruct (j <? hsubG w + hsubG w)%nat].
    - unfold HFoldHL. destruct (HFoldAll m (pStatic p) r) as [[y1 st]|] eqn:E1; [|discriminate].
      destruct (HFold y1 (pVL p) r) as [[y2 v]|] eqn:E2; [|discriminate]. intros E. injection E as <- _.
      eapply wr_trans; [eapply HFoldAll_wr; eauto|eapply HFold_wr; [|exact E2]]. intros a. apply C0. cbn; auto.
    - unfold HFoldHR. destruct (HFoldAll m (pStatic p) r) as [[y1 st]|] eqn:E1; [|discriminate].
      destruct (HFold y1 (pVR p) r) as [[y2 v]|] eqn:E2; [|discriminate]. intros E. injection E as <- _.
      eapply wr_trans; [eapply HFoldAll_wr; eauto|eapply HFold_wr; [|exact E2]]. intros a. apply C0. cbn; auto.
    - unfold HFoldHPrime. destruct (HFold m (pVR p) r) as [[y1 v1]|] eqn:E1; [|discriminate].
      destruct (HFold y1 (pVL p) r) as [[y2 v2]|] eqn:E2; [|discriminate].
      destruct (HFold y2 (pEq p) r) as [[y3 v3]|] eqn:E3; [|discriminate]. intros E. injection E as <- _.
      eapply wr_trans; [eapply HFold_wr; [|exact E1]|eapply wr_trans; [eapply HFold_wr; [|exact E2]|eapply HFold_wr; [|exact E3]]];
        intros a; apply C0; cbn; auto.
  Qed.
  Lemma HDeepCopy_wr m s m' d : HDeepCopy m s = Some (m', d) -> wr (fun _ => False) m m'.
  Proof.
    unfold HDeepCopy, halloc. destruct (hcopy _ _ s) as [m1|] eqn:E1; [|discriminate]. intros E. injection E as <- _.
    revert E1. unfold hcopy, forN. set (d0 := MkSlice (length m) (slen s) (slen s)). intros E1.
    assert (W : wr (fun a => (length m <= a)%nat) (m ++ repeat 0 (slen s)) m1).
    { revert E1. apply (foldM_keep (wr (fun a => (length m <= a)%nat))); [apply wr_refl|apply wr_trans|]. intros i y y' _.
      destruct (hget y s i); [|discriminate]. intros E. apply (hset_wr (fun a => (length m <= a)%nat)) in E; [apply E|].
      intros a Ha _. unfold cell, d0 in Ha. cbn in Ha. lia. }
    destruct W as [L W]. rewrite app_length in L. split; [lia|]. intros a Ha _.
    rewrite W by (rewrite ?app_length; lia). apply app_nth1. exact Ha.
  Qed.
  Lemma hsubInit_wr (P : HMT F) x m m' w : hsubInit P x m = Some (m', w) -> wr (fun _ => False) m m'.
  Proof.
    unfold hsubInit. destruct (HCopyAll m (hStatic P)) as [[m1 st]|] eqn:E1; [|discriminate].
    destruct (get (hVL P) x); [|discriminate]. destruct (get (hVR P) x); [|discriminate]. destruct (get (hEq P) x); [|discriminate].
    cbv zeta. destruct (godiv _ _); [|discriminate]. intros E. injection E as <- _.
    unfold HCopyAll in E1. apply (foldM_keep (fun x y : list F * list Slice => wr (fun _ => False) (fst x) (fst y))) in E1; auto using wr_refl.
    - intros y1 y2 y3. apply wr_trans.
    - intros sl [y acc] [y' acc'] _. destruct (HDeepCopy y sl) as [[y1 d1]|] eqn:E2; [|discriminate]. intros E. injection E as <- <-.
      cbn [fst]. eapply HDeepCopy_wr. exact E2.
  Qed.

  Section Run.
    Variables (P : HMT F) (nCore nChunks bG k rest : nat).
    (** The outcome of a step depends on the cells it reads only; where the memories agree before, they agree after. *)
    Lemma run_agree (A : nat -> Prop) t s m1 m2 : (forall a, reads P t s a -> A a) -> agree A m1 m2 ->
      same_outcome A (hmt_run ch P nCore nChunks bG k rest t (s, m1)) (hmt_run ch P nCore nChunks bG k rest t (s, m2)).
    Proof.
      intros C H. destruct s as [pc l eC fC rC w h ws0 k0]. unfold hmt_run, hrun, run, reads in *. cbn [main ws finC] in C.
      destruct t as [|x|x].
      - unfold step_main, written. cbn [ws]. destruct pc as [j|i mm acc|i e|i r j|i|mm g|g|o|o|o].
        + destruct (j <? nChunks)%nat; cbn; auto.
        + destruct (crecv _ eC) as [| |[e eC']]; cbn; auto. destruct (consumeEvals acc e); cbn; auto.
        + destruct (mtRound ch bG i l e) as [[l' r]|]; cbn; auto.
        + destruct (j <? length rC)%nat; cbn; auto.
        + destruct w; cbn; auto.
        + unfold crecv. destruct (cbuf fC) as [|[y q] b] eqn:Eb.
          * destruct (cclosed fC); cbn; [|exact I].
            rewrite (hmergeSub_agree (fun _ => False) nChunks m1 m2 g 0%nat hzSub).
            -- destruct (hmergeSub nChunks m2 g (0%nat, hzSub)); cbn; auto.
            -- split; [apply H|intros a []].
            -- intros a (s & Hs & Ha). cbn in Hs. destruct Hs as [<-|[<-|[<-|[]]]]; unfold cell, nilSlice in Ha; cbn in Ha; lia.
          * rewrite (hmergeSub_agree A nChunks m1 m2 g y q H C). destruct (hmergeSub nChunks m2 g (y, q)); cbn; auto.
        + rewrite (hmtFinish_agree A rest m1 m2 l g H C). destruct (hmtFinish ch rest m2 l g); cbn; auto.
        + destruct (cclose eC); cbn; auto.
        + destruct (cclose fC); cbn; auto.
        + exact I.
      - unfold step_helper, written. destruct (nth_error h x) as [[|r| |]|]; try exact I.
        + destruct (nth_error rC x) as [c|]; cbn; auto. destruct (csend 1 c r); cbn; auto.
        + destruct w; cbn; auto.
      - unfold step_worker, written. cbn [ws]. destruct (nth_error ws0 x) as [[| | |j p|j p e|j p|j p|j p r|j p r|p| | |]|]; try exact I.
        + destruct k0; cbn; auto.
        + pose proof (hsubInit_agree A P x m1 m2 H C) as HI. unfold orel, prel in HI.
          destruct (hsubInit P x m1) as [[y1 q1]|]; destruct (hsubInit P x m2) as [[y2 q2]|]; cbn in *; try contradiction; auto.
          destruct HI as [HI <-]. auto.
        + rewrite (hsubEvals_agree A m1 m2 j p H C). destruct (hsubMore j p); cbn; auto. destruct (hsubEvals m2 j p); cbn; auto.
        + destruct (csend nChunks eC e); cbn; auto.
        + destruct (k0 <? nCore)%nat; cbn; auto.
        + destruct (nth_error rC x) as [c|]; cbn; auto. destruct (crecv 0 c) as [| |[r c']]; cbn; auto.
        + destruct k0; cbn; auto.
        + pose proof (hsubFold_agree A m1 m2 j p r C H) as HI. unfold orel, prel in HI.
          destruct (hsubFold j p r m1) as [[y1 q1]|]; destruct (hsubFold j p r m2) as [[y2 q2]|]; cbn in *; try contradiction; auto.
          destruct HI as [HI <-]. auto.
        + destruct (csend nChunks fC (x, p)); cbn; auto.
        + destruct (k0 <? nCore)%nat; cbn; auto.
        + destruct (nth_error rC x) as [c|]; cbn; auto. destruct (cclose c); cbn; auto.
    Qed.

    Lemma run_writes t s m s' m' : hmt_run ch P nCore nChunks bG k rest t (s, m) = Gives (s', m') ->
      (length m <= length m')%nat /\ forall a, (a < length m)%nat -> ~ writes t s a -> nth a m' 0 = nth a m 0.
    Proof.
      intros E. change (wr (writes t s) m m'). unfold hmt_run, hrun in E. destruct (run _ _ _ _ _ _ _ _ _ _ _ _ _ _ t s) as [| |s1]; try discriminate.
      injection E as _ <-. destruct t as [|x|x]; try apply wr_refl. unfold written, writes.
      destruct (nth_error (ws s) x) as [[| | |j p|j p e|j p|j p|j p r|j p r|p| | |]|]; try apply wr_refl.
      - destruct (hsubInit P x m) as [[m1 w1]|] eqn:E1; [|apply wr_refl]. eapply wr_weaken; [|eapply hsubInit_wr; exact E1]. intros a _ [].
      - destruct (hsubFold j p r m) as [[m1 w1]|] eqn:E1; [|apply wr_refl]. eapply hsubFold_wr; [|exact E1]. auto.
    Qed.
  End Run.

  (** ** No race *)
  Lemma inv_no_race (m0 : list F) P o s m :
    Inv (Ipre m0 P) Irun IG (Ifr m0 (own0 P)) o s m -> ~ race P s.
  Proof.
    intros (I1 & I2 & I3 & I4 & I5 & I6) (t & t' & a & Hn & Hw & Hr).
    destruct t as [|x|x]; try contradiction. cbn [writes] in Hw.
    destruct (nth_error (ws s) x) as [[| | |j p|j p e|j p|j p|j p r|j p r|p| | |]|] eqn:Ex; try contradiction.
    assert (Hx : o a = Some x).
    { destruct Hw as (sl & Hs & Ha). destruct (I1 x _ Ex) as [_ Hh]. destruct (Hh p eq_refl) as [_ Ho]. exact (Ho sl Hs a Ha). }
    assert (Hrun : forall y w, Irun o y m w -> cells (tables1 (hsubProver w)) a -> y = x).
    { intros y w [_ Ho] (sl & Hs & Ha). pose proof (Ho sl Hs a Ha) as E. congruence. }
    assert (Hlate : forall y q, nth_error (ws s) y = Some q -> late q = true -> y <> x).
    { intros y q Hy Hq ->. rewrite Ex in Hy. injection Hy as <-. discriminate. }
    destruct t' as [|y|y].
    - destruct Hr as [Hr|[]]. cbn [reads] in Hr. destruct (main s) as [| | | | |mm g|g| | |] eqn:Em; try contradiction.
      + destruct (cbuf (finC s)) as [|[y w] b] eqn:Eb; [contradiction|]. destruct (I2 y w (or_introl eq_refl)) as (Hi & q & Hy & Hq).
        apply (Hlate y q Hy Hq). apply (Hrun y w Hi). destruct Hr as (sl & Hs & Ha). exists sl. split; [|exact Ha].
        unfold tables1. cbn in Hs |- *. tauto.
      + destruct (I3 0%nat g (or_intror eq_refl)) as (y & Hg & q & Hy & Hq). apply (Hlate y q Hy Hq).
        destruct Hr as (sl & Hs & Ha). destruct (Hg sl Hs) as [_ Ho]. pose proof (Ho a Ha). congruence.
    - destruct Hr as [[]|[]].
    - assert (Hxy : y <> x) by congruence.
      assert (Hr' : match nth_error (ws s) y with
        | Some WInit => cells (hStatic P) a
        | Some (WLoop _ w) | Some (WFold _ w _) => cells (tables1 (hsubProver w)) a
        | _ => False end).
      { destruct Hr as [Hr|Hr]; cbn [reads writes] in Hr; [exact Hr|]. destruct (nth_error (ws s) y) as [[]|]; try contradiction; exact Hr. }
      destruct (nth_error (ws s) y) as [[| | |j' p'|j' p' e|j' p'|j' p'|j' p' r'|j' p' r'|p'| | |]|] eqn:Ey; try contradiction.
      + destruct (I1 y _ Ey) as [He _]. destruct (He eq_refl) as [Hs0 _]. destruct Hr' as (sl & Hs & Ha).
        destruct (Hs0 sl Hs) as [_ Ho]. pose proof (Ho a Ha). congruence.
      + destruct (I1 y _ Ey) as [_ Hh]. apply Hxy, (Hrun y p' (Hh p' eq_refl) Hr').
      + destruct (I1 y _ Ey) as [_ Hh]. apply Hxy, (Hrun y p' (Hh p' eq_refl) Hr').
  Qed.

  Lemma reach_inv_heap (m : list F) P n nCore bG k rest : separateMT m P ->
    length (hVL P) = n -> length (hVR P) = n -> length (hEq P) = n ->
    forall sm, reach (hmt_step ch P nCore n bG k rest) (hmt_init nCore n m) sm ->
    exists o, Inv (Ipre m P) Irun IG (Ifr m (own0 P)) o (fst sm) (snd sm).
  Proof.
    intros Hsep L2 L3 L1 sm Hr. remember (hmt_init nCore n m) as i0 eqn:Ei. revert Ei.
    induction Hr as [i0|i0 sm1 sm2 Hr IH Hs]; intros Ei.
    - subst i0. exists (own0 P). unfold hmt_init. cbn [fst snd].
      unfold Inv, init. cbn [main ws toks rCs evC finC loc wg hs cbuf cclosed emptyChan]. split; [|split; [|split; [|split; [|split]]]].
      + intros x p Hx. apply nth_error_In, repeat_spec in Hx. subst p. split; [|cbn; discriminate]. intros _. apply (pre0 m P n L2 L3 L1 Hsep).
      + intros x w [].
      + intros ? ? [H|H]; discriminate.
      + discriminate.
      + intros k' x p _ _ Hx. apply nth_error_In, repeat_spec in Hx. exact Hx.
      + split; [lia|]. intros a Ha. auto.
    - destruct (IH Ei) as [o I]. destruct sm1 as [s1 m1]. destruct sm2 as [s2 m2]. cbn [fst snd] in *.
      inversion Hs as [t sm' Ht Esm|]. subst sm'.
      assert (Hsim : simulates [] 0 hzSub zSub n nCore k (hsubInit P) hsubMore hsubEvals hsubFold
        consumeEvals (mtRound ch bG) (hmergeSub n) (hmtFinish ch rest) (subInit (viewMT m P)) subMore subEvals subFold (mergeSub n)
        (mtFinish ch rest) viewSub viewMerged (Ipre m P) Irun IG (Ifr m (own0 P)) t s1 m1).
      { apply (sim (Gh:=Owner) [] 0 hzSub zSub n nCore k (hsubInit P) hsubMore hsubEvals hsubFold
        consumeEvals (mtRound ch bG) (hmergeSub n) (hmtFinish ch rest) (subInit (viewMT m P)) subMore subEvals subFold (mergeSub n)
        (mtFinish ch rest) viewSub viewMerged (Ipre m P) Irun IG (Ifr m (own0 P)) chg) with (o := o); [..|exact I].
        - intros o1 x m3. apply init_ok.
        - intros o1 x m3 w j _. reflexivity.
        - intros o1 x m3 w j _. reflexivity.
        - intros o1 x m3 w j r. apply fold_ok.
        - apply chg_pre.
        - apply chg_run.
        - apply chg_G.
        - intros x o1 m3 o' m' C. apply (chg_fr m (own0 P) x); auto.
        - intros o1 x m3 w. apply merge0_ok.
        - intros o1 x y m3 w g. apply merge1_ok.
        - intros o1 y m3 l g _. reflexivity. }
      unfold simulates in Hsim. rewrite Ht in Hsim. destruct Hsim as [_ H]. exact H.
  Qed.

  Theorem race_free (m : list F) P n nCore bG k rest : separateMT m P ->
    length (hVL P) = n -> length (hVR P) = n -> length (hEq P) = n ->
    forall s m', reach (hmt_step ch P nCore n bG k rest) (hmt_init nCore n m) (s, m') -> ~ race P s.
  Proof.
    intros Hsep L2 L3 L1 s m' Hr. destruct (reach_inv_heap m P n nCore bG k rest Hsep L2 L3 L1 _ Hr) as [o I].
    exact (inv_no_race m P o s m' I).
  Qed.
End L.
