From Coq Require Import List Arith ZArith Lia Bool.
From Verif Require Import Go Trans MSem MForkJoin LForkJoin.
Import ListNotations.

Lemma NewSemaphore_ok n : (0 <= n)%Z ->
  NewSemaphore n = Ok (MkChan (Z.to_nat n) (Z.to_nat n) false).
Proof.
  intros H. unfold NewSemaphore. destruct (Z.ltb_spec n 0); [lia|].
  assert (E : forall k j N, k + j = N -> send_n k (MkChan N j false) = Ok (MkChan N N false)).
  { induction k as [|k IH]; intros j N E; cbn [send_n].
    - cbn in E. subst j. reflexivity.
    - unfold chan_send. cbn [cclosed ccount ccap]. destruct (Nat.ltb_spec j N); [|lia]. apply IH. lia. }
  apply E. lia.
Qed.

Definition isin (p : gpc) : nat := match p with MSem.In _ => 1 | _ => 0 end.

Lemma inside_cnt s : inside s = cnt isin (gor s).
Proof.
  unfold inside, cnt. induction (gor s) as [|p l IH]; [reflexivity|].
  destruct p; cbn [filter map list_sum isin length]; simpl; lia.
Qed.

Definition SJ (n : nat) (s : sys) : Prop :=
  ccap (sem s) = n /\ cclosed (sem s) = false /\ ccount (sem s) + inside s = n.

Lemma SJ_step n s o : SJ n s -> sem_step s o -> exists s', o = Some s' /\ SJ n s'.
Proof.
  intros (H1 & H2 & H3) Hs. rewrite inside_cnt in H3.
  destruct Hs as [i k c c' g E A | i k c g E A | i k c c' g E A | i k c g E A | k c g];
    cbn [sem gor] in *.
  - unfold Acquire, chan_recv in A. destruct (ccount c) as [|m] eqn:Ec; [rewrite H2 in A; discriminate|].
    injection A as <-. eexists. split; [reflexivity|].
    pose proof (cnt_upd isin g i _ (MSem.In k) E) as C. cbn [isin] in C.
    split; [exact H1|]. split; [exact H2|]. rewrite inside_cnt. cbn [sem gor ccount]. lia.
  - unfold Acquire, chan_recv in A. destruct (ccount c); [rewrite H2 in A|]; discriminate.
  - unfold Release, chan_send in A. rewrite H2 in A. destruct (Nat.ltb_spec (ccount c) (ccap c)) as [Hlt|]; [|discriminate].
    injection A as <-. eexists. split; [reflexivity|].
    pose proof (cnt_upd isin g i _ (Out k) E) as C. cbn [isin] in C.
    split; [exact H1|]. split; [reflexivity|]. rewrite inside_cnt. cbn [sem gor ccount]. lia.
  - unfold Release, chan_send in A. rewrite H2 in A. destruct (Nat.ltb _ _); discriminate.
  - eexists. split; [reflexivity|]. split; [exact H1|]. split; [exact H2|].
    rewrite inside_cnt. cbn [sem gor]. rewrite cnt_app. cbn. lia.
Qed.

Lemma SJ_reach n s s' : SJ n s -> reach sem_step s s' -> SJ n s'.
Proof.
  intros H R. eapply (reach_inv sem_step (SJ n)); [|exact R|exact H].
  intros s1 s2 H1 H2. destruct (SJ_step n s1 _ H1 H2) as (s3 & E & H3). injection E as <-. exact H3.
Qed.

Lemma SJ_init n c g : (0 <= n)%Z -> NewSemaphore n = Ok c ->
  (forall p, List.In p g -> exists k, p = Out k) -> SJ (Z.to_nat n) (MkSys c g).
Proof.
  intros Hn E Hg. rewrite NewSemaphore_ok in E by exact Hn. injection E as <-.
  split; [reflexivity|]. split; [reflexivity|]. rewrite inside_cnt. cbn [sem gor ccount].
  rewrite (cnt_zero isin g); [lia|]. intros i p E. apply nth_error_In in E.
  destruct (Hg p E) as [k ->]. reflexivity.
Qed.

Lemma sem_bounded n c g s : (0 <= n)%Z -> NewSemaphore n = Ok c ->
  (forall p, List.In p g -> exists k, p = Out k) -> reach sem_step (MkSys c g) s -> (inside s <= Z.to_nat n)%nat.
Proof. intros H1 H2 H3 R. destruct (SJ_reach _ _ _ (SJ_init n c g H1 H2 H3) R) as (_ & _ & H). lia. Qed.

Lemma sem_release_ok n c g s i k : (0 <= n)%Z -> NewSemaphore n = Ok c ->
  (forall p, List.In p g -> exists k, p = Out k) -> reach sem_step (MkSys c g) s ->
  nth_error (gor s) i = Some (MSem.In k) -> exists c', Release (sem s) = Ok c'.
Proof.
  intros H1 H2 H3 R E. destruct (SJ_reach _ _ _ (SJ_init n c g H1 H2 H3) R) as (A & B & C).
  rewrite inside_cnt in C. pose proof (cnt_pos isin _ _ _ E) as P. cbn [isin] in P.
  unfold Release, chan_send. rewrite B. destruct (Nat.ltb_spec (ccount (sem s)) (ccap (sem s))); [|lia]. eauto.
Qed.

Lemma sem_no_panic n c g s : (0 <= n)%Z -> NewSemaphore n = Ok c ->
  (forall p, List.In p g -> exists k, p = Out k) -> reach sem_step (MkSys c g) s -> ~ sem_step s None.
Proof.
  intros H1 H2 H3 R St. destruct (SJ_step _ _ _ (SJ_reach _ _ _ (SJ_init n c g H1 H2 H3) R) St) as (s' & E & _).
  discriminate.
Qed.

(** If anyone wants in or is in, someone already there can move (spawning not counted). *)
Lemma sem_progress n c g s i p : (1 <= n)%Z -> NewSemaphore n = Ok c ->
  (forall p, List.In p g -> exists k, p = Out k) -> reach sem_step (MkSys c g) s ->
  nth_error (gor s) i = Some p -> p <> Out 0 ->
  exists j k, (nth_error (gor s) j = Some (MSem.In k) /\ exists c', Release (sem s) = Ok c') \/
              (nth_error (gor s) j = Some (Out (S k)) /\ exists c', Acquire (sem s) = Ok c').
Proof.
  intros Hn H2 H3 R E Hp. destruct p as [[|k]|k]; [congruence| |].
  - destruct (SJ_reach _ _ _ (SJ_init n c g ltac:(lia) H2 H3) R) as (A & B & C).
    destruct (ccount (sem s)) as [|m] eqn:Ec.
    + rewrite inside_cnt in C. destruct (cnt_pos_ex isin (gor s) ltac:(lia)) as (j & q & Ej & Hq).
      destruct q as [|k']; cbn [isin] in Hq; [lia|]. exists j, k'. left. split; [exact Ej|].
      eapply sem_release_ok; eauto. lia.
    + exists i, k. right. split; [exact E|]. unfold Acquire, chan_recv. rewrite Ec. eauto.
  - exists i, k. left. split; [exact E|]. eapply sem_release_ok; eauto. lia.
Qed.

(** With capacity 0 nobody ever gets in: every Acquire blocks. *)
Lemma sem_zero c g s i k : NewSemaphore 0 = Ok c ->
  (forall p, List.In p g -> exists k, p = Out k) -> reach sem_step (MkSys c g) s ->
  nth_error (gor s) i = Some (Out (S k)) -> Acquire (sem s) = Block.
Proof.
  intros H2 H3 R E. destruct (SJ_reach _ _ _ (SJ_init 0 c g ltac:(lia) H2 H3) R) as (A & B & C).
  change (Z.to_nat 0) with 0 in C. unfold Acquire, chan_recv.
  destruct (ccount (sem s)); [rewrite B; reflexivity|lia].
Qed.

(** Fork/join with zero tokens never finishes. *)
Lemma fj_zero_deadlock {M A} (exec : A -> M -> option M) prog inMain closes m s :
  prog <> [] -> reach (step exec prog 0 inMain closes) (init prog 0 inMain m) s ->
  main s <> MEnd /\ mem s = m.
Proof.
  intros Hp R.
  assert (H : toks s = 0 /\ closed s = false /\ mem s = m /\ wg s = length prog /\
     (forall i t, nth_error (thr s) i = Some t -> t = TIdle \/ (t = TAcq)) /\
     (match main s with MAcq _ => inMain = true | MGo _ => inMain = false | MWait => True | _ => False end)).
  { eapply (reach_inv (step exec prog 0 inMain closes) (fun s => toks s = 0 /\ closed s = false /\ mem s = m /\ wg s = length prog /\
     (forall i t, nth_error (thr s) i = Some t -> t = TIdle \/ (t = TAcq)) /\
     (match main s with MAcq _ => inMain = true | MGo _ => inMain = false | MWait => True | _ => False end)));
      [|exact R|].
    - clear - Hp. intros s s' (H1 & H2 & H3 & H4 & H5 & H6) St. inversion St; subst; cbn [main toks closed wg thr mem] in *; try discriminate; try lia;
        try (exfalso; match goal with E : nth_error _ _ = Some _ |- _ => apply H5 in E; destruct E; discriminate end); try contradiction.
      + split; [exact H1|]. split; [exact H2|]. split; [reflexivity|]. split; [exact H4|]. split.
        * intros i u Eu. rewrite nth_error_upd in Eu. rewrite H6 in Eu.
          destruct ((k =? i) && (k <? length t)); [injection Eu as <-; auto|eauto].
        * unfold next. destruct (S k <? length prog); [|exact I]. rewrite H6. reflexivity.
      + exfalso. destruct prog; [congruence|discriminate].
    - cbn [init main toks closed wg thr mem]. repeat (split; [reflexivity|]). split.
      + intros i t E. apply nth_error_In in E. apply repeat_spec in E. left. exact E.
      + unfold next. destruct (0 <? length prog); [|exact I]. destruct inMain; reflexivity. }
  destruct H as (_ & _ & Hm & _ & _ & H). split; [|exact Hm]. destruct (main s); congruence || contradiction.
Qed.

Lemma new_semaphore_spec (n : Z) :
  NewSemaphore n = if (n <? 0)%Z then Panic else Ok (MkChan (Z.to_nat n) (Z.to_nat n) false).
Proof.
  destruct (Z.ltb_spec n 0) as [H|H].
  - unfold NewSemaphore. rewrite (proj2 (Z.ltb_lt n 0)) by exact H. reflexivity.
  - apply NewSemaphore_ok. exact H.
Qed.

(** [k] receives in a row *)
Fixpoint recv_n (k : nat) (c : Chan) : outcome :=
  match k with O => Ok c | S k => match Acquire c with Ok c' => recv_n k c' | o => o end end.

Lemma sem_close n c g s : (0 <= n)%Z -> NewSemaphore n = Ok c ->
  (forall p, List.In p g -> exists k, p = Out k) -> reach sem_step (MkSys c g) s ->
  exists c', Close (sem s) = Ok c' /\ Close c' = Panic /\ Release c' = Panic /\
             forall k, exists c'', recv_n k c' = Ok c''.
Proof.
  intros Hn E Hg R. destruct (SJ_reach _ _ _ (SJ_init n c g Hn E Hg) R) as (_ & Hc & _).
  unfold Close, chan_close at 1. rewrite Hc. eexists. split; [reflexivity|]. split; [reflexivity|]. split; [reflexivity|].
  intros k. generalize (ccount (sem s)). induction k as [|k IH]; intros j; cbn [recv_n]; [eauto|].
  unfold Acquire, chan_recv. cbn [ccount cclosed ccap]. destruct j as [|j]; apply IH.
Qed.
