(** Lemmas about MBench.v: the wait groups of the benchmark with several provers. *)
From Coq Require Import List Arith ZArith Lia Bool.
From Verif Require Import Field FrPrime Fr Go Trans MCommon MPoly Spec MCircuit SpecCircuit LCircuit MSumcheck SpecSumcheck MSumPar MGkr SpecGkr LGkr5
  MForkJoin LForkJoin MArk MHash SpecHash LHash LHash2 LHash3 MTests LTests LTests2 MBench.
Import ListNotations.

Section L.
  Context {A B : Type}.
  Variable setup : nat -> outcome A.
  Variable prove : A -> outcome B.
  Variable n : nat.
  Variable c0 : option B.
  Notation st := (@bst A B).
  Notation proc := (@bproc A B).
  Notation step := (bstep setup prove n).

  Definition ph (p : proc) : nat :=
    match p with PNew => 0 | PSetup => 1 | PReady _ => 2 | PWait _ => 3 | PProve _ => 4 | PStore _ => 5 | PDone => 6 | PEnd => 7 end.
  Definition below (k : nat) (p : proc) : nat := if ph p <? k then 1 else 0.

  Definition proves (i : nat) (b : B) : Prop := exists a, setup i = Ret a /\ prove a = Ret b.
  Definition right (i : nat) (p : proc) : Prop :=
    match p with PReady a | PWait a | PProve a => setup i = Ret a | PStore b => proves i b | PDone | PEnd => exists b, proves i b | _ => True end.

  Record Inv (s : st) : Prop := MkInv {
    i_len : length (procs s) = n;
    i_ready : ready s = cnt (below 3) (procs s);
    i_done : done s = cnt (below 7) (procs s);
    i_right : forall i p, nth_error (procs s) i = Some p -> right i p;
    i_go : (go s = 1 /\ (forall i p, nth_error (procs s) i = Some p -> ph p <= 3)) \/ (go s = 0 /\ ready s = 0 /\ (bm s = BDone \/ bm s = BEnd));
    i_main : match bm s with
             | BSpawn k => k < n /\ go s = 1 /\ forall i p, nth_error (procs s) i = Some p -> if i <? k then 1 <= ph p else p = PNew
             | BReady => go s = 1 /\ forall i p, nth_error (procs s) i = Some p -> 1 <= ph p
             | BGo => go s = 1 /\ ready s = 0
             | BDone => go s = 0
             | BEnd => go s = 0 /\ done s = 0
             end;
    i_cell : ((forall i p, nth_error (procs s) i = Some p -> ph p <= 5) /\ cell s = c0) \/
             (go s = 0 /\ exists i b, i < n /\ proves i b /\ cell s = Some b) }.

  Lemma bspawn_cases k : (bspawn n k = BSpawn k /\ k < n) \/ (bspawn n k = BReady /\ n <= k).
  Proof. unfold bspawn. destruct (Nat.ltb_spec k n); auto. Qed.

  Lemma below_1 k p : below k p <= 1.
  Proof. unfold below. destruct (_ <? _); lia. Qed.

  Lemma Inv_init : Inv (binit n c0).
  Proof.
    assert (HN : forall i p, nth_error (repeat (PNew : proc) n) i = Some p -> p = PNew).
    { intros i p H. apply nth_error_In in H. apply repeat_spec in H. exact H. }
    constructor; cbn [binit procs ready done go bm cell].
    - apply repeat_length.
    - rewrite cnt_repeat. cbn. lia.
    - rewrite cnt_repeat. cbn. lia.
    - intros i p H. rewrite (HN i p H). exact I.
    - left. split; [reflexivity|]. intros i p H. rewrite (HN i p H). cbn. lia.
    - destruct (bspawn_cases 0) as [(-> & H)|(-> & H)].
      + split; [exact H|]. split; [reflexivity|]. intros i p Hp. cbn. apply (HN i p Hp).
      + split; [reflexivity|]. intros i p Hp. apply nth_error_In in Hp. replace n with 0 in Hp by lia. destruct Hp.
    - left. split; [|reflexivity]. intros i p H. rewrite (HN i p H). cbn. lia.
  Qed.

  Lemma cnt_zero_all k (l : list proc) : cnt (below k) l = 0 -> forall i p, nth_error l i = Some p -> k <= ph p.
  Proof.
    intros H i p Hp. pose proof (cnt_pos (below k) l i p Hp). unfold below at 1 in H0. destruct (Nat.ltb_spec (ph p) k); lia.
  Qed.

  (** One goroutine goes to its next phase. *)
  Lemma Inv_upd m m' r r' g d d' l c c' i p q :
    Inv (MkB m r g d l c) -> nth_error l i = Some p -> ph q = S (ph p) -> right i q ->
    r' + below 3 p = r + below 3 q -> d' + below 7 p = d + below 7 q ->
    (m' = m /\ 1 <= ph p \/ (m = BSpawn i /\ p = PNew /\ m' = bspawn n (S i))) ->
    (ph p = 3 -> g = 0) ->
    (ph p <> 5 -> c' = c) -> (forall b, p = PStore b -> c' = Some b) ->
    Inv (MkB m' r' g d' (upd l i q) c').
  Proof.
    intros [H1 H2 H3 H4 H5 H6 H7] Hp Hq Hr Er Ed Hm Hg Hc Hs. cbn [procs ready done go bm cell] in *.
    assert (Hi : i < length l) by (apply nth_error_Some; congruence).
    assert (HU : forall j x, nth_error (upd l i q) j = Some x -> (j = i /\ x = q) \/ (j <> i /\ nth_error l j = Some x)).
    { intros j x Hx. rewrite nth_error_upd in Hx. destruct (Nat.eqb_spec i j) as [->|Hn].
      - replace (j <? length l) with true in Hx by (symmetry; apply Nat.ltb_lt; exact Hi). cbn in Hx. left. split; congruence.
      - right. split; [congruence|exact Hx]. }
    pose proof (cnt_upd (below 3) l i p q Hp) as C3. pose proof (cnt_upd (below 7) l i p q Hp) as C7.
    constructor; cbn [procs ready done go bm cell].
    - rewrite upd_length. exact H1.
    - lia.
    - lia.
    - intros j x Hx. destruct (HU j x Hx) as [(-> & ->)|(_ & Hx')]; [exact Hr|apply (H4 j x Hx')].
    - destruct H5 as [(G & HP)|(G & R & M)].
      + left. split; [exact G|]. intros j x Hx. destruct (HU j x Hx) as [(-> & ->)|(_ & Hx')]; [|apply (HP j x Hx')].
        rewrite Hq. pose proof (HP i p Hp). destruct (Nat.eq_dec (ph p) 3); [rewrite Hg in G by assumption; discriminate|lia].
      + right. split; [exact G|]. split.
        * assert (3 <= ph p) by (apply (cnt_zero_all 3 l) with (i := i); [lia|exact Hp]). unfold below in Er.
          destruct (Nat.ltb_spec (ph p) 3); [lia|]. destruct (Nat.ltb_spec (ph q) 3); lia.
        * destruct Hm as [(-> & _)|(-> & _)]; [exact M|destruct M; discriminate].
    - destruct Hm as [(-> & HP1)|(-> & -> & ->)].
      + destruct m as [k| | | |]; try exact H6.
        * destruct H6 as (K & G & HP). split; [exact K|]. split; [exact G|]. intros j x Hx. destruct (HU j x Hx) as [(-> & ->)|(_ & Hx')]; [|apply (HP j x Hx')].
          specialize (HP i p Hp). destruct (i <? k); [lia|]. subst p. cbn in HP1. lia.
        * destruct H6 as (G & HP). split; [exact G|]. intros j x Hx. destruct (HU j x Hx) as [(-> & ->)|(_ & Hx')]; [lia|apply (HP j x Hx')].
        * destruct H6 as (G & R). split; [exact G|]. assert (3 <= ph p) by (apply (cnt_zero_all 3 l) with (i := i); [lia|exact Hp]). unfold below in Er.
          destruct (Nat.ltb_spec (ph p) 3); [lia|]. destruct (Nat.ltb_spec (ph q) 3); lia.
        * destruct H6 as (G & R). split; [exact G|]. assert (7 <= ph p) by (apply (cnt_zero_all 7 l) with (i := i); [lia|exact Hp]).
          assert (ph q <= 7) by (destruct q; cbn; lia). lia.
      + destruct H6 as (K & G & HP). destruct (bspawn_cases (S i)) as [(-> & K')|(-> & K')].
        * split; [exact K'|]. split; [exact G|]. intros j x Hx. destruct (HU j x Hx) as [(-> & ->)|(Hn & Hx')].
          -- replace (i <? S i) with true by (symmetry; apply Nat.ltb_lt; lia). lia.
          -- specialize (HP j x Hx'). destruct (Nat.ltb_spec j i); destruct (Nat.ltb_spec j (S i)); auto; lia.
        * split; [exact G|]. intros j x Hx. destruct (HU j x Hx) as [(-> & ->)|(Hn & Hx')]; [lia|].
          specialize (HP j x Hx'). assert (j < length l) by (apply nth_error_Some; congruence). destruct (Nat.ltb_spec j i); [exact HP|lia].
    - destruct (Nat.eq_dec (ph p) 5) as [E5|N5].
      + destruct p; try discriminate. rewrite (Hs b eq_refl). right. split; [destruct H5 as [(_ & HP)|(G & _)]; [specialize (HP i _ Hp); cbn in HP; lia|exact G]|]. exists i, b. split; [lia|]. split; [apply (H4 i _ Hp)|reflexivity].
      + rewrite (Hc N5). destruct H7 as [(HP & E)|H7]; [|right; exact H7]. left. split; [|exact E].
        intros j x Hx. destruct (HU j x Hx) as [(-> & ->)|(_ & Hx')]; [|apply (HP j x Hx')]. pose proof (HP i p Hp). lia.
  Qed.

  Ltac rightof HI := match goal with Hn : nth_error _ _ = Some _ |- _ => exact (i_right _ HI _ _ Hn) end.

  Lemma Inv_step s s' : Inv s -> step s (Some s') -> Inv s'.
  Proof.
    intros HI Hs. inversion Hs; subst; clear Hs.
    - (* spawn *) pose proof HI as [H1 H2 H3 H4 H5 H6 H7]. cbn [procs ready done go bm cell] in *. destruct H6 as (K & G & HP).
      destruct (nth_error p k) as [x|] eqn:E; [|apply nth_error_None in E; lia]. pose proof (HP k x E) as Hx. rewrite Nat.ltb_irrefl in Hx. subst x.
      eapply Inv_upd; [exact HI|exact E|reflexivity|exact I|reflexivity|reflexivity|right; auto|discriminate|reflexivity|discriminate].
    - destruct HI as [H1 H2 H3 H4 H5 H6 H7]. cbn [procs ready done go bm cell] in *. destruct H6 as (G & HP).
      constructor; cbn [procs ready done go bm cell]; auto. destruct H5 as [H5|(_ & _ & [H|H])]; [left; exact H5|discriminate..].
    - destruct HI as [H1 H2 H3 H4 H5 H6 H7]. cbn [procs ready done go bm cell] in *. destruct H6 as (G & HP). injection G as ->.
      constructor; cbn [procs ready done go bm cell]; auto. destruct H7 as [H7|(HX & _)]; [left; exact H7|discriminate].
    - destruct HI as [H1 H2 H3 H4 H5 H6 H7]. cbn [procs ready done go bm cell] in *. subst g.
      constructor; cbn [procs ready done go bm cell]; auto. destruct H5 as [(H & _)|(_ & H & _)]; [discriminate|right; auto].
    - eapply Inv_upd; [exact HI|eassumption|reflexivity|assumption|reflexivity|reflexivity|left; split; [reflexivity|cbn; lia]|discriminate|reflexivity|discriminate].
    - eapply Inv_upd; [exact HI|eassumption|reflexivity|rightof HI|cbn; lia|reflexivity|left; split; [reflexivity|cbn; lia]|discriminate|reflexivity|discriminate].
    - eapply Inv_upd; [exact HI|eassumption|reflexivity|rightof HI|reflexivity|reflexivity|left; split; [reflexivity|cbn; lia]|reflexivity|reflexivity|discriminate].
    - eapply Inv_upd; [exact HI|eassumption|reflexivity|exists a; split; [rightof HI|assumption]|reflexivity|reflexivity|left; split; [reflexivity|cbn; lia]|discriminate|reflexivity|discriminate].
    - eapply Inv_upd; [exact HI|eassumption|reflexivity|exists b; rightof HI|reflexivity|reflexivity|left; split; [reflexivity|cbn; lia]|discriminate|cbn; congruence|congruence].
    - eapply Inv_upd; [exact HI|eassumption|reflexivity|rightof HI|reflexivity|cbn; lia|left; split; [reflexivity|cbn; lia]|discriminate|reflexivity|discriminate].
  Qed.

  Lemma Inv_reach s : reach step (binit n c0) s -> Inv s.
  Proof. intros H. apply (reach_inv step Inv) with (2 := H); [intros x y Hx Hy; exact (Inv_step x y Hx Hy)|apply Inv_init]. Qed.

  (** The only panics are those of the calls. *)
  Lemma Inv_panic s : Inv s -> step s None ->
    (exists i, i < n /\ setup i = Panics) \/ (exists i a, i < n /\ setup i = Ret a /\ prove a = Panics).
  Proof.
    intros HI Hs. inversion Hs; subst; clear Hs; pose proof HI as [H1 H2 H3 H4 H5 H6 H7]; cbn [procs ready done go bm cell] in *.
    - destruct H6 as (G & _). discriminate.
    - left. exists i. split; [rewrite <- H1; apply nth_error_Some; congruence|assumption].
    - exfalso. match goal with Hn : nth_error _ _ = Some _ |- _ => pose proof (cnt_zero_all 3 p (eq_sym H2) i _ Hn) as HX end. cbn in HX. lia.
    - right. exists i, a. split; [rewrite <- H1; apply nth_error_Some; congruence|]. split; [rightof HI|assumption].
    - exfalso. match goal with Hn : nth_error _ _ = Some _ |- _ => pose proof (cnt_zero_all 7 p (eq_sym H3) i _ Hn) as HX end. cbn in HX. lia.
  Qed.

  Lemma panic_before s : Inv s -> step s None ->
    (exists i, i < n /\ setup i = Panics) \/ (exists k p, nth_error (procs s) k = Some p /\ 4 <= ph p).
  Proof.
    intros HI Hs. inversion Hs; subst; clear Hs; pose proof HI as [H1 H2 H3 H4 H5 H6 H7]; cbn [procs ready done go bm cell] in *.
    - destruct H6 as (G & _). discriminate.
    - left. exists i. split; [rewrite <- H1; apply nth_error_Some; congruence|assumption].
    - exfalso. match goal with Hn : nth_error _ _ = Some _ |- _ => pose proof (cnt_zero_all 3 p (eq_sym H2) i _ Hn) as HX end. cbn in HX. lia.
    - right. exists i, (PProve a). split; [assumption|cbn; lia].
    - exfalso. match goal with Hn : nth_error _ _ = Some _ |- _ => pose proof (cnt_zero_all 7 p (eq_sym H3) i _ Hn) as HX end. cbn in HX. lia.
  Qed.

  Definition meas (s : st) : nat :=
    cnt (fun p => 7 - ph p) (procs s) + match bm s with BSpawn _ => 4 | BReady => 3 | BGo => 2 | BDone => 1 | BEnd => 0 end.

  Lemma cnt_lt (l : list proc) i p q : nth_error l i = Some p -> ph p < ph q -> cnt (fun p => 7 - ph p) (upd l i q) < cnt (fun p => 7 - ph p) l.
  Proof. intros H1 H2. pose proof (cnt_upd (fun p => 7 - ph p) l i p q H1) as HC. cbv beta in HC. assert (ph q <= 7) by (destruct q; cbn; lia). lia. Qed.

  Lemma meas_step s s' : Inv s -> step s (Some s') -> meas s' < meas s.
  Proof.
    intros HI Hs. inversion Hs; subst; unfold meas; cbn [procs bm];
      try (match goal with Hn : nth_error ?p ?i = Some ?x |- cnt _ (upd ?p ?i ?q) + _ < _ =>
             pose proof (cnt_lt p i x q Hn ltac:(cbn; lia)) as HC end; apply Nat.add_lt_mono_r; exact HC); try lia.
    pose proof HI as [H1 H2 H3 H4 H5 H6 H7]. cbn [procs ready done go bm cell] in *. destruct H6 as (K & G & HP).
    destruct (nth_error p k) as [x|] eqn:E; [|apply nth_error_None in E; lia]. pose proof (HP k x E) as Hx. rewrite Nat.ltb_irrefl in Hx. subst x.
    pose proof (cnt_lt p k PNew PSetup E ltac:(cbn; lia)). destruct (bspawn_cases (S k)) as [(-> & _)|(-> & _)]; lia.
  Qed.

  (** The end: everything done *)
  Definition Finished (s : st) : Prop :=
    bm s = BEnd /\ procs s = repeat PEnd n /\ ready s = 0 /\ go s = 0 /\ done s = 0 /\
    (n = 0 -> cell s = c0) /\ (0 < n -> exists i b, i < n /\ proves i b /\ cell s = Some b).

  Lemma all_end (l : list proc) : (forall i p, nth_error l i = Some p -> p = PEnd) -> l = repeat PEnd (length l).
  Proof.
    induction l as [|x l IH]; intros H; [reflexivity|]. cbn. rewrite (H 0 x eq_refl). f_equal. apply IH. intros i p Hp. apply (H (S i) p Hp).
  Qed.

  Lemma ended s : Inv s -> bm s = BEnd -> Finished s.
  Proof.
    intros [H1 H2 H3 H4 H5 H6 H7] E. rewrite E in H6. destruct H6 as (G & D). split; [exact E|].
    assert (HE : forall i p, nth_error (procs s) i = Some p -> p = PEnd).
    { intros i p Hp. assert (7 <= ph p) by (apply (cnt_zero_all 7 (procs s)) with (i := i); [lia|exact Hp]). destruct p; cbn in H; try lia. reflexivity. }
    split; [rewrite <- H1; apply all_end, HE|]. split; [destruct H5 as [(H & _)|(_ & H & _)]; [congruence|exact H]|].
    split; [exact G|]. split; [exact D|]. split.
    - intros ->. destruct H7 as [(_ & H7)|(_ & i & b & Hi & _)]; [exact H7|lia].
    - intros Hn. destruct H7 as [(HP & _)|(_ & H7)]; [|exact H7]. exfalso. destruct (nth_error (procs s) 0) as [p|] eqn:E0; [|apply nth_error_None in E0; lia].
      specialize (HP 0 p E0). rewrite (HE 0 p E0) in HP. cbn in HP. lia.
  Qed.

  Lemma bench_ok : (forall i, i < n -> exists b, proves i b) -> must step Finished (binit n c0).
  Proof.
    intros HR. apply (must_by_measure step Inv Finished meas); [| |apply Inv_init].
    - intros s [s'|] HI Hs.
      + exists s'. split; [reflexivity|]. split; [exact (Inv_step s s' HI Hs)|exact (meas_step s s' HI Hs)].
      + exfalso. destruct (Inv_panic s HI Hs) as [(i & Hi & E)|(i & a & Hi & E1 & E2)]; destruct (HR i Hi) as (b & a' & E3 & E4); congruence.
    - intros s HI Hn. apply (ended s HI). pose proof HI as [H1 H2 H3 H4 H5 H6 H7].
      (* a goroutine that is not at the end can go on, or waits for main *)
      assert (HP : forall i p, nth_error (procs s) i = Some p -> p = PNew \/ (exists a, p = PWait a /\ go s <> 0) \/ p = PEnd).
      { intros i p Hp. assert (Hi : i < n) by (rewrite <- H1; apply nth_error_Some; congruence). destruct (HR i Hi) as (b & a & E1 & E2).
        pose proof (H4 i p Hp) as Hr. destruct s as [m r g d l c]. cbn [procs ready done go bm cell] in *.
        destruct p as [| |a'|a'|a'|b'| |]; auto; cbn [right] in Hr.
        - exfalso. apply (Hn (Some (MkB m r g d (upd l i (PReady a)) c))). constructor; assumption.
        - exfalso. destruct r as [|r]; [pose proof (cnt_zero_all 3 l (eq_sym H2) i _ Hp) as HX; cbn in HX; lia|].
          apply (Hn (Some (MkB m r g d (upd l i (PWait a')) c))). constructor; assumption.
        - destruct g as [|g]; [|right; left; exists a'; split; [reflexivity|discriminate]]. exfalso.
          apply (Hn (Some (MkB m r 0 d (upd l i (PProve a')) c))). constructor; assumption.
        - exfalso. apply (Hn (Some (MkB m r g d (upd l i (PStore b)) c))). econstructor; [eassumption|congruence].
        - exfalso. apply (Hn (Some (MkB m r g d (upd l i PDone) (Some b')))). constructor; assumption.
        - exfalso. destruct d as [|d]; [pose proof (cnt_zero_all 7 l (eq_sym H3) i _ Hp) as HX; cbn in HX; lia|].
          apply (Hn (Some (MkB m r g d (upd l i PEnd) c))). constructor; assumption. }
      destruct s as [m r g d l c]. cbn [procs ready done go bm cell] in *. destruct m as [k| | | |]; [| | | |reflexivity]; exfalso.
      + apply (Hn (Some (MkB (bspawn n (S k)) r g d (upd l k PSetup) c))). constructor.
      + destruct H6 as (G & HS). assert (r = 0).
        { rewrite H2. apply cnt_zero. intros i x Hx. pose proof (HS i x Hx). destruct (HP i x Hx) as [->|[(a & -> & _)| ->]]; [cbn in H; lia|reflexivity..]. }
        rewrite H in Hn. apply (Hn (Some (MkB BGo 0 g d l c))). constructor.
      + destruct H6 as (-> & HS). apply (Hn (Some (MkB BDone r 0 d l c))). constructor.
      + subst g. assert (d = 0).
        { rewrite H3. apply cnt_zero. intros i x Hx. destruct (HP i x Hx) as [->|[(a & -> & G)| ->]]; [|congruence|reflexivity].
          destruct H5 as [(G & _)|(_ & R & _)]; [discriminate|]. rewrite R in H2. pose proof (cnt_zero_all 3 l (eq_sym H2) i _ Hx) as HX. cbn in HX. lia. }
        rewrite H in Hn. apply (Hn (Some (MkB BEnd r 0 0 l c))). constructor.
  Qed.

  (** The barrier: nothing is proved before everything is built, and the end comes after all proofs. *)
  Lemma barrier s i p : reach step (binit n c0) s -> nth_error (procs s) i = Some p -> 4 <= ph p ->
    bm s = BDone \/ bm s = BEnd.
  Proof.
    intros HR Hp H4. destruct (Inv_reach s HR) as [_ _ _ _ H5 _ _]. destruct H5 as [(_ & HP)|(_ & _ & H)]; [|exact H]. specialize (HP i p Hp). lia.
  Qed.
  Lemma barrier2 s : reach step (binit n c0) s -> bm s = BGo \/ bm s = BDone \/ bm s = BEnd -> forall j, j < n ->
    exists q, nth_error (procs s) j = Some q /\ 3 <= ph q.
  Proof.
    intros HR Hm j Hj. destruct (Inv_reach s HR) as [H1 H2 H3 H4 H5 H6 H7].
    destruct (nth_error (procs s) j) as [q|] eqn:E; [|apply nth_error_None in E; lia]. exists q. split; [reflexivity|].
    apply (cnt_zero_all 3 (procs s)) with (i := j); [|exact E]. rewrite <- H2.
    destruct Hm as [Hm|[Hm|Hm]]; rewrite Hm in H6.
    - apply H6.
    - destruct H5 as [(G & _)|(_ & R & _)]; [congruence|exact R].
    - destruct H5 as [(G & _)|(_ & R & _)]; [destruct H6; congruence|exact R].
  Qed.

  (** A goroutine whose setup does not return keeps main in front of the signal for ever; one whose proof does not return
      keeps it from the end. *)
  Lemma setup_stuck i s : i < n -> (forall a, setup i <> Ret a) -> reach step (binit n c0) s ->
    bm s <> BGo /\ bm s <> BDone /\ bm s <> BEnd /\ cell s = c0.
  Proof.
    intros Hi HS HR. pose proof (Inv_reach s HR) as HI. pose proof (barrier2 s HR) as HB.
    assert (HP : forall p, nth_error (procs s) i = Some p -> ph p <= 1).
    { intros p Hp. pose proof (i_right s HI i p Hp) as Hr. destruct p; cbn [ph right] in *; try lia; exfalso;
        [apply (HS _ Hr)..| | |];
        [destruct Hr as (? & Hr & _)|destruct Hr as (? & ? & Hr & _)|destruct Hr as (? & ? & Hr & _)]; apply (HS _ Hr). }
    assert (HM : bm s = BGo \/ bm s = BDone \/ bm s = BEnd -> False).
    { intros Hm. destruct (HB Hm i Hi) as (q & Hq & H3). specialize (HP q Hq). lia. }
    repeat split; try (intros E; apply HM; rewrite E; auto).
    destruct (i_cell s HI) as [(_ & E)|(G & _)]; [exact E|]. exfalso. apply HM. destruct (i_go s HI) as [(G' & _)|(_ & _ & H)]; [congruence|auto].
  Qed.
  Lemma prove_stuck i a s : i < n -> setup i = Ret a -> (forall b, prove a <> Ret b) -> reach step (binit n c0) s -> bm s <> BEnd.
  Proof.
    intros Hi HS HB HR E. pose proof (Inv_reach s HR) as HI. destruct (ended s HI E) as (_ & HP & _).
    pose proof (i_right s HI i PEnd) as Hr. rewrite HP in Hr. specialize (Hr ltac:(rewrite nth_error_repeat by exact Hi; reflexivity)).
    destruct Hr as (b & a' & E1 & E2). apply (HB b). congruence.
  Qed.

  (** ** Runs *)
  Lemma reach_trans s1 s2 s3 : reach step s1 s2 -> reach step s2 s3 -> reach step s1 s3.
  Proof. intros H1 H2. revert H1. induction H2 as [|s2 s3 s4 _ IH Hs]; intros H1; [exact H1|]. econstructor; [apply IH, H1|exact Hs]. Qed.
  Lemma reach_one s s' : step s (Some s') -> reach step s s'.
  Proof. intros H. econstructor; [constructor|exact H]. Qed.

  Definition mixed (X Y : nat -> proc) (k : nat) : list proc := map (fun i => if i <? k then Y i else X i) (seq 0 n).
  Lemma mixed_0 X Y : mixed X Y 0 = map X (seq 0 n).
  Proof. apply map_ext. intros i. reflexivity. Qed.
  Lemma mixed_n X Y : mixed X Y n = map Y (seq 0 n).
  Proof. apply map_ext_in. intros i Hi. apply in_seq in Hi. destruct (Nat.ltb_spec i n); [reflexivity|lia]. Qed.
  Lemma nth_error_map_seq {T} (f : nat -> T) k : k < n -> nth_error (map f (seq 0 n)) k = Some (f k).
  Proof. intros H. rewrite nth_error_map. rewrite (nth_error_nth' _ 0) by (rewrite seq_length; exact H). rewrite seq_nth by exact H. reflexivity. Qed.
  Lemma mixed_nth X Y k : k < n -> nth_error (mixed X Y k) k = Some (X k).
  Proof. intros H. unfold mixed. rewrite nth_error_map_seq by exact H. rewrite Nat.ltb_irrefl. reflexivity. Qed.
  Lemma list_nth_error_ext {T} (l m : list T) : (forall i, nth_error l i = nth_error m i) -> l = m.
  Proof.
    revert m. induction l as [|x l IH]; intros [|y m] H; [reflexivity|discriminate (H 0)|discriminate (H 0)|].
    pose proof (H 0) as H0. injection H0 as ->. f_equal. apply IH. intros i. apply (H (S i)).
  Qed.
  Lemma map_seq_upd (f g : nat -> proc) k y : k < n -> g k = y -> (forall i, i <> k -> g i = f i) ->
    upd (map f (seq 0 n)) k y = map g (seq 0 n).
  Proof.
    intros H1 H2 H3. apply list_nth_error_ext. intros j. rewrite nth_error_upd, map_length, seq_length.
    replace (k <? n) with true by (symmetry; apply Nat.ltb_lt; exact H1). rewrite andb_true_r.
    destruct (Nat.eqb_spec k j) as [->|Hn]; [rewrite nth_error_map_seq by exact H1; congruence|].
    destruct (Nat.lt_ge_cases j n) as [Hj|Hj]; [rewrite !nth_error_map_seq by exact Hj; rewrite H3 by auto; reflexivity|].
    transitivity (@None proc); [|symmetry]; apply nth_error_None; rewrite map_length, seq_length; exact Hj.
  Qed.
  Lemma mixed_S X Y k : k < n -> upd (mixed X Y k) k (Y k) = mixed X Y (S k).
  Proof.
    intros H. apply map_seq_upd; [exact H| |].
    - replace (k <? S k) with true by (symmetry; apply Nat.ltb_lt; lia). reflexivity.
    - intros i Hi. destruct (Nat.ltb_spec i (S k)); destruct (Nat.ltb_spec i k); auto; lia.
  Qed.

  Lemma run_all (St : nat -> list proc -> st) (X Y : nat -> proc) :
    (forall k l, k < n -> nth_error l k = Some (X k) -> reach step (St k l) (St (S k) (upd l k (Y k)))) ->
    reach step (St 0 (map X (seq 0 n))) (St n (map Y (seq 0 n))).
  Proof.
    intros H. rewrite <- (mixed_n X Y), <- (mixed_0 X Y). assert (HK : forall k, k <= n -> reach step (St 0 (mixed X Y 0)) (St k (mixed X Y k))).
    { induction k as [|k IH]; intros Hk; [constructor|]. eapply reach_trans; [apply IH; lia|]. rewrite <- (mixed_S X Y k) by lia.
      apply H; [lia|apply mixed_nth; lia]. }
    apply HK. lia.
  Qed.

  Lemma repeat_map {T} (x : T) k : repeat x k = map (fun _ => x) (seq 0 k).
  Proof. assert (H : forall j, repeat x k = map (fun _ => x) (seq j k)) by (induction k as [|k IH]; intros j; cbn; [reflexivity|]; f_equal; apply IH). apply H. Qed.

  (** All goroutines started *)
  Lemma reach_setups : reach step (binit n c0) (MkB BReady n 1 n (map (fun _ => PSetup) (seq 0 n)) c0).
  Proof.
    unfold binit. rewrite repeat_map.
    assert (E : bspawn n n = BReady) by (unfold bspawn; rewrite Nat.ltb_irrefl; reflexivity). rewrite <- E.
    apply (run_all (fun k l => MkB (bspawn n k) n 1 n l c0) (fun _ => PNew) (fun _ => PSetup)). intros k l Hk Hl.
    apply reach_one. destruct (bspawn_cases k) as [(-> & _)|(_ & ?)]; [|lia]. constructor.
  Qed.

  Variable a : nat -> A.
  Variable b : nat -> B.
  Hypothesis Ha : forall i, i < n -> setup i = Ret (a i).

  (** All goroutines about to prove *)
  Lemma reach_proves : reach step (binit n c0) (MkB BDone 0 0 n (map (fun i => PProve (a i)) (seq 0 n)) c0).
  Proof.
    eapply reach_trans; [apply reach_setups|]. eapply reach_trans.
    { apply (run_all (fun _ l => MkB BReady n 1 n l c0) (fun _ => PSetup) (fun i => PReady (a i))). intros k l Hk Hl.
      apply reach_one. constructor; [exact Hl|apply Ha, Hk]. }
    eapply reach_trans.
    { pose proof (run_all (fun k l => MkB BReady (n - k) 1 n l c0) (fun i => PReady (a i)) (fun i => PWait (a i))) as HR. cbv beta in HR.
      rewrite Nat.sub_0_r, Nat.sub_diag in HR. apply HR. intros k l Hk Hl. apply reach_one. replace (n - k) with (S (n - S k)) by lia. constructor. exact Hl. }
    eapply reach_trans; [apply reach_one, b_ready|]. eapply reach_trans; [apply reach_one, b_go|].
    apply (run_all (fun _ l => MkB BDone 0 0 n l c0) (fun i => PWait (a i)) (fun i => PProve (a i))). intros k l Hk Hl.
    apply reach_one. constructor. exact Hl.
  Qed.

  Hypothesis Hb : forall i, i < n -> prove (a i) = Ret (b i).

  (** All goroutines about to write _mimcProof at the same time *)
  Lemma reach_stores : reach step (binit n c0) (MkB BDone 0 0 n (map (fun i => PStore (b i)) (seq 0 n)) c0).
  Proof.
    eapply reach_trans; [apply reach_proves|].
    apply (run_all (fun _ l => MkB BDone 0 0 n l c0) (fun i => PProve (a i)) (fun i => PStore (b i))). intros k l Hk Hl.
    apply reach_one. econstructor; [exact Hl|apply Hb, Hk].
  Qed.

  Fixpoint cellAt (w j : nat) : option B :=
    match j with O => c0 | S j => if j =? w then cellAt w j else Some (b j) end.

  Lemma upd_same {T} (l : list T) k x : nth_error l k = Some x -> upd l k x = l.
  Proof. revert k. induction l as [|y l IH]; intros [|k] H; cbn in *; try discriminate; f_equal; [congruence|apply IH, H]. Qed.

  (** Any of the proofs may be the one that stays. *)
  Lemma reach_any w : w < n -> reach step (binit n c0) (MkB BEnd 0 0 0 (repeat PEnd n) (Some (b w))).
  Proof.
    intros Hw. eapply reach_trans; [apply reach_stores|]. eapply reach_trans.
    { pose proof (run_all (fun k l => MkB BDone 0 0 n l (cellAt w k)) (fun i => PStore (b i)) (fun i => if i =? w then PStore (b i) else PDone)) as HR.
      cbv beta in HR. change (cellAt w 0) with c0 in HR. apply HR. intros k l Hk Hl. cbn [cellAt]. destruct (k =? w).
      - rewrite upd_same by exact Hl. constructor.
      - apply reach_one. constructor. exact Hl. }
    eapply reach_trans.
    { apply reach_one. apply (p_store _ _ _ w (b w)). rewrite nth_error_map_seq by exact Hw. rewrite Nat.eqb_refl. reflexivity. }
    rewrite (map_seq_upd _ (fun _ => PDone)); [|exact Hw|reflexivity|intros i Hi; apply Nat.eqb_neq in Hi; rewrite Hi; reflexivity].
    eapply reach_trans.
    { pose proof (run_all (fun k l => MkB BDone 0 0 (n - k) l (Some (b w))) (fun _ => PDone) (fun _ => PEnd)) as HR. cbv beta in HR.
      rewrite Nat.sub_0_r, Nat.sub_diag in HR. apply HR. intros k l Hk Hl. apply reach_one. replace (n - k) with (S (n - S k)) by lia. constructor. exact Hl. }
    rewrite <- repeat_map. apply reach_one. constructor.
  Qed.
End L.

(** ** The MiMC prover in it *)
Lemma mimc_bench_item (ch : list Fr -> Fr) mtProve rnd m k bN n nCore nChunks i :
  0 < n -> n <= nCore -> nChunks / n = 2 ^ k -> bN = m + k + log2ceil n -> 0 < k ->
  follows_machine ch (nCore / n) (mtProve (nCore / n)) ->
  exists c inputs a pf, CreateMimcCircuit Arks = Some c /\ chunked k m 1 inputs /\ Assign c inputs = Some a /\
    mimcSetup Arks rnd bN n nCore nChunks i = Ret (nCore / n, c, a, inputs) /\
    mimcProve ch mtProve (nCore / n, c, a, inputs) = Ret pf /\
    GkrVerify ch (m + k) c pf inputs (nth 91 a []) = Some true.
Proof.
  intros Hn Hc Hk Hb K HF. assert (HC : 0 < nCore / n) by (apply Nat.div_str_pos; lia).
  destruct (random_inputs Fr (rnd i) m k) as (inputs & EI & HI & _).
  destruct (mimc_gkr_complete ch (nCore / n) (mtProve (nCore / n)) m k inputs HC HF K HI) as (c & a & pf & E1 & E2 & E3 & E4).
  exists c, inputs, a, pf. split; [exact E1|]. split; [exact HI|]. split; [exact E2|].
  split; [|split; [unfold mimcProve; rewrite E3; reflexivity|exact E4]].
  unfold mimcSetup. rewrite Hk, E1. assert (EB : gosub bN (log2ceil n) = Some (m + k)).
  { unfold gosub. replace (log2ceil n <=? bN) with true by (symmetry; apply Nat.leb_le; lia). f_equal. lia. }
  rewrite EB, EI. destruct (nCore / n) as [|x] eqn:EX; [lia|]. cbn [Nat.eqb]. rewrite E2. reflexivity.
Qed.

Lemma mimc_bench (ch : list Fr -> Fr) mtProve rnd m k bN n nCore nChunks c0 :
  0 < n -> n <= nCore -> nChunks / n = 2 ^ k -> bN = m + k + log2ceil n -> 0 < k ->
  follows_machine ch (nCore / n) (mtProve (nCore / n)) ->
  must (bstep (mimcSetup Arks rnd bN n nCore nChunks) (mimcProve ch mtProve) n)
    (fun s => bm s = BEnd /\ procs s = repeat PEnd n /\
       exists i c inputs a pf, i < n /\ randomInputs (rnd i) (2 ^ k) (m + k) = Some inputs /\
         CreateMimcCircuit Arks = Some c /\ Assign c inputs = Some a /\ cell s = Some pf /\
         GkrVerify ch (m + k) c pf inputs (nth 91 a []) = Some true)
    (binit n c0).
Proof.
  intros Hn Hc Hk Hb K HF. eapply must_mono; [|apply bench_ok].
  - intros s (E1 & E2 & _ & _ & _ & _ & HC). split; [exact E1|]. split; [exact E2|].
    destruct (HC Hn) as (i & b & Hi & (x & HS & HP) & EC).
    destruct (mimc_bench_item ch mtProve rnd m k bN n nCore nChunks i Hn Hc Hk Hb K HF) as (c & inputs & a & pf & F1 & F2 & F3 & F4 & F5 & F6).
    assert (ER : randomInputs (rnd i) (2 ^ k) (m + k) = Some inputs).
    { clear - F4 Hk Hb. unfold mimcSetup in F4. rewrite Hk in F4. assert (EB : gosub bN (log2ceil n) = Some (m + k)).
      { unfold gosub. replace (log2ceil n <=? bN) with true by (symmetry; apply Nat.leb_le; lia). f_equal. lia. }
      rewrite EB in F4. destruct (CreateMimcCircuit Arks) as [c'|]; [|discriminate]. destruct (randomInputs _ _ _) as [inp|]; [|discriminate].
      destruct (_ =? 0); [discriminate|]. destruct (Assign c' inp); [|discriminate]. congruence. }
    exists i, c, inputs, a, pf. assert (b = pf) as -> by congruence. repeat split; auto.
  - intros i Hi. destruct (mimc_bench_item ch mtProve rnd m k bN n nCore nChunks i Hn Hc Hk Hb K HF) as (c & inputs & a & pf & F1 & F2 & F3 & F4 & F5 & F6).
    exists pf, (nCore / n, c, a, inputs). auto.
Qed.

(** Fewer cores than goroutines: nothing is ever proved. *)
Lemma mimc_bench_cores (ch : list Fr -> Fr) mtProve rnd bN n nCore nChunks c0 s : nCore < n ->
  reach (bstep (mimcSetup Arks rnd bN n nCore nChunks) (mimcProve ch mtProve) n) (binit n c0) s ->
  bm s <> BGo /\ bm s <> BDone /\ bm s <> BEnd /\ cell s = c0.
Proof.
  intros Hn HR. refine (setup_stuck _ _ _ _ 0 s _ _ HR); [lia|]. intros x. unfold mimcSetup. rewrite (Nat.div_small nCore n) by exact Hn.
  destruct (bN' <- gosub bN (log2ceil n) ;; _) as [[? ?]|]; cbn; discriminate.
Qed.
(** Fewer chunks than goroutines: the division of randomInputs panics. *)
Lemma mimc_bench_chunks (ch : list Fr -> Fr) mtProve rnd bN n nCore nChunks c0 s : nChunks < n ->
  reach (bstep (mimcSetup Arks rnd bN n nCore nChunks) (mimcProve ch mtProve) n) (binit n c0) s ->
  bm s <> BGo /\ bm s <> BDone /\ bm s <> BEnd /\ cell s = c0.
Proof.
  intros Hn HR. refine (setup_stuck _ _ _ _ 0 s _ _ HR); [lia|]. intros x. unfold mimcSetup. rewrite (Nat.div_small nChunks n) by exact Hn.
  destruct (gosub bN (log2ceil n)); [|discriminate]. destruct (CreateMimcCircuit Arks); discriminate.
Qed.

Lemma bstart_none (A B : Type) (nProcesses : Z) (c0 : option B) : bstart (A:=A) nProcesses c0 = None <-> (nProcesses < 0)%Z.
Proof. unfold bstart. destruct (Z.ltb_spec nProcesses 0); split; intros; try discriminate; try lia; reflexivity. Qed.

(** The forms stated in PBench.v *)
Section Forms.
  Context (A B : Type) (setup : nat -> outcome A) (prove : A -> outcome B) (n : nat) (c0 : option B).
  Lemma bench_ends : (forall i, i < n -> exists a b, setup i = Ret a /\ prove a = Ret b) ->
    must (bstep setup prove n)
      (fun s => bm s = BEnd /\ procs s = repeat PEnd n /\ ready s = 0 /\ go s = 0 /\ done s = 0 /\
         (n = 0 -> cell s = c0) /\
         (0 < n -> exists i b, i < n /\ (exists a, setup i = Ret a /\ prove a = Ret b) /\ cell s = Some b))
      (binit n c0).
  Proof. intros H. apply bench_ok. intros i Hi. destruct (H i Hi) as (a & b & E). exists b, a. exact E. Qed.
  Lemma signal_first s i p : reach (bstep setup prove n) (binit n c0) s -> nth_error (procs s) i = Some p ->
    match p with PProve _ | PStore _ | PDone | PEnd => True | _ => False end -> bm s = BDone \/ bm s = BEnd.
  Proof. intros HR Hp Hm. apply (barrier setup prove n c0 s i p HR Hp). destruct p; try contradiction; cbn; lia. Qed.
  Lemma all_ready s j : reach (bstep setup prove n) (binit n c0) s -> bm s = BGo \/ bm s = BDone \/ bm s = BEnd -> j < n ->
    exists q, nth_error (procs s) j = Some q /\ match q with PNew | PSetup | PReady _ => False | _ => True end.
  Proof.
    intros HR Hm Hj. destruct (barrier2 setup prove n c0 s HR Hm j Hj) as (q & E & H). exists q. split; [exact E|].
    destruct q; cbn in H; auto; lia.
  Qed.
  Lemma only_panics s : reach (bstep setup prove n) (binit n c0) s -> bstep setup prove n s None ->
    (exists i, i < n /\ setup i = Panics) \/ (exists i a, i < n /\ setup i = Ret a /\ prove a = Panics).
  Proof. intros HR. apply (Inv_panic setup prove n c0 s), Inv_reach, HR. Qed.
  Lemma panics_iff : (exists s, reach (bstep setup prove n) (binit n c0) s /\ bstep setup prove n s None) <->
    (exists i, i < n /\ setup i = Panics) \/
    ((forall j, j < n -> exists a, setup j = Ret a) /\ exists i a, i < n /\ setup i = Ret a /\ prove a = Panics).
  Proof.
    split.
    - intros (s & HR & Hs). destruct (only_panics s HR Hs) as [H|(i & a & Hi & E1 & E2)]; [left; exact H|].
      assert (HC : (exists j, j < n /\ setup j = Panics) \/ (exists j, j < n /\ setup j = Blocks) \/ (forall j, j < n -> exists a, setup j = Ret a)).
      { clear. induction n as [|m IH]; [right; right; intros j Hj; lia|]. destruct IH as [(j & H1 & H2)|[(j & H1 & H2)|H]].
        - left. exists j. split; [lia|exact H2].
        - right. left. exists j. split; [lia|exact H2].
        - destruct (setup m) as [a| |] eqn:E.
          + right. right. intros j Hj. destruct (Nat.eq_dec j m) as [->|]; [exists a; exact E|apply H; lia].
          + left. exists m. split; [lia|exact E].
          + right. left. exists m. split; [lia|exact E]. }
      destruct HC as [H|[(j & Hj & Ej)|H]]; [left; exact H| |right; split; [exact H|exists i, a; auto]].
      destruct (setup_stuck setup prove n c0 j s Hj) as (_ & HD & HE & _); [intros a' H'; congruence|exact HR|].
      pose proof (Inv_reach setup prove n c0 s HR) as HI.
      left. destruct (panic_before setup prove n c0 s HI Hs) as [H|(k & p & H1 & H2)]; [exact H|].
      exfalso. destruct (barrier setup prove n c0 s k p HR H1 H2); contradiction.
    - intros [(i & Hi & E)|(HA & i & a & Hi & E1 & E2)].
      + eexists. split; [apply reach_setups|]. eapply p_setup_panic; [|exact E].
        apply (nth_error_map_seq n (fun _ => PSetup)). exact Hi.
      + set (f := fun j => match setup j with Ret x => x | _ => a end).
        eexists. split; [apply (reach_proves setup prove n c0 f)|].
        * intros j Hj. destruct (HA j Hj) as (x & Ex). unfold f. rewrite Ex. reflexivity.
        * eapply p_prove_panic; [apply (nth_error_map_seq n (fun j => PProve (f j))); exact Hi|]. unfold f. rewrite E1. exact E2.
  Qed.
  Lemma all_store a b : (forall i, i < n -> setup i = Ret (a i)) -> (forall i, i < n -> prove (a i) = Ret (b i)) ->
    exists s, reach (bstep setup prove n) (binit n c0) s /\ forall i, i < n -> nth_error (procs s) i = Some (PStore (b i)).
  Proof.
    intros Ha Hb. eexists. split; [apply (reach_stores setup prove n c0 a b Ha Hb)|]. intros i Hi. cbn [procs].
    apply (nth_error_map_seq n (fun j => PStore (b j))). exact Hi.
  Qed.
  Lemma any_proof a b w : (forall i, i < n -> setup i = Ret (a i)) -> (forall i, i < n -> prove (a i) = Ret (b i)) -> w < n ->
    reach (bstep setup prove n) (binit n c0) (MkB BEnd 0 0 0 (repeat PEnd n) (Some (b w))).
  Proof. intros Ha Hb. apply (reach_any setup prove n c0 a b Ha Hb). Qed.
End Forms.
