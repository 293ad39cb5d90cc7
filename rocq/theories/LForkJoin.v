(** Every execution of the fork/join machine is panic-free, finite and ends with all work done. *)
From Coq Require Import List Arith Lia Bool.
From Verif Require Import Go Trans MForkJoin.
Import ListNotations.

Lemma nth_error_split2 {X} (l : list X) i x : nth_error l i = Some x ->
  exists l1 l2, l = l1 ++ x :: l2 /\ length l1 = i.
Proof. apply nth_error_split. Qed.

Lemma upd_app_mid {X} (l1 l2 : list X) x y : upd (l1 ++ x :: l2) (length l1) y = l1 ++ y :: l2.
Proof. induction l1 as [|a l1 IH]; simpl; [reflexivity|]. rewrite IH. reflexivity. Qed.

Section Cnt.
  Context {X : Type}.
  Definition cnt (f : X -> nat) (l : list X) : nat := list_sum (map f l).
  Lemma cnt_app f l m : cnt f (l ++ m) = cnt f l + cnt f m.
  Proof. unfold cnt. rewrite map_app, list_sum_app. reflexivity. Qed.
  Lemma cnt_cons f x l : cnt f (x :: l) = f x + cnt f l.
  Proof. reflexivity. Qed.
  Lemma cnt_upd f l i x y : nth_error l i = Some x -> cnt f (upd l i y) + f x = cnt f l + f y.
  Proof.
    intros H. apply nth_error_split in H. destruct H as (l1 & l2 & -> & <-).
    rewrite upd_app_mid, !cnt_app, !cnt_cons. lia.
  Qed.
  Lemma cnt_pos f l i x : nth_error l i = Some x -> f x <= cnt f l.
  Proof.
    intros H. apply nth_error_split in H. destruct H as (l1 & l2 & -> & <-).
    rewrite cnt_app, cnt_cons. lia.
  Qed.
  Lemma cnt_pos_ex f l : 0 < cnt f l -> exists i x, nth_error l i = Some x /\ 0 < f x.
  Proof.
    induction l as [|a l IH]; [cbn; lia|]. rewrite cnt_cons. intros H.
    destruct (f a) as [|k] eqn:E.
    - destruct IH as (i & x & H1 & H2); [lia|]. exists (S i), x. auto.
    - exists 0, a. simpl. split; [reflexivity|lia].
  Qed.
  Lemma cnt_repeat f x n : cnt f (repeat x n) = n * f x.
  Proof. induction n as [|n IH]; [reflexivity|]. simpl repeat. rewrite cnt_cons, IH. lia. Qed.
  Lemma cnt_zero f l : (forall i x, nth_error l i = Some x -> f x = 0) -> cnt f l = 0.
  Proof.
    intros H. destruct (cnt f l) eqn:E; [reflexivity|exfalso].
    destruct (cnt_pos_ex f l ltac:(lia)) as (i & x & H1 & H2). rewrite (H i x H1) in H2. lia.
  Qed.
End Cnt.

Lemma nth_error_upd {X} (l : list X) i j x :
  nth_error (upd l i x) j = if (i =? j) && (i <? length l) then Some x else nth_error l j.
Proof.
  revert i j; induction l as [|a l IH]; intros [|i] [|j]; simpl; auto.
  - rewrite andb_false_r. reflexivity.
  - rewrite IH. reflexivity.
Qed.

Section LFJ.
  Context {M A : Type}.
  Variable exec : A -> M -> option M.
  Variable prog : list (list A).
  Variable nTok : nat.
  Variables inMain closes : bool.
  Variable Inv : list A -> M -> Prop.
  Hypothesis Hexec : forall l1 a l2 m, Inv (l1 ++ a :: l2) m ->
    exists m', exec a m = Some m' /\ Inv (l1 ++ l2) m'.
  Hypothesis HnTok : 0 < nTok.

  Notation T := (length prog).
  Notation st := (@st M A).
  Notation tpc := (@tpc A).
  Notation step := (step exec prog nTok inMain closes).

  Definition holds (t : tpc) : nat := match t with TRun _ => 1 | _ => 0 end.
  Definition live (t : tpc) : nat := match t with TEnd => 0 | _ => 1 end.
  Definition mhold (p : mpc) : nat := match p with MGo _ => if inMain then 1 else 0 | _ => 0 end.
  Definition spawned (p : mpc) : nat := match p with MAcq k | MGo k => k | _ => T end.

  Definition left_of (p : list A) (t : tpc) : list A :=
    match t with TIdle | TAcq => p | TRun r => r | _ => [] end.
  Definition pend (t : list tpc) : list A :=
    concat (map (fun pt => left_of (fst pt) (snd pt)) (combine prog t)).

  Definition wgt (pt : list A * tpc) : nat :=
    match snd pt with
    | TIdle => length (fst pt) + 4 | TAcq => length (fst pt) + 3
    | TRun r => length r + 2 | TFin => 1 | TEnd => 0
    end.
  Definition mwgt (p : mpc) : nat :=
    match p with MAcq k => 2 * (T - k) + 3 | MGo k => 2 * (T - k) + 2 | MWait => 2 | MClose => 1 | MEnd => 0 end.
  Definition measure (s : st) : nat := mwgt (main s) + cnt wgt (combine prog (thr s)).

  Record J (s : st) : Prop := {
    j_len : length (thr s) = T;
    j_tok : toks s + cnt holds (thr s) + mhold (main s) = nTok;
    j_wg : wg s = cnt live (thr s);
    j_sp : forall i t, nth_error (thr s) i = Some t -> (t = TIdle <-> spawned (main s) <= i);
    j_main : match main s with
             | MAcq k => inMain = true /\ k < T
             | MGo k => k < T
             | MWait => True
             | MClose => closes = true /\ wg s = 0
             | MEnd => wg s = 0
             end;
    j_closed : closed s = true -> main s = MEnd;
    j_end : main s = MEnd -> closed s = closes;
    j_acq : inMain = true -> forall i, nth_error (thr s) i <> Some TAcq;
    j_inv : Inv (pend (thr s)) (mem s)
  }.

  Lemma pend_split t i x : length t = T -> nth_error t i = Some x ->
    exists l1 l2, pend t = l1 ++ left_of (nth i prog []) x ++ l2 /\
      forall y, pend (upd t i y) = l1 ++ left_of (nth i prog []) y ++ l2.
  Proof.
    unfold pend. intros HL Hx. apply nth_error_split in Hx. destruct Hx as (t1 & t2 & -> & Hi).
    assert (Hp : exists p1 p p2, prog = p1 ++ p :: p2 /\ length p1 = i).
    { destruct (nth_error prog i) eqn:E.
      - apply nth_error_split in E. destruct E as (p1 & p2 & -> & E). eauto.
      - apply nth_error_None in E. rewrite app_length in HL. simpl in HL. lia. }
    destruct Hp as (p1 & p & p2 & Ep & Hp1). rewrite Ep.
    assert (C : forall (z : tpc), combine (p1 ++ p :: p2) (t1 ++ z :: t2) = combine p1 t1 ++ (p, z) :: combine p2 t2).
    { clear - Hi Hp1. subst i. revert t1 Hp1. induction p1 as [|a p1 IH]; intros [|b t1] H; simpl in *; try discriminate; auto.
      intros z. rewrite IH by lia. reflexivity. }
    assert (En : nth i (p1 ++ p :: p2) [] = p) by (rewrite app_nth2, Hp1, Nat.sub_diag by lia; reflexivity).
    exists (concat (map (fun pt => left_of (fst pt) (snd pt)) (combine p1 t1))),
           (concat (map (fun pt => left_of (fst pt) (snd pt)) (combine p2 t2))).
    rewrite En. split.
    - rewrite C, map_app, concat_app. reflexivity.
    - intros y. rewrite <- Hi, upd_app_mid, C, map_app, concat_app. reflexivity.
  Qed.

  Lemma combine_nth_error {X Y} (l : list X) (m : list Y) i x y :
    nth_error l i = Some x -> nth_error m i = Some y -> nth_error (combine l m) i = Some (x, y).
  Proof.
    revert m i; induction l as [|a l IH]; intros [|b m] [|i]; simpl; try discriminate.
    - intros E1 E2. injection E1 as ->. injection E2 as ->. reflexivity.
    - apply IH.
  Qed.

  Lemma upd_combine {X Y} (l : list X) (m : list Y) i y :
    combine l (upd m i y) = match nth_error l i with Some x => upd (combine l m) i (x, y) | None => combine l m end.
  Proof.
    revert m i; induction l as [|a l IH]; intros [|b m] [|i]; simpl; auto.
    - destruct (nth_error l i); reflexivity.
    - rewrite IH. destruct (nth_error l i); reflexivity.
  Qed.

  Lemma wgt_upd t i x y : length t = T -> nth_error t i = Some x ->
    cnt wgt (combine prog (upd t i y)) + wgt (nth i prog [], x)
    = cnt wgt (combine prog t) + wgt (nth i prog [], y).
  Proof.
    intros HL Hx. assert (Hi : i < T) by (rewrite <- HL; apply nth_error_Some; congruence).
    assert (Ep : nth_error prog i = Some (nth i prog [])) by (apply nth_error_nth'; assumption).
    rewrite upd_combine, Ep. apply cnt_upd. apply combine_nth_error; assumption.
  Qed.

  Lemma J_init m : Inv (concat prog) m -> J (init prog nTok inMain m).
  Proof.
    intros H. assert (Hr : forall i t, nth_error (repeat (@TIdle A) T) i = Some t -> t = TIdle).
    { intros i t E. apply nth_error_In in E. eapply repeat_spec. exact E. }
    assert (Hz : forall f, f (@TIdle A) = 0 -> cnt f (repeat (@TIdle A) T) = 0).
    { intros f E. rewrite cnt_repeat, E. lia. }
    constructor; cbn [init main toks closed wg thr mem].
    - apply repeat_length.
    - rewrite Hz by reflexivity. unfold next, mhold. destruct (0 <? T), inMain; simpl; lia.
    - rewrite cnt_repeat. simpl. lia.
    - intros i t E. split; [|intros; eapply Hr; exact E].
      intros _. unfold next. destruct (Nat.ltb_spec 0 T); destruct inMain; simpl; try lia.
    - unfold next. destruct (Nat.ltb_spec 0 T); [|exact I]. destruct inMain; auto.
    - discriminate.
    - unfold next. destruct (0 <? T), inMain; discriminate.
    - intros _ i E. apply Hr in E. discriminate.
    - assert (E : pend (repeat TIdle T) = concat prog); [|rewrite E; exact H].
      unfold pend. clear. induction prog as [|p l IH]; simpl; [reflexivity|]. rewrite IH. reflexivity.
  Qed.

  Lemma spawned_next k : k <= T -> spawned (next prog inMain k) = k.
  Proof. intros H. unfold next. destruct (Nat.ltb_spec k T); destruct inMain; simpl; lia. Qed.

  Lemma mwgt_next k : k <= T -> mwgt (next prog inMain k) <= 2 * (T - k) + 3.
  Proof. intros H. unfold next. destruct (Nat.ltb_spec k T); destruct inMain; simpl; lia. Qed.

  (** Changing one created goroutine. *)
  Lemma thr_step s i x y :
    J s -> nth_error (thr s) i = Some x -> x <> TIdle -> y <> TIdle ->
    length (upd (thr s) i y) = T /\
    cnt holds (upd (thr s) i y) + holds x = cnt holds (thr s) + holds y /\
    cnt live (upd (thr s) i y) + live x = cnt live (thr s) + live y /\
    (forall j t, nth_error (upd (thr s) i y) j = Some t -> (t = TIdle <-> spawned (main s) <= j)) /\
    (cnt wgt (combine prog (upd (thr s) i y)) + wgt (nth i prog [], x)
      = cnt wgt (combine prog (thr s)) + wgt (nth i prog [], y)).
  Proof.
    intros Js E Hx Hy. destruct Js as [JL _ _ JS _ _ _ _ _].
    split; [rewrite upd_length; exact JL|]. split; [apply cnt_upd; exact E|].
    split; [apply cnt_upd; exact E|]. split; [|apply wgt_upd; assumption].
    intros j t Et. rewrite nth_error_upd in Et.
    destruct (Nat.eqb_spec i j) as [->|Hij]; cbn [andb] in Et; [|apply JS; exact Et].
    destruct (Nat.ltb_spec j (length (thr s))) as [Hlt|Hge].
    - injection Et as <-. specialize (JS j x E). tauto.
    - apply JS. exact Et.
  Qed.

  Lemma acq_upd t i y : (inMain = true -> forall j, nth_error t j <> Some TAcq) -> y <> @TAcq A ->
    inMain = true -> forall j, nth_error (upd t i y) j <> Some TAcq.
  Proof.
    intros H Hy Hm j. rewrite nth_error_upd. destruct ((i =? j) && (i <? length t)); [congruence|auto].
  Qed.

  Lemma J_step s o : J s -> step s o -> exists s', o = Some s' /\ J s' /\ measure s' < measure s.
  Proof.
    intros Js Hs. pose proof Js as Js0.
    destruct Hs as [k n c w t m | k w t m | k n c w t m | n c t m | n w t m | n w t m
      | i p n c w t m E | i p w t m E | i a r p n c w t m m' E Ex | i a r p n c w t m E Ex
      | i p n w t m E Hn | i p n w t m E | i p n c w t m E | i p n c t m E];
      destruct Js0 as [JL JT JW JS JM JC JE JA JI]; cbn [main toks closed wg thr mem] in *.
    - (* main Acquire *)
      destruct JM as [Hm Hk]. eexists. split; [reflexivity|]. split.
      + constructor; cbn [main toks closed wg thr mem]; auto.
        * simpl in *. rewrite Hm in *. lia.
        * intros Hc. specialize (JC Hc). discriminate.
        * discriminate.
      + unfold measure. cbn [main thr]. simpl. lia.
    - specialize (JC eq_refl). discriminate.
    - (* go *)
      set (y := if inMain then TRun (nth k prog []) else TAcq).
      assert (Hk : k < length t) by lia.
      destruct (nth_error t k) as [x|] eqn:E; [|apply nth_error_None in E; lia].
      assert (x = TIdle) by (apply (JS k x E); simpl; lia). subst x.
      assert (Hy : left_of (nth k prog []) y = nth k prog []) by (unfold y; destruct inMain; reflexivity).
      eexists. split; [reflexivity|]. fold y. split.
      + constructor; cbn [main toks closed wg thr mem].
        * rewrite upd_length. exact JL.
        * pose proof (cnt_upd holds t k _ y E) as C. cbn [holds] in C. simpl in JT.
          assert (mhold (next prog inMain (S k)) = 0).
          { unfold next, mhold. destruct (S k <? T), inMain; reflexivity. }
          unfold y in *. destruct inMain; cbn [holds] in C; lia.
        * pose proof (cnt_upd live t k _ y E) as C. cbn [live] in C.
          assert (live y = 1) by (unfold y; destruct inMain; reflexivity). lia.
        * intros j u Eu. rewrite spawned_next by lia. rewrite nth_error_upd in Eu.
          destruct (Nat.eqb_spec k j) as [->|Hkj]; cbn [andb] in Eu.
          -- destruct (Nat.ltb_spec j (length t)); [|lia]. injection Eu as <-.
             unfold y. destruct inMain; split; intros; try discriminate; lia.
          -- specialize (JS j u Eu). simpl in JS. rewrite JS. lia.
        * unfold next. destruct (Nat.ltb_spec (S k) T); [|exact I]. destruct inMain; auto.
        * intros Hc. specialize (JC Hc). discriminate.
        * unfold next. destruct (S k <? T), inMain; discriminate.
        * intros Hm j. apply acq_upd; auto. unfold y. rewrite Hm. discriminate.
        * destruct (pend_split t k _ JL E) as (l1 & l2 & E1 & E2). rewrite E2, Hy.
          cbn [left_of] in E1. rewrite <- E1. exact JI.
      + unfold measure. cbn [main thr]. pose proof (mwgt_next (S k) ltac:(lia)).
        pose proof (wgt_upd t k _ y JL E) as C. unfold wgt in C at 2 4. cbn [fst snd] in C.
        unfold mwgt at 2. unfold y in *. destruct inMain; cbn [fst snd] in C; lia.
    - (* wg.Wait *)
      eexists. split; [reflexivity|]. split.
      + constructor; cbn [main toks closed wg thr mem]; auto.
        * destruct closes; simpl in *; lia.
        * intros i u Eu. specialize (JS i u Eu). destruct closes; exact JS.
        * destruct closes; auto.
        * intros Hc. specialize (JC Hc). discriminate.
        * destruct closes; [discriminate|]. intros _.
          destruct c; [specialize (JC eq_refl); discriminate|reflexivity].
      + unfold measure. cbn [main thr]. destruct closes; simpl; lia.
    - (* Close *)
      eexists. split; [reflexivity|]. split.
      + constructor; cbn [main toks closed wg thr mem]; auto; try apply JM. destruct JM as [-> _]. reflexivity.
      + unfold measure. cbn [main thr]. simpl. lia.
    - specialize (JC eq_refl). discriminate.
    - (* goroutine Acquire *)
      destruct (thr_step _ i _ (TRun (nth i prog [])) Js E) as (H1 & H2 & H3 & H4 & H5); try discriminate.
      cbn [thr main] in *. eexists. split; [reflexivity|]. split.
      + constructor; cbn [main toks closed wg thr mem]; auto.
        * cbn [holds] in H2. lia.
        * cbn [live] in H3. lia.
        * apply acq_upd; [exact JA|discriminate].
        * destruct (pend_split t i _ JL E) as (l1 & l2 & E1 & E2). rewrite E2.
          cbn [left_of] in *. rewrite <- E1. exact JI.
      + unfold measure. cbn [main thr]. unfold wgt in H5 at 2 4. cbn [fst snd] in H5. lia.
    - specialize (JC eq_refl). subst p. simpl in JM.
      pose proof (cnt_pos live t i _ E) as C. cbn [live] in C. lia.
    - (* action *)
      destruct (thr_step _ i _ (TRun r) Js E) as (H1 & H2 & H3 & H4 & H5); try discriminate.
      cbn [thr main] in *. eexists. split; [reflexivity|]. split.
      + constructor; cbn [main toks closed wg thr mem]; auto.
        * cbn [holds] in H2. lia.
        * cbn [live] in H3. lia.
        * apply acq_upd; [exact JA|discriminate].
        * destruct (pend_split t i _ JL E) as (l1 & l2 & E1 & E2). rewrite E2.
          cbn [left_of] in *. rewrite E1 in JI.
          destruct (Hexec l1 a (r ++ l2) m JI) as (m'' & Em & Hm). congruence.
      + unfold measure. cbn [main thr]. unfold wgt in H5 at 2 4. cbn [fst snd length] in H5. lia.
    - exfalso. destruct (pend_split t i _ JL E) as (l1 & l2 & E1 & _). rewrite E1 in JI.
      destruct (Hexec l1 a (r ++ l2) m JI) as (m'' & Em & Hm). congruence.
    - (* Release *)
      destruct (thr_step _ i _ TFin Js E) as (H1 & H2 & H3 & H4 & H5); try discriminate.
      cbn [thr main] in *. eexists. split; [reflexivity|]. split.
      + constructor; cbn [main toks closed wg thr mem]; auto.
        * cbn [holds] in H2. lia.
        * cbn [live] in H3. lia.
        * apply acq_upd; [exact JA|discriminate].
        * destruct (pend_split t i _ JL E) as (l1 & l2 & E1 & E2). rewrite E2.
          cbn [left_of] in *. rewrite <- E1. exact JI.
      + unfold measure. cbn [main thr]. unfold wgt in H5 at 2 4. cbn [fst snd length] in H5. lia.
    - specialize (JC eq_refl). subst p. simpl in JM.
      pose proof (cnt_pos live t i _ E) as C. cbn [live] in C. lia.
    - (* Done *)
      destruct (thr_step _ i _ TEnd Js E) as (H1 & H2 & H3 & H4 & H5); try discriminate.
      cbn [thr main] in *. eexists. split; [reflexivity|]. split.
      + constructor; cbn [main toks closed wg thr mem]; auto.
        * cbn [holds] in H2. lia.
        * cbn [live] in H3. lia.
        * destruct p; auto; simpl in *; try (destruct JM; split; auto); lia.
        * apply acq_upd; [exact JA|discriminate].
        * destruct (pend_split t i _ JL E) as (l1 & l2 & E1 & E2). rewrite E2.
          cbn [left_of] in *. rewrite <- E1. exact JI.
      + unfold measure. cbn [main thr]. unfold wgt in H5 at 2 4. cbn [fst snd length] in H5. lia.
    - pose proof (cnt_pos live t i _ E) as C. cbn [live] in C. lia.
  Qed.

  (** A state with no step is final: all goroutines ended, the memory holds the result. *)
  Lemma J_final s : J s -> (forall o, ~ step s o) ->
    main s = MEnd /\ closed s = closes /\ toks s = nTok /\ Inv [] (mem s).
  Proof.
    intros Js Hno. destruct s as [p n c w t m]. pose proof Js as [JL JT JW JS JM JC JE JA JI].
    cbn [main toks closed wg thr mem] in *.
    (* someone inside the critical section can move *)
    assert (Hrun : forall i r, nth_error t i = Some (TRun r) -> c = false -> False).
    { intros i [|a r] E ->.
      - eapply Hno. eapply s_rel; [exact E|].
        pose proof (cnt_pos holds t i _ E) as C. cbn [holds] in C. lia.
      - destruct (exec a m) as [m'|] eqn:Ex; eapply Hno.
        + eapply s_exec; [exact E|exact Ex].
        + eapply s_exec_panic; [exact E|exact Ex]. }
    assert (Htok : n = 0 -> mhold p = 0 -> c = false -> False).
    { intros -> Hp Hc. destruct (cnt_pos_ex holds t ltac:(lia)) as (i & x & E & Hx).
      destruct x; cbn [holds] in Hx; try lia. eapply Hrun; eauto. }
    assert (Hc : p <> MEnd -> c = false) by (intros Hp; destruct c; [exfalso; auto|reflexivity]).
    destruct p as [k|k| | |].
    - exfalso. destruct n as [|n].
      + apply Htok; auto. apply Hc. discriminate.
      + eapply Hno. apply s_acq_main.
    - exfalso. eapply Hno. apply s_go.
    - exfalso. destruct w as [|w].
      + eapply Hno. apply s_wait.
      + destruct (cnt_pos_ex live t ltac:(lia)) as (i & x & E & Hx).
        assert (Hi : i < T) by (rewrite <- JL; apply nth_error_Some; congruence).
        destruct x; cbn [live] in Hx; try lia.
        * specialize (JS i TIdle E). simpl in JS. destruct JS as [JS _]. specialize (JS eq_refl). lia.
        * destruct n as [|n]; [apply Htok; auto; apply Hc; discriminate|].
          eapply Hno. eapply s_acq. exact E.
        * eapply Hrun; [exact E|]. apply Hc. discriminate.
        * eapply Hno. eapply s_done. exact E.
    - exfalso. rewrite Hc in Hno by discriminate. eapply Hno. apply s_close.
    - assert (He : forall i x, nth_error t i = Some x -> x = TEnd).
      { intros i x E. pose proof (cnt_pos live t i _ E) as C. destruct x; cbn [live] in C; try lia. reflexivity. }
      split; [reflexivity|]. split; [auto|]. split.
      + rewrite (cnt_zero holds t) in JT; [simpl in JT; lia|].
        intros i x E. rewrite (He i x E). reflexivity.
      + assert (E : pend t = []); [|rewrite E in JI; exact JI].
        unfold pend. clear - He JL. revert t JL He. induction prog as [|q l IH]; intros [|u t] JL He; simpl in *; try reflexivity; try lia.
        rewrite (He 0 u eq_refl). cbn [left_of app]. apply IH; [lia|].
        intros i x E. apply (He (S i) x E).
  Qed.

  (** All executions, from the initial state. *)
  Theorem fj_must m : Inv (concat prog) m ->
    must step (fun s => main s = MEnd /\ closed s = closes /\ toks s = nTok /\ Inv [] (mem s))
      (init prog nTok inMain m).
  Proof.
    intros H. apply (must_by_measure step J _ measure).
    - exact J_step.
    - exact J_final.
    - apply J_init. exact H.
  Qed.

  (** At most [nTok] goroutines are between Acquire and Release, in every reachable state. *)
  Theorem fj_bounded m s : Inv (concat prog) m ->
    reach step (init prog nTok inMain m) s -> cnt holds (thr s) <= nTok.
  Proof.
    intros H R.
    assert (Js : J s).
    { eapply (reach_inv step J); [|exact R|apply J_init; exact H].
      intros s1 s2 J1 H1. destruct (J_step _ _ J1 H1) as (s' & E & J' & _). injection E as <-. exact J'. }
    destruct Js as [_ JT _]. lia.
  Qed.
End LFJ.
