(** Lemmas about the test circuits of MGnarkTests.v. *)
From Coq Require Import List Arith NArith Lia Bool Ring Field.
From Verif Require Import Field Go MCommon MPoly Spec LSpec LPoly MHash SpecHash LCircuit MAux LAux MSnark SpecSnark LSnark LSnark2 LSnark3 LSnark7 LSnark9 LSnark10 LHash
  MGnarkTests SpecGnarkTests.
Import ListNotations.

Section L.
  Context {F : Field}.
  Add Field FfieldGT : (f_theory F).
  Open Scope F_scope.

  (** ** Rows of variables *)
  Lemma wires2_app {V} (a b : list (list V)) : forall s, wires2 s (a ++ b) = wires2 s a ++ wires2 (s + length (concat a)) b.
  Proof.
    induction a as [|x a IH]; intros s; cbn [app wires2 concat].
    - cbn [length]. rewrite Nat.add_0_r. reflexivity.
    - rewrite IH, app_length, Nat.add_assoc. reflexivity.
  Qed.
  Lemma wires2_one {V} (x : list V) s : wires2 s [x] = [seq s (length x)].
  Proof. reflexivity. Qed.

  Lemma free_cs_ok n : (0 < n)%nat -> cs_ok (MkCS n [] [] : CS F).
  Proof. intros H. split; [exact H|split; constructor]. Qed.

  (** A compiled circuit with the variables [shape] whose Define imposes [P]: it is solved exactly by the values
      satisfying [P]. *)
  Lemma solves_rows {V} (shape : list (list V)) cs' P (vals : list (list F)) :
    imposes (MkCS (1 + length (concat shape)) [] []) cs' P ->
    (forall w w', agree_below (1 + length (concat shape)) w w' -> P w -> P w') ->
    map (@length _) vals = map (@length _) shape ->
    (solves cs' (wires2 1 shape) (map (map Some) vals) <-> P (fun v => nth v (1 :: concat vals) 0)).
  Proof.
    intros (HO & HG & HI) Hext HL. set (n := (1 + length (concat shape))%nat) in *. set (w0 := fun v => nth v (1 :: concat vals) 0).
    assert (W0 : map (map w0) (wires2 1 shape) = vals).
    { apply (wires2_val (1 :: concat vals) [] shape vals [1] HL). rewrite app_nil_r. reflexivity. }
    assert (Hin : forall v, (0 < v < n)%nat -> In v (concat (wires2 1 shape))).
    { intros v Hv. clear - Hv. unfold n in Hv. clear n. assert (G : forall s, (s <= v < s + length (concat shape))%nat -> In v (concat (wires2 s shape))).
      { clear Hv. induction shape as [|x l IH]; intros s Hs; cbn [wires2 concat] in *; [cbn in Hs; lia|].
        rewrite app_length in Hs. apply in_or_app. unfold wires1. destruct (Nat.lt_ge_cases v (s + length x)) as [A|A].
        - left. apply in_seq. lia.
        - right. apply IH. lia. }
      apply G. lia. }
    assert (Hsame : forall w, w 0%nat = 1 -> map (map (fun v => Some (w v))) (wires2 1 shape) = map (map Some) vals -> agree_below n w w0).
    { intros w H1 E v Hv. destruct v as [|v]; [exact H1|]. rewrite <- W0 in E.
      assert (E' : map (fun v => Some (w v)) (concat (wires2 1 shape)) = map (fun v => Some (w0 v)) (concat (wires2 1 shape))).
      { rewrite !concat_map, E. f_equal. rewrite map_map. apply map_ext. intros r. rewrite map_map. reflexivity. }
      assert (Hv' : In (S v) (concat (wires2 1 shape))) by (apply Hin; lia).
      assert (G : forall l, map (fun v => Some (w v)) l = map (fun v => Some (w0 v)) l -> forall x, In x l -> w x = w0 x).
      { induction l as [|y l IH]; intros EE x Hx; [destruct Hx|]. cbn [map] in EE. injection EE as E1 E2. destruct Hx as [<-|Hx]; auto. }
      apply (G _ E'). exact Hv'. }
    split.
    - intros (w & [Hg Ha] & E). pose proof (proj2 (proj1 (HI w Hg) Ha)) as HP. apply (Hext w); [|exact HP].
      apply Hsame; [apply Hg|exact E].
    - intros HP. pose proof HG as (_ & _ & _ & Hex & _). destruct (Hex w0) as (w' & Hag & Hg').
      { split; [reflexivity|constructor]. }
      exists w'. split; [split; [exact Hg'|]|].
      + apply HI; [exact Hg'|]. split; [constructor|]. apply (Hext w0); [exact Hag|exact HP].
      + rewrite <- W0, map_map. apply map_ext_in. intros r Hr. rewrite map_map. apply map_ext_in. intros v Hv. f_equal. symmetry. apply Hag.
        assert (Hv' : In v (concat (wires2 1 shape))) by (apply in_concat; exists r; auto).
        apply wires2_in in Hv'. cbn [nbWires]. unfold n. lia.
  Qed.

  (** A witness with a variable that has no value solves nothing. *)
  Lemma unassigned_unsolved (cs : CS F) vs (ws : list (list (option F))) : In None (concat ws) -> ~ solves cs vs ws.
  Proof.
    intros H (w & _ & E). rewrite <- E in H. apply in_concat in H. destruct H as (r & Hr & H). apply in_map_iff in Hr.
    destruct Hr as (x & <- & _). apply in_map_iff in H. destruct H as (v & H & _). discriminate.
  Qed.

  (** A loop of assertions *)
  Lemma assert_loop {A} (f : A -> @M F unit) (P : A -> (nat -> F) -> Prop) (l : list A) (cs : CS F) : cs_ok cs ->
    (forall a cs1, In a l -> cs_ok cs1 -> grows cs cs1 -> exists cs2, f a cs1 = Some (tt, cs2) /\ imposes cs1 cs2 (P a)) ->
    exists cs', mfold (fun _ a => f a) l tt cs = Some (tt, cs') /\ imposes cs cs' (fun w => forall a, In a l -> P a w).
  Proof.
    revert cs. induction l as [|a l IH]; intros cs HO H.
    - exists cs. split; [reflexivity|]. apply (imposes_iff _ _ _ _ (computes_imposes _ _ (computes_refl _ HO))). intros w _. split; [intros _ a []|trivial].
    - destruct (H a cs (or_introl eq_refl) HO (grows_refl _)) as (c1 & E1 & I1).
      destruct (IH c1 (imposes_ok _ _ _ I1)) as (c2 & E2 & I2).
      { intros b c' Hb HO' HG'. apply H; [right; exact Hb|exact HO'|]. apply (grows_trans _ _ _ (imposes_grows _ _ _ I1) HG'). }
      exists c2. cbn [mfold]. rewrite (bind_eq _ _ _ _ _ E1). split; [exact E2|].
      apply (imposes_iff _ _ _ _ (imposes_trans _ _ _ _ _ I1 I2)). intros w _. split.
      + intros [X Y] b [<-|Hb]; auto.
      + intros X. split; [apply X; left; reflexivity|intros b Hb; apply X; right; exact Hb].
  Qed.

  (** ** Filling rows *)
  (** a row of [m] variables of which the first [n] have the values [x 0], [x 1], ... *)
  Definition prow (n m : nat) (x : nat -> F) : list (option F) := map (fun i => Some (x i)) (seq 0 n) ++ repeat None (m - n).
  Lemma prow_0 m x : prow 0 m x = repeat None m.
  Proof. unfold prow. cbn [seq map app]. rewrite Nat.sub_0_r. reflexivity. Qed.
  Lemma prow_length n m x : (n <= m)%nat -> length (prow n m x) = m.
  Proof. intros H. unfold prow. rewrite app_length, map_length, seq_length, repeat_length. lia. Qed.
  Lemma prow_step n m x : (n < m)%nat -> assign1 (prow n m x) n (x n) = Some (prow (S n) m x).
  Proof.
    intros H. unfold assign1. unfold prow at 1 2.
    replace (m - n)%nat with (S (m - S n)) by lia. cbn [repeat].
    assert (LL : length (map (fun i => Some (x i)) (seq 0 n)) = n) by (rewrite map_length, seq_length; reflexivity).
    rewrite (get_nth _ n None) by (rewrite app_length, LL; cbn [length]; lia).
    rewrite app_nth2, LL, Nat.sub_diag by lia. cbn [nth assignVar].
    rewrite set_some by (rewrite app_length, LL; cbn [length]; lia). f_equal.
    unfold prow. rewrite seq_S, map_app. cbn [map Nat.add]. rewrite (upd_at _ _ _ _ n LL), <- app_assoc. reflexivity.
  Qed.
  Lemma prow_full (l : list F) n : length l = n -> prow n n (fun i => nth i l 0) = map Some l.
  Proof.
    intros <-. unfold prow. rewrite Nat.sub_diag, app_nil_r. apply (list_ext None); [rewrite !map_length, seq_length; reflexivity|].
    intros i Hi. rewrite map_length, seq_length in Hi. rewrite nth_map_seq by exact Hi. rewrite (nth_map_lt _ _ _ _ 0) by exact Hi. reflexivity.
  Qed.
  Lemma prow_ext n m x y : (forall i, (i < n)%nat -> x i = y i) -> prow n m x = prow n m y.
  Proof. intros H. unfold prow. f_equal. apply map_ext_in. intros i Hi. apply in_seq in Hi. rewrite H by lia. reflexivity. Qed.
  Lemma assign1_fill n m x : (n <= m)%nat -> forN n (fun l i => assign1 l i (x i)) (repeat None m) = Some (prow n m x).
  Proof.
    intros Hn. destruct (forN_inv (fun k l => l = prow k m x) (fun l i => assign1 l i (x i)) n (repeat None m)) as (l & E & ->); [| |exact E].
    - symmetry. apply prow_0.
    - intros k l Hk ->. rewrite prow_step by lia. eexists. split; reflexivity.
  Qed.
  Lemma assign1_out (l : list (option F)) i x : (length l <= i)%nat -> assign1 l i x = None.
  Proof. intros H. unfold assign1. rewrite get_none by exact H. reflexivity. Qed.
  Lemma assign2_step (l : list (list (option F))) k n m x : (k < length l)%nat -> nth k l [] = prow n m x -> (n < m)%nat ->
    assign2 l k n (x n) = Some (upd l k (prow (S n) m x)).
  Proof.
    intros Hk E Hn. unfold assign2. rewrite (get_nth l k []) by exact Hk. rewrite E, prow_step by exact Hn. apply set_some. exact Hk.
  Qed.
  Lemma upd_nth {A} (l : list A) k d : (k < length l)%nat -> upd l k (nth k l d) = l.
  Proof.
    intros H. apply (list_ext d); [apply upd_length|]. intros i Hi. rewrite upd_length in Hi. destruct (Nat.eq_dec i k) as [->|Hne].
    - apply nth_upd_same. exact H.
    - apply nth_upd_other. lia.
  Qed.
  Lemma app_inj_len {A} (a a' b b' : list A) : a ++ b = a' ++ b' -> length a = length a' -> a = a' /\ b = b'.
  Proof. revert a'; induction a as [|x a IH]; intros [|y a'] E HL; try discriminate; [auto|]. injection E as -> E. injection HL as HL. destruct (IH a' E HL) as [-> ->]. auto. Qed.
  (** filling row [k] *)
  Lemma assign2_fill (l : list (list (option F))) k n m x : (k < length l)%nat -> nth k l [] = repeat None m -> (n <= m)%nat ->
    forN n (fun l i => assign2 l k i (x i)) l = Some (upd l k (prow n m x)).
  Proof.
    intros Hk Hl Hn. destruct (forN_inv (fun j l' => l' = upd l k (prow j m x)) (fun l i => assign2 l k i (x i)) n l) as (l' & E & ->); [| |exact E].
    - rewrite prow_0, <- Hl. symmetry. apply upd_nth. exact Hk.
    - intros j l' Hj ->. eexists. split; [|reflexivity].
      rewrite (assign2_step _ k j m x); [|rewrite upd_length; exact Hk|apply nth_upd_same; exact Hk|lia].
      f_equal. apply upd_upd.
  Qed.
  Lemma prow_firstn n m (r : list F) : length r = m -> (n <= m)%nat ->
    prow n m (fun i => nth i r 0) = map Some (firstn n r) ++ repeat None (m - n).
  Proof.
    intros HL Hn. unfold prow. f_equal. apply (list_ext None); [rewrite !map_length, seq_length, firstn_length; lia|].
    intros i Hi. rewrite map_length, seq_length in Hi. rewrite nth_map_seq by exact Hi.
    rewrite (nth_map_lt _ _ _ _ 0) by (rewrite firstn_length; lia). rewrite nth_firstn by exact Hi. reflexivity.
  Qed.

  Lemma rect_nth {A} n m (l : list (list A)) k : rect n m l -> (k < n)%nat -> length (nth k l []) = m.
  Proof. intros [H1 H2] Hk. apply H2, nth_In. lia. Qed.
  Lemma rect_concat {A} n m (l : list (list A)) : rect n m l -> length (concat l) = (n * m)%nat.
  Proof.
    intros [<- H]. induction l as [|x l IH]; [reflexivity|]. cbn [concat length Nat.mul]. rewrite app_length, IH, (H x); [reflexivity|left; reflexivity|].
    intros r Hr. apply H. right. exact Hr.
  Qed.
  Lemma rect_fresh n m : rect n m (freshRows (F:=F) n m).
  Proof. split; [apply repeat_length|]. intros r Hr. apply repeat_spec in Hr. subst r. apply repeat_length. Qed.
  Lemma rect_lens {A B} n m (l : list (list A)) (l' : list (list B)) : rect n m l -> rect n m l' -> map (@length _) l = map (@length _) l'.
  Proof.
    intros [H1 H2] [H3 H4]. transitivity (repeat m n).
    - rewrite <- H1. clear H1. induction l as [|x l IH]; [reflexivity|]. cbn [map repeat length]. rewrite (H2 x), IH; [reflexivity| |left; reflexivity].
      intros r Hr. apply H2. right. exact Hr.
    - rewrite <- H3. clear H3. induction l' as [|x l' IH]; [reflexivity|]. cbn [map repeat length]. rewrite (H4 x), IH; [reflexivity| |left; reflexivity].
      intros r Hr. apply H4. right. exact Hr.
  Qed.

  (** ** eq_test.go *)
  Lemma EqAssign_ok n m (H Q : list (list F)) (E : list F) : rect n m H -> rect n m Q -> length E = n ->
    (forall k, (k < n)%nat -> EvalEq (nth k Q []) (nth k H []) = Some (nth k E 0)) -> (n <= m)%nat ->
    EqAssign (EqWitness n m) H Q =
      Some (map (fun r => map Some (firstn n r) ++ repeat None (m - n)) H, map (fun r => map Some (firstn n r) ++ repeat None (m - n)) Q, map Some E).
  Proof.
    intros RH RQ LE HE Hn. pose proof RH as [LH _]. pose proof RQ as [LQ _]. unfold EqAssign, EqWitness. rewrite LH, LQ.
    pose (rowsOK := fun k (X : list (list F)) (e : list (list (option F))) =>
      length e = n /\ forall j, (j < n)%nat -> nth j e [] = if (j <? k)%nat then prow n m (fun i => nth i (nth j X []) 0) else repeat None m).
    match goal with |- forN n ?b ?s0 = _ =>
      destruct (forN_inv (fun k '(eH, eQ, eE) => rowsOK k H eH /\ rowsOK k Q eQ /\ eE = prow k n (fun i => nth i E 0)) b n s0) as ([[eH eQ] eE] & EE & R1 & R2 & ->) end.
    - assert (R0 : forall X, rowsOK 0%nat X (freshRows n m)).
      { intros X. split; [apply repeat_length|]. intros j Hj. cbn [Nat.ltb Nat.leb]. apply nth_repeat_lt. exact Hj. }
      split; [apply R0|]. split; [apply R0|]. symmetry. apply prow_0.
    - intros k [[eH eQ] eE] Hk ([A1 A2] & [B1 B2] & ->).
      match goal with |- exists _, match ?X with _ => _ end = _ /\ _ => assert (EX : X = Some (upd eH k (prow n m (fun i => nth i (nth k H []) 0)), upd eQ k (prow n m (fun i => nth i (nth k Q []) 0)))) end.
      { match goal with |- forN n ?b ?s0 = _ =>
          destruct (forN_inv (fun j '(h, q) => h = upd eH k (prow j m (fun i => nth i (nth k H []) 0)) /\ q = upd eQ k (prow j m (fun i => nth i (nth k Q []) 0))) b n s0) as ([h q] & E1 & -> & ->) end; [| |exact E1].
        - rewrite !prow_0. specialize (A2 k Hk). specialize (B2 k Hk). rewrite Nat.ltb_irrefl in A2, B2. split; [rewrite <- A2|rewrite <- B2]; symmetry; apply upd_nth; lia.
        - intros j [h q] Hj [-> ->].
          rewrite (get_nth H k []) by lia. rewrite (get_nth (nth k H []) j 0) by (rewrite (rect_nth n m H k RH Hk); lia).
          rewrite (assign2_step _ k j m (fun i => nth i (nth k H []) 0)) by (rewrite ?upd_length; try lia; apply nth_upd_same; lia).
          rewrite (get_nth Q k []) by lia. rewrite (get_nth (nth k Q []) j 0) by (rewrite (rect_nth n m Q k RQ Hk); lia).
          rewrite (assign2_step _ k j m (fun i => nth i (nth k Q []) 0)) by (rewrite ?upd_length; try lia; apply nth_upd_same; lia).
          eexists. split; [reflexivity|]. rewrite !upd_upd. auto. }
      rewrite EX. rewrite (get_nth Q k []), (get_nth H k []) by lia. rewrite HE by exact Hk.
      rewrite (prow_step k n (fun i => nth i E 0)) by exact Hk. eexists. split; [reflexivity|].
      assert (St : forall X e, rowsOK k X e -> rowsOK (S k) X (upd e k (prow n m (fun i => nth i (nth k X []) 0)))).
      { intros X e [C1 C2]. split; [rewrite upd_length; exact C1|]. intros j Hj. destruct (Nat.eq_dec j k) as [->|Hne].
        - rewrite nth_upd_same by lia. rewrite (proj2 (Nat.ltb_lt k (S k))) by lia. reflexivity.
        - rewrite nth_upd_other by lia. rewrite C2 by exact Hj. destruct (Nat.ltb_spec j (S k)), (Nat.ltb_spec j k); auto; lia. }
      split; [apply St; split; assumption|]. split; [apply St; split; assumption|reflexivity].
    - rewrite EE. assert (Fin : forall X e, rect n m X -> rowsOK n X e -> e = map (fun r => map Some (firstn n r) ++ repeat None (m - n)) X).
      { intros X e RX [C1 C2]. pose proof RX as [LX _]. apply (list_ext []); [rewrite map_length; congruence|]. intros j Hj. rewrite C1 in Hj.
        rewrite C2 by exact Hj. rewrite (proj2 (Nat.ltb_lt j n)) by exact Hj. rewrite (nth_map_lt _ _ _ _ []) by lia.
        apply prow_firstn; [apply (rect_nth n m X j RX Hj)|exact Hn]. }
      rewrite (Fin H eH RH R1), (Fin Q eQ RQ R2). rewrite (prow_full E n LE). reflexivity.
  Qed.

  Lemma EqAssign_panics n m (H Q : list (list F)) : rect n m H -> length Q = n -> (m < n)%nat -> EqAssign (EqWitness n m) H Q = None.
  Proof.
    intros RH LQ Hm. pose proof RH as [LH _]. unfold EqAssign. rewrite LH, LQ. unfold forN at 1. destruct n as [|n]; [lia|]. cbn [seq foldM].
    unfold EqWitness.
    assert (G : forall s0 : list (list (option F)) * list (list (option F)), forN (S n) (fun '(eH, eQ) j =>
        hk <- get H 0 ;; x <- get hk j ;; eH <- assign2 eH 0 j x ;;
        qk <- get Q 0 ;; y <- get qk j ;; eQ <- assign2 eQ 0 j y ;;
        Some (eH, eQ)) s0 = None).
    { intros s0. unfold forN. replace (S n) with (m + S (n - m))%nat by lia. rewrite seq_app, foldM_app.
      match goal with |- match ?X with _ => _ end = None => destruct X as [[a b]|]; [|reflexivity] end.
      cbn [seq foldM Nat.add]. rewrite (get_nth H 0 []) by lia. rewrite get_none by (rewrite (rect_nth (S n) m H 0 RH); lia). reflexivity. }
    rewrite G. reflexivity.
  Qed.

  Lemma EqDefine_ok n m cs vH vQ vE : EqCompile (F:=F) n m = (cs, (vH, vQ, vE)) ->
    exists cs', EqDefine vH vQ vE cs = Some (tt, cs') /\
      forall H Q E, rect n m H -> rect n m Q -> length E = n ->
        (solves cs' (vH ++ vQ ++ [vE]) (map (map Some) (H ++ Q ++ [E])) <->
         forall k, (k < n)%nat -> EvalEq (nth k H []) (nth k Q []) = Some (nth k E 0)).
  Proof.
    intros EC. unfold EqCompile in EC. set (rows := freshRows n m) in *. injection EC as <- <- <- <-.
    pose proof (rect_fresh n m) as RR. fold rows in RR.
    set (s1 := S (length (concat rows))). set (s2 := (s1 + length (concat rows))%nat).
    set (shape := rows ++ rows ++ [repeat (None : option F) n]).
    assert (LS : (1 + length (concat shape))%nat = (s2 + n)%nat).
    { unfold shape. rewrite !concat_app. cbn [concat]. rewrite !app_length, repeat_length. cbn [length]. unfold s2, s1. lia. }
    assert (WS : wires2 1 shape = wires2 1 rows ++ wires2 s1 rows ++ [seq s2 n]).
    { unfold shape. rewrite !wires2_app, wires2_one, repeat_length. reflexivity. }
    pose (vH := wires2 1 rows). pose (vQ := wires2 s1 rows). pose (vE := seq s2 n).
    assert (LH : length vH = n). { unfold vH. rewrite <- (map_length (@length _)), wires2_len, map_length. apply RR. }
    assert (LQ : length vQ = n). { unfold vQ. rewrite <- (map_length (@length _)), wires2_len, map_length. apply RR. }
    assert (RvH : rect n m vH).
    { split; [exact LH|]. intros r Hr. assert (Hl : In (length r) (map (@length _) vH)) by (apply in_map; exact Hr).
      unfold vH in Hl. rewrite wires2_len in Hl. apply in_map_iff in Hl. destruct Hl as (r' & <- & Hr'). apply RR. exact Hr'. }
    assert (RvQ : rect n m vQ).
    { split; [exact LQ|]. intros r Hr. assert (Hl : In (length r) (map (@length _) vQ)) by (apply in_map; exact Hr).
      unfold vQ in Hl. rewrite wires2_len in Hl. apply in_map_iff in Hl. destruct Hl as (r' & <- & Hr'). apply RR. exact Hr'. }
    assert (BH : forall r v, In r vH -> In v r -> (v < s2 + n)%nat).
    { intros r v Hr Hv. assert (X : In v (concat vH)) by (apply in_concat; exists r; auto). apply wires2_in in X. unfold s2, s1. lia. }
    assert (BQ : forall r v, In r vQ -> In v r -> (v < s2 + n)%nat).
    { intros r v Hr Hv. assert (X : In v (concat vQ)) by (apply in_concat; exists r; auto). apply wires2_in in X. unfold s2, s1. lia. }
    fold vH vQ vE. set (cs := MkCS (s2 + n) [] [] : CS F).
    assert (HO : cs_ok cs) by (apply free_cs_ok; unfold s2, s1; lia).
    destruct (assert_loop (fun i => mbind (lift (get vH i)) (fun hi => mbind (lift (get vQ i)) (fun qi => mbind (SEqEval hi qi) (fun h =>
        mbind (lift (get vE i)) (fun e => cAssertIsEqual h e)))))
      (fun i w => EvalEq (map w (nth i vH [])) (map w (nth i vQ [])) = Some (w (nth i vE 0%nat))) (seq 0 (length vH)) cs HO) as (cs' & E' & HI).
    { intros i c1 Hi HO1 HG1. apply in_seq in Hi. rewrite LH in Hi.
      rewrite (bind_lift _ _ _ _ (get_nth vH i [] ltac:(lia))). rewrite (bind_lift _ _ _ _ (get_nth vQ i [] ltac:(lia))).
      assert (N1 : (s2 + n <= nbWires c1)%nat) by apply HG1.
      assert (V1 : vars c1 (nth i vH [])). { intros v Hv. eapply Nat.lt_le_trans; [|exact N1]. apply (BH (nth i vH [])); [apply nth_In; lia|exact Hv]. }
      assert (V2 : vars c1 (nth i vQ [])). { intros v Hv. eapply Nat.lt_le_trans; [|exact N1]. apply (BQ (nth i vQ [])); [apply nth_In; lia|exact Hv]. }
      destruct (SEqEval_native c1 (nth i vH []) (nth i vQ []) HO1 V1 V2) as [(HX & _)|(_ & r & c2 & X2 & C2 & V & HV)].
      { rewrite (rect_nth n m vH i RvH), (rect_nth n m vQ i RvQ) in HX by lia. lia. }
      rewrite (bind_eq _ _ _ _ _ X2).
      assert (HE0 : (i < length vE)%nat) by (unfold vE; rewrite seq_length; lia).
      rewrite (bind_lift _ _ _ _ (get_nth vE i 0%nat HE0)).
      assert (N2 : (nbWires c1 <= nbWires c2)%nat) by apply C2.
      assert (Be : (nth i vE 0 < nbWires c2)%nat). { unfold vE. rewrite seq_nth by lia. lia. }
      destruct (cAssert_ok c2 r (nth i vE 0%nat) (fun w => w r) (fun w => w (nth i vE 0%nat)) (computes_ok _ _ C2) (val1_id _ _ (V r (or_introl eq_refl))) (val1_id _ _ Be)) as (c3 & X3 & I3).
      exists c3. split; [exact X3|]. pose proof (imposes_trans _ _ _ _ _ (computes_imposes _ _ C2) I3) as I. apply (imposes_iff _ _ _ _ I).
      intros w Hw. rewrite (HV w) by (apply (grows_gates _ _ _ (imposes_grows _ _ _ I3)); exact Hw). split; [intros [_ ->]; reflexivity|].
      intros EQ. split; [trivial|]. injection EQ. auto. }
    exists cs'. split; [exact E'|]. intros H Q E RH RQ LE. match goal with |- solves _ ?v _ <-> _ => change v with (vH ++ vQ ++ [vE]) end. fold vH vQ vE in WS. rewrite <- WS.
    unfold cs in HI. rewrite <- LS in HI. rewrite (solves_rows shape cs' _ (H ++ Q ++ [E]) HI).
    - assert (W0 : map (map (fun v => nth v (1 :: concat (H ++ Q ++ [E])) 0)) (wires2 1 shape) = H ++ Q ++ [E]).
      { apply (wires2_val _ [] shape (H ++ Q ++ [E]) [1]); [|rewrite app_nil_r; reflexivity]. unfold shape. rewrite !map_app.
        rewrite (rect_lens n m H rows RH RR), (rect_lens n m Q rows RQ RR). cbn [map]. rewrite LE, repeat_length. reflexivity. }
      rewrite WS, !map_app in W0. pose proof RH as [LH' _]. pose proof RQ as [LQ' _].
      apply app_inj_len in W0; [|rewrite map_length; congruence]. destruct W0 as [W1 W0].
      apply app_inj_len in W0; [|rewrite map_length; congruence]. destruct W0 as [W2 W3]. cbn [map] in W3. injection W3 as W3.
      set (w := fun v => nth v (1 :: concat (H ++ Q ++ [E])) 0) in *.
      assert (WH : forall k, (k < n)%nat -> map w (nth k vH []) = nth k H []). { intros k Hk. rewrite <- W1. rewrite (nth_map_lt _ _ _ _ []) by lia. reflexivity. }
      assert (WQ : forall k, (k < n)%nat -> map w (nth k vQ []) = nth k Q []). { intros k Hk. rewrite <- W2. rewrite (nth_map_lt _ _ _ _ []) by lia. reflexivity. }
      assert (WE : forall k, (k < n)%nat -> w (nth k vE 0%nat) = nth k E 0). { intros k Hk. rewrite <- W3. rewrite (nth_map_lt _ _ _ _ 0%nat) by (unfold vE; rewrite seq_length; lia). reflexivity. }
      split.
      + intros X k Hk. assert (Hk' : In k (seq 0 (length vH))) by (apply in_seq; lia). specialize (X k Hk'). fold (w (nth k vE 0%nat)) in X. rewrite WH, WQ, WE in X by exact Hk. exact X.
      + intros X k Hk. apply in_seq in Hk. fold (w (nth k vE 0%nat)). rewrite WH, WQ, WE by lia. apply X. lia.
    - intros w w' Hag X k Hk. specialize (X k Hk). apply in_seq in Hk. rewrite LS in Hag.
      assert (M1 : map w' (nth k vH []) = map w (nth k vH [])). { apply map_ext_in. intros v Hv. symmetry. apply Hag. apply (BH (nth k vH [])); [apply nth_In; lia|exact Hv]. }
      assert (M2 : map w' (nth k vQ []) = map w (nth k vQ [])). { apply map_ext_in. intros v Hv. symmetry. apply Hag. apply (BQ (nth k vQ [])); [apply nth_In; lia|exact Hv]. }
      rewrite M1, M2, X. f_equal. apply Hag. unfold vE. rewrite seq_nth by lia. lia.
    - unfold shape. rewrite !map_app. rewrite (rect_lens n m H rows RH RR), (rect_lens n m Q rows RQ RR). cbn [map]. rewrite LE, repeat_length. reflexivity.
  Qed.

  Lemma eqprod_sym (q h : list F) : length q = length h -> eqprod q h = eqprod h q.
  Proof.
    revert h. induction q as [|x q IH]; intros [|y h] HL; try discriminate; [reflexivity|]. injection HL as HL. cbn [eqprod]. rewrite (IH h HL). ring.
  Qed.
  Lemma EvalEq_sym (q h : list F) : length q = length h -> EvalEq q h = EvalEq h q.
  Proof. intros HL. rewrite !EvalEq_spec by lia. f_equal. apply eqprod_sym. exact HL. Qed.

  (** TestEq with [n] tests of [m] elements: passes for n = m, has unassigned variables for n < m, panics for n > m. *)
  Lemma eq_values n m (H Q : list (list F)) : rect n m H -> rect n m Q ->
    exists E, length E = n /\ forall k, (k < n)%nat -> EvalEq (nth k Q []) (nth k H []) = Some (nth k E 0) /\ EvalEq (nth k H []) (nth k Q []) = Some (nth k E 0).
  Proof.
    intros RH RQ. exists (map (fun k => eqprod (nth k Q []) (nth k H [])) (seq 0 n)). rewrite map_length, seq_length. split; [reflexivity|].
    intros k Hk. rewrite nth_map_seq by exact Hk. rewrite (EvalEq_sym (nth k H [])) by (rewrite (rect_nth n m H k RH Hk), (rect_nth n m Q k RQ Hk); reflexivity).
    rewrite EvalEq_spec by (rewrite (rect_nth n m H k RH Hk), (rect_nth n m Q k RQ Hk); lia). auto.
  Qed.
  Lemma EqTest_square n cs vH vQ vE H Q : EqCompile (F:=F) n n = (cs, (vH, vQ, vE)) -> rect n n H -> rect n n Q ->
    exists cs' eH eQ eE, EqDefine vH vQ vE cs = Some (tt, cs') /\ EqAssign (EqWitness n n) H Q = Some (eH, eQ, eE) /\
      solves cs' (vH ++ vQ ++ [vE]) (eH ++ eQ ++ [eE]).
  Proof.
    intros EC RH RQ. destruct (EqDefine_ok _ _ _ _ _ _ EC) as (cs' & E1 & HS). destruct (eq_values n n H Q RH RQ) as (E & LE & HE).
    exists cs'. eexists. eexists. eexists. split; [exact E1|].
    split; [apply (EqAssign_ok n n H Q E RH RQ LE); [intros k Hk; apply HE; exact Hk|lia]|].
    assert (Full : forall X : list (list F), rect n n X -> map (fun r => map Some (firstn n r) ++ repeat None (n - n)) X = map (map Some) X).
    { intros X [_ RX]. apply map_ext_in. intros r Hr. rewrite Nat.sub_diag, app_nil_r, <- (RX r Hr), firstn_all. reflexivity. }
    rewrite (Full H RH), (Full Q RQ).
    replace (map (map Some) H ++ map (map Some) Q ++ [map Some E]) with (map (map (@Some F)) (H ++ Q ++ [E])) by (rewrite !map_app; reflexivity).
    apply (HS H Q E RH RQ LE). intros k Hk. apply HE. exact Hk.
  Qed.
  Lemma EqTest_rectangular n m cs vH vQ vE H Q : (0 < n < m)%nat -> EqCompile (F:=F) n m = (cs, (vH, vQ, vE)) -> rect n m H -> rect n m Q ->
    exists cs' eH eQ eE, EqDefine vH vQ vE cs = Some (tt, cs') /\ EqAssign (EqWitness n m) H Q = Some (eH, eQ, eE) /\
      ~ solves cs' (vH ++ vQ ++ [vE]) (eH ++ eQ ++ [eE]).
  Proof.
    intros Hn EC RH RQ. destruct (EqDefine_ok _ _ _ _ _ _ EC) as (cs' & E1 & HS). destruct (eq_values n m H Q RH RQ) as (E & LE & HE).
    exists cs'. eexists. eexists. eexists. split; [exact E1|].
    split; [apply (EqAssign_ok n m H Q E RH RQ LE); [intros k Hk; apply HE; exact Hk|lia]|].
    apply unassigned_unsolved. rewrite !concat_app. apply in_or_app. left. destruct H as [|r H]; [destruct RH as [RH _]; cbn in RH; lia|].
    cbn [map concat]. apply in_or_app. left. apply in_or_app. right. destruct (m - n)%nat as [|d] eqn:ED; [lia|]. left. reflexivity.
  Qed.

  (** ** hash/mimc_test.go *)
  Lemma HashAssign_ok Arks n m (x : list (list F)) (y : list F) : rect n m x -> length y = n ->
    (forall k, (k < n)%nat -> MimcHash Arks (nth k x []) = Some (nth k y 0)) ->
    HashAssign Arks (HashWitness n m) x = Some (map (map Some) x, map Some y).
  Proof.
    intros RX LY HY. pose proof RX as [LX _]. unfold HashAssign, HashWitness. rewrite LX.
    match goal with |- forN n ?b ?s0 = _ =>
      destruct (forN_inv (fun k '(e, eY) => (length e = n /\ forall j, (j < n)%nat -> nth j e [] = if (j <? k)%nat then map Some (nth j x []) else repeat None m) /\
        eY = prow k n (fun i => nth i y 0)) b n s0) as ([e eY] & EE & [C1 C2] & ->) end.
    - split; [|symmetry; apply prow_0]. split; [apply repeat_length|]. intros j Hj. cbn [Nat.ltb Nat.leb]. apply nth_repeat_lt. exact Hj.
    - intros k [e eY] Hk ([A1 A2] & ->). rewrite (get_nth x k []) by lia. pose proof (rect_nth n m x k RX Hk) as LK. rewrite LK.
      match goal with |- exists _, match ?X with _ => _ end = _ /\ _ => assert (EX : X = Some (upd e k (map Some (nth k x [])))) end.
      { rewrite <- (prow_full (nth k x []) m LK).
        match goal with |- forN m ?b ?s0 = _ => destruct (forN_inv (fun j h => h = upd e k (prow j m (fun i => nth i (nth k x []) 0))) b m s0) as (h & E1 & ->) end; [| |exact E1].
        - rewrite prow_0. specialize (A2 k Hk). rewrite Nat.ltb_irrefl in A2. rewrite <- A2. symmetry. apply upd_nth. lia.
        - intros j h Hj ->. rewrite (get_nth (nth k x []) j 0) by lia.
          rewrite (assign2_step _ k j m (fun i => nth i (nth k x []) 0)) by (rewrite ?upd_length; try lia; apply nth_upd_same; lia).
          eexists. split; [reflexivity|]. rewrite upd_upd. reflexivity. }
      rewrite EX, (HY k Hk). rewrite (prow_step k n (fun i => nth i y 0)) by exact Hk. eexists. split; [reflexivity|]. split; [|reflexivity].
      split; [rewrite upd_length; exact A1|]. intros j Hj. destruct (Nat.eq_dec j k) as [->|Hne].
      + rewrite nth_upd_same by lia. rewrite (proj2 (Nat.ltb_lt k (S k))) by lia. reflexivity.
      + rewrite nth_upd_other by lia. rewrite A2 by exact Hj. destruct (Nat.ltb_spec j (S k)), (Nat.ltb_spec j k); auto; lia.
    - rewrite EE, (prow_full y n LY). repeat f_equal. apply (list_ext []); [rewrite map_length; congruence|]. intros j Hj. rewrite C1 in Hj.
      rewrite C2 by exact Hj. rewrite (proj2 (Nat.ltb_lt j n)) by exact Hj. rewrite (nth_map_lt _ _ _ _ []) by lia. reflexivity.
  Qed.

  Lemma HashDefine_ok Arks n m cs vX vY : (91 <= length Arks)%nat -> HashCompile (F:=F) n m = (cs, (vX, vY)) ->
    exists cs', HashDefine Arks vX vY cs = Some (tt, cs') /\
      forall X Y, rect n m X -> length Y = n ->
        (solves cs' (vX ++ [vY]) (map (map Some) (X ++ [Y])) <->
         forall k, (k < n)%nat -> MimcHash Arks (nth k X []) = Some (nth k Y 0)).
  Proof.
    intros HA EC. unfold HashCompile in EC. set (rows := freshRows n m) in *. injection EC as <- <- <-.
    pose proof (rect_fresh n m) as RR. fold rows in RR.
    set (s1 := S (length (concat rows))).
    set (shape := rows ++ [repeat (None : option F) n]).
    assert (LS : (1 + length (concat shape))%nat = (s1 + n)%nat).
    { unfold shape. rewrite !concat_app. cbn [concat]. rewrite !app_length, repeat_length. cbn [length]. unfold s1. lia. }
    assert (WS : wires2 1 shape = wires2 1 rows ++ [seq s1 n]).
    { unfold shape. rewrite !wires2_app, wires2_one, repeat_length. reflexivity. }
    pose (vX := wires2 1 rows). pose (vY := seq s1 n).
    assert (LX : length vX = n). { unfold vX. rewrite <- (map_length (@length _)), wires2_len, map_length. apply RR. }
    assert (BX : forall r v, In r vX -> In v r -> (v < s1 + n)%nat).
    { intros r v Hr Hv. assert (X : In v (concat vX)) by (apply in_concat; exists r; auto). apply wires2_in in X. unfold s1. lia. }
    set (cs := MkCS (s1 + n) [] [] : CS F).
    assert (HO : cs_ok cs) by (apply free_cs_ok; unfold s1; lia).
    destruct (assert_loop (fun i => mbind (lift (get vX i)) (fun xk => mbind (SMimcHash Arks xk) (fun y => mbind (lift (get vY i)) (fun yk => cAssertIsEqual yk y))))
      (fun i w => MimcHash Arks (map w (nth i vX [])) = Some (w (nth i vY 0%nat))) (seq 0 (length vX)) cs HO) as (cs' & E' & HI).
    { intros i c1 Hi HO1 HG1. apply in_seq in Hi. rewrite LX in Hi.
      rewrite (bind_lift _ _ _ _ (get_nth vX i [] ltac:(lia))).
      assert (N1 : (s1 + n <= nbWires c1)%nat) by apply HG1.
      assert (V1 : vars c1 (nth i vX [])). { intros v Hv. eapply Nat.lt_le_trans; [|exact N1]. apply (BX (nth i vX [])); [apply nth_In; lia|exact Hv]. }
      destruct (SMimcHash_native Arks c1 (nth i vX []) HA HO1 V1) as (r & c2 & X2 & C2 & V & HV).
      rewrite (bind_eq _ _ _ _ _ X2).
      assert (HE0 : (i < length vY)%nat) by (unfold vY; rewrite seq_length; lia).
      rewrite (bind_lift _ _ _ _ (get_nth vY i 0%nat HE0)).
      assert (N2 : (nbWires c1 <= nbWires c2)%nat) by apply C2.
      assert (Be : (nth i vY 0 < nbWires c2)%nat). { unfold vY. rewrite seq_nth by lia. lia. }
      destruct (cAssert_ok c2 (nth i vY 0%nat) r (fun w => w (nth i vY 0%nat)) (fun w => w r) (computes_ok _ _ C2) (val1_id _ _ Be) (val1_id _ _ (V r (or_introl eq_refl)))) as (c3 & X3 & I3).
      exists c3. split; [exact X3|]. pose proof (imposes_trans _ _ _ _ _ (computes_imposes _ _ C2) I3) as I. apply (imposes_iff _ _ _ _ I).
      intros w Hw. rewrite (HV w) by (apply (grows_gates _ _ _ (imposes_grows _ _ _ I3)); exact Hw). split; [intros [_ ->]; reflexivity|].
      intros EQ. split; [trivial|]. injection EQ. auto. }
    exists cs'. split; [exact E'|]. intros X Y RX LY.
    match goal with |- solves _ ?v _ <-> _ => change v with (vX ++ [vY]) end. fold vX vY in WS. rewrite <- WS.
    unfold cs in HI. rewrite <- LS in HI. rewrite (solves_rows shape cs' _ (X ++ [Y]) HI).
    - assert (W0 : map (map (fun v => nth v (1 :: concat (X ++ [Y])) 0)) (wires2 1 shape) = X ++ [Y]).
      { apply (wires2_val _ [] shape (X ++ [Y]) [1]); [|rewrite app_nil_r; reflexivity]. unfold shape. rewrite !map_app.
        rewrite (rect_lens n m X rows RX RR). cbn [map]. rewrite LY, repeat_length. reflexivity. }
      rewrite WS, !map_app in W0. pose proof RX as [LX' _].
      apply app_inj_len in W0; [|rewrite map_length; congruence]. destruct W0 as [W1 W3]. cbn [map] in W3. injection W3 as W3.
      set (w := fun v => nth v (1 :: concat (X ++ [Y])) 0) in *.
      assert (WH : forall k, (k < n)%nat -> map w (nth k vX []) = nth k X []). { intros k Hk. rewrite <- W1. rewrite (nth_map_lt _ _ _ _ []) by lia. reflexivity. }
      assert (WE : forall k, (k < n)%nat -> w (nth k vY 0%nat) = nth k Y 0). { intros k Hk. rewrite <- W3. rewrite (nth_map_lt _ _ _ _ 0%nat) by (unfold vY; rewrite seq_length; lia). reflexivity. }
      split.
      + intros H k Hk. assert (Hk' : In k (seq 0 (length vX))) by (apply in_seq; lia). specialize (H k Hk'). fold (w (nth k vY 0%nat)) in H. rewrite WH, WE in H by exact Hk. exact H.
      + intros H k Hk. apply in_seq in Hk. fold (w (nth k vY 0%nat)). rewrite WH, WE by lia. apply H. lia.
    - intros w w' Hag H k Hk. specialize (H k Hk). apply in_seq in Hk. rewrite LS in Hag.
      assert (M1 : map w' (nth k vX []) = map w (nth k vX [])). { apply map_ext_in. intros v Hv. symmetry. apply Hag. apply (BX (nth k vX [])); [apply nth_In; lia|exact Hv]. }
      rewrite M1, H. f_equal. apply Hag. unfold vY. rewrite seq_nth by lia. lia.
    - unfold shape. rewrite !map_app. rewrite (rect_lens n m X rows RX RR). cbn [map]. rewrite LY, repeat_length. reflexivity.
  Qed.

  Lemma HashTest_ok Arks n m cs vX vY x : (91 <= length Arks)%nat -> HashCompile (F:=F) n m = (cs, (vX, vY)) -> rect n m x ->
    exists cs' cX cY, HashDefine Arks vX vY cs = Some (tt, cs') /\ HashAssign Arks (HashWitness n m) x = Some (cX, cY) /\
      solves cs' (vX ++ [vY]) (cX ++ [cY]).
  Proof.
    intros HA EC RX. destruct (HashDefine_ok Arks _ _ _ _ _ HA EC) as (cs' & E1 & HS).
    pose (y := map (fun r => fold_left (mimc_compress (firstn 91 Arks)) r 0) x). pose proof RX as [LX _].
    assert (HY : forall k, (k < n)%nat -> MimcHash Arks (nth k x []) = Some (nth k y 0)).
    { intros k Hk. unfold y. rewrite (nth_map_lt _ _ _ _ []) by lia. apply MimcHash_ok. exact HA. }
    assert (LY : length y = n) by (unfold y; rewrite map_length; exact LX).
    exists cs'. eexists. eexists. split; [exact E1|]. split; [apply (HashAssign_ok Arks n m x y RX LY HY)|].
    change [map Some y] with (map (map (@Some F)) [y]). rewrite <- map_app. apply (HS x y RX LY). exact HY.
  Qed.
End L.
