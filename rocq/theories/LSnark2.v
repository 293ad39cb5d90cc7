(** The gadgets that only compute: values. *)
From Coq Require Import List Arith Lia Bool Ring Field.
From Verif Require Import Field Go MCommon Spec LSpec LCommon MPoly LPoly LPoly2 MHash SpecHash LHash MSnark SpecSnark LSnark.
Import ListNotations.

(** ** Running gadgets step by step *)
Section Run.
  Context {F : Field}.
  Lemma bind_eq {A B} (m : @M F A) (k : A -> M B) cs a cs' : m cs = Some (a, cs') -> mbind m k cs = k a cs'.
  Proof. intros E. unfold mbind. rewrite E. reflexivity. Qed.
  Lemma bind_lift {A B} (o : option A) (k : A -> @M F B) cs a : o = Some a -> mbind (lift o) k cs = k a cs.
  Proof. intros ->. reflexivity. Qed.
  Lemma bind_ret {A B} (a : A) (k : A -> @M F B) cs : mbind (ret a) k cs = k a cs.
  Proof. reflexivity. Qed.
  Lemma bind_none {A B} (m : @M F A) (k : A -> M B) cs : m cs = None -> mbind m k cs = None.
  Proof. intros E. unfold mbind. rewrite E. reflexivity. Qed.
  Lemma bind_lift_none {A B} (o : option A) (k : A -> @M F B) cs : o = None -> mbind (lift o) k cs = None.
  Proof. intros ->. reflexivity. Qed.
  Lemma lift_some {A} (o : option A) (cs : CS F) a : o = Some a -> lift o cs = Some (a, cs).
  Proof. intros ->. reflexivity. Qed.

  Lemma imposes_computes (a b c : CS F) P : imposes a b P -> computes b c -> imposes a c P.
  Proof.
    intros H1 H2. apply computes_imposes in H2. pose proof (imposes_trans _ _ _ _ _ H1 H2) as H.
    apply (imposes_iff _ _ _ _ H). tauto.
  Qed.
  Lemma imposes_grows (a b : CS F) P : imposes a b P -> grows a b.
  Proof. intros H. apply H. Qed.
  Lemma computes_grows (a b : CS F) : computes a b -> grows a b.
  Proof. intros H. apply H. Qed.
  Lemma cs_ok_computes (a b : CS F) : computes a b -> cs_ok a -> cs_ok b.
  Proof. intros H _. apply H. Qed.
  Lemma cs_ok_imposes (a b : CS F) P : imposes a b P -> cs_ok a -> cs_ok b.
  Proof. intros H _. apply H. Qed.
End Run.

(** After a step from [s] to [s'] that only computes: carry the facts about [s] over to [s']. *)
Ltac adv C :=
  match type of C with computes ?s ?s' =>
    repeat match goal with
      | H : val1 s _ _ |- _ => apply (val1_grows s s' _ _ (computes_grows _ _ C)) in H
      | H : vals s _ _ |- _ => apply (vals_grows s s' _ _ (computes_grows _ _ C)) in H
      | H : cs_ok s |- _ => apply (cs_ok_computes s s' C) in H
      | H : computes ?a s |- _ => apply (fun X => computes_trans a s s' X C) in H
      | H : imposes ?a s ?P |- _ => apply (fun X => imposes_computes a s s' P X C) in H
      end; clear C
  end.
(** The same after a step that asserts: [C : imposes s s' P]. *)
Ltac advI C :=
  match type of C with imposes ?s ?s' ?P =>
    repeat match goal with
      | H : val1 s _ _ |- _ => apply (val1_grows s s' _ _ (imposes_grows _ _ _ C)) in H
      | H : vals s _ _ |- _ => apply (vals_grows s s' _ _ (imposes_grows _ _ _ C)) in H
      | H : cs_ok s |- _ => apply (cs_ok_imposes s s' P C) in H
      | H : computes ?a s |- _ => apply computes_imposes in H
      | H : imposes ?a s ?Q |- _ => apply (fun X => imposes_trans a s s' Q P X C) in H
      end; clear C
  end.
(** One step, not the last one. *)
Tactic Notation "step" constr(l) "as" ident(r) ident(V) :=
  let s := fresh "s" in let E := fresh "E" in let C := fresh "C" in
  destruct l as (r & s & E & C & V); rewrite (bind_eq _ _ _ _ _ E); clear E; adv C.
(** The last step of a gadget that only computes. *)
Tactic Notation "last_step" constr(l) "as" ident(r) ident(V) :=
  let s := fresh "s" in let E := fresh "E" in let C := fresh "C" in
  destruct l as (r & s & E & C & V); exists r, s; split; [exact E|]; clear E; adv C; split; [eassumption|].

Section L.
  Context {F : Field}.
  Add Field FfieldSnark2 : (f_theory F).
  Open Scope F_scope.

  Lemma mfold_ok {S A} (f : S -> A -> @M F S) (l : list A) (d : A) (I : nat -> S -> CS F -> Prop) x cs :
    cs_ok cs -> I 0%nat x cs ->
    (forall i x cs1, (i < length l)%nat -> computes cs cs1 -> I i x cs1 ->
      exists x' cs2, f x (nth i l d) cs1 = Some (x', cs2) /\ computes cs1 cs2 /\ I (Datatypes.S i) x' cs2) ->
    exists x' cs', mfold f l x cs = Some (x', cs') /\ computes cs cs' /\ I (length l) x' cs'.
  Proof.
    revert I x cs. induction l as [|a l IH]; intros I x cs HO H0 HS.
    - exists x, cs. split; [reflexivity|]. split; [apply computes_refl; exact HO|exact H0].
    - destruct (HS 0%nat x cs) as (x1 & cs1 & E1 & C1 & H1); [cbn; lia|apply computes_refl; exact HO|exact H0|]. cbn [nth] in E1.
      destruct (IH (fun i => I (Datatypes.S i)) x1 cs1) as (x2 & cs2 & E2 & C2 & H2); [apply C1|exact H1| |].
      + intros i y cs' Hi C' HI. destruct (HS (Datatypes.S i) y cs') as (y' & cs'' & EY & CY & HY); [cbn; lia|eapply computes_trans; eauto|exact HI|].
        exists y', cs''. auto.
      + exists x2, cs2. cbn [mfold]. rewrite (bind_eq _ _ _ _ _ E1). split; [exact E2|]. split; [eapply computes_trans; eauto|exact H2].
  Qed.

  Lemma mmap_ok {A} (f : A -> @M F nat) (l : list A) (d : A) (g : nat -> (nat -> F) -> F) cs :
    cs_ok cs ->
    (forall i cs1, (i < length l)%nat -> computes cs cs1 ->
      exists r cs2, f (nth i l d) cs1 = Some (r, cs2) /\ computes cs1 cs2 /\ val1 cs2 r (g i)) ->
    exists rs cs', mmap f l cs = Some (rs, cs') /\ computes cs cs' /\
      length rs = length l /\ vals cs' rs (fun w => map (fun i => g i w) (seq 0 (length l))).
  Proof.
    revert g cs. induction l as [|a l IH]; intros g cs HO HS.
    - exists [], cs. split; [reflexivity|]. split; [apply computes_refl; exact HO|]. split; [reflexivity|apply vals_nil].
    - destruct (HS 0%nat cs) as (r1 & cs1 & E1 & C1 & H1); [cbn; lia|apply computes_refl; exact HO|]. cbn [nth] in E1.
      destruct (IH (fun i => g (S i)) cs1) as (rs & cs2 & E2 & C2 & HL & H2); [apply C1| |].
      + intros i cs' Hi C'. destruct (HS (S i) cs') as (y' & cs'' & EY & CY & HY); [cbn; lia|eapply computes_trans; eauto|].
        exists y', cs''. auto.
      + exists (r1 :: rs), cs2. cbn [mmap]. rewrite (bind_eq _ _ _ _ _ E1), (bind_eq _ _ _ _ _ E2). split; [reflexivity|].
        split; [eapply computes_trans; eauto|]. split; [cbn; lia|].
        apply (val1_grows _ _ _ _ (computes_grows _ _ C2)) in H1.
        pose proof (vals_cons _ _ _ _ _ H1 H2) as H. apply (vals_iff _ _ _ _ H). intros w _. cbn [length seq map].
        f_equal. rewrite <- seq_shift, map_map. reflexivity.
  Qed.

  Lemma vals_of_nth (cs : CS F) l n (f : nat -> (nat -> F) -> F) : length l = n ->
    (forall j, (j < n)%nat -> val1 cs (nth j l 0%nat) (f j)) -> vals cs l (fun w => map (fun j => f j w) (seq 0 n)).
  Proof.
    intros HL H. split.
    - intros v Hv. apply (In_nth _ _ 0%nat) in Hv. destruct Hv as (j & Hj & <-). apply H. lia.
    - intros w Hw. apply (list_ext 0); [rewrite !map_length, seq_length; exact HL|].
      intros j Hj. rewrite map_length in Hj. rewrite (nth_map_lt w l j (0 : F) 0%nat) by exact Hj.
      rewrite nth_map_seq by lia. apply H; [lia|exact Hw].
  Qed.

  (** ** eq.go *)
  Lemma UnivariateEqEval_ok (cs : CS F) q h fq fh : cs_ok cs -> val1 cs q fq -> val1 cs h fh ->
    exists r cs', UnivariateEqEval q h cs = Some (r, cs') /\ computes cs cs' /\
      val1 cs' r (fun w => fq w * fh w + (1 - fq w) * (1 - fh w)).
  Proof.
    intros HO Vq Vh. pose proof (computes_refl _ HO) as HC. unfold UnivariateEqEval.
    step (cConstant_ok cs 1 HO) as a Va.
    step (cSub_ok _ _ _ _ _ HO Va Vq) as b Vb.
    step (cSub_ok _ _ _ _ _ HO Vb Vh) as c Vc.
    step (cConstant_ok _ (1 + 1) HO) as two Vt.
    step (cMul_ok _ _ _ _ _ HO Vq Vh) as qh Vqh.
    step (cMul_ok _ _ _ _ _ HO Vt Vqh) as t Vt2.
    last_step (cAdd2_ok _ _ _ _ _ HO Vc Vt2) as r V.
    apply (val1_iff _ _ _ _ V). intros w _. ring.
  Qed.

  Lemma eqprod_snoc (q h : list F) i : (i < length q)%nat -> (i < length h)%nat ->
    eqprod (firstn (S i) q) (firstn (S i) h) =
    eqprod (firstn i q) (firstn i h) * (nth i q 0 * nth i h 0 + (1 - nth i q 0) * (1 - nth i h 0)).
  Proof.
    revert h i. induction q as [|x q IH]; intros [|y h] [|i] H1 H2; cbn [length] in *; try lia.
    - cbn [firstn eqprod nth]. ring.
    - rewrite (firstn_cons (S i) x), (firstn_cons (S i) y). cbn [eqprod nth]. rewrite IH by lia. cbn [firstn eqprod]. ring.
  Qed.

  Lemma eqprod_firstn_r (q h : list F) : eqprod q (firstn (length q) h) = eqprod q h.
  Proof.
    revert h. induction q as [|x q IH]; intros [|y h]; cbn [length firstn eqprod]; auto. rewrite IH. reflexivity.
  Qed.

  Lemma SEqEval_ok (cs : CS F) q h fq fh : cs_ok cs -> vals cs q fq -> vals cs h fh -> (length q <= length h)%nat ->
    exists r cs', SEqEval q h cs = Some (r, cs') /\ computes cs cs' /\ val1 cs' r (fun w => eqprod (fq w) (fh w)).
  Proof.
    intros HO Vq Vh HL. pose proof (computes_refl _ HO) as HC. unfold SEqEval.
    step (cConstant_ok cs 1 HO) as a Va.
    destruct (mfold_ok (fun res i => mbind (lift (get q i)) (fun q => mbind (lift (get h i)) (fun h =>
        mbind (UnivariateEqEval q h) (fun e => cMul res e)))) (seq 0 (length q)) 0%nat
      (fun i r c => val1 c r (fun w => eqprod (firstn i (fq w)) (firstn i (fh w)))) a s HO) as (r & cs' & E & C & V).
    - exact Va.
    - intros i x cs1 Hi C1 V1. rewrite seq_length in Hi. rewrite seq_nth by exact Hi. cbn [Nat.add].
      adv C1. rewrite (bind_lift _ _ _ _ (get_nth q i 0%nat Hi)).
      rewrite (bind_lift _ _ _ _ (get_nth h i 0%nat ltac:(lia))).
      pose proof (computes_refl _ HO) as HC1.
      step (UnivariateEqEval_ok _ _ _ _ _ HO (vals_nth _ _ _ _ Vq Hi) (vals_nth _ _ _ _ Vh (ltac:(lia) : (i < length h)%nat))) as e Ve.
      last_step (cMul_ok _ _ _ _ _ HO V1 Ve) as r V.
      apply (val1_iff _ _ _ _ V). intros w Hw.
      rewrite eqprod_snoc; [reflexivity| |]; erewrite vals_length by eassumption; lia.
    - exists r, cs'. split; [exact E|]. adv C. split; [eassumption|]. apply (val1_iff _ _ _ _ V). intros w Hw. rewrite seq_length.
      rewrite <- (vals_length _ _ _ _ Vq Hw), firstn_all, eqprod_firstn_r. reflexivity.
  Qed.

  Lemma SEqEval_short (cs : CS F) (q h : list nat) : cs_ok cs -> vars cs q -> vars cs h -> (length h < length q)%nat -> SEqEval q h cs = None.
  Proof.
    intros HO Wq Wh HL. unfold SEqEval. pose proof (computes_refl _ HO) as HC.
    pose proof (vals_map _ _ Wq) as Vq. pose proof (vals_map _ _ Wh) as Vh.
    step (cConstant_ok cs 1 HO) as a Va.
    replace (length q) with (length h + S (length q - length h - 1))%nat by lia.
    rewrite seq_app.
    assert (HM : forall {S A} (f : S -> A -> @M F S) l1 l2 x c, mfold f (l1 ++ l2) x c = mbind (mfold f l1 x) (mfold f l2) c).
    { clear. intros S A f l1. induction l1 as [|y l1 IH]; intros l2 x c; [reflexivity|]. cbn [app mfold]. unfold mbind.
      destruct (f x y c) as [[x' c']|]; [|reflexivity]. rewrite IH. reflexivity. }
    rewrite HM.
    destruct (mfold_ok (fun res i => mbind (lift (get q i)) (fun q => mbind (lift (get h i)) (fun h =>
        mbind (UnivariateEqEval q h) (fun e => cMul res e)))) (seq 0 (length h)) 0%nat
      (fun i r c => (r < nbWires c)%nat) a s HO) as (r & cs' & E & C & V).
    - apply Va.
    - intros i x cs1 Hi C1 V1. rewrite seq_length in Hi. rewrite seq_nth by exact Hi. cbn [Nat.add].
      adv C1. rewrite (bind_lift _ _ _ _ (get_nth q i 0%nat ltac:(lia))).
      rewrite (bind_lift _ _ _ _ (get_nth h i 0%nat Hi)).
      pose proof (computes_refl _ HO) as HC1. apply val1_id in V1.
      step (UnivariateEqEval_ok _ _ _ _ _ HO (vals_nth _ _ _ _ Vq (ltac:(lia) : (i < length q)%nat)) (vals_nth _ _ _ _ Vh Hi)) as e Ve.
      last_step (cMul_ok _ _ _ _ _ HO V1 Ve) as r V. apply V.
    - rewrite (bind_eq _ _ _ _ _ E). cbn [mfold seq Nat.add]. apply bind_none.
      rewrite (bind_lift _ _ _ _ (get_nth q (length h) 0%nat ltac:(lia))). apply bind_lift_none. apply get_none. lia.
  Qed.

  (** ** multilinear.go *)
  Lemma SFold_ok (cs : CS F) t x ft fx : cs_ok cs -> vals cs t ft -> val1 cs x fx ->
    exists r cs', SFold t x cs = Some (r, cs') /\ computes cs cs' /\
      (length r = (length t / 2)%nat /\ vals cs' r (fun w => foldv (ft w) (fx w))).
  Proof.
    intros HO Vt Vx. pose proof (computes_refl _ HO) as HC. unfold SFold. set (k := (length t / 2)%nat).
    pose proof (half_le (length t)) as Hk. fold k in Hk.
    destruct (mfold_ok (fun table i => mbind (lift (get table (i + k))) (fun top => mbind (lift (get table i)) (fun bot =>
        mbind (cSub top bot) (fun e => mbind (cMul e x) (fun tmp => mbind (lift (get table i)) (fun bot =>
        mbind (cAdd bot tmp []) (fun v => lift (set table i v)))))))) (seq 0 k) 0%nat
      (fun i tab c => length tab = length t /\ forall j, (j < length t)%nat ->
         val1 c (nth j tab 0%nat) (fun w => if (j <? i)%nat then nth j (foldv (ft w) (fx w)) 0 else nth j (ft w) 0)) t cs HO) as (tab & cs' & E & C & HL & V).
    - split; [reflexivity|]. intros j Hj. apply vals_nth; assumption.
    - intros i tab cs1 Hi C1 [L1 V1]. rewrite seq_length in Hi. rewrite seq_nth by exact Hi. cbn [Nat.add]. adv C1.
      rewrite (bind_lift _ _ _ _ (get_nth tab (i + k) 0%nat ltac:(lia))).
      rewrite (bind_lift _ _ _ _ (get_nth tab i 0%nat ltac:(lia))).
      pose proof (V1 (i + k)%nat ltac:(lia)) as Vtop. pose proof (V1 i ltac:(lia)) as Vbot.
      replace (i + k <? i)%nat with false in Vtop by (symmetry; apply Nat.ltb_ge; lia).
      rewrite Nat.ltb_irrefl in Vbot.
      pose proof (computes_refl _ HO) as HC1.
      assert (G0 : computes cs1 cs1) by exact HC1.
      step (cSub_ok _ _ _ _ _ HO Vtop Vbot) as e Ve.
      step (cMul_ok _ _ _ _ _ HO Ve Vx) as m Vm.
      rewrite (bind_lift _ _ _ _ (get_nth tab i 0%nat ltac:(lia))).
      destruct (cAdd2_ok _ _ _ _ _ HO Vbot Vm) as (v & s1 & E & C & Vv). rewrite (bind_eq _ _ _ _ _ E). adv C.
      exists (upd tab i v), s1. split; [apply lift_some; apply set_some; lia|]. split; [exact HC1|].
      split; [rewrite upd_length; exact L1|]. intros j Hj.
      destruct (Nat.eq_dec i j) as [<-|Hne].
      + rewrite nth_upd_same by lia. replace (i <? S i)%nat with true by (symmetry; apply Nat.ltb_lt; lia).
        apply (val1_iff _ _ _ _ Vv). intros w Hw. unfold foldv. rewrite (vals_length _ _ _ _ Vt Hw). fold k.
        rewrite nth_map_seq by exact Hi. cbn [Nat.add]. rewrite (Nat.add_comm k i). ring.
      + rewrite nth_upd_other by exact Hne. apply (val1_grows cs1 s1); [apply HC1|].
        apply (val1_iff _ _ _ _ (V1 j Hj)). intros w _.
        destruct (Nat.ltb_spec j i); destruct (Nat.ltb_spec j (S i)); try lia; reflexivity.
    - adv C. rewrite (bind_eq _ _ _ _ _ E). exists (firstn k tab), cs'.
      split; [apply lift_some; rewrite slice_some by lia; rewrite Nat.sub_0_r; reflexivity|].
      split; [exact HC|]. split; [rewrite firstn_length; lia|].
      rewrite seq_length in V.
      pose proof (vals_of_nth cs' (firstn k tab) k (fun j w => nth j (foldv (ft w) (fx w)) 0)) as HV.
      eapply vals_iff; [apply HV|].
      + rewrite firstn_length. lia.
      + intros j Hj. rewrite nth_firstn by exact Hj. eapply val1_iff; [apply V; lia|]. intros w _. cbv beta.
        replace (j <? k)%nat with true by (symmetry; apply Nat.ltb_lt; lia). reflexivity.
      + intros w Hw. cbv beta. apply (list_ext 0).
        * rewrite map_length, seq_length, foldv_length, (vals_length _ _ _ _ Vt Hw). reflexivity.
        * intros j Hj. rewrite map_length, seq_length in Hj. rewrite nth_map_seq by exact Hj. reflexivity.
  Qed.

  Lemma SFolds_ok xs : forall (cs : CS F) t ft fx, cs_ok cs -> vals cs t ft -> vals cs xs fx ->
    exists r cs', mfold SFold xs t cs = Some (r, cs') /\ computes cs cs' /\ vals cs' r (fun w => foldsv (ft w) (fx w)).
  Proof.
    induction xs as [|x xs IH]; intros cs t ft fx HO Vt Vx.
    - exists t, cs. split; [reflexivity|]. split; [apply computes_refl; exact HO|].
      apply (vals_iff _ _ _ _ Vt). intros w Hw. rewrite <- (proj2 Vx w Hw). reflexivity.
    - pose proof (computes_refl _ HO) as HC. cbn [mfold].
      pose proof (vals_nth _ _ _ 0%nat Vx ltac:(cbn; lia)) as V0. cbn [nth] in V0.
      pose proof (vals_sub _ _ _ 1%nat (length xs) Vx) as V1. cbn [skipn] in V1. rewrite firstn_all in V1.
      destruct (SFold_ok _ _ _ _ _ HO Vt V0) as (t' & s & E & C & _ & Vt'). rewrite (bind_eq _ _ _ _ _ E). adv C.
      destruct (IH _ _ _ _ HO Vt' V1) as (r & s' & E' & C' & V). exists r, s'. split; [exact E'|]. adv C'. split; [exact HC|].
      apply (vals_iff _ _ _ _ V). intros w Hw. pose proof (vals_length _ _ _ _ Vx Hw) as HL.
      destruct (fx w) as [|y ys]; [discriminate|]. cbn [nth skipn length] in *. injection HL as <-. rewrite firstn_all. reflexivity.
  Qed.

  (** The native evaluation gives a value depending on lengths only. *)
  Lemma Evaluate_first (t xs : list F) : Evaluate t xs = get (foldsv t xs) 0.
  Proof. unfold Evaluate, DeepCopy. rewrite FoldMany_foldsv. reflexivity. Qed.

  Lemma foldsv_len (ys : list F) : forall t, length (foldsv t ys) = (length t / 2 ^ length ys)%nat.
  Proof.
    unfold foldsv. induction ys as [|z ys IH]; intros t; cbn [fold_left length].
    - rewrite Nat.pow_0_r, Nat.div_1_r. reflexivity.
    - rewrite IH, foldv_length, Nat.pow_succ_r', Nat.div_div by (try apply Nat.pow_nonzero; lia). reflexivity.
  Qed.

  Lemma SFolds_length xs : forall (cs : CS F) t r cs', mfold SFold xs t cs = Some (r, cs') -> length r = (length t / 2 ^ length xs)%nat.
  Proof.
    induction xs as [|x xs IH]; intros cs t r cs' E.
    - injection E as <- <-. cbn [length]. rewrite Nat.pow_0_r, Nat.div_1_r. reflexivity.
    - cbn [mfold] in E. unfold mbind in E at 1. destruct (SFold t x cs) as [[t1 cs1]|] eqn:E1; [|discriminate].
      apply IH in E. unfold SFold, mbind in E1. remember (length t / 2)%nat as k eqn:Hk. destruct (mfold _ _ _ cs) as [[t2 cs2]|]; [|discriminate].
      unfold lift in E1. destruct (slice t2 0 k) as [t3|] eqn:E3; [|discriminate]. injection E1 as <- <-.
      unfold slice in E3. destruct (_ && _)%bool eqn:EB; [|discriminate]. injection E3 as <-.
      apply andb_prop in EB. destruct EB as [_ EB]. apply Nat.leb_le in EB.
      rewrite E, firstn_length, !Nat.sub_0_r, Nat.min_l by exact EB. cbn [length]. subst k.
      rewrite Nat.pow_succ_r', Nat.div_div by (try apply Nat.pow_nonzero; lia). reflexivity.
  Qed.

  Lemma SEval_ok (cs : CS F) t xs ft fx : cs_ok cs -> vals cs t ft -> vals cs xs fx -> (2 ^ length xs <= length t)%nat ->
    exists r cs', SEval t xs cs = Some (r, cs') /\ computes cs cs' /\ val1 cs' r (fun w => nth 0 (foldsv (ft w) (fx w)) 0).
  Proof.
    intros HO Vt Vx HL. destruct (SFolds_ok xs cs t _ _ HO Vt Vx) as (f & s & E & C & V).
    unfold SEval. rewrite (bind_eq _ _ _ _ _ E). pose proof (SFolds_length _ _ _ _ _ E) as Hf.
    assert (HP : (2 ^ length xs <> 0)%nat) by (apply Nat.pow_nonzero; lia).
    assert (Hf0 : (0 < length f)%nat) by (rewrite Hf; apply Nat.div_str_pos; lia).
    exists (nth 0 f 0%nat), s. split; [apply lift_some, get_nth; exact Hf0|]. split; [exact C|].
    exact (vals_nth _ _ _ 0%nat V Hf0).
  Qed.

  Lemma SEval_short (cs : CS F) t xs : cs_ok cs -> vars cs t -> vars cs xs -> (length t < 2 ^ length xs)%nat -> SEval t xs cs = None.
  Proof.
    intros HO Wt Wx HL. destruct (SFolds_ok xs cs t _ _ HO (vals_map _ _ Wt) (vals_map _ _ Wx)) as (f & s & E & C & V).
    unfold SEval. rewrite (bind_eq _ _ _ _ _ E). apply SFolds_length in E. rewrite Nat.div_small in E by exact HL.
    destruct f; [reflexivity|discriminate].
  Qed.

  (** For tables of the right size: the multilinear extension. *)
  Lemma SEval_mle (cs : CS F) t xs ft fx : cs_ok cs -> vals cs t ft -> vals cs xs fx -> length t = (2 ^ length xs)%nat ->
    exists r cs', SEval t xs cs = Some (r, cs') /\ computes cs cs' /\ val1 cs' r (fun w => mle (ft w) (fx w)).
  Proof.
    intros HO Vt Vx HL. destruct (SEval_ok cs t xs ft fx HO Vt Vx) as (r & s & E & C & V); [lia|].
    exists r, s. split; [exact E|]. split; [exact C|]. adv C.
    apply (val1_iff _ _ _ _ V). intros w Hw. rewrite foldsv_full; [reflexivity|].
    rewrite (vals_length _ _ _ _ Vt Hw), (vals_length _ _ _ _ Vx Hw). exact HL.
  Qed.

  (** Against the native evaluation, for every length. *)
  Lemma SEval_spec (cs : CS F) t xs : cs_ok cs -> vars cs t -> vars cs xs ->
    ((length t < 2 ^ length xs)%nat /\ SEval t xs cs = None /\ forall w : nat -> F, Evaluate (map w t) (map w xs) = None) \/
    ((2 ^ length xs <= length t)%nat /\ exists r cs', SEval t xs cs = Some (r, cs') /\ computes cs cs' /\ vars cs' [r] /\
       forall w, gates_ok w cs' -> Evaluate (map w t) (map w xs) = Some (w r)).
  Proof.
    intros HO Wt Wx.
    assert (HP : (2 ^ length xs <> 0)%nat) by (apply Nat.pow_nonzero; lia).
    destruct (Nat.lt_ge_cases (length t) (2 ^ length xs)) as [Hlt|Hge].
    - left. split; [exact Hlt|]. split; [apply SEval_short; assumption|].
      intros w. rewrite Evaluate_first. apply get_none. rewrite foldsv_len, !map_length, Nat.div_small by exact Hlt. lia.
    - right. split; [exact Hge|].
      destruct (SEval_ok cs t xs _ _ HO (vals_map _ _ Wt) (vals_map _ _ Wx) Hge) as (r & s & E & C & V).
      exists r, s. split; [exact E|]. split; [exact C|]. split; [intros v [<-|[]]; apply V|].
      intros w Hw. rewrite (proj2 V w Hw), Evaluate_first. apply get_nth.
      rewrite foldsv_len, !map_length. apply Nat.div_str_pos. lia.
  Qed.

  (** Evaluating the pieces of a table at [y], then the results at [x]. *)
  Lemma mle_pieces (t x y : list F) :
    mle (map (fun i => mle (firstn (2 ^ length y) (skipn (i * 2 ^ length y) t)) y) (seq 0 (2 ^ length x))) x = mle t (x ++ y).
  Proof.
    rewrite mle_app. unfold mle at 1. apply suml_ext. intros a Ha. apply in_cube in Ha.
    pose proof (bits_val_lt a) as Hb. rewrite Ha in Hb. rewrite nth_map_seq by exact Hb. cbn [Nat.add].
    unfold mle. rewrite <- suml_scal_r. apply suml_ext. intros b Hb'. apply in_cube in Hb'.
    pose proof (bits_val_lt b) as Hb2. rewrite Hb' in Hb2.
    rewrite nth_firstn by exact Hb2. rewrite nth_skipn. ring.
  Qed.

  Lemma SEvalMixed_ok (cs : CS F) t qL qR qP ft fL fR fP : cs_ok cs -> vals cs t ft -> vals cs qL fL -> vals cs qR fR -> vals cs qP fP ->
    length qR = length qL -> length t = (2 ^ (length qL + length qP))%nat ->
    exists vL vR cs', SEvalMixed t qL qR qP cs = Some ((vL, vR), cs') /\ computes cs cs' /\
      val1 cs' vL (fun w => mle (ft w) (fL w ++ fP w)) /\ val1 cs' vR (fun w => mle (ft w) (fR w ++ fP w)).
  Proof.
    intros HO Vt VL VR VP HLR HT. pose proof (computes_refl _ HO) as HC. unfold SEvalMixed.
    assert (HP : (2 ^ length qL <> 0)%nat) by (apply Nat.pow_nonzero; lia).
    assert (HD : (length t / 2 ^ length qL = 2 ^ length qP)%nat).
    { rewrite HT, Nat.pow_add_r, Nat.mul_comm. apply Nat.div_mul. exact HP. }
    rewrite (bind_lift _ _ _ (2 ^ length qP)%nat) by (rewrite godiv_some by lia; rewrite HD; reflexivity).
    destruct (mmap_ok (fun i => mbind (lift (slice t (i * 2 ^ length qP) ((i + 1) * 2 ^ length qP))) (fun t => SEval t qP))
      (seq 0 (2 ^ length qL)) 0%nat (fun i w => mle (firstn (2 ^ length qP) (skipn (i * 2 ^ length qP) (ft w))) (fP w)) cs HO) as (rs & s & E & C & HL & V).
    { intros i cs1 Hi C1. rewrite seq_length in Hi. rewrite seq_nth by exact Hi. cbn [Nat.add]. adv C1.
      assert (HB : ((i + 1) * 2 ^ length qP <= length t)%nat).
      { rewrite HT, Nat.pow_add_r. apply Nat.mul_le_mono_r. lia. }
      rewrite (bind_lift _ _ _ (firstn (2 ^ length qP) (skipn (i * 2 ^ length qP) t))).
      2:{ rewrite slice_some by lia. f_equal. f_equal. lia. }
      apply SEval_mle; auto; [apply vals_sub; exact Vt|]. rewrite firstn_length, skipn_length. lia. }
    rewrite (bind_eq _ _ _ _ _ E). adv C. rewrite seq_length in HL.
    step (SEval_mle _ _ _ _ _ HO V VL HL) as vL V1.
    step (SEval_mle _ _ _ _ _ HO V VR ltac:(congruence)) as vR V2.
    exists vL, vR, s1. split; [reflexivity|]. split; [exact HC|].
    split; [apply (val1_iff _ _ _ _ V1)|apply (val1_iff _ _ _ _ V2)]; intros w Hw; rewrite seq_length.
    - rewrite <- (vals_length _ _ _ _ VL Hw), <- (vals_length _ _ _ _ VP Hw). apply mle_pieces.
    - rewrite <- HLR, <- (vals_length _ _ _ _ VR Hw), <- (vals_length _ _ _ _ VP Hw). apply mle_pieces.
  Qed.
End L.
