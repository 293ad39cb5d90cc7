(** What the counting model counts on the static tables of a layer (lemmas for PCost.v). *)
From Coq Require Import List Arith ZArith Lia Bool.
From Verif Require Import Field Go MCommon LCommon Spec LSpec MPoly LPoly MCircuit SpecCircuit LCircuit LCircuit2 MSumcheck LSumcheck MGkr LGkr2 LGkr7 MCost SpecCost LCost LCost2 LCost3.
Import ListNotations.

Lemma sum_hit x : forall n, list_sum (map (fun j => if x =? j then 1 else 0) (seq 0 n)) = if x <? n then 1 else 0.
Proof.
  induction n as [|n IH]; [reflexivity|]. rewrite seq_S, map_app, list_sum_app, IH. cbn [map list_sum fold_right plus].
  destruct (Nat.ltb_spec x n), (Nat.eqb_spec x n), (Nat.ltb_spec x (S n)); lia.
Qed.

Lemma Forall2_nth_intro {A B} (P : A -> B -> Prop) : forall la lb, length la = length lb ->
  (forall i a b, nth_error la i = Some a -> nth_error lb i = Some b -> P a b) -> Forall2 P la lb.
Proof.
  induction la as [|a la IH]; intros [|b lb] Hl H; try discriminate; constructor; [apply (H 0); reflexivity|].
  apply IH; [injection Hl as Hl; exact Hl|]. intros i x y Ex Ey. apply (H (S i)); assumption.
Qed.

Lemma filter_none {A} (f : A -> bool) l : (forall a, In a l -> f a = false) -> filter f l = [].
Proof. induction l as [|a l IH]; intros H; [reflexivity|]. cbn. rewrite (H a (or_introl eq_refl)). apply IH. intros x Hx. apply H. right. exact Hx. Qed.

Section S.
  Context {F : Field}.
  Add Field FfieldCost4 : (f_theory F).
  Open Scope F_scope.

  (** Zero wherever no wire of the gate is. *)
  Definition sparse (l : Layer F) (g : Gate F) (t : list F) : Prop :=
    length t = (4 ^ lBGInputs l)%nat /\
    forall j, (j < 4 ^ lBGInputs l)%nat -> (forall w, In w (Wires l) -> id_eqb (gid (wGate w)) (gid g) = true -> (wL w * 2 ^ lBGInputs l + wR w)%nat <> j) -> nth j t 0 = 0.

  Lemma sparse_support l g t : sparse l g t -> (support t <= wires_of l g)%nat.
  Proof.
    intros [Hl Hz]. rewrite support_sum. unfold wires_of. set (ws := filter _ (Wires l)).
    apply Nat.le_trans with (list_sum (map (fun j => list_sum (map (fun w => if (wL w * 2 ^ lBGInputs l + wR w =? j)%nat then 1 else 0)%nat ws)) (seq 0 (length t)))).
    - apply sum_le. intros j Hj. apply in_seq in Hj. unfold on. destruct (feqb_spec F (nth j t 0) 0) as [E|E]; cbn; [lia|].
      assert (Hw : exists w, In w ws /\ (wL w * 2 ^ lBGInputs l + wR w =? j)%nat = true).
      { destruct (existsb (fun w => (wL w * 2 ^ lBGInputs l + wR w =? j)%nat) ws) eqn:Ex; [apply existsb_exists; exact Ex|]. exfalso. apply E, Hz; [lia|].
        intros w Hw Hg Hj'. assert (X : existsb (fun w => (wL w * 2 ^ lBGInputs l + wR w =? j)%nat) ws = true); [|congruence].
        apply existsb_exists. exists w. split; [apply filter_In; split; assumption|apply Nat.eqb_eq; exact Hj']. }
      destruct Hw as (w & Hw & Ej). clear - Hw Ej. induction ws as [|a ws IH]; [destruct Hw|]. cbn [map]. change (list_sum (?x :: ?r)) with (x + list_sum r)%nat.
      destruct Hw as [<-|Hw]; [rewrite Ej; lia|]. specialize (IH Hw). lia.
    - rewrite (sum_swap (fun j (w : Wire F) => if (wL w * 2 ^ lBGInputs l + wR w =? j)%nat then 1 else 0)%nat).
      rewrite <- (Nat.mul_1_r (length ws)), <- list_sum_const. apply sum_le. intros w _. rewrite sum_hit. destruct (_ <? _)%nat; lia.
  Qed.

  Lemma static_sparse (l : Layer F) q tabs : wf_layer l -> length q = lBGOutputs l -> GetStaticTable l q = Some tabs ->
    Forall2 (sparse l) (lGates l) tabs.
  Proof.
    intros Hwf Hq E. destruct (static_table_spec l q Hwf Hq) as (tabs' & E' & Hl & H). rewrite E in E'. injection E' as <-.
    apply (Forall2_nth_intro _ _ _ (eq_sym Hl)). intros i g t Eg Et. destruct (H i g Eg) as (t' & Et' & Ht & Hn). rewrite Et in Et'. injection Et' as <-. split; [exact Ht|].
    intros j Hj Hw. set (b := lBGInputs l) in *. assert (P : (0 < 2 ^ b)%nat) by (clear; induction b; cbn; lia).
    assert (E4 : (4 ^ b = 2 ^ b * 2 ^ b)%nat) by (rewrite <- Nat.pow_mul_l; reflexivity).
    pose proof (Nat.div_mod j (2 ^ b)) as Hdm. pose proof (Nat.mod_upper_bound j (2 ^ b)) as Hm. assert (Hd : (j / 2 ^ b < 2 ^ b)%nat) by (apply Nat.div_lt_upper_bound; lia).
    replace j with (j / 2 ^ b * 2 ^ b + j mod 2 ^ b)%nat by lia. rewrite Hn by lia.
    match goal with |- suml (filter ?f ?ws) _ = _ => assert (Hf : filter f ws = []) end; [|rewrite Hf; reflexivity].
    apply filter_none. intros w Hin. destruct (id_eqb (gid (wGate w)) (gid g)) eqn:Ei; [|reflexivity]. cbn [andb].
    destruct (Nat.eqb_spec (wL w) (j / 2 ^ b)), (Nat.eqb_spec (wR w) (j mod 2 ^ b)); try reflexivity. exfalso. apply (Hw w Hin Ei). lia.
  Qed.

  Lemma combined_sparse (l : Layer F) sL sR a0 a1 st : Forall2 (sparse l) (lGates l) sL -> Forall2 (sparse l) (lGates l) sR ->
    combineStatics sL sR a0 a1 = Some st -> Forall2 (sparse l) (lGates l) st.
  Proof.
    intros HL HR E. assert (L1 := F2_len _ _ _ HL). assert (L2 := F2_len _ _ _ HR).
    unfold combineStatics in E. pose proof (mapM_length _ _ _ E) as L3. rewrite seq_length in L3. apply mapM_Forall2 in E.
    apply Forall2_nth_intro; [congruence|]. intros i g t Eg Et.
    assert (Hi : (i < length sL)%nat) by (rewrite <- L1; apply nth_error_Some; congruence).
    assert (Ei : nth_error (seq 0 (length sL)) i = Some i) by (rewrite nth_error_nth' with (d := O) by (rewrite seq_length; exact Hi); rewrite seq_nth by exact Hi; reflexivity).
    assert (X := Forall2_at _ _ _ [] E i i Ei). cbn beta in X. rewrite (nth_error_nth _ _ _ Et) in X.
    destruct (get sL i) as [tL|] eqn:E1; [|discriminate]. destruct (get sR i) as [tR|] eqn:E2; [|discriminate].
    assert (SL := Forall2_at _ _ _ [] HL i g Eg). assert (SR := Forall2_at _ _ _ [] HR i g Eg). rewrite (get_some_nth _ _ _ [] E1) in SL. rewrite (get_some_nth _ _ _ [] E2) in SR.
    destruct SL as [SL1 SL2], SR as [SR1 SR2]. rewrite LinearCombination_spec in X by congruence. injection X as <-.
    split; [rewrite map_length, seq_length; exact SR1|]. intros j Hj Hw. rewrite nth_map_seq by lia. rewrite SL2, SR2 by assumption. ring.
  Qed.

  Lemma degrees_max (vL vR eq : list F) gates st : let p := NewSingleThreadedProver vL vR eq gates st in
    dHL p = (list_max (map degHL gates) + 1)%nat /\ dHR p = (list_max (map degHR gates) + 1)%nat /\ dHPrime p = (list_max (map degHPrime gates) + 1)%nat /\
    sVL p = vL /\ sVR p = vR /\ sEq p = eq /\ sGates p = gates /\ sStatic p = st.
  Proof.
    cbv zeta. unfold NewSingleThreadedProver.
    assert (H : forall gs a b c, fold_left (fun '(a, b, c) (g : Gate F) => (Nat.max a (degHL g), Nat.max b (degHR g), Nat.max c (degHPrime g))) gs (a, b, c)
      = (Nat.max a (list_max (map degHL gs)), Nat.max b (list_max (map degHR gs)), Nat.max c (list_max (map degHPrime gs)))).
    { induction gs as [|g gs IH]; intros a b c; cbn [fold_left map]; [cbn; rewrite !Nat.max_0_r; reflexivity|]. rewrite IH. cbn [list_max fold_right]. unfold list_max.
      rewrite !Nat.max_assoc. reflexivity. }
    rewrite H. cbn. repeat split.
  Qed.

  Open Scope nat_scope.
  Lemma a_layer gs cs (ch : list F -> F) (l : Layer F) vL vR eq st bN out c : map wbase gs = lGates l -> Forall2 priced gs cs ->
    length eq = 2 ^ bN -> length vL = 2 ^ (lBGInputs l + bN) -> length vR = 2 ^ (lBGInputs l + bN) -> Forall2 (sparse l) (lGates l) st ->
    WProve gs ch (NewSingleThreadedProver vL vR eq (lGates l) st) = Some (out, c) -> c <= layer_work l bN cs.
  Proof.
    intros Hg HP He Hl Hr Hs E. destruct (degrees_max vL vR eq (lGates l) st) as (D1 & D2 & D3 & V1 & V2 & V3 & _ & V5).
    set (p := NewSingleThreadedProver vL vR eq (lGates l) st) in *. rewrite Nat.pow_add_r in Hl, Hr.
    assert (A : atmost (WProve gs ch p) (fun _ => True) (work_left (dHL p + 1) (lBGInputs l) bN (map support (sStatic p)) cs + work_right (dHR p + 1) (lBGInputs l) bN (map support (sStatic p)) cs + work_prime (dHPrime p + 1) bN cs)).
    { apply a_Prove; try congruence.
      - rewrite V5, <- (F2_len _ _ _ Hs), <- Hg, map_length. reflexivity.
      - rewrite V5. intros t Hin. rewrite <- Nat.pow_mul_l. clear - Hin Hs. induction Hs as [|g t' gs ts [H _] _ IH]; [destruct Hin|]. destruct Hin as [<-|Hin]; [exact H|exact (IH Hin)]. }
    destruct (A _ _ E) as [_ B]. apply (Nat.le_trans _ _ _ B). unfold layer_work. rewrite D1, D2, D3, V5. clear A B E.
    assert (HS : Forall2 le (map support st) (map (wires_of l) (lGates l))).
    { clear - Hs. induction Hs as [|g t gs ts H _ IH]; cbn; constructor; [apply sparse_support, H|exact IH]. }
    rewrite <- !Nat.add_assoc. cbn [plus]. unfold work_left, work_right.
    repeat apply Nat.add_le_mono; try reflexivity; apply Nat.mul_le_mono_l, Nat.add_le_mono_r, Nat.mul_le_mono_l, over_le, HS.
  Qed.
End S.
