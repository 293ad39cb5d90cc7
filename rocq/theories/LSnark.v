(** Lemmas about the constraint system and the arithmetic gadgets. *)
From Coq Require Import List Arith Lia Bool Ring Field.
From Verif Require Import Field Go MCommon Spec LSpec LCommon MPoly LPoly MHash MSnark SpecSnark.
Import ListNotations.

Section L.
  Context {F : Field}.
  Add Field FfieldSnark : (f_theory F).
  Open Scope F_scope.

  Lemma lc_val_ext (w w' : nat -> F) l : (forall t, In t l -> w (snd t) = w' (snd t)) -> lc_val w l = lc_val w' l.
  Proof. intros H. apply suml_ext. intros t Ht. rewrite (H t Ht). reflexivity. Qed.

  Lemma holds_ext n (w w' : nat -> F) r : below n r -> agree_below n w w' -> holds w r <-> holds w' r.
  Proof.
    intros Hb Ha. unfold holds.
    rewrite (lc_val_ext w w' (rL r)), (lc_val_ext w w' (rR r)), (lc_val_ext w w' (rO r)); [reflexivity| | |];
      intros t Ht; apply Ha, Hb; rewrite !in_app_iff; auto.
  Qed.

  Lemma below_mono n m (r : r1c F) : (n <= m)%nat -> below n r -> below m r.
  Proof. intros H Hb t Ht. specialize (Hb t Ht). lia. Qed.

  Lemma forall_below_mono n m (l : list (r1c F)) : (n <= m)%nat -> Forall (below n) l -> Forall (below m) l.
  Proof. intros H. apply Forall_impl. intros r. apply below_mono. exact H. Qed.

  Lemma gates_ext cs (w w' : nat -> F) : cs_ok cs -> agree_below (nbWires cs) w w' -> gates_ok w cs <-> gates_ok w' cs.
  Proof.
    intros (H0 & Hg & _) Ha. unfold gates_ok. rewrite (Ha 0%nat H0).
    rewrite Forall_forall in Hg. rewrite !Forall_forall. split; intros [H1 H2]; (split; [exact H1|]); intros r Hr.
    - apply (holds_ext _ _ _ _ (Hg r Hr) Ha). auto.
    - apply (holds_ext _ _ _ _ (Hg r Hr) Ha). auto.
  Qed.

  Lemma asserts_ext cs (w w' : nat -> F) : cs_ok cs -> agree_below (nbWires cs) w w' -> asserts_ok w cs <-> asserts_ok w' cs.
  Proof.
    intros (H0 & _ & Hg) Ha. unfold asserts_ok.
    rewrite Forall_forall in Hg. rewrite !Forall_forall. split; intros H r Hr.
    - apply (holds_ext _ _ _ _ (Hg r Hr) Ha). auto.
    - apply (holds_ext _ _ _ _ (Hg r Hr) Ha). auto.
  Qed.

  (** ** Growth *)
  Lemma grows_gates cs cs' (w : nat -> F) : grows cs cs' -> gates_ok w cs' -> gates_ok w cs.
  Proof. intros (_ & (g & E) & _) [H1 H2]. rewrite E, Forall_app in H2. split; tauto. Qed.

  Lemma grows_refl (cs : CS F) : grows cs cs.
  Proof.
    split; [lia|]. split; [exists []; rewrite app_nil_r; reflexivity|]. split; [exists []; rewrite app_nil_r; reflexivity|].
    split; [|auto]. intros w Hw. exists w. split; [intros v _; reflexivity|exact Hw].
  Qed.

  Lemma grows_trans (a b c : CS F) : grows a b -> grows b c -> grows a c.
  Proof.
    intros Hab Hbc. pose proof Hab as (N1 & (g1 & G1) & (a1 & A1) & X1 & U1). pose proof Hbc as (N2 & (g2 & G2) & (a2 & A2) & X2 & U2).
    split; [lia|]. split; [exists (g1 ++ g2); rewrite G2, G1, app_assoc; reflexivity|].
    split; [exists (a1 ++ a2); rewrite A2, A1, app_assoc; reflexivity|]. split.
    - intros w Hw. destruct (X1 w Hw) as (w1 & Y1 & Z1). destruct (X2 w1 Z1) as (w2 & Y2 & Z2). exists w2. split; [|exact Z2].
      intros v Hv. rewrite (Y1 v Hv). apply Y2. lia.
    - intros w w' Hw Hw' Ha. apply U2; auto. apply U1; auto; eapply grows_gates; eauto.
  Qed.

  Lemma computes_refl (cs : CS F) : cs_ok cs -> computes cs cs.
  Proof. intros H. split; [exact H|]. split; [apply grows_refl|reflexivity]. Qed.
  Lemma computes_trans (a b c : CS F) : computes a b -> computes b c -> computes a c.
  Proof. intros (O1 & G1 & A1) (O2 & G2 & A2). split; [exact O2|]. split; [eapply grows_trans; eauto|congruence]. Qed.
  Lemma computes_ok (a b : CS F) : computes a b -> cs_ok b.
  Proof. intros H. apply H. Qed.

  Lemma computes_imposes (a b : CS F) : computes a b -> imposes a b (fun _ => True).
  Proof.
    intros (O1 & G1 & A1). split; [exact O1|]. split; [exact G1|]. intros w _. unfold asserts_ok. rewrite A1. tauto.
  Qed.
  Lemma imposes_trans (a b c : CS F) P Q : imposes a b P -> imposes b c Q -> imposes a c (fun w => P w /\ Q w).
  Proof.
    intros (O1 & G1 & A1) (O2 & G2 & A2). split; [exact O2|]. split; [eapply grows_trans; eauto|].
    intros w Hw. rewrite (A2 w Hw), (A1 w (grows_gates _ _ _ G2 Hw)). tauto.
  Qed.
  Lemma imposes_iff (a b : CS F) P Q : imposes a b P -> (forall w, gates_ok w b -> (P w <-> Q w)) -> imposes a b Q.
  Proof.
    intros (O1 & G1 & A1) H. split; [exact O1|]. split; [exact G1|]. intros w Hw. rewrite (A1 w Hw), (H w Hw). tauto.
  Qed.
  Lemma imposes_ok (a b : CS F) P : imposes a b P -> cs_ok b.
  Proof. intros H. apply H. Qed.

  (** ** Values of variables: in every witness for the gates, the wires [l] have the values [f w]. *)
  Definition vals (cs : CS F) (l : list nat) (f : (nat -> F) -> list F) : Prop :=
    vars cs l /\ forall w, gates_ok w cs -> map w l = f w.
  Definition val1 (cs : CS F) (v : nat) (f : (nat -> F) -> F) : Prop :=
    (v < nbWires cs)%nat /\ forall w, gates_ok w cs -> w v = f w.

  Lemma vals_grows cs cs' l f : grows cs cs' -> vals cs l f -> vals cs' l f.
  Proof.
    intros HG [H1 H2]. split.
    - intros v Hv. destruct HG as [HN _]. specialize (H1 v Hv). lia.
    - intros w Hw. apply H2. eapply grows_gates; eauto.
  Qed.
  Lemma val1_grows cs cs' v f : grows cs cs' -> val1 cs v f -> val1 cs' v f.
  Proof.
    intros HG [H1 H2]. split; [destruct HG as [HN _]; lia|].
    intros w Hw. apply H2. eapply grows_gates; eauto.
  Qed.
  Lemma vals_map cs l : vars cs l -> vals cs l (fun w => map w l).
  Proof. intros H. split; [exact H|reflexivity]. Qed.
  Lemma val1_id cs v : (v < nbWires cs)%nat -> val1 cs v (fun w => w v).
  Proof. intros H. split; [exact H|reflexivity]. Qed.
  Lemma val1_iff cs v f g : val1 cs v f -> (forall w, gates_ok w cs -> f w = g w) -> val1 cs v g.
  Proof. intros [H1 H2] H. split; [exact H1|]. intros w Hw. rewrite (H2 w Hw). auto. Qed.
  Lemma vals_iff cs v f g : vals cs v f -> (forall w, gates_ok w cs -> f w = g w) -> vals cs v g.
  Proof. intros [H1 H2] H. split; [exact H1|]. intros w Hw. rewrite (H2 w Hw). auto. Qed.
  Lemma vals_nil cs : vals cs [] (fun _ => []).
  Proof. split; [intros v []|reflexivity]. Qed.
  Lemma vals_cons cs v l f g : val1 cs v f -> vals cs l g -> vals cs (v :: l) (fun w => f w :: g w).
  Proof.
    intros [H1 H2] [H3 H4]. split; [intros x [<-|Hx]; auto|]. intros w Hw. cbn [map]. rewrite (H2 w Hw), (H4 w Hw). reflexivity.
  Qed.
  Lemma vals_app cs l l' f g : vals cs l f -> vals cs l' g -> vals cs (l ++ l') (fun w => f w ++ g w).
  Proof.
    intros [H1 H2] [H3 H4]. split; [intros x Hx; apply in_app_iff in Hx; destruct Hx; auto|].
    intros w Hw. rewrite map_app, (H2 w Hw), (H4 w Hw). reflexivity.
  Qed.
  Lemma vals_nth cs l f i : vals cs l f -> (i < length l)%nat -> val1 cs (nth i l 0%nat) (fun w => nth i (f w) 0).
  Proof.
    intros [H1 H2] Hi. split; [apply H1, nth_In; exact Hi|]. intros w Hw. rewrite <- (H2 w Hw).
    rewrite (nth_map_lt w l i (0 : F) 0%nat) by exact Hi. reflexivity.
  Qed.
  Lemma vals_sub cs l f i j : vals cs l f -> vals cs (firstn j (skipn i l)) (fun w => firstn j (skipn i (f w))).
  Proof.
    intros [H1 H2]. split.
    - intros v Hv. apply H1. rewrite <- (firstn_skipn i l). apply in_or_app. right.
      rewrite <- (firstn_skipn j (skipn i l)). apply in_or_app. left. exact Hv.
    - intros w Hw. rewrite <- firstn_map, <- skipn_map, (H2 w Hw). reflexivity.
  Qed.
  Lemma vals_length cs l f w : vals cs l f -> gates_ok w cs -> length (f w) = length l.
  Proof. intros [_ H] Hw. rewrite <- (H w Hw). apply map_length. Qed.
  Lemma vals_upd cs l f i v g : vals cs l f -> val1 cs v g -> vals cs (upd l i v) (fun w => upd (f w) i (g w)).
  Proof.
    intros [H1 H2] [H3 H4]. split.
    - intros x Hx. apply (In_nth _ _ 0%nat) in Hx. destruct Hx as (j & Hj & <-). rewrite upd_length in Hj.
      destruct (Nat.eq_dec i j) as [->|Hne].
      + rewrite nth_upd_same by exact Hj. exact H3.
      + rewrite nth_upd_other by exact Hne. apply H1, nth_In. exact Hj.
    - intros w Hw. rewrite <- (H2 w Hw), <- (H4 w Hw). clear. revert i.
      induction l as [|x l IH]; intros [|i]; simpl; try reflexivity. rewrite IH. reflexivity.
  Qed.

  (** ** The primitives *)
  Lemma newWire_ok cs (L R : list (F * nat)) : cs_ok cs -> (forall t, In t (L ++ R) -> (snd t < nbWires cs)%nat) ->
    exists cs', newWire L R cs = Some (nbWires cs, cs') /\ computes cs cs' /\
      val1 cs' (nbWires cs) (fun w => lc_val w L * lc_val w R).
  Proof.
    intros HO HLR. pose proof HO as (H0 & Hg & Ha). eexists. split; [reflexivity|]. set (n := nbWires cs) in *.
    assert (Hnew : below (S n) (MkR1c L R [(1, n)])).
    { intros t Ht. cbn [rL rR rO] in Ht. rewrite app_assoc in Ht. apply in_app_iff in Ht. destruct Ht as [Ht|[<-|[]]]; [|cbn; lia].
      specialize (HLR t Ht). lia. }
    assert (Hval : forall w, holds w (MkR1c L R [(1, n)]) <-> w n = lc_val w L * lc_val w R).
    { intros w. unfold holds. cbn [rL rR rO]. unfold lc_val at 3. cbn [suml fst snd].
      split; intros E; [rewrite E|rewrite E]; ring. }
    split; [|split].
    - split; [|split; [|reflexivity]].
      + split; [cbn; lia|]. cbn [nbWires gates assertions]. split.
        * apply Forall_app. split; [apply (forall_below_mono n); [lia|exact Hg]|constructor; [exact Hnew|constructor]].
        * apply (forall_below_mono n); [lia|exact Ha].
      + split; [cbn; lia|]. cbn [nbWires gates assertions]. split; [eexists; reflexivity|].
        split; [exists []; rewrite app_nil_r; reflexivity|]. split.
        * intros w Hw. set (w' := fun v => if (v =? n)%nat then lc_val w L * lc_val w R else w v).
          assert (Hag : agree_below n w w').
          { intros v Hv. unfold w'. destruct (Nat.eqb_spec v n); [lia|reflexivity]. }
          exists w'. split; [exact Hag|]. pose proof (proj1 (gates_ext cs w w' HO Hag) Hw) as [W1 W2].
          split; [exact W1|]. cbn [gates]. apply Forall_app. split; [exact W2|]. constructor; [|constructor].
          apply Hval. unfold w' at 1. rewrite Nat.eqb_refl.
          rewrite (lc_val_ext w w' L), (lc_val_ext w w' R); [reflexivity| |];
            intros t Ht; apply Hag, HLR, in_app_iff; auto.
        * intros w w' [_ Hw] [_ Hw'] Hag v Hv. cbn [gates] in *. apply Forall_app in Hw. apply Forall_app in Hw'.
          destruct Hw as [_ Hw]. destruct Hw' as [_ Hw']. inversion Hw as [|? ? X _]. inversion Hw' as [|? ? X' _]. subst.
          apply Hval in X. apply Hval in X'. destruct (Nat.eq_dec v n) as [->|Hne]; [|apply Hag; fold n; lia].
          rewrite X, X'. rewrite (lc_val_ext w w' L), (lc_val_ext w w' R); [reflexivity| |];
            intros t Ht; apply Hag, HLR, in_app_iff; auto.
    - cbn. lia.
    - intros w [_ Hw]. cbn [gates] in Hw. apply Forall_app in Hw. destruct Hw as [_ Hw]. inversion Hw as [|? ? X _]. apply Hval. exact X.
  Qed.

  Lemma lc_one (w : nat -> F) cs : gates_ok w cs -> lc_val w oneLC = 1.
  Proof. intros [H _]. unfold lc_val, oneLC. cbn [suml fst snd]. rewrite H. ring. Qed.

  Lemma cConstant_ok cs (c : F) : cs_ok cs -> exists r cs', cConstant c cs = Some (r, cs') /\ computes cs cs' /\ val1 cs' r (fun _ => c).
  Proof.
    intros HO. destruct (newWire_ok cs [(c, 0%nat)] oneLC HO) as (cs' & E & HC & HV).
    { destruct HO as [H0 _]. intros t [<-|[<-|[]]]; exact H0. }
    exists (nbWires cs), cs'. split; [exact E|]. split; [exact HC|]. apply (val1_iff _ _ _ _ HV). intros w Hw.
    rewrite (lc_one w cs' Hw). destruct Hw as [H1 _]. unfold lc_val. cbn [suml fst snd]. rewrite H1. ring.
  Qed.

  Lemma lc_sum (w : nat -> F) l : lc_val w (map (fun v => (1, v)) l) = suml (map w l) (fun x => x).
  Proof. unfold lc_val. induction l as [|v l IH]; cbn [map suml fst snd]; [reflexivity|]. rewrite IH. ring. Qed.

  Lemma cAdd_ok cs a b rest fa fb fr : cs_ok cs -> val1 cs a fa -> val1 cs b fb -> vals cs rest fr ->
    exists r cs', cAdd a b rest cs = Some (r, cs') /\ computes cs cs' /\
      val1 cs' r (fun w => fa w + (fb w + suml (fr w) (fun x => x))).
  Proof.
    intros HO [A1 A2] [B1 B2] [R1 R2].
    destruct (newWire_ok cs (map (fun v => (1, v)) (a :: b :: rest)) oneLC HO) as (cs' & E & HC & HV).
    { intros t Ht. apply in_app_iff in Ht. destruct Ht as [Ht|[<-|[]]]; [|exact (proj1 HO)].
      apply in_map_iff in Ht. destruct Ht as (v & <- & [<-|[<-|Hv]]); cbn [snd]; auto. }
    exists (nbWires cs), cs'. split; [exact E|]. split; [exact HC|]. apply (val1_iff _ _ _ _ HV). intros w Hw.
    rewrite (lc_one w cs' Hw), lc_sum. assert (Hw' : gates_ok w cs) by (eapply grows_gates; [apply HC|exact Hw]).
    cbn [map suml]. rewrite (A2 w Hw'), (B2 w Hw'), (R2 w Hw'). ring.
  Qed.

  Lemma cAdd2_ok cs a b fa fb : cs_ok cs -> val1 cs a fa -> val1 cs b fb ->
    exists r cs', cAdd a b [] cs = Some (r, cs') /\ computes cs cs' /\ val1 cs' r (fun w => fa w + fb w).
  Proof.
    intros HO HA HB. destruct (cAdd_ok cs a b [] fa fb (fun _ => []) HO HA HB (vals_nil cs)) as (r & cs' & E & HC & HV).
    exists r, cs'. split; [exact E|]. split; [exact HC|]. apply (val1_iff _ _ _ _ HV). intros w _. cbn [suml]. ring.
  Qed.

  Lemma cSub_ok cs a b fa fb : cs_ok cs -> val1 cs a fa -> val1 cs b fb ->
    exists r cs', cSub a b cs = Some (r, cs') /\ computes cs cs' /\ val1 cs' r (fun w => fa w - fb w).
  Proof.
    intros HO [A1 A2] [B1 B2].
    destruct (newWire_ok cs [(1, a); (- (1), b)] oneLC HO) as (cs' & E & HC & HV).
    { intros t [<-|[<-|[<-|[]]]]; auto. exact (proj1 HO). }
    exists (nbWires cs), cs'. split; [exact E|]. split; [exact HC|]. apply (val1_iff _ _ _ _ HV). intros w Hw.
    rewrite (lc_one w cs' Hw). assert (Hw' : gates_ok w cs) by (eapply grows_gates; [apply HC|exact Hw]).
    unfold lc_val. cbn [suml fst snd]. rewrite (A2 w Hw'), (B2 w Hw'). ring.
  Qed.

  Lemma cSubConst_ok cs c b fb : cs_ok cs -> val1 cs b fb ->
    exists r cs', cSubConst c b cs = Some (r, cs') /\ computes cs cs' /\ val1 cs' r (fun w => c - fb w).
  Proof.
    intros HO [B1 B2].
    destruct (newWire_ok cs [(c, 0%nat); (- (1), b)] oneLC HO) as (cs' & E & HC & HV).
    { intros t [<-|[<-|[<-|[]]]]; auto; exact (proj1 HO). }
    exists (nbWires cs), cs'. split; [exact E|]. split; [exact HC|]. apply (val1_iff _ _ _ _ HV). intros w Hw.
    rewrite (lc_one w cs' Hw). assert (Hw' : gates_ok w cs) by (eapply grows_gates; [apply HC|exact Hw]).
    unfold lc_val. cbn [suml fst snd]. rewrite (B2 w Hw'). destruct Hw as [-> _]. ring.
  Qed.

  Lemma cMul_ok cs a b fa fb : cs_ok cs -> val1 cs a fa -> val1 cs b fb ->
    exists r cs', cMul a b cs = Some (r, cs') /\ computes cs cs' /\ val1 cs' r (fun w => fa w * fb w).
  Proof.
    intros HO [A1 A2] [B1 B2].
    destruct (newWire_ok cs [(1, a)] [(1, b)] HO) as (cs' & E & HC & HV).
    { intros t [<-|[<-|[]]]; auto. }
    exists (nbWires cs), cs'. split; [exact E|]. split; [exact HC|]. apply (val1_iff _ _ _ _ HV). intros w Hw.
    assert (Hw' : gates_ok w cs) by (eapply grows_gates; [apply HC|exact Hw]).
    unfold lc_val. cbn [suml fst snd]. rewrite (A2 w Hw'), (B2 w Hw'). ring.
  Qed.

  Lemma cAssert_ok cs a b fa fb : cs_ok cs -> val1 cs a fa -> val1 cs b fb ->
    exists cs', cAssertIsEqual a b cs = Some (tt, cs') /\ imposes cs cs' (fun w => fa w = fb w).
  Proof.
    intros HO [A1 A2] [B1 B2]. pose proof HO as (H0 & Hg & Ha). eexists. split; [reflexivity|]. split; [|split].
    - split; [exact H0|]. cbn [nbWires gates assertions]. split; [exact Hg|]. apply Forall_app. split; [exact Ha|].
      constructor; [|constructor]. intros t [<-|[<-|[<-|[]]]]; auto.
    - split; [cbn; lia|]. cbn [nbWires gates assertions]. split; [exists []; rewrite app_nil_r; reflexivity|].
      split; [eexists; reflexivity|]. split; [|auto]. intros w Hw. exists w. split; [intros v _; reflexivity|exact Hw].
    - intros w Hw. assert (Hw' : gates_ok w cs) by exact Hw. unfold asserts_ok. cbn [assertions]. rewrite Forall_app.
      assert (Hh : holds w (MkR1c [(1, a)] oneLC [(1, b)]) <-> fa w = fb w).
      { unfold holds. cbn [rL rR rO]. rewrite (lc_one w cs Hw'). unfold lc_val. cbn [suml fst snd].
        rewrite (A2 w Hw'), (B2 w Hw'). split; intros E.
        - replace (fa w) with ((1 * fa w + 0) * 1) by ring. rewrite E. ring.
        - rewrite E. ring. }
      split; [intros [X Y]; inversion Y; subst; split; [exact X|apply Hh; assumption]|].
      intros [X Y]. split; [exact X|]. constructor; [apply Hh; exact Y|constructor].
  Qed.
End L.
