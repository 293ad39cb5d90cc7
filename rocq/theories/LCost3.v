(** What the counting model counts: all rounds (lemmas for PCost.v). *)
From Coq Require Import List Arith ZArith Lia Bool.
From Verif Require Import Field Go MCommon LCommon MPoly LPoly MCircuit MSumcheck LSumcheck MCost SpecCost LCost LCost2.
Import ListNotations.

(** Whenever [m] returns, its result satisfies [I] and its count is at most [k]. *)
Definition atmost {A} (m : W A) (I : A -> Prop) (k : nat) : Prop := forall a c, m = Some (a, c) -> I a /\ c <= k.

Lemma a_costs {A} (m : W A) (I : A -> Prop) k k' : costs m I k -> k <= k' -> atmost m I k'.
Proof. intros H Hk a c E. destruct (H a c E) as [Ha ->]. split; assumption. Qed.

Lemma a_bind {A B} (m : W A) (f : A -> W B) (J : A -> Prop) (I : B -> Prop) k1 k2 k : atmost m J k1 -> (forall a, J a -> atmost (f a) I k2) -> k1 + k2 <= k -> atmost (bindW m f) I k.
Proof.
  intros H1 H2 Hk b c E. unfold bindW in E. destruct m as [[a n]|]; [|discriminate]. destruct (H1 a n eq_refl) as [Ha Hn].
  destruct (f a) as [[b' k']|] eqn:Ef; [|discriminate]. injection E as <- <-. destruct (H2 a Ha _ _ Ef) as [Hb Hc]. split; [exact Hb|lia].
Qed.

Lemma a_weak {A} (m : W A) (I J : A -> Prop) k k' : atmost m I k -> k <= k' -> (forall a, I a -> J a) -> atmost m J k'.
Proof. intros H Hk HI a c E. destruct (H a c E) as [Ha Hc]. split; [apply HI, Ha|lia]. Qed.

Lemma a_rounds {S} (I : nat -> S -> Prop) (r : S -> W S) A X : (forall b s, I (1 + b) s -> atmost (r s) (I b) (A + 2 ^ b * X)) ->
  forall b s a, I b s -> atmost (foldW (fun s _ => r s) (seq a b) s) (I 0) (b * A + (2 ^ b - 1) * X).
Proof.
  intros H. induction b as [|b IH]; intros s a Hs; [apply (a_costs _ _ 0); [apply c_ret, Hs|apply Nat.le_0_l]|].
  cbn [seq foldW]. apply (a_bind _ _ (I b) _ (A + 2 ^ b * X) (b * A + (2 ^ b - 1) * X)); [apply H, Hs|intros s' Hs'; apply IH, Hs'|].
  cbn [Nat.pow]. pose proof (Nat.neq_0_lt_0 (2 ^ b)) as _. assert (1 <= 2 ^ b) by (clear; induction b; cbn; lia).
  replace (2 * 2 ^ b - 1) with (2 ^ b + (2 ^ b - 1)) by lia. lia.
Qed.

Lemma over_le cost : forall l m cs, Forall2 le l m -> over cost l cs <= over cost m cs.
Proof.
  unfold over. intros l m cs H. revert cs. induction H as [|a b l m Hab _ IH]; intros [|c cs]; cbn [combine map]; try lia.
  change (list_sum (?x :: ?r)) with (x + list_sum r). specialize (IH cs). cbn [fst snd]. nia.
Qed.

Section S.
  Context {F : Field}.
  Add Field FfieldCost3 : (f_theory F).
  Open Scope F_scope.

  Definition on (x : F) : nat := if negb (x =? 0) then 1 else 0.

  Lemma support_sum (t : list F) : support t = list_sum (map (fun h => on (nth h t 0)) (seq 0 (length t))).
  Proof.
    unfold support. rewrite <- (Nat.mul_1_r (length _)), <- (sum_count (fun x => negb (x =? 0)) 1 t).
    induction t as [|x t IH]; [reflexivity|]. cbn [map length seq]. change (list_sum (?x :: ?r)) with (x + list_sum r)%nat. rewrite IH, <- seq_shift, map_map. reflexivity.
  Qed.

  Lemma on_0 : on (0 : F) = 0%nat.
  Proof. unfold on. destruct (feqb_spec F (0 : F) 0); [reflexivity|contradiction]. Qed.

  Lemma on_le (x y : F) : (y = 0 -> x = 0) -> (on x <= on y)%nat.
  Proof. intros H. destruct (feqb_spec F y 0) as [E|E]; [rewrite (H E), on_0; lia|]. unfold on at 2. destruct (feqb_spec F y 0); [contradiction|]. unfold on. cbn. destruct (negb _); lia. Qed.

  Lemma on_fold (x y r : F) : (on ((1 - r) * x + r * y) <= on x + on y)%nat.
  Proof.
    destruct (feqb_spec F x 0) as [Ex|Ex].
    - destruct (feqb_spec F y 0) as [Ey|Ey].
      + subst. replace ((1 - r) * 0 + r * 0) with (0 : F) by ring. rewrite on_0. lia.
      + unfold on at 3. destruct (feqb_spec F y 0); [contradiction|]. cbn. unfold on at 1. destruct (negb _); lia.
    - unfold on at 2. destruct (feqb_spec F x 0); [contradiction|]. cbn. unfold on at 1. destruct (negb _); lia.
  Qed.

  Lemma support_halves (t : list F) m : length t = (2 * m)%nat -> support t = list_sum (map (fun h => on (nth h t fzero) + on (nth (m + h) t fzero))%nat (seq 0 m)).
  Proof.
    intros Hl. rewrite support_sum, Hl, sum_add. replace (2 * m)%nat with (m + m)%nat by lia. rewrite seq_app, map_app, list_sum_app. f_equal.
    rewrite <- (map_map (fun j => m + j)%nat (fun h => on (nth h t 0))), seq_move. rewrite Nat.add_0_r. reflexivity.
  Qed.

  Lemma support_fold (t : list F) r m : length t = (2 * m)%nat -> (support (foldv t r) <= support t)%nat.
  Proof.
    intros Hl. rewrite (support_halves t m Hl), support_sum, foldv_length, Hl, half2. apply sum_le. intros h Hh. apply in_seq in Hh.
    rewrite (foldv_nth t r m) by (try exact Hl; lia). apply on_fold.
  Qed.

  Lemma live_support (t : list F) m : length t = (2 * m)%nat -> (live t <= support t)%nat.
  Proof.
    intros Hl. rewrite (support_halves t m Hl). unfold live. rewrite Hl, half2. rewrite <- (Nat.mul_1_r (length _)), <- sum_count. apply sum_le. intros h _.
    unfold on. destruct (nth h t 0 =? 0); cbn; destruct (_ =? 0); cbn; lia.
  Qed.

  (* ---------------------------------------------------------------- folds *)
  Lemma c_Folds (tabs : list (list F)) r s : (forall t, In t tabs -> length t = (2 * s)%nat) ->
    costs (mapW (fun t => WFold t r) tabs) (fun ts => ts = map (fun t => foldv t r) tabs) (length tabs * s).
  Proof.
    intros Ht. apply (c_weak _ (Forall2 (fun t t' => t' = foldv t r) tabs) _ (list_sum (map (fun t => length t / 2) tabs))%nat).
    - apply c_map. intros t _. apply c_Fold.
    - rewrite <- list_sum_const. apply sum_ext. intros t Hin. rewrite (Ht t Hin). apply half2.
    - intros ts H. induction H as [|a b la lb -> _ IH]; [reflexivity|]. cbn. f_equal. apply IH. intros t Hin. apply Ht. right. exact Hin.
  Qed.

  Open Scope nat_scope.
  Section Prover.
    Variables (gs : list (WGate F)) (cs : list Price) (ch : list F -> F).
    Hypothesis HP : Forall2 priced gs cs.
    Variables (dl dr dp n g : nat) (ss : list nat).
    Hypotheses (Hn : (0 < n)%nat) (Hg : (0 < g)%nat).

    Definition tabs_ok (size : nat) (p : Prover F) : Prop :=
      length (sStatic p) = length gs /\ (forall t, In t (sStatic p) -> length t = size) /\ Forall2 le (map support (sStatic p)) ss.
    Definition degs_ok (p : Prover F) : Prop := dHL p = dl /\ dHR p = dr /\ dHPrime p = dp.

    Lemma live_ok size p : tabs_ok (2 * size) p -> Forall2 le (map live (sStatic p)) ss.
    Proof.
      intros (_ & Ht & H). revert Ht H. generalize (sStatic p) as l. intros l Ht. revert ss. induction l as [|t l IH]; intros s H; inversion H; subst; constructor.
      - pose proof (live_support t size (Ht t (or_introl eq_refl))). lia.
      - apply IH; [intros x Hx; apply Ht; right; exact Hx|assumption].
    Qed.

    Lemma fold_ok size p r : tabs_ok (2 * size) p ->
      length (map (fun t => foldv t r) (sStatic p)) = length gs /\ (forall t, In t (map (fun t => foldv t r) (sStatic p)) -> length t = size) /\
      Forall2 le (map support (map (fun t => foldv t r) (sStatic p))) ss.
    Proof.
      intros (Hl & Ht & H). split; [rewrite map_length; exact Hl|]. split.
      - intros t Hin. apply in_map_iff in Hin. destruct Hin as (t0 & <- & Hin). rewrite foldv_length, (Ht t0 Hin). apply half2.
      - clear Hl. revert Ht H. generalize (sStatic p) as l. intros l Ht. revert ss. induction l as [|t l IH]; intros s H; inversion H; subst; constructor.
        + pose proof (support_fold t r size (Ht t (or_introl eq_refl))). lia.
        + apply IH; [intros x Hx; apply Ht; right; exact Hx|assumption].
    Qed.

    (* -------------------------------------------------------------- hL *)
    Definition invL (b : nat) (st : Prover F * list (list F) * list F) : Prop :=
      let p := fst (fst st) in length (sEq p) = n /\ length (sVR p) = (g * n)%nat /\ length (sVL p) = (2 ^ b * n)%nat /\ tabs_ok (2 ^ b * g) p /\ degs_ok p.

    Lemma round_L b st : invL (1 + b) st ->
      atmost (Wround ch (WGetEvalsOnHL gs) WFoldHL st) (invL b)
        (n * over (fun c => cVL c (dl + 1) + (dl + 1)) ss cs + (dl + 1) * (dl + 1) + 2 ^ b * (length cs * (g * (dl + 1 + 1)) + n)).
    Proof.
      destruct st as [[p pf] q]. intros (He & Hr & Hv & Ht & Hd). cbn [fst] in *. unfold Wround. set (e := (dl + 1)%nat).
      assert (Hc : length gs = length cs) by exact (F2_len _ _ _ HP).
      replace (2 ^ (1 + b) * g)%nat with (2 * (2 ^ b * g))%nat in Ht by (cbn; lia). replace (2 ^ (1 + b) * n)%nat with (2 * (2 ^ b * n))%nat in Hv by (cbn; lia).
      destruct Hd as (D1 & D2 & D3).
      apply (a_bind _ _ (fun r => length r = e) _ (n * over (fun c => cVL c e + e) ss cs + length cs * (2 ^ b * g * e)) (e * e + (length cs * (2 ^ b * g) + 2 ^ b * n))).
      - pose proof (live_ok _ _ Ht) as HL. destruct Ht as (T1 & T2 & T3). eapply a_costs; [unfold e; rewrite <- D1; apply (c_HL gs cs HP p n g (2 ^ b)); assumption|].
        unfold round_left. unfold e. rewrite <- D1. pose proof (over_le (fun c => cVL c (dHL p + 1) + (dHL p + 1))%nat _ _ cs HL). nia.
      - intros ev Hev. apply (a_bind _ _ (fun _ => True) _ (e * e) (length cs * (2 ^ b * g) + 2 ^ b * n)); [eapply a_costs; [apply c_Interp|rewrite Hev; lia]| |lia].
        intros co _. cbv zeta. apply (a_bind _ _ (fun p' => invL b (p', pf, q)) _ (length cs * (2 ^ b * g) + 2 ^ b * n) 0); [|intros p' Hp'; apply (a_costs _ _ 0); [apply c_ret; exact Hp'|lia]|lia].
        unfold WFoldHL. apply (a_bind _ _ (fun ts => ts = map (fun t => foldv t (ch co)) (sStatic p)) _ (length cs * (2 ^ b * g)) (2 ^ b * n)); [|intros ts ->|lia].
        + eapply a_costs; [apply (c_Folds _ _ (2 ^ b * g)); apply Ht|]. destruct Ht as (T1 & _). rewrite T1, Hc. lia.
        + apply (a_bind _ _ (fun t => t = foldv (sVL p) (ch co)) _ (2 ^ b * n) 0); [eapply a_costs; [apply c_Fold|rewrite Hv, half2; lia]| |lia].
          intros t ->. apply (a_costs _ _ 0); [|lia]. apply c_ret. unfold invL. cbn [fst sEq sVR sVL sStatic]. split; [exact He|]. split; [exact Hr|]. split; [rewrite foldv_length, Hv; apply half2|].
          split; [exact (fold_ok _ _ _ Ht)|]. split; [exact D1|split; assumption].
      - nia.
    Qed.

    (* -------------------------------------------------------------- hR *)
    Definition invR (b : nat) (st : Prover F * list (list F) * list F) : Prop :=
      let p := fst (fst st) in length (sEq p) = n /\ length (sVR p) = (2 ^ b * n)%nat /\ length (sVL p) = n /\ tabs_ok (2 ^ b) p /\ degs_ok p.

    Lemma round_R b st : invR (1 + b) st ->
      atmost (Wround ch (WGetEvalsOnHR gs) WFoldHR st) (invR b)
        (n * over (fun c => cVR c (dr + 1) + (dr + 1)) ss cs + (dr + 1) * (dr + 1) + 2 ^ b * (length cs * (dr + 1 + 1) + n)).
    Proof.
      destruct st as [[p pf] q]. intros (He & Hr & Hv & Ht & Hd). cbn [fst] in *. unfold Wround. set (e := (dr + 1)%nat).
      assert (Hc : length gs = length cs) by exact (F2_len _ _ _ HP).
      replace (2 ^ (1 + b))%nat with (2 * 2 ^ b)%nat in Ht, Hr by (cbn; lia).
      destruct Hd as (D1 & D2 & D3).
      apply (a_bind _ _ (fun r => length r = e) _ (n * over (fun c => cVR c e + e) ss cs + length cs * (2 ^ b * e)) (e * e + (length cs * 2 ^ b + 2 ^ b * n))).
      - pose proof (live_ok _ _ Ht) as HL. destruct Ht as (T1 & T2 & T3). eapply a_costs; [unfold e; rewrite <- D2; apply (c_HR gs cs HP p n (2 ^ b)); assumption|].
        unfold round_right. unfold e. rewrite <- D2. pose proof (over_le (fun c => cVR c (dHR p + 1) + (dHR p + 1))%nat _ _ cs HL). nia.
      - intros ev Hev. apply (a_bind _ _ (fun _ => True) _ (e * e) (length cs * 2 ^ b + 2 ^ b * n)); [eapply a_costs; [apply c_Interp|rewrite Hev; lia]| |lia].
        intros co _. cbv zeta. apply (a_bind _ _ (fun p' => invR b (p', pf, q)) _ (length cs * 2 ^ b + 2 ^ b * n) 0); [|intros p' Hp'; apply (a_costs _ _ 0); [apply c_ret; exact Hp'|lia]|lia].
        unfold WFoldHR. apply (a_bind _ _ (fun ts => ts = map (fun t => foldv t (ch co)) (sStatic p)) _ (length cs * 2 ^ b) (2 ^ b * n)); [|intros ts ->|lia].
        + eapply a_costs; [apply (c_Folds _ _ (2 ^ b)); apply Ht|]. destruct Ht as (T1 & _). rewrite T1, Hc. lia.
        + apply (a_bind _ _ (fun t => t = foldv (sVR p) (ch co)) _ (2 ^ b * n) 0); [eapply a_costs; [apply c_Fold|rewrite Hr, <- Nat.mul_assoc, half2; lia]| |lia].
          intros t ->. apply (a_costs _ _ 0); [|lia]. apply c_ret. unfold invR. cbn [fst sEq sVR sVL sStatic]. split; [exact He|]. split; [rewrite foldv_length, Hr, <- Nat.mul_assoc; apply half2|]. split; [exact Hv|].
          split; [exact (fold_ok _ _ _ Ht)|]. split; [exact D1|split; assumption].
      - nia.
    Qed.

    (* -------------------------------------------------------------- h' *)
    Definition invP (b : nat) (st : Prover F * list (list F) * list F) : Prop :=
      let p := fst (fst st) in length (sEq p) = (2 ^ b)%nat /\ length (sVR p) = (2 ^ b)%nat /\ length (sVL p) = (2 ^ b)%nat /\ length (sStatic p) = length gs /\ degs_ok p.

    Lemma round_P b st : invP (1 + b) st ->
      atmost (Wround ch (WGetEvalsOnHPrime gs) WFoldHPrime st) (invP b)
        (length cs * (dp + 1) + (dp + 1) * (dp + 1) + 2 ^ b * (list_sum (map (fun c => (dp + 1) * (cEval c + 1)) cs) + 3)).
    Proof.
      destruct st as [[p pf] q]. intros (He & Hr & Hv & Ht & Hd). cbn [fst] in *. unfold Wround. set (e := (dp + 1)%nat).
      replace (2 ^ (1 + b))%nat with (2 * 2 ^ b)%nat in He, Hr, Hv by (cbn; lia). destruct Hd as (D1 & D2 & D3).
      apply (a_bind _ _ (fun r => length r = e) _ (2 ^ b * list_sum (map (fun c => e * (cEval c + 1)) cs) + length cs * e) (e * e + 3 * 2 ^ b)).
      - eapply a_costs; [unfold e; rewrite <- D3; apply (c_HPrime gs cs HP p Ht)|]. unfold round_prime. rewrite He, half2. unfold e. rewrite <- D3. lia.
      - intros ev Hev. apply (a_bind _ _ (fun _ => True) _ (e * e) (3 * 2 ^ b)); [eapply a_costs; [apply c_Interp|rewrite Hev; lia]| |lia].
        intros co _. cbv zeta. apply (a_bind _ _ (fun p' => invP b (p', pf, q)) _ (3 * 2 ^ b) 0); [|intros p' Hp'; apply (a_costs _ _ 0); [apply c_ret; exact Hp'|lia]|lia].
        unfold WFoldHPrime.
        apply (a_bind _ _ (fun t => t = foldv (sVR p) (ch co)) _ (2 ^ b) (2 * 2 ^ b)); [eapply a_costs; [apply c_Fold|rewrite Hr, half2; lia]| |lia]. intros t ->.
        apply (a_bind _ _ (fun t => t = foldv (sVL p) (ch co)) _ (2 ^ b) (2 ^ b)); [eapply a_costs; [apply c_Fold|rewrite Hv, half2; lia]| |lia]. intros t ->.
        apply (a_bind _ _ (fun t => t = foldv (sEq p) (ch co)) _ (2 ^ b) 0); [eapply a_costs; [apply c_Fold|rewrite He, half2; lia]| |lia]. intros t ->.
        apply (a_costs _ _ 0); [|lia]. apply c_ret. unfold invP. cbn [fst sEq sVR sVL sStatic]. rewrite !foldv_length, He, Hr, Hv, half2. repeat split; assumption.
      - nia.
    Qed.
  End Prover.

  (* ---------------------------------------------------------------- Prove *)
  Lemma a_Prove gs cs (ch : list F -> F) (p : Prover F) bG bN : Forall2 priced gs cs ->
    length (sEq p) = (2 ^ bN)%nat -> length (sVL p) = (2 ^ bG * 2 ^ bN)%nat -> length (sVR p) = (2 ^ bG * 2 ^ bN)%nat ->
    length (sStatic p) = length gs -> (forall t, In t (sStatic p) -> length t = (2 ^ bG * 2 ^ bG)%nat) ->
    atmost (WProve gs ch p) (fun _ => True)
      (work_left (dHL p + 1) bG bN (map support (sStatic p)) cs + work_right (dHR p + 1) bG bN (map support (sStatic p)) cs + work_prime (dHPrime p + 1) bN cs).
  Proof.
    intros HP He Hl Hr Hs Ht. unfold WProve. cbv zeta. assert (HN : (0 < 2 ^ bN)%nat) by (clear; induction bN; cbn; lia). assert (HG : (0 < 2 ^ bG)%nat) by (clear; induction bG; cbn; lia).
    rewrite He, Hr, godiv_some, Nat.div_mul by lia. cbv beta iota. rewrite !log2ceil_pow2. set (ss := map support (sStatic p)).
    set (dl := dHL p). set (dr := dHR p). set (dp := dHPrime p).
    apply (a_bind _ _ (invL gs dl dr dp (2 ^ bN) (2 ^ bG) ss 0) _ (work_left (dl + 1) bG bN ss cs) (work_right (dr + 1) bG bN ss cs + work_prime (dp + 1) bN cs)); [| |lia].
    - unfold work_left, Wrounds, forW. apply (a_rounds (invL gs dl dr dp (2 ^ bN) (2 ^ bG) ss)).
      + intros b s Hb. apply round_L; assumption.
      + unfold invL. cbn [fst]. repeat split; try assumption. unfold ss. clear. induction (sStatic p); constructor; auto.
    - intros [[p1 pf1] q1] (E1 & E2 & E3 & (T1 & T2 & T3) & D). cbn [fst] in *.
      apply (a_bind _ _ (invR gs dl dr dp (2 ^ bN) ss 0) _ (work_right (dr + 1) bG bN ss cs) (work_prime (dp + 1) bN cs)); [| |lia].
      + unfold work_right, Wrounds, forW. apply (a_rounds (invR gs dl dr dp (2 ^ bN) ss)).
        * intros b s Hb. apply round_R with (g := 2 ^ bG); assumption.
        * unfold invR. cbn [fst]. split; [exact E1|]. split; [exact E2|]. split; [rewrite E3; cbn; lia|]. split; [|exact D]. split; [exact T1|]. split; [|exact T3].
          intros t Hin. rewrite (T2 t Hin). cbn; lia.
      + intros [[p2 pf2] q2] (R1 & R2 & R3 & (U1 & U2 & U3) & D'). cbn [fst] in *.
        apply (a_bind _ _ (fun _ => True) _ (work_prime (dp + 1) bN cs) 0); [| |lia].
        * unfold work_prime, Wrounds, forW. apply (a_weak _ (invP gs dl dr dp 0) _ (bN * (length cs * (dp + 1) + (dp + 1) * (dp + 1)) + (2 ^ bN - 1) * (list_sum (map (fun c => (dp + 1) * (cEval c + 1)) cs) + 3))); [|lia|auto].
          apply (a_rounds (invP gs dl dr dp)); [intros b s Hb; apply round_P with (n := 2 ^ bN) (g := 2 ^ bG); assumption|].
          unfold invP. cbn [fst]. split; [exact R1|]. split; [rewrite R2; cbn; lia|]. split; [exact R3|]. split; [exact U1|exact D'].
        * intros [[p3 pf3] q3] _. destruct (finalClaimsOf p3); [apply (a_costs _ _ 0); [apply c_ret; exact I|lia]|]. intros ? ? X. discriminate X.
  Qed.
End S.
