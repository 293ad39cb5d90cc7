(** The number of multiplications and assertions of each gadget. *)
From Coq Require Import List Arith Lia Bool.
From Verif Require Import Field Go MHash MGkr MSnark SpecSnark SpecSize LSnark6.
Import ListNotations.

Section L.
  Context {F : Field}.
  Open Scope nat_scope.

  Lemma costs_eq {A} (m : M (F:=F) A) n k n' k' (P Q : A -> Prop) : costs m n k P -> n = n' -> k = k' -> (forall a, P a -> Q a) -> costs m n' k' Q.
  Proof. intros H <- <- HQ cs a cs' H0 E. destruct (H cs a cs' H0 E) as (? & ? & ? & ?). auto. Qed.
  Lemma costs_ret {A} (a : A) (P : A -> Prop) : P a -> costs (F:=F) (ret a) 0 0 P.
  Proof. intros H cs x cs' H0 [= <- <-]. rewrite !Nat.add_0_r. auto. Qed.
  Lemma costs_lift {A} (o : option A) (P : A -> Prop) : (forall a, o = Some a -> P a) -> costs (F:=F) (lift o) 0 0 P.
  Proof. intros H cs x cs' H0 E. unfold lift in E. destruct o; [|discriminate]. injection E as <- <-. rewrite !Nat.add_0_r. auto. Qed.
  Lemma costs_bind {A B} (m : M (F:=F) A) (f : A -> M (F:=F) B) n1 k1 n2 k2 (P : A -> Prop) (Q : B -> Prop) :
    costs m n1 k1 P -> (forall a, P a -> costs (f a) n2 k2 Q) -> costs (mbind m f) (n1 + n2) (k1 + k2) Q.
  Proof.
    intros Hm Hf cs b cs'' H0 E. unfold mbind in E. destruct (m cs) as [[a cs']|] eqn:Em; [|discriminate].
    destruct (Hm _ _ _ H0 Em) as (E1 & E2 & H1 & HP). destruct (Hf a HP _ _ _ H1 E) as (E3 & E4 & H2 & HQ).
    rewrite E3, E4, E1, E2, !Nat.add_assoc. auto.
  Qed.
  Lemma costs_mfold {S A} (f : S -> A -> M (F:=F) S) (cn ck : A -> nat) (I : S -> Prop) l x :
    (forall x a, In a l -> I x -> costs (f x a) (cn a) (ck a) I) -> I x ->
    costs (mfold f l x) (list_sum (map cn l)) (list_sum (map ck l)) I.
  Proof.
    revert x. induction l as [|a l IH]; intros x H Hx; cbn [mfold map list_sum fold_right]; [apply costs_ret, Hx|].
    eapply costs_bind; [apply H; [left; reflexivity|exact Hx]|]. intros y Hy. apply IH; [|exact Hy]. intros; apply H; auto. right; assumption.
  Qed.
  Lemma list_sum_const {A} (l : list A) n : list_sum (map (fun _ => n) l) = length l * n.
  Proof. induction l; cbn; [reflexivity|]. unfold list_sum in IHl. rewrite IHl. reflexivity. Qed.
  Lemma costs_mfold_const {S A} (f : S -> A -> M (F:=F) S) n k (I : S -> Prop) l x :
    (forall x a, In a l -> I x -> costs (f x a) n k I) -> I x -> costs (mfold f l x) (length l * n) (length l * k) I.
  Proof.
    intros H Hx. eapply costs_eq; [apply (costs_mfold f (fun _ => n) (fun _ => k) I); eassumption| | |auto]; apply list_sum_const.
  Qed.
  Lemma costs_mmap {A B} (f : A -> M (F:=F) B) n k (P : B -> Prop) l :
    (forall a, In a l -> costs (f a) n k P) -> costs (mmap f l) (length l * n) (length l * k) (fun bs => length bs = length l /\ forall b, In b bs -> P b).
  Proof.
    induction l as [|a l IH]; intros H; cbn [mmap length Nat.mul]; [apply costs_ret; split; [reflexivity|intros ? []]|].
    eapply costs_eq; [eapply costs_bind; [apply H; left; reflexivity|intros b Hb; eapply costs_bind; [apply IH; intros; apply H; right; assumption|]]| | |].
    - intros bs (L & HP). apply (costs_ret (b :: bs) (fun bs => length bs = S (length l) /\ forall b, In b bs -> P b)).
      split; [cbn; congruence|]. intros y [<-|Hy]; auto.
    - lia.
    - lia.
    - auto.
  Qed.

  Lemma muls_app g n gs a : muls (MkCS n (gs ++ [g]) a) = muls (MkCS n gs a) + (if isMul (F:=F) g then 1 else 0).
  Proof. unfold muls. cbn [gates]. rewrite filter_app, app_length. cbn [filter]. destruct (isMul g); reflexivity. Qed.

  Lemma costs_linear (L : list (F * nat)) : costs (newWire L oneLC) 0 0 (fun v => 0 < v).
  Proof.
    intros cs v cs' H0 [= <- <-]. rewrite muls_app. cbn. unfold muls, asserts. cbn. repeat split; lia.
  Qed.
  Lemma costs_const c : costs (cConstant (F:=F) c) 0 0 (fun v => 0 < v).
  Proof. apply costs_linear. Qed.
  Lemma costs_add a b r : costs (cAdd (F:=F) a b r) 0 0 (fun v => 0 < v).
  Proof. apply costs_linear. Qed.
  Lemma costs_sub a b : costs (cSub (F:=F) a b) 0 0 (fun v => 0 < v).
  Proof. apply costs_linear. Qed.
  Lemma costs_subc c b : costs (cSubConst (F:=F) c b) 0 0 (fun v => 0 < v).
  Proof. apply costs_linear. Qed.
  Lemma costs_mul a b : 0 < b -> costs (cMul (F:=F) a b) 1 0 (fun v => 0 < v).
  Proof.
    intros Hb cs v cs' H0 [= <- <-]. rewrite muls_app. destruct b; [lia|]. cbn. unfold muls, asserts. cbn. repeat split; lia.
  Qed.
  Lemma costs_assert a b : costs (cAssertIsEqual (F:=F) a b) 0 1 (fun _ => True).
  Proof. intros cs v cs' H0 [= <- <-]. unfold muls, asserts. cbn. rewrite app_length. cbn. repeat split; lia. Qed.

  Lemma proper_cons v l : proper (v :: l) <-> 0 < v /\ proper l.
  Proof. unfold proper. cbn [In]. split; [intros H; split; [destruct v; [exfalso; auto|lia]|auto]|intros (H1 & H2) [->|H]; [lia|auto]]. Qed.
  Lemma proper_app l l' : proper (l ++ l') <-> proper l /\ proper l'.
  Proof. unfold proper. rewrite in_app_iff. tauto. Qed.
  Lemma proper_nil : proper [].
  Proof. intros []. Qed.
  Lemma proper_get l i v : proper l -> get l i = Some v -> 0 < v.
  Proof. intros H E. apply nth_error_In in E. destruct v; [contradiction|lia]. Qed.
  Lemma proper_sub l i j : proper l -> proper (firstn j (skipn i l)).
  Proof.
    intros H K. apply H. rewrite <- (firstn_skipn i l). apply in_or_app. right.
    rewrite <- (firstn_skipn j (skipn i l)). apply in_or_app. left. exact K.
  Qed.
  Lemma proper_slice l i j l' : proper l -> slice l i j = Some l' -> proper l' /\ length l' = j - i.
  Proof.
    unfold slice. intros H E. destruct (_ && _) eqn:B; [|discriminate]. injection E as <-. apply andb_true_iff in B.
    rewrite !Nat.leb_le in B. split; [apply proper_sub, H|]. rewrite firstn_length, skipn_length. lia.
  Qed.
  Lemma proper_set l i v l' : proper l -> 0 < v -> set l i v = Some l' -> proper l' /\ length l' = length l.
  Proof.
    intros H Hv E. unfold set in E. destruct (_ <? _); [|discriminate]. injection E as <-. split; [|apply upd_length].
    revert i. induction l as [|x l IH]; intros [|i]; cbn [upd]; try exact H; apply proper_cons in H; apply proper_cons; [tauto|].
    split; [tauto|]. apply IH. tauto.
  Qed.

  Ltac step := eapply costs_bind.
  Ltac done_ := first [reflexivity | lia | auto].

  Lemma cost_univariate_eq q h : 0 < h -> costs (UnivariateEqEval (F:=F) q h) 2 0 (fun v => 0 < v).
  Proof.
    intros Hh. unfold UnivariateEqEval. eapply costs_eq.
    - step; [apply costs_const|intros r0 H0; cbv beta]. step; [apply costs_sub|intros r1 H1; cbv beta]. step; [apply costs_sub|intros r2 H2; cbv beta].
      step; [apply costs_const|intros two H3; cbv beta]. step; [apply costs_mul; exact Hh|intros qh H4; cbv beta].
      step; [apply costs_mul; exact H4|intros t H5; cbv beta]. apply costs_add.
    - reflexivity.
    - reflexivity.
    - auto.
  Qed.

  Lemma cost_eq_eval q h : proper h -> costs (SEqEval (F:=F) q h) (3 * length q) 0 (fun v => 0 < v).
  Proof.
    intros Hh. unfold SEqEval. eapply costs_eq.
    - step; [apply costs_const|intros r0 H0; cbv beta].
      apply (costs_mfold_const _ 3 0 (fun v => 0 < v)); [|exact H0]. intros x i _ Hx. eapply costs_eq.
      + step; [apply (costs_lift _ (fun _ => True)); auto|intros q' _; cbv beta].
        step; [apply (costs_lift _ (fun v => 0 < v)); intros a E; eapply proper_get; eassumption|intros h' Hh'; cbv beta].
        step; [apply cost_univariate_eq; exact Hh'|intros e He; cbv beta]. apply costs_mul; exact He.
      + reflexivity.
      + reflexivity.
      + auto.
    - rewrite seq_length. lia.
    - rewrite seq_length. lia.
    - auto.
  Qed.

  Lemma cost_fold table x : proper table -> 0 < x ->
    costs (SFold (F:=F) table x) (length table / 2) 0 (fun t => proper t /\ length t = length table / 2).
  Proof.
    intros Ht Hx. unfold SFold. cbv zeta. set (k := length table / 2). eapply costs_eq.
    - step.
      + apply (costs_mfold_const _ 1 0 (fun t => proper t /\ length t = length table)); [|split; [exact Ht|reflexivity]].
        intros t i _ (P & L). eapply costs_eq.
        * step; [apply (costs_lift _ (fun _ => True)); auto|intros top _; cbv beta]. step; [apply (costs_lift _ (fun _ => True)); auto|intros bot _; cbv beta].
          step; [apply costs_sub|intros d _; cbv beta]. step; [apply costs_mul; exact Hx|intros m _; cbv beta].
          step; [apply (costs_lift _ (fun _ => True)); auto|intros bot' _; cbv beta]. step; [apply costs_add|intros v Hv; cbv beta in *].
          apply (costs_lift _ (fun t => proper t /\ length t = length table)). intros t' E. destruct (proper_set _ _ _ _ P Hv E). split; [assumption|congruence].
        * reflexivity.
        * reflexivity.
        * auto.
      + intros t (P & L). apply (costs_lift _ (fun t => proper t /\ length t = k)). intros t' E. destruct (proper_slice _ _ _ _ P E). split; [assumption|lia].
    - rewrite seq_length. lia.
    - rewrite seq_length. lia.
    - auto.
  Qed.

  Lemma cost_eval table xs : proper table -> proper xs -> length table = 2 ^ length xs ->
    costs (SEval (F:=F) table xs) (2 ^ length xs - 1) 0 (fun v => 0 < v).
  Proof.
    intros Ht Hx L. unfold SEval. eapply costs_eq.
    - step.
      + instantiate (1 := fun t => proper t). instantiate (1 := 0). instantiate (1 := 2 ^ length xs - 1).
        revert table Ht L. induction xs as [|x xs IH]; intros table Ht L; cbn [mfold length]; [apply costs_ret; exact Ht|].
        apply proper_cons in Hx. destruct Hx as [Hx Hxs]. cbn [length Nat.pow] in L.
        assert (D : length table / 2 = 2 ^ length xs) by (rewrite L; replace (2 * 2 ^ length xs) with (2 ^ length xs * 2) by lia; apply Nat.div_mul; lia).
        eapply costs_eq; [step; [apply cost_fold; assumption|]| | |].
        * intros t (P & L'). apply (IH Hxs t P). congruence.
        * rewrite D. cbn [Nat.pow]. pose proof (Nat.pow_nonzero 2 (length xs)). lia.
        * reflexivity.
        * auto.
      + intros t P. apply (costs_lift _ (fun v => 0 < v)). intros v E. eapply proper_get; eassumption.
    - lia.
    - reflexivity.
    - auto.
  Qed.

  Lemma cost_eval_mixed table qL qR qPrime : proper table -> proper qL -> proper qR -> proper qPrime ->
    length table = 2 ^ (length qL + length qPrime) -> length qR = length qL ->
    costs (SEvalMixed (F:=F) table qL qR qPrime) (2 ^ length qL * (2 ^ length qPrime - 1) + 2 * (2 ^ length qL - 1)) 0
      (fun v => 0 < fst v /\ 0 < snd v).
  Proof.
    intros Ht HL HR HP L E. unfold SEvalMixed. cbv zeta. eapply costs_eq.
    - step; [apply (costs_lift _ (fun c => c = 2 ^ length qPrime))|intros c ->].
      + intros c H. rewrite godiv_some in H by (pose proof (Nat.pow_nonzero 2 (length qL)); lia). injection H as <-.
        rewrite L, Nat.pow_add_r, Nat.mul_comm. apply Nat.div_mul, Nat.pow_nonzero. lia.
      + step; [apply (costs_mmap _ (2 ^ length qPrime - 1) 0 (fun v => 0 < v))|intros t (LT & PT)].
        * intros i _. eapply costs_eq.
          -- step; [apply (costs_lift _ (fun t => proper t /\ length t = 2 ^ length qPrime))|intros t (P1 & P2); apply cost_eval; assumption].
             intros t H. destruct (proper_slice _ _ _ _ Ht H) as (P1 & P2). split; [exact P1|]. rewrite P2. nia.
          -- reflexivity.
          -- reflexivity.
          -- auto.
        * rewrite seq_length in LT. assert (PT' : proper t) by (intros K; specialize (PT _ K); lia).
          step; [apply cost_eval; [exact PT'|exact HL|exact LT]|intros vL HvL].
          step; [apply cost_eval; [exact PT'|exact HR|congruence]|intros vR HvR].
          apply (costs_ret (vL, vR) (fun v => 0 < fst v /\ 0 < snd v)). auto.
    - rewrite seq_length, E. lia.
    - rewrite seq_length. lia.
    - auto.
  Qed.

  Lemma cost_uni_eval coeffs x : coeffs <> [] -> 0 < x -> costs (SUniEval (F:=F) coeffs x) (length coeffs) 0 (fun v => 0 < v).
  Proof.
    intros Hc Hx. unfold SUniEval. set (n := length coeffs). assert (Hn : 0 < n) by (destruct coeffs; [congruence|cbn in n; unfold n; lia]).
    eapply costs_eq.
    - step; [apply costs_const|intros r Hr; cbv beta]. step; [apply costs_const|intros u Hu; cbv beta in *].
      step; [apply (costs_mfold _ (fun i => if (i =? n - 1)%nat then 0 else 1) (fun _ => 0) (fun st => 0 < snd st)); [|exact Hu]|].
      + intros (res, aux) i _ _. eapply costs_eq.
        * step; [instantiate (1 := fun _ => True); instantiate (1 := 0); instantiate (1 := if (i =? n - 1)%nat then 0 else 1);
                 destruct (i =? n - 1)%nat; [apply costs_ret; exact I|eapply costs_eq; [apply costs_mul; exact Hx| | |]; auto]|intros r' _].
          step; [apply (costs_lift _ (fun _ => True)); auto|intros c _]. step; [apply costs_add|intros a Ha].
          apply (costs_ret (r', a) (fun st => 0 < snd st)). exact Ha.
        * lia.
        * reflexivity.
        * auto.
      + intros (res, aux) Ha. step; [apply costs_const|intros one H1; cbv beta in *]. apply costs_mul. exact H1.
    - assert (G : forall m, (m <= n)%nat -> list_sum (map (fun i => if (i =? n - 1)%nat then 0 else 1) (seq 0 m)) = if (m =? n)%nat then n - 1 else m).
      { induction m as [|m IH]; intros H; [cbn; destruct n; reflexivity || lia|]. rewrite seq_S, map_app, list_sum_app, IH by lia. cbn [map list_sum fold_right Nat.add].
        destruct (Nat.eqb_spec m n); [lia|]. destruct (Nat.eqb_spec m (n - 1)); destruct (Nat.eqb_spec (S m) n); lia. }
      rewrite map_rev. replace (list_sum (rev _)) with (list_sum (map (fun i => if (i =? n - 1)%nat then 0 else 1) (seq 0 n))).
      + rewrite (G n) by lia. rewrite Nat.eqb_refl. lia.
      + generalize (map (fun i => if (i =? n - 1)%nat then 0 else 1) (seq 0 n)). intros l. induction l as [|a l IH]; [reflexivity|].
        cbn [rev]. rewrite list_sum_app. cbn [list_sum fold_right]. unfold list_sum in *. rewrite <- IH. lia.
    - rewrite list_sum_const. lia.
    - auto.
  Qed.

  Variable Arks : list F.

  Lemma cost_hash stream : costs (SMimcHash Arks stream) (364 * length stream) 0 (fun v => 0 < v).
  Proof.
    unfold SMimcHash. eapply costs_eq.
    - step; [apply costs_const|intros s0 H0; cbv beta in *].
      apply (costs_mfold_const _ 364 0 (fun v => 0 < v)); [|exact H0]. intros s m _ Hs. cbv zeta. eapply costs_eq.
      + step; [apply (costs_mfold_const _ 4 0 (fun v => 0 < v)); [|exact Hs]|intros t Ht; apply costs_add].
        intros x i _ Hx. unfold SMimcRound. eapply costs_eq.
        * step; [apply (costs_lift _ (fun _ => True)); auto|intros a _]. step; [apply costs_const|intros k Hk; cbv beta in *].
          step; [apply costs_add|intros st Hst; cbv beta in *]. step; [apply costs_mul; exact Hst|intros t1 H1; cbv beta in *].
          step; [apply costs_mul; exact H1|intros t2 H2; cbv beta in *]. step; [apply costs_mul; exact H2|intros t3 H3; cbv beta in *].
          apply costs_mul; exact H3.
        * reflexivity.
        * reflexivity.
        * auto.
      + rewrite seq_length. reflexivity.
      + rewrite seq_length. reflexivity.
      + auto.
    - lia.
    - lia.
    - auto.
  Qed.

  Lemma cost_hash_two a b : costs (SMimcHash Arks [a; b]) 728 0 (fun v => 0 < v).
  Proof. exact (cost_hash [a; b]). Qed.

  (** 364 multiplications to hash a coefficient, one to evaluate it; one assertion for each polynomial *)
  Lemma cost_sumcheck polys claim bG : (forall p, In p polys -> p <> []) -> 2 * bG <= length polys ->
    costs (SSumcheckAssertValid Arks polys claim bG) (365 * length (concat polys)) (length polys)
      (fun r => let '(hL, hR, hPrime, last) := r in
        proper hL /\ proper hR /\ proper hPrime /\ length hL = bG /\ length hR = bG /\ length hPrime = length polys - 2 * bG).
  Proof.
    intros Hp HB. unfold SSumcheckAssertValid. eapply costs_eq.
    - step.
      + instantiate (1 := fun st => proper (fst st) /\ length (fst st) = length polys).
        instantiate (1 := length polys). instantiate (1 := 365 * length (concat polys)).
        enough (G : forall N l hs c, (forall p, In p l -> p <> []) -> proper hs -> N = length hs + length l ->
          costs (mfold (fun '(hs, claimCurr) poly =>
            mbind (SZeroAndOne poly) (fun zeroAndOne => mbind (cAssertIsEqual zeroAndOne claimCurr) (fun _ =>
            mbind (SMimcHash Arks poly) (fun h => mbind (SUniEval poly h) (fun claimCurr => ret (hs ++ [h], claimCurr)))))) l (hs, c))
            (365 * length (concat l)) (length l) (fun st => proper (fst st) /\ length (fst st) = N)).
        { apply (G (length polys)); [exact Hp|apply proper_nil|reflexivity]. }
        intros N. induction l as [|p l IH]; intros hs c Hl Hh HN; cbn [mfold]; [apply costs_ret; cbn in *; split; [exact Hh|lia]|].
        eapply costs_eq.
        * step; [instantiate (1 := fun st => proper (fst st) /\ length (fst st) = S (length hs)); instantiate (1 := 1); instantiate (1 := 365 * length p)|].
          -- eapply costs_eq.
             ++ step; [instantiate (1 := fun _ => True); instantiate (1 := 0); instantiate (1 := 0)|intros z _].
                ** unfold SZeroAndOne. eapply costs_eq; [step; [apply (costs_lift _ (fun _ => True)); auto|intros c0 _];
                   step; [apply (costs_lift _ (fun _ => True)); auto|intros r _]; apply costs_add| | |auto]; reflexivity.
                ** step; [apply costs_assert|intros _ _]. step; [apply cost_hash|intros h Hh'; cbv beta in *].
                   step; [apply cost_uni_eval; [apply Hl; left; reflexivity|exact Hh']|intros cc _].
                   apply (costs_ret (hs ++ [h], cc) (fun st => proper (fst st) /\ length (fst st) = S (length hs))). cbn [fst]. split.
                   --- apply proper_app. split; [exact Hh|]. apply proper_cons. split; [exact Hh'|apply proper_nil].
                   --- rewrite app_length. cbn. lia.
             ++ lia.
             ++ reflexivity.
             ++ auto.
          -- intros (hs', c') (P & L). cbn [fst] in *. apply (IH hs' c'); [intros; apply Hl; right; assumption|exact P|cbn in HN; lia].
        * cbn [concat]. rewrite app_length. lia.
        * reflexivity.
        * auto.
      + intros (hs, c) (P & L). cbn [fst] in *. 
        step; [apply (costs_lift _ (fun l => proper l /\ length l = bG)); intros l E; destruct (proper_slice _ _ _ _ P E); split; [assumption|lia]|intros hL (A1 & A2)].
        step; [apply (costs_lift _ (fun l => proper l /\ length l = bG)); intros l E; destruct (proper_slice _ _ _ _ P E); split; [assumption|lia]|intros hR (B1 & B2)].
        step; [apply (costs_lift _ (fun l => proper l /\ length l = length polys - 2 * bG)); intros l E; destruct (proper_slice _ _ _ _ P E); split; [assumption|lia]|intros hP (C1 & C2)].
        apply (costs_ret (hL, hR, hP, c) (fun r => let '(hL, hR, hPrime, last) := r in
        proper hL /\ proper hR /\ proper hPrime /\ length hL = bG /\ length hR = bG /\ length hPrime = length polys - 2 * bG)). auto 10.
    - lia.
    - lia.
    - auto.
  Qed.

  Definition gate_costs (g : SGate (F:=F)) n := forall vL vR, 0 < vL -> 0 < vR -> costs (g vL vR) n 0 (fun v => 0 < v).
  Definition table_costs (gen : StaticTableGenerator (F:=F)) k :=
    forall q, proper q -> costs (gen q) 0 0 (fun t => proper t /\ length t = 2 ^ k).

  Lemma cost_cipher ark : gate_costs (SCipherGate ark) 4.
  Proof.
    intros vL vR HL HR. unfold SCipherGate. eapply costs_eq.
    - step; [apply costs_const|intros k Hk]. step; [apply costs_add|intros t Ht; cbv beta in *]. step; [apply costs_mul; exact Ht|intros c1 H1; cbv beta in *].
      step; [apply costs_mul; exact Ht|intros c2 H2; cbv beta in *]. step; [apply costs_mul; exact H2|intros c3 H3; cbv beta in *].
      step; [apply costs_mul; exact Ht|intros c4 H4; cbv beta in *]. apply costs_add.
    - reflexivity.
    - reflexivity.
    - auto.
  Qed.
  Lemma cost_copy : gate_costs SCopyGate 0.
  Proof. intros vL vR HL HR. apply costs_ret. exact HL. Qed.

  Lemma proper4 a b c d : 0 < a -> 0 < b -> 0 < c -> 0 < d -> proper [a; b; c; d] /\ length [a; b; c; d] = 2 ^ 2.
  Proof. intros. split; [|reflexivity]. repeat (apply proper_cons; split; [assumption|]). apply proper_nil. Qed.
  Lemma cost_copy_table : table_costs GetCopyTable 2.
  Proof.
    intros q Hq. unfold GetCopyTable. eapply costs_eq; [|shelve|shelve|intros t Ht; exact Ht].
    step; [apply costs_const|intros a Ha]. step; [apply costs_const|intros b Hb].
    step; [apply (costs_lift _ (fun v => 0 < v)); intros v E; eapply proper_get; eassumption|intros c Hc].
    step; [apply costs_const|intros d Hd]. apply costs_ret. apply proper4; assumption.
    Unshelve. all: reflexivity.
  Qed.
  Lemma cost_cipher_table : table_costs GetCipherTable 2.
  Proof.
    intros q Hq. unfold GetCipherTable. eapply costs_eq; [|shelve|shelve|intros t Ht; exact Ht].
    step; [apply costs_const|intros a Ha]. step; [apply costs_const|intros b Hb].
    step; [apply (costs_lift _ (fun v => 0 < v)); intros v E; eapply proper_get; eassumption|intros q0 Hq0].
    step; [apply costs_subc|intros c Hc]. step; [apply costs_const|intros d Hd]. apply costs_ret. apply proper4; assumption.
    Unshelve. all: reflexivity.
  Qed.
  Lemma cost_final_table : table_costs GetFinalCipherTable 2.
  Proof.
    intros q Hq. unfold GetFinalCipherTable. eapply costs_eq; [|shelve|shelve|intros t Ht; exact Ht].
    step; [apply costs_const|intros a Ha]. step; [apply costs_const|intros b Hb].
    step; [apply costs_const|intros c Hc]. step; [apply costs_const|intros d Hd]. apply costs_ret. apply proper4; assumption.
    Unshelve. all: reflexivity.
  Qed.

  Definition layer_costs (l : SLayer F) (ns : list nat) k : Prop :=
    (forall i g, nth_error (sGates l) i = Some g -> gate_costs g (nth i ns 0)) /\
    (forall i t, nth_error (sTables l) i = Some t -> table_costs t k) /\ length ns = length (sGates l).

  Lemma sum_seq (f : nat -> nat) n ns : length ns = n -> list_sum (map (fun i => f (nth i ns 0)) (seq 0 n)) = list_sum (map f ns).
  Proof.
    intros <-. f_equal. apply (nth_ext _ _ (f 0) (f 0)); [rewrite !map_length, seq_length; reflexivity|].
    intros i Hi. rewrite map_length, seq_length in Hi. rewrite (map_nth f ns 0 i).
    rewrite (nth_indep _ _ ((fun i => f (nth i ns 0)) 0)) by (rewrite map_length, seq_length; exact Hi).
    rewrite (map_nth (fun i => f (nth i ns 0))). rewrite seq_nth by exact Hi. reflexivity.
  Qed.

  Lemma cost_combine l ns q qPrime hL hR hPrime vL vR : layer_costs l ns (length hL + length hR) ->
    proper q -> proper hL -> proper hR -> proper hPrime -> 0 < vL -> 0 < vR ->
    costs (SCombine l q qPrime hL hR hPrime vL vR)
      (list_sum (map (fun n => 2 ^ (length hL + length hR) + n) ns) + 3 * length qPrime + 1) 0 (fun v => 0 < v).
  Proof.
    intros (Hg & Ht & Ln) Hq HL HR HP HvL HvR. unfold SCombine. eapply costs_eq.
    - step; [apply costs_const|intros r Hr; cbv beta zeta in *].
      step; [apply (costs_mfold _ (fun i => 2 ^ (length hL + length hR) + nth i ns 0) (fun _ => 0) (fun v => 0 < v)); [|exact Hr]|].
      + intros x i _ Hx. eapply costs_eq.
        * step; [apply (costs_lift _ (fun g => table_costs g (length hL + length hR))); intros g E; eapply Ht; exact E|intros gen Hgen].
          step; [apply Hgen; exact Hq|intros tab (P & L)].
          step; [apply cost_eval; [exact P|apply proper_app; split; assumption|rewrite app_length; exact L]|intros t Ht'].
          step; [apply (costs_lift _ (fun g => gate_costs g (nth i ns 0))); intros g E; eapply Hg; exact E|intros g Hg'].
          step; [apply Hg'; assumption|intros v Hv]. step; [apply costs_mul; exact Hv|intros p Hp]. apply costs_add.
        * rewrite app_length. pose proof (Nat.pow_nonzero 2 (length hL + length hR)). lia.
        * reflexivity.
        * auto.
      + intros res Hres. step; [apply cost_eq_eval; exact HP|intros e He]. apply costs_mul; exact He.
    - rewrite (sum_seq (fun n => 2 ^ (length hL + length hR) + n)) by exact Ln. lia.
    - rewrite list_sum_const. lia.
    - auto.
  Qed.

  Lemma cost_combine_lin l ns qL qR qPrime hL hR hPrime lL lR vL vR : layer_costs l ns (length hL + length hR) ->
    proper qL -> proper qR -> proper hL -> proper hR -> proper hPrime -> 0 < vL -> 0 < vR ->
    costs (SCombineWithLinearComb l qL qR qPrime hL hR hPrime lL lR vL vR)
      (list_sum (map (fun n => 2 * 2 ^ (length hL + length hR) + 1 + n) ns) + 3 * length qPrime + 1) 0 (fun v => 0 < v).
  Proof.
    intros (Hg & Ht & Ln) HqL HqR HL HR HP HvL HvR. unfold SCombineWithLinearComb. eapply costs_eq.
    - step; [apply costs_const|intros r Hr; cbv beta zeta in *].
      step; [apply (costs_mfold _ (fun i => 2 * 2 ^ (length hL + length hR) + 1 + nth i ns 0) (fun _ => 0) (fun v => 0 < v)); [|exact Hr]|].
      + intros x i _ Hx. eapply costs_eq.
        * step; [apply (costs_lift _ (fun g => table_costs g (length hL + length hR))); intros g E; eapply Ht; exact E|intros gen Hgen].
          step; [apply Hgen; exact HqL|intros tab (P & L)]. step; [apply Hgen; exact HqR|intros tab' (P' & L')].
          step; [apply cost_eval; [exact P|apply proper_app; split; assumption|rewrite app_length; exact L]|intros t Ht'].
          step; [apply costs_mul; exact Ht'|intros aL HaL].
          step; [apply cost_eval; [exact P'|apply proper_app; split; assumption|rewrite app_length; exact L']|intros t' Ht''].
          step; [apply costs_mul; exact Ht''|intros aR HaR]. step; [apply costs_add|intros te Hte].
          step; [apply (costs_lift _ (fun g => gate_costs g (nth i ns 0))); intros g E; eapply Hg; exact E|intros g Hg'].
          step; [apply Hg'; assumption|intros v Hv]. step; [apply costs_mul; exact Hv|intros p Hp]. apply costs_add.
        * rewrite app_length. pose proof (Nat.pow_nonzero 2 (length hL + length hR)). lia.
        * reflexivity.
        * auto.
      + intros res Hres. step; [apply cost_eq_eval; exact HP|intros e He]. apply costs_mul; exact He.
    - rewrite (sum_seq (fun n => 2 * 2 ^ (length hL + length hR) + 1 + n)) by exact Ln. lia.
    - rewrite list_sum_const. lia.
    - auto.
  Qed.

  Lemma smid_costs a : layer_costs (smid a) [4; 0] 2.
  Proof.
    split; [|split; [|reflexivity]]; intros [|[|i]] x E; cbn in E; try (injection E as <-); try (destruct i; discriminate E).
    - apply cost_cipher. - apply cost_copy. - apply cost_cipher_table. - apply cost_copy_table.
  Qed.
  Lemma slast_costs a : layer_costs (slast a) [4] 2.
  Proof.
    split; [|split; [|reflexivity]]; intros [|i] x E; cbn in E; try (injection E as <-); try (destruct i; discriminate E).
    - apply cost_cipher. - apply cost_final_table.
  Qed.

  (** The layers of the MiMC circuit and the polynomials of a proof of it *)
  Definition shaped (bN : nat) (sp : list (list nat)) : Prop := map (@length nat) sp = [3; 9] ++ repeat 9 bN.
  Lemma shaped_facts bN sp : shaped bN sp -> (forall p, In p sp -> p <> []) /\ length sp = 2 + bN /\ length (concat sp) = 12 + 9 * bN.
  Proof.
    intros H. split; [|split].
    - intros p Hp ->. apply (in_map (@length nat)) in Hp. rewrite H in Hp. cbn in Hp. destruct Hp as [Hp|[Hp|Hp]]; try discriminate.
      apply repeat_spec in Hp. discriminate.
    - rewrite <- (map_length (@length nat)), H. cbn. rewrite repeat_length. reflexivity.
    - assert (G : forall l : list (list nat), length (concat l) = list_sum (map (@length nat) l)).
      { induction l as [|x l IH]; [reflexivity|]. cbn [concat map list_sum fold_right]. rewrite app_length, IH. reflexivity. }
      rewrite G, H. cbn. enough (K : fold_right Nat.add 0 (repeat 9 bN) = 9 * bN) by (rewrite K; lia).
      clear. induction bN as [|n IH]; [reflexivity|]. cbn [repeat fold_right]. rewrite IH. lia.
  Qed.

  Definition point (bN : nat) (st : list nat * list nat * list nat) : Prop :=
    let '(hL, hR, hPrime) := st in proper hL /\ proper hR /\ proper hPrime /\ length hL = 1 /\ length hR = 1 /\ length hPrime = bN.

  Lemma cost_layer bN c (p : SProof nat) st layer :
    (forall l, nth_error c layer = Some l -> layer_costs l [4; 0] 2 /\ sBG l = 1) ->
    (forall sp, nth_error (sSumchecks p) layer = Some sp -> shaped bN sp) ->
    proper (sLeft p) -> proper (sRight p) -> point bN st ->
    costs (SAssertLayer Arks c p st layer) (752 + 365 * (12 + 9 * bN) + 3 * bN) (3 + bN) (point bN).
  Proof.
    intros Hl Hs HL HR Hst. destruct st as [[hL hR] hPrime]. destruct Hst as (S1 & S2 & S3 & S4 & S5 & S6). unfold SAssertLayer. eapply costs_eq.
    - step; [apply costs_const|intros lL HlL].
      step; [apply (costs_lift _ (fun v => 0 < v)); intros v E; eapply proper_get; [exact HL|exact E]|intros cl Hcl].
      step; [apply (costs_lift _ (fun v => 0 < v)); intros v E; eapply proper_get; [exact HR|exact E]|intros cr Hcr].
      step; [apply (cost_hash_two cl cr)|intros lR HlR]. step; [apply costs_mul; exact Hcr|intros t Ht]. step; [apply costs_add|intros claim Hcl'].
      step; [apply (costs_lift _ (shaped bN)); exact Hs|intros sp Hsp]. pose proof (shaped_facts _ _ Hsp) as (F1 & F2 & F3).
      step; [apply (costs_lift _ (fun l => layer_costs l [4; 0] 2 /\ sBG l = 1)); exact Hl|intros l (Hlc & HbG)]. rewrite HbG.
      step; [eapply costs_eq; [apply cost_sumcheck; [exact F1|lia]|rewrite F3; reflexivity|rewrite F2; reflexivity|intros r Hr; exact Hr]|].
      intros [[[hL' hR'] hP'] ex] (A1 & A2 & A3 & A4 & A5 & A6). rewrite F2 in A6.
      step; [apply (costs_lift _ (fun v => 0 < v)); intros v E; eapply proper_get; [exact HL|exact E]|intros vl Hvl].
      step; [apply (costs_lift _ (fun v => 0 < v)); intros v E; eapply proper_get; [exact HR|exact E]|intros vr Hvr].
      step; [eapply costs_eq; [apply (cost_combine_lin l [4; 0]); try assumption; rewrite A4, A5; exact Hlc|rewrite A4, A5, S6; reflexivity|reflexivity|intros v Hv; exact Hv]|intros act Hact].
      step; [apply costs_assert|intros _ _]. apply (costs_ret (hL', hR', hP') (point bN)). repeat split; try assumption. lia.
    - replace (list_sum _) with 22 by reflexivity. lia.
    - lia.
    - auto.
  Qed.

  Lemma cost_gadget bN c (p : SProof nat) qPrime vIn vOut :
    (forall i l, i < 90 -> nth_error c i = Some l -> layer_costs l [4; 0] 2 /\ sBG l = 1) ->
    (forall l, nth_error c 90 = Some l -> layer_costs l [4] 2 /\ sBG l = 1) ->
    (forall i sp, i < 91 -> nth_error (sSumchecks p) i = Some sp -> shaped bN sp) ->
    proper (sLeft p) -> proper (sRight p) -> proper qPrime -> proper vIn -> proper vOut ->
    length qPrime = bN -> length vIn = 2 * 2 ^ bN -> length vOut = 2 ^ bN ->
    costs (SGkrAssertValid Arks p c [] qPrime vIn vOut) (3 * 2 ^ bN + 91 * (365 * (12 + 9 * bN) + 3 * bN) + 90 * 752 + 8) (91 * bN + 275) (fun _ => True).
  Proof.
    intros Hc Hc' Hs HL HR HqP HI HO L1 L2 L3. unfold SGkrAssertValid. change (MimcRounds - 1) with 90. cbv zeta.
    eapply costs_eq.
    - step; [eapply costs_eq; [apply cost_eval; [exact HO|apply proper_app; split; [apply proper_nil|exact HqP]|cbn [app]; congruence]|cbn [app]; rewrite L1; reflexivity|reflexivity|intros v Hv; exact Hv]|intros claim _].
      step; [apply (costs_lift _ (shaped bN)); intros sp E; apply (Hs 90); [lia|exact E]|intros sp Hsp]. pose proof (shaped_facts _ _ Hsp) as (F1 & F2 & F3).
      step; [apply (costs_lift _ (fun l => layer_costs l [4] 2 /\ sBG l = 1)); exact Hc'|intros l (Hlc & HbG)]. rewrite HbG.
      step; [eapply costs_eq; [apply cost_sumcheck; [exact F1|lia]|rewrite F3; reflexivity|rewrite F2; reflexivity|intros r Hr; exact Hr]|].
      intros [[[hL' hR'] hP'] ex] (A1 & A2 & A3 & A4 & A5 & A6). rewrite F2 in A6.
      step; [apply (costs_lift _ (fun v => 0 < v)); intros v E; eapply proper_get; [exact HL|exact E]|intros vl Hvl].
      step; [apply (costs_lift _ (fun v => 0 < v)); intros v E; eapply proper_get; [exact HR|exact E]|intros vr Hvr].
      step; [eapply costs_eq; [apply (cost_combine l [4]); try assumption; [rewrite A4, A5; exact Hlc|apply proper_nil]|rewrite A4, A5, L1; reflexivity|reflexivity|intros v Hv; exact Hv]|intros act Hact].
      step; [apply costs_assert|intros _ _].
      step; [apply (costs_mfold_const _ (752 + 365 * (12 + 9 * bN) + 3 * bN) (3 + bN) (point bN))|].
      + intros st layer Hin Hst. rewrite <- in_rev in Hin. apply in_seq in Hin. apply cost_layer; try assumption.
        * intros l' E. apply (Hc layer); [lia|exact E].
        * intros sp' E. apply (Hs layer); [lia|exact E].
      + repeat split; try assumption. lia.
      + intros [[hL hR] hPrime] (B1 & B2 & B3 & B4 & B5 & B6).
        step; [apply (costs_lift _ (fun v => 0 < v)); intros v E; eapply proper_get; [exact HL|exact E]|intros vl0 _].
        step; [apply (costs_lift _ (fun v => 0 < v)); intros v E; eapply proper_get; [exact HR|exact E]|intros vr0 _].
        step; [eapply costs_eq; [apply cost_eval_mixed; try assumption; [rewrite B4, B6, L2; reflexivity|congruence]|rewrite B4, B6; reflexivity|reflexivity|intros v Hv; exact Hv]|].
        intros (eL, eR) _. step; [apply costs_assert|intros _ _]. apply costs_assert.
    - rewrite rev_length, seq_length. replace (list_sum _) with 8 by reflexivity. replace (2 ^ 1) with 2 by reflexivity. pose proof (Nat.pow_nonzero 2 bN). lia.
    - rewrite rev_length, seq_length. lia.
    - auto.
  Qed.
End L.
