(** What the counting model counts: gates, polynomials, one round (lemmas for PCost.v). *)
From Coq Require Import List Arith ZArith Lia Bool.
From Verif Require Import Field Go MCommon LCommon MPoly LPoly MCircuit MSumcheck LSumcheck MCost SpecCost LCost.
Import ListNotations.

(** Whenever [m] returns, its result satisfies [I] and its count is [k]. *)
Definition costs {A} (m : W A) (I : A -> Prop) (k : nat) : Prop := forall a c, m = Some (a, c) -> I a /\ c = k.

Lemma c_ret {A} (a : A) (I : A -> Prop) : I a -> costs (ret a) I 0.
Proof. intros H b c [= <- <-]. split; [exact H|reflexivity]. Qed.

Lemma c_bind {A B} (m : W A) (f : A -> W B) (J : A -> Prop) (I : B -> Prop) k1 k2 : costs m J k1 -> (forall a, J a -> costs (f a) I k2) -> costs (bindW m f) I (k1 + k2).
Proof.
  intros H1 H2 b c E. unfold bindW in E. destruct m as [[a n]|]; [|discriminate]. destruct (H1 a n eq_refl) as [Ha ->].
  destruct (f a) as [[b' k]|] eqn:Ef; [|discriminate]. injection E as <- <-. destruct (H2 a Ha _ _ Ef) as [Hb ->]. split; [exact Hb|reflexivity].
Qed.

Lemma c_opt {A B} (o : option A) (f : A -> W B) (I : B -> Prop) k : (forall a, o = Some a -> costs (f a) I k) -> costs (match o with Some a => f a | None => None end) I k.
Proof. intros H. destruct o; [apply H; reflexivity|]. intros b c E. discriminate E. Qed.

Lemma c_mul {F : Field} {B} (x y : F) (f : F -> W B) (I : B -> Prop) k : costs (f (fmul x y)) I k -> costs (bindW (wmul x y) f) I (1 + k).
Proof. intros H. apply (c_bind _ _ (fun a => a = fmul x y) I 1 k); [intros a c [= <- <-]; split; reflexivity|]. intros a ->. exact H. Qed.

Lemma c_weak {A} (m : W A) (I J : A -> Prop) k k' : costs m I k -> k = k' -> (forall a, I a -> J a) -> costs m J k'.
Proof. intros H <- HI a c E. destruct (H a c E) as [Ha Hc]. split; [apply HI, Ha|exact Hc]. Qed.

Lemma c_fold {A S} (f : S -> A -> W S) (I : S -> Prop) (k : A -> nat) l : forall s, (forall s a, In a l -> I s -> costs (f s a) I (k a)) -> I s ->
  costs (foldW f l s) I (list_sum (map k l)).
Proof.
  induction l as [|a l IH]; intros s H Hs; [apply c_ret, Hs|]. cbn [foldW map list_sum fold_right].
  apply (c_bind _ _ I I); [apply H; [left; reflexivity|exact Hs]|]. intros s' Hs'. apply IH; [|exact Hs'].
  intros s0 b Hb. apply H. right. exact Hb.
Qed.

Lemma list_sum_const {A} (l : list A) k : list_sum (map (fun _ => k) l) = length l * k.
Proof. induction l; cbn; [reflexivity|]. fold (list_sum (map (fun _ => k) l)). lia. Qed.

Lemma c_fold_const {A S} (f : S -> A -> W S) (I : S -> Prop) k l s : (forall s a, In a l -> I s -> costs (f s a) I k) -> I s ->
  costs (foldW f l s) I (length l * k).
Proof. intros H Hs. rewrite <- list_sum_const. apply c_fold; assumption. Qed.

Lemma c_fold_index {A S} (f : S -> nat * A -> W S) (I : S -> Prop) k l s c : length l * k = c -> (forall s i a, In a l -> I s -> costs (f s (i, a)) I k) -> I s ->
  costs (foldW f (combine (seq 0 (length l)) l) s) I c.
Proof.
  intros <- H Hs. apply (c_weak _ I I (length (combine (seq 0 (length l)) l) * k)); [| |auto].
  - apply c_fold_const; [|exact Hs]. intros s0 [i a] Hin. apply H. exact (in_combine_r _ _ _ _ Hin).
  - rewrite combine_length, seq_length, Nat.min_id. reflexivity.
Qed.

Lemma c_for {S} (f : S -> nat -> W S) (I : S -> Prop) (k : nat -> nat) n s : (forall s i, i < n -> I s -> costs (f s i) I (k i)) -> I s ->
  costs (forW n f s) I (list_sum (map k (seq 0 n))).
Proof. intros H Hs. apply c_fold; [|exact Hs]. intros s0 i Hi. apply H. apply in_seq in Hi. lia. Qed.

Lemma c_for_const {S} (f : S -> nat -> W S) (I : S -> Prop) k n s : (forall s i, i < n -> I s -> costs (f s i) I k) -> I s -> costs (forW n f s) I (n * k).
Proof. intros H Hs. rewrite <- (seq_length n 0) at 2. apply c_fold_const; [|exact Hs]. intros s0 i Hi. apply H. apply in_seq in Hi. lia. Qed.

Lemma c_map {A B} (f : A -> W B) (J : A -> B -> Prop) (k : A -> nat) l : (forall a, In a l -> costs (f a) (J a) (k a)) ->
  costs (mapW f l) (Forall2 J l) (list_sum (map k l)).
Proof.
  induction l as [|a l IH]; intros H; [apply c_ret; constructor|]. cbn [mapW map list_sum fold_right].
  apply (c_bind _ _ (J a)); [apply H; left; reflexivity|]. intros b Hb. rewrite <- (Nat.add_0_r (fold_right _ _ _)).
  apply (c_bind _ _ (Forall2 J l)); [apply IH; intros x Hx; apply H; right; exact Hx|]. intros bs Hbs. apply c_ret. constructor; assumption.
Qed.

(** Keep [length]. *)
Lemma set_len {A} (l : list A) i v l' : set l i v = Some l' -> length l' = length l.
Proof. unfold set. destruct (_ <? _); [|discriminate]. intros [= <-]. apply upd_length. Qed.

Lemma foldM_len {A B} (f : list B -> A -> option (list B)) l : (forall s a s', f s a = Some s' -> length s' = length s) -> forall s s', foldM f l s = Some s' -> length s' = length s.
Proof.
  intros H. induction l as [|a l IH]; intros s s' E; cbn in E; [congruence|]. destruct (f s a) as [s1|] eqn:E1; [|discriminate].
  rewrite (IH _ _ E). exact (H _ _ _ E1).
Qed.

(* ---------------------------------------------------------------- sums *)
Lemma sum_ext {A} (f g : A -> nat) l : (forall a, In a l -> f a = g a) -> list_sum (map f l) = list_sum (map g l).
Proof. intros H. f_equal. apply map_ext_in, H. Qed.

Lemma sum_add {A} (f g : A -> nat) l : list_sum (map (fun a => f a + g a) l) = list_sum (map f l) + list_sum (map g l).
Proof. induction l; cbn; [reflexivity|]. unfold list_sum in IHl. lia. Qed.

Lemma sum_swap {A B} (f : A -> B -> nat) l m :
  list_sum (map (fun a => list_sum (map (f a) m)) l) = list_sum (map (fun b => list_sum (map (fun a => f a b) l)) m).
Proof.
  induction l as [|a l IH]; cbn [map]. { rewrite list_sum_const. cbn. lia. }
  change (list_sum (?x :: ?r)) with (x + list_sum r). rewrite IH, <- sum_add. reflexivity.
Qed.

Lemma seq_move b : forall z s, map (fun j => z + j) (seq s b) = seq (z + s) b.
Proof. induction b as [|b IH]; intros z s; [reflexivity|]. cbn. rewrite IH. f_equal. f_equal. lia. Qed.

Lemma sum_blocks (f : nat -> nat) b : forall a, list_sum (map (fun i => list_sum (map (fun j => f (i * b + j)) (seq 0 b))) (seq 0 a)) = list_sum (map f (seq 0 (a * b))).
Proof.
  induction a as [|a IH]; [reflexivity|]. rewrite seq_S, map_app, list_sum_app, IH. replace (S a * b) with (a * b + b) by lia.
  rewrite seq_app, map_app, list_sum_app. cbn [map list_sum fold_right]. rewrite Nat.add_0_r. f_equal.
  f_equal. rewrite Nat.add_0_l. clear IH. transitivity (map f (map (fun j => a * b + j) (seq 0 b))); [rewrite map_map; reflexivity|]. f_equal.
  rewrite seq_move. f_equal. lia.
Qed.

Lemma sum_count {A} (P : A -> bool) k l : list_sum (map (fun a => if P a then k else 0) l) = length (filter P l) * k.
Proof. induction l as [|a l IH]; [reflexivity|]. cbn [map filter]. change (list_sum (?x :: ?r)) with (x + list_sum r). rewrite IH. destruct (P a); cbn; lia. Qed.

Lemma sum_combine {A B} (f : A * B -> nat) (da : A) (db : B) : forall l m, length l = length m ->
  list_sum (map f (combine l m)) = list_sum (map (fun i => f (nth i l da, nth i m db)) (seq 0 (length m))).
Proof.
  induction l as [|a l IH]; intros [|b m] H; cbn in H; try discriminate; [reflexivity|]. cbn [combine map length seq].
  change (list_sum (?x :: ?r)) with (x + list_sum r). rewrite IH by lia. f_equal. rewrite <- seq_shift, map_map. reflexivity.
Qed.

Lemma sum_index {A} (f : nat * A -> nat) (d : A) l : list_sum (map f (combine (seq 0 (length l)) l)) = list_sum (map (fun i => f (i, nth i l d)) (seq 0 (length l))).
Proof. rewrite (sum_combine f 0 d) by apply seq_length. apply sum_ext. intros i Hi. apply in_seq in Hi. rewrite seq_nth by lia. reflexivity. Qed.

Lemma sum_le {A} (f g : A -> nat) l : (forall a, In a l -> f a <= g a) -> list_sum (map f l) <= list_sum (map g l).
Proof.
  induction l as [|a l IH]; intros H; [reflexivity|]. cbn [map]. change (list_sum (?x :: ?r)) with (x + list_sum r).
  pose proof (H a (or_introl eq_refl)). pose proof (IH (fun b Hb => H b (or_intror Hb))). lia.
Qed.

Lemma half2 x : 2 * x / 2 = x.
Proof. rewrite Nat.mul_comm, Nat.div_mul; lia. Qed.

Lemma F2_len {A B} (P : A -> B -> Prop) la lb : Forall2 P la lb -> length la = length lb.
Proof. induction 1; cbn; congruence. Qed.

Lemma Forall2_at {A B} (P : A -> B -> Prop) la lb d : Forall2 P la lb -> forall i a, nth_error la i = Some a -> P a (nth i lb d).
Proof. induction 1 as [|a b la lb Hab _ IH]; intros [|i] x E; try discriminate; cbn in *; [congruence|]. apply IH, E. Qed.

Section S.
  Context {F : Field}.
  Add Field FfieldCost : (f_theory F).
  Open Scope F_scope.

  Ltac c1 := match goal with
    | |- costs (match ?o with Some _ => _ | None => None end) _ _ => apply c_opt; intros
    end.

  (* ---------------------------------------------------------------- the library's gates *)
  Lemma c_line {X : Type} (body : list F -> X -> W (list F)) l k s s' c : foldW body l s = Some (s', c) ->
    (forall s i s' c, body s i = Some (s', c) -> length s' = length s /\ c = k) ->
    length s' = length s /\ c = (length l * k)%nat.
  Proof.
    intros E H. apply (c_fold_const body (fun t => length t = length s) k l s); [|reflexivity|exact E].
    intros t a _ Ht u c' E'. destruct (H _ _ _ _ E') as [Hu ->]. split; [rewrite Hu; exact Ht|reflexivity].
  Qed.

  Ltac runs E := repeat match type of E with
    | bindW (wmul _ _) _ = _ => unfold bindW at 1 in E; cbn [wmul] in E
    | match ?o with Some _ => _ | None => None end = _ => let E' := fresh "E" in destruct o as [?|] eqn:E'; [|discriminate E]
    | match match ?o with Some _ => _ | None => None end with _ => _ end = _ => let E' := fresh "E" in destruct o as [?|] eqn:E'; [|discriminate E]
    end.

  Lemma priced_add : priced (F := F) WAddGate AddPrice.
  Proof.
    split; [reflexivity|]. split; [intros; cbn; repeat er1|]. split; [intros; cbn; repeat er1|]. split.
    - intros res vs x res' k E. cbn in E. destruct (c_line _ _ 0 _ _ _ E) as [H1 H2]; [|split; [exact H1|rewrite H2; cbn; lia]].
      intros s i s' c E'. destruct (get vs i); [|discriminate]. destruct (set _ _ _) eqn:Es; [|discriminate]. injection E' as <- <-. split; [exact (set_len _ _ _ _ Es)|reflexivity].
    - intros res x vs res' k E. cbn in E. destruct (c_line _ _ 0 _ _ _ E) as [H1 H2]; [|split; [exact H1|rewrite H2; cbn; lia]].
      intros s i s' c E'. destruct (get vs i); [|discriminate]. destruct (set _ _ _) eqn:Es; [|discriminate]. injection E' as <- <-. split; [exact (set_len _ _ _ _ Es)|reflexivity].
  Qed.

  Lemma priced_mul : priced (F := F) WMulGate MulPrice.
  Proof.
    split; [reflexivity|]. split; [intros; cbn -[wmul]; repeat er1|]. split; [intros; cbn -[wmul]; repeat er1|]. split.
    - intros res vs x res' k E. cbn in E. destruct (c_line _ _ 1 _ _ _ E) as [H1 H2]; [|split; [exact H1|rewrite H2, seq_length; cbn; lia]].
      intros s i s' c E'. destruct (get vs i); [|discriminate]. cbn in E'. destruct (set _ _ _) eqn:Es; [|discriminate]. injection E' as <- <-. split; [exact (set_len _ _ _ _ Es)|reflexivity].
    - intros res x vs res' k E. cbn in E. destruct (c_line _ _ 1 _ _ _ E) as [H1 H2]; [|split; [exact H1|rewrite H2, seq_length; cbn; lia]].
      intros s i s' c E'. destruct (get vs i); [|discriminate]. cbn in E'. destruct (set _ _ _) eqn:Es; [|discriminate]. injection E' as <- <-. split; [exact (set_len _ _ _ _ Es)|reflexivity].
  Qed.

  Lemma priced_copy : priced (F := F) WCopyGate CopyPrice.
  Proof.
    split; [reflexivity|]. split; [reflexivity|]. split; [intros; cbn; repeat er1|]. split.
    - intros res vs x res' k [= <- <-]. split; [|reflexivity]. unfold gocopy. rewrite app_length, firstn_length, skipn_length. lia.
    - intros res x vs res' k E. cbn in E. destruct (c_line _ _ 0 _ _ _ E) as [H1 H2]; [|split; [exact H1|rewrite H2; cbn; lia]].
      intros s i s' c E'. destruct (set _ _ _) eqn:Es; [|discriminate]. injection E' as <- <-. split; [exact (set_len _ _ _ _ Es)|reflexivity].
  Qed.

  Lemma priced_cipher (ark : F) : priced (WCipherGate ark) CipherPrice.
  Proof.
    split; [reflexivity|]. split; [intros; cbn -[wmul]; repeat er1|]. split; [intros; cbn -[wmul]; repeat er1|]. split.
    - intros res vs x res' k E. cbn -[forW] in E. destruct (forW _ _ _) as [[r c]|] eqn:E1; [|discriminate]. injection E as <- <-.
      unfold forW in E1. destruct (c_line _ _ 0 _ _ _ E1) as [H1 H2]; [|split; [exact H1|rewrite H2; cbn; lia]].
      intros s i s' c' E'. destruct (get vs i); [|discriminate]. destruct (set _ _ _) eqn:Es; [|discriminate]. injection E' as <- <-. split; [exact (set_len _ _ _ _ Es)|reflexivity].
    - intros res x vs res' k E. cbn -[wmul bindW] in E. destruct (c_line _ _ 4 _ _ _ E) as [H1 H2]; [|split; [exact H1|rewrite H2, seq_length; cbn; lia]].
      intros s i s' c' E'. cbn beta zeta in E'. revert E'. generalize s' c'. clear s' c' E.
      change (costs (vR <- get vs i ;; v <~ wmul (vR + ark) (vR + ark) ;; res0 <- set s i v ;;
        x0 <- get res0 i ;; v0 <~ wmul x0 (vR + ark) ;; res1 <- set res0 i v0 ;;
        x1 <- get res1 i ;; v1 <~ wmul x1 x1 ;; res2 <- set res1 i v1 ;;
        x2 <- get res2 i ;; v2 <~ wmul x2 (vR + ark) ;; res3 <- set res2 i v2 ;;
        x3 <- get res3 i ;; res4 <- set res3 i (x3 + x) ;; ret res4) (fun s' => length s' = length s) 4).
      c1. apply c_mul. c1. c1. apply c_mul. c1. c1. apply c_mul. c1. c1. apply c_mul. c1. c1. c1. apply c_ret.
      repeat match goal with H : set _ _ _ = Some _ |- _ => apply set_len in H end. congruence.
  Qed.

  (* ---------------------------------------------------------------- polynomials *)
  Lemma c_Fold (t : list F) r : costs (WFold t r) (fun t' => t' = foldv t r) (length t / 2).
  Proof.
    intros t' c E. split. { pose proof (er_Fold t r) as H. rewrite E, Fold_foldv in H. injection H as ->. reflexivity. }
    revert E. unfold WFold. cbv zeta. intros E. enough (H : costs (WFold t r) (fun _ => True) (length t / 2)) by exact (proj2 (H _ _ E)).
    unfold WFold. cbv zeta. rewrite <- (Nat.add_0_r (length t / 2)). rewrite <- (Nat.mul_1_r (length t / 2)). apply (c_bind _ _ (fun _ => True)).
    - apply c_for_const; [|exact I]. intros s i _ _. c1. c1. apply c_mul. c1. c1. apply c_ret. exact I.
    - intros a _. c1. apply c_ret. exact I.
  Qed.

  Lemma c_Eval (p : list F) x : costs (WEvaluatePolynomial p x) (fun _ => True) (length p - 1).
  Proof.
    unfold WEvaluatePolynomial. apply c_opt. intros last Hl. unfold gosub in Hl. destruct (1 <=? length p)%nat eqn:E; [|discriminate]. injection Hl as <-.
    c1. replace (length p - 1)%nat with (length (rev (seq 0 (length p - 1))) * 1)%nat at 2 by (rewrite rev_length, seq_length; lia).
    apply c_fold_const; [|exact I]. intros s a0 _ _. apply c_mul. c1. apply c_ret. exact I.
  Qed.

  Lemma lagrange_len n rows : GetLagrangePolynomial (F := F) n = Some rows -> forall row, In row rows -> length row = n.
  Proof.
    unfold GetLagrangePolynomial. destruct (_ <? _)%nat; [|discriminate]. unfold LagrangeCoefficient. intros E row Hr.
    apply mapM_Forall2 in E. assert (H : exists l, lagrange_row n l = Some row).
    { clear - E Hr. induction E as [|a b la lb Hab _ IH]; [destruct Hr|]. destruct Hr as [<-|Hr]; [exists a; exact Hab|exact (IH Hr)]. }
    destruct H as [l H]. unfold lagrange_row in H. destruct (set _ _ _) as [acc|] eqn:Es; [|discriminate].
    destruct (forN _ _ _) as [acc'|] eqn:Ef; [|discriminate]. destruct (EvaluatePolynomial _ _); [|discriminate]. injection H as <-. rewrite map_length.
    apply set_len in Es. rewrite repeat_length in Es. unfold forN in Ef.
    assert (HI : forall ls (s s' : list F), length s = n -> foldM (fun acc i => if (i =? l)%nat then Some acc else b <- get (binomials n) i ;; mul_binomial n acc b) ls s = Some s' -> length s' = n).
    { clear. induction ls as [|i ls IH]; intros s s' Hs E; cbn in E; [congruence|]. destruct (i =? l)%nat; [exact (IH _ _ Hs E)|].
      destruct (get (binomials n) i) as [b|]; [|discriminate]. destruct (mul_binomial n s b) as [s1|] eqn:E1; [|discriminate]. apply (IH s1 s'); [|exact E].
      unfold mul_binomial, forN in E1. rewrite <- (repeat_length (0 : F) n). apply (foldM_len _ _) with (2 := E1). intros u j u' Eu. apply (foldM_len _ _) with (2 := Eu).
      intros v k v' Ev. destruct (get s j); [|discriminate]. destruct (get b k); [|discriminate]. destruct (get v _); [|discriminate]. exact (set_len _ _ _ _ Ev). }
    exact (HI _ _ _ Es Ef).
  Qed.

  Lemma c_Interp (v : list F) : costs (WInterpolateOnRange v) (fun _ => True) (length v * length v).
  Proof.
    unfold WInterpolateOnRange. cbv zeta. apply c_opt. intros rows Hr. apply c_for_const; [|exact I]. intros s i _ _. c1. apply c_opt. intros row Hrow.
    replace (length v) with (length row * 1)%nat by (rewrite (lagrange_len _ _ Hr row (nth_error_In _ _ Hrow)); lia). apply c_for_const; [|exact I]. intros s' j _ _. c1. apply c_mul. c1. c1. apply c_ret. exact I.
  Qed.

  (* ---------------------------------------------------------------- shapes *)
  Definition shape2 (e : nat) (m : list (list F)) := Forall (fun row => length row = e) m.
  Definition shape3 (k s e : nat) (sp : list (list (list F))) := length sp = k /\ Forall (fun m => length m = s /\ shape2 e m) sp.

  Lemma Forall_upd {A} (P : A -> Prop) l i v : Forall P l -> P v -> Forall P (upd l i v).
  Proof. revert i. induction l as [|a l IH]; intros i H Hv; [destruct i; constructor|]. inversion H; subst. destruct i; cbn; constructor; auto. Qed.

  Lemma Forall_set {A} (P : A -> Prop) l i v l' : Forall P l -> P v -> set l i v = Some l' -> Forall P l'.
  Proof. unfold set. intros H Hv. destruct (_ <? _)%nat; [|discriminate]. intros [= <-]. apply Forall_upd; assumption. Qed.

  Lemma Forall_get {A} (P : A -> Prop) l i v : Forall P l -> get l i = Some v -> P v.
  Proof. intros H E. apply nth_error_In in E. rewrite Forall_forall in H. apply H, E. Qed.

  Lemma addTo2_shape e m i j (v : F) m' : addTo2 m i j v = Some m' -> shape2 e m -> shape2 e m' /\ length m' = length m.
  Proof.
    unfold addTo2. intros E H. destruct (get m i) as [row|] eqn:E1; [|discriminate]. destruct (get row j); [|discriminate].
    destruct (set row j _) as [row'|] eqn:E2; [|discriminate]. split; [|exact (set_len _ _ _ _ E)].
    apply (Forall_set _ _ _ _ _ H) with (2 := E). rewrite (set_len _ _ _ _ E2). exact (Forall_get _ _ _ _ H E1).
  Qed.

  Lemma addTo3_shape k s e sp i j l (v : F) sp' : addTo3 sp i j l v = Some sp' -> shape3 k s e sp -> shape3 k s e sp'.
  Proof.
    unfold addTo3. intros E [Hk H]. destruct (get sp i) as [m|] eqn:E1; [|discriminate]. destruct (get m j) as [row|] eqn:E2; [|discriminate].
    destruct (get row l); [|discriminate]. destruct (set row l _) as [row'|] eqn:E3; [|discriminate]. destruct (set m j _) as [m'|] eqn:E4; [|discriminate].
    split; [rewrite (set_len _ _ _ _ E); exact Hk|]. apply (Forall_set _ _ _ _ _ H) with (2 := E).
    destruct (Forall_get _ _ _ _ H E1) as [Hs Hm]. split; [rewrite (set_len _ _ _ _ E4); exact Hs|].
    apply (Forall_set _ _ _ _ _ Hm) with (2 := E4). rewrite (set_len _ _ _ _ E3). exact (Forall_get _ _ _ _ Hm E2).
  Qed.

  Lemma shape3_zero k s e : shape3 k s e (repeat (repeat (repeat 0 e) s) k).
  Proof.
    split; [apply repeat_length|]. apply Forall_forall. intros m Hm. apply repeat_spec in Hm. subst. split; [apply repeat_length|].
    apply Forall_forall. intros r Hr. apply repeat_spec in Hr. subst. apply repeat_length.
  Qed.

  Lemma fillLine_len e (buf : list F) a d b : length buf = e -> fillLine e buf a d = Some b -> length b = e.
  Proof.
    unfold fillLine, forRange. intros Hb. destruct (set buf 0 a) as [b0|] eqn:E0; [|discriminate]. intros E.
    apply (foldM_len _ _) in E; [rewrite E, (set_len _ _ _ _ E0); exact Hb|]. intros s t s'. destruct (get s _); [|discriminate]. apply set_len.
  Qed.

  Lemma c_combineSplit k s e (sp ev : list (list (list F))) : shape3 k s e sp -> costs (WcombineSplit e sp ev) (fun r => length r = e) (k * (s * e)).
  Proof.
    intros [Hk H]. unfold WcombineSplit. rewrite Forall_forall in H.
    apply (c_fold_index _ _ (s * e)%nat); [rewrite Hk; reflexivity| |apply repeat_length]. intros r i m Hin Hr. destruct (H m Hin) as [Hs Hm]. cbn [fst snd]. unfold shape2 in Hm. rewrite Forall_forall in Hm.
    apply (c_fold_index _ _ e); [rewrite Hs; reflexivity| |exact Hr]. clear r Hr. intros r h row Hin' Hr. cbn [fst snd].
    apply (c_fold_index _ _ 1%nat); [rewrite (Hm row Hin'); lia| |exact Hr]. clear r Hr. intros r t v _ Hr. cbn [fst snd].
    c1. c1. c1. apply c_mul. c1. apply c_opt. intros r' Er. apply c_ret. rewrite (set_len _ _ _ _ Er). exact Hr.
  Qed.

  Lemma c_addScaled k s e (sp : list (list (list F))) i h vS eq : shape3 k s e sp -> costs (WaddScaled sp i h vS eq) (shape3 k s e) (length vS).
  Proof.
    intros H. unfold WaddScaled. apply (c_fold_index _ _ 1%nat); [lia| |exact H].
    intros sp' t v _ H'. cbn [fst snd]. apply c_mul. apply c_opt. intros sp1 E1. apply c_ret. exact (addTo3_shape _ _ _ _ _ _ _ _ _ E1 H').
  Qed.

  (* ---------------------------------------------------------------- one round *)
  Lemma nz_same (tab : list F) h : negb ((nth h tab 0 =? 0) && (nth (length tab / 2 + h) tab 0 - nth h tab 0 =? 0))
    = negb ((nth h tab 0 =? 0) && (nth (length tab / 2 + h) tab 0 =? 0)).
  Proof.
    f_equal. destruct (feqb_spec F (nth h tab 0) 0) as [E|_]; [|reflexivity]. rewrite E. cbn [andb].
    replace (nth (length tab / 2 + h) tab 0 - 0) with (nth (length tab / 2 + h) tab 0) by ring. reflexivity.
  Qed.

  Section Prover.
    Variables (gs : list (WGate F)) (cs : list Price).
    Hypothesis HP : Forall2 priced gs cs.

    Lemma gs_nth i g : In (i, g) (combine (seq 0 (length gs)) gs) -> priced g (nth i cs AddPrice) /\ (i < length gs)%nat.
    Proof.
      intros Hin. assert (Hi : (i < length gs)%nat) by (apply in_combine_l, in_seq in Hin; lia). split; [|exact Hi].
      assert (E : nth_error gs i = Some g).
      { apply In_nth with (d := (O, WAddGate)) in Hin. destruct Hin as (j & Hj & E). rewrite combine_length, seq_length in Hj. rewrite combine_nth in E by apply seq_length.
        rewrite seq_nth in E by lia. injection E as E1 E2. cbn in E1. subst j. rewrite <- E2. apply nth_error_nth'. lia. }
      exact (Forall2_at _ _ _ _ HP i g E).
    Qed.

    (** The gates at one line. *)
    Lemma c_gates_sum (nz : nat -> bool) (cost : Price -> nat) : list_sum (map (fun ig : nat * WGate F => if nz (fst ig) then cost (nth (fst ig) cs AddPrice) else 0%nat) (combine (seq 0 (length gs)) gs))
      = list_sum (map (fun i => if nz i then cost (nth i cs AddPrice) else 0%nat) (seq 0 (length gs))).
    Proof. rewrite (sum_index _ (WAddGate)). reflexivity. Qed.

    (** All the lines of the tables. *)
    Lemma lines_sum size (tabs : list (list F)) (cost : Price -> nat) : length tabs = length gs -> (forall t, In t tabs -> length t = (2 * size)%nat) ->
      list_sum (map (fun h => list_sum (map (fun i => if nth h (nth i (map (nzv size) tabs) []) false then cost (nth i cs AddPrice) else 0%nat) (seq 0 (length gs)))) (seq 0 size))
      = over cost (map live tabs) cs.
    Proof.
      intros Hl Ht. rewrite (sum_swap (fun h i => if nth h (nth i (map (nzv size) tabs) []) false then cost (nth i cs AddPrice) else 0%nat)).
      unfold over. assert (Hc : length cs = length gs) by (symmetry; exact (F2_len _ _ _ HP)).
      rewrite (sum_combine _ O AddPrice) by (rewrite map_length; lia). rewrite Hc. apply sum_ext. intros i Hi. apply in_seq in Hi. cbn [fst snd].
      rewrite (nth_map_lt (nzv size) tabs i [] []) by lia. rewrite (nth_map_lt live tabs i O []) by lia.
      assert (Hti : length (nth i tabs []) = (2 * size)%nat) by (apply Ht, nth_In; lia). set (tab := nth i tabs []) in *.
      rewrite sum_count. f_equal. unfold live. replace (length tab / 2)%nat with size by (rewrite Hti, Nat.mul_comm, Nat.div_mul; lia).
      f_equal. apply filter_ext_in. intros h Hh. apply in_seq in Hh. unfold nzv. rewrite nth_map_seq by lia. rewrite nz_same. rewrite Hti, Nat.mul_comm, Nat.div_mul by lia. reflexivity.
    Qed.

    Lemma mapM_static e size (tabs : list (list F)) : (0 < e)%nat -> (forall t, In t tabs -> length t = (2 * size)%nat) ->
      mapM (evalStatic e size) tabs = Some (map (fun t => (nzv size t, evv e size t)) tabs).
    Proof. intros He Ht. apply mapM_some. intros t Hin. apply evalStatic_spec; [exact He|]. rewrite (Ht t Hin), Nat.mul_comm, Nat.div_mul; lia. Qed.

    Definition linv (k s e : nat) (st : list (list (list F)) * list F * list F) : Prop := shape3 k s e (fst (fst st)) /\ length (snd (fst st)) = e /\ length (snd st) = e.

    (** Rounds on hL: static tables of [2 * a * g] entries. *)
    Lemma c_HL (p : Prover F) n g a : (0 < n)%nat -> (0 < g)%nat -> length (sEq p) = n -> length (sVR p) = (g * n)%nat ->
      length (sStatic p) = length gs -> (forall t, In t (sStatic p) -> length t = (2 * (a * g))%nat) ->
      costs (WGetEvalsOnHL gs p) (fun r => length r = (dHL p + 1)%nat) (round_left (dHL p + 1) n (a * g) (map live (sStatic p)) cs).
    Proof.
      intros Hn Hg He Hr Hs Ht. unfold WGetEvalsOnHL. cbv zeta. rewrite He, Hr, godiv_some, Nat.div_mul by lia. cbv beta iota.
      apply c_opt. intros st0 E0. assert (H0 : length st0 = (2 * (a * g))%nat) by (apply Ht; exact (nth_error_In _ _ E0)).
      rewrite H0. rewrite godiv_some by lia. cbv beta iota. replace (2 * (a * g) / g)%nat with (2 * a)%nat by (rewrite Nat.mul_assoc, Nat.div_mul; lia).
      replace (2 * a * g / 2)%nat with (a * g)%nat by (rewrite <- Nat.mul_assoc; symmetry; apply half2).
      rewrite mapM_static; [|lia|exact Ht]. cbv beta iota. rewrite !map_map. cbn [fst snd].
      unfold WaccumulateEvalsOnHL. cbv zeta. rewrite He, Hr, godiv_some, Nat.div_mul by lia. cbv beta iota. rewrite E0. cbv beta iota. rewrite H0. rewrite godiv_some by lia. cbv beta iota.
      replace (2 * (a * g) / g)%nat with (2 * a)%nat by (rewrite Nat.mul_assoc, Nat.div_mul; lia).
      replace (2 * a * g / 2)%nat with (a * g)%nat by (rewrite <- Nat.mul_assoc; symmetry; apply half2).
      replace (2 * a / 2)%nat with a by (symmetry; apply half2).
      set (e := (dHL p + 1)%nat). assert (Hc : length cs = length gs) by (symmetry; exact (F2_len _ _ _ HP)). unfold round_left. rewrite Hc, Hs.
      apply (c_bind _ _ (linv (length gs) (a * g) e)).
      - apply c_for_const; [|split; [apply shape3_zero|split; apply repeat_length]]. intros st hP HhP Hst. c1.
        rewrite <- (lines_sum (a * g) (sStatic p) (fun c => cVL c e + e)%nat Hs Ht).
        rewrite <- sum_blocks. apply c_for; [|exact Hst]. clear st Hst. intros [[sp eV] vS] hL HhL (K1 & K2 & K3). cbn [fst snd] in *.
        c1. c1. apply c_opt. intros b Eb. apply (fillLine_len _ _ _ _ _ K2) in Eb.
        apply c_for; [|split; [exact K1|split; [exact Eb|exact K3]]]. clear sp eV vS K1 K2 K3 Eb b. intros [[sp eV] vS] hR HhR Hst. c1.
        cbv beta. rewrite <- (c_gates_sum (fun i => nth (hL * g + hR) (nth i (map (nzv (a * g)) (sStatic p)) []) false) (fun c => cVL c e + e)%nat).
        apply c_fold; [|exact Hst]. clear sp eV vS Hst. intros [[sp eV] vS] [i gt] Hin (K1 & K2 & K3). cbn [fst snd] in *.
        destruct (gs_nth i gt Hin) as [Hp Hi]. apply c_opt. intros row Hrow. apply c_opt. intros bb Ebb. 
        assert (En : nth i (map (nzv (a * g)) (sStatic p)) [] = row) by (apply get_some_nth; exact Hrow). rewrite En.
        rewrite (get_some_nth _ _ _ false Ebb). destruct bb; [|apply c_ret; split; [exact K1|split; assumption]].
        destruct Hp as (_ & _ & _ & Hvl & _). apply (c_bind _ _ (fun v => length v = e)).
        + intros v c Ev. destruct (Hvl _ _ _ _ _ Ev) as [Q1 Q2]. split; [rewrite Q1; exact K3|rewrite Q2, K2; reflexivity].
        + intros v Hv. apply (c_weak _ (linv (length gs) (a * g) e) _ (length v + 0)); [|lia|auto]. apply (c_bind _ _ (shape3 (length gs) (a * g) e)); [apply c_addScaled; exact K1|].
          intros sp' Hsp'. apply c_ret. split; [exact Hsp'|split; assumption].
      - intros [[sp eV] vS] (K1 & _ & _). apply c_combineSplit. exact K1.
    Qed.

    (** Rounds on hR: static tables of [2 * a] entries. *)
    Lemma c_HR (p : Prover F) n a : (0 < n)%nat -> length (sEq p) = n -> length (sVR p) = (2 * a * n)%nat ->
      length (sStatic p) = length gs -> (forall t, In t (sStatic p) -> length t = (2 * a)%nat) ->
      costs (WGetEvalsOnHR gs p) (fun r => length r = (dHR p + 1)%nat) (round_right (dHR p + 1) n a (map live (sStatic p)) cs).
    Proof.
      intros Hn He Hr Hs Ht. unfold WGetEvalsOnHR. cbv zeta. rewrite He, Hr, godiv_some, Nat.div_mul by lia. cbv beta iota.
      replace (2 * a / 2)%nat with a by (symmetry; apply half2).
      rewrite mapM_static; [|lia|exact Ht]. cbv beta iota. rewrite !map_map. cbn [fst snd].
      unfold WaccumulateEvalsOnHR. cbv zeta. rewrite He, Hr, godiv_some, Nat.div_mul by lia. cbv beta iota.
      replace (2 * a / 2)%nat with a by (symmetry; apply half2).
      set (e := (dHR p + 1)%nat). assert (Hc : length cs = length gs) by (symmetry; exact (F2_len _ _ _ HP)). unfold round_right. rewrite Hc, Hs.
      apply (c_bind _ _ (linv (length gs) a e)).
      - apply c_for_const; [|split; [apply shape3_zero|split; apply repeat_length]]. intros st hP HhP Hst. c1. c1.
        rewrite <- (lines_sum a (sStatic p) (fun c => cVR c e + e)%nat Hs Ht).
        apply c_for; [|exact Hst]. clear st Hst. intros [[sp eV] vS] hR HhR (K1 & K2 & K3). cbn [fst snd] in *.
        c1. c1. apply c_opt. intros b Eb. apply (fillLine_len _ _ _ _ _ K2) in Eb.
        cbv beta. rewrite <- (c_gates_sum (fun i => nth hR (nth i (map (nzv a) (sStatic p)) []) false) (fun c => cVR c e + e)%nat).
        apply c_fold; [|split; [exact K1|split; [exact Eb|exact K3]]]. clear sp eV vS K1 K2 K3 Eb b. intros [[sp eV] vS] [i gt] Hin (K1 & K2 & K3). cbn [fst snd] in *.
        destruct (gs_nth i gt Hin) as [Hp Hi]. apply c_opt. intros row Hrow. apply c_opt. intros bb Ebb.
        assert (En : nth i (map (nzv a) (sStatic p)) [] = row) by (apply get_some_nth; exact Hrow). rewrite En.
        rewrite (get_some_nth _ _ _ false Ebb). destruct bb; [|apply c_ret; split; [exact K1|split; assumption]].
        destruct Hp as (_ & _ & _ & _ & Hvr). apply (c_bind _ _ (fun v => length v = e)).
        + intros v c Ev. destruct (Hvr _ _ _ _ _ Ev) as [Q1 Q2]. split; [rewrite Q1; exact K3|rewrite Q2, K2; reflexivity].
        + intros v Hv. apply (c_weak _ (linv (length gs) a e) _ (length v + 0)); [|lia|auto]. apply (c_bind _ _ (shape3 (length gs) a e)); [apply c_addScaled; exact K1|].
          intros sp' Hsp'. apply c_ret. split; [exact Hsp'|split; assumption].
      - intros [[sp eV] vS] (K1 & _ & _). apply c_combineSplit. exact K1.
    Qed.

    (** Rounds on h'. *)
    Lemma c_HPrime (p : Prover F) : length (sStatic p) = length gs ->
      costs (WGetEvalsOnHPrime gs p) (fun r => length r = (dHPrime p + 1)%nat) (round_prime (dHPrime p + 1) (length (sEq p) / 2) cs).
    Proof.
      intros Hs. unfold WGetEvalsOnHPrime. cbv zeta. c1. unfold WaccumulateEvalsOnHPrime. cbv zeta.
      set (e := (dHPrime p + 1)%nat). assert (Hc : length cs = length gs) by (symmetry; exact (F2_len _ _ _ HP)). unfold round_prime. rewrite Hc, Hs.
      apply (c_bind _ _ (fun st : list (list F) * list F * list F * list F => (length (fst (fst (fst st))) = length gs /\ shape2 e (fst (fst (fst st)))) /\
        length (snd (fst (fst st))) = e /\ length (snd (fst st)) = e /\ length (snd st) = e)).
      - apply c_for_const.
        2:{ cbn [fst snd]. repeat split; try apply repeat_length. apply Forall_forall. intros r Hr. apply repeat_spec in Hr. subst. apply repeat_length. }
        intros [[[sp bL] bR] bE] h Hh (K & K1 & K2 & K3). cbn [fst snd] in *. do 6 c1.
        apply c_opt. intros bL' EL. apply (fillLine_len _ _ _ _ _ K1) in EL. apply c_opt. intros bR' ER. apply (fillLine_len _ _ _ _ _ K2) in ER.
        apply c_opt. intros bE' EE. apply (fillLine_len _ _ _ _ _ K3) in EE.
        match goal with |- costs _ _ ?k => apply (c_weak _ (fun st : list (list F) * list F * list F * list F => (length (fst (fst (fst st))) = length gs /\ shape2 e (fst (fst (fst st)))) /\
        length (snd (fst (fst st))) = e /\ length (snd (fst st)) = e /\ length (snd st) = e) _ (k + 0)); [|lia|auto] end.
        apply (c_bind _ _ (fun sp => length sp = length gs /\ shape2 e sp)).
        + match goal with |- costs _ _ ?k => replace k with (list_sum (map (fun ig : nat * WGate F => e * (cEval (nth (fst ig) cs AddPrice) + 1)) (combine (seq 0 (length gs)) gs)))%nat end.
          2:{ rewrite (sum_index _ WAddGate). cbn [fst]. rewrite <- Hc. clear. induction cs as [|c l IH]; [reflexivity|]. cbn [length seq map]. change (list_sum (?x :: ?r)) with (x + list_sum r)%nat.
              rewrite <- seq_shift, map_map, <- IH. reflexivity. }
          apply c_fold; [|exact K]. clear sp K. intros sp [i gt] Hin K. cbn [fst snd]. destruct (gs_nth i gt Hin) as [Hp Hi].
          apply c_for_const; [|exact K]. clear sp K. intros sp t Ht (Q1 & Q2). do 3 c1. destruct Hp as (Hev & _). rewrite Hev.
          apply (c_bind _ _ (fun _ => True)); [intros ? ? [= <- <-]; split; [exact I|reflexivity]|]. intros v _. apply c_mul. apply c_opt. intros sp' Esp. apply c_ret.
          destruct (addTo2_shape _ _ _ _ _ _ Esp Q2) as [A B]. split; [rewrite B; exact Q1|exact A].
        + intros sp' K'. apply c_ret. cbn [fst snd]. auto.
      - intros [[[sp bL] bR] bE] ((K1 & K2) & _). cbn [fst snd] in *. unfold shape2 in K2. rewrite Forall_forall in K2.
        apply (c_fold_index _ _ e); [rewrite K1; reflexivity| |apply repeat_length]. intros r i row Hin Hr. cbn [fst snd].
        apply (c_fold_index _ _ 1%nat); [rewrite (K2 row Hin); lia| |exact Hr]. clear r Hr. intros r t v _ Hr. cbn [fst snd].
        c1. apply c_mul. c1. apply c_opt. intros r' Er. apply c_ret. rewrite (set_len _ _ _ _ Er). exact Hr.
    Qed.
  End Prover.

  (* ---------------------------------------------------------------- verifier *)
  Lemma c_loop (ch : list F -> F) : forall proof e q x c, Wverify_loop ch e proof q = Some (x, c) ->
    let full := list_sum (map (fun p => 3 * (length p - 1)) proof)%nat in
    (c <= full)%nat /\ (x <> None -> c = full).
  Proof.
    induction proof as [|p proof IH]; intros e q x c E full.
    { injection E as <- <-. subst full. cbn. split; [lia|reflexivity]. }
    cbn [Wverify_loop] in E. subst full. cbn [map]. change (list_sum (?x :: ?r)) with (x + list_sum r)%nat.
    pose proof (c_Eval p 0) as C0. pose proof (c_Eval p 1) as C1. destruct (WEvaluatePolynomial p 0) as [[a c0]|]; [|discriminate]. destruct (C0 _ _ eq_refl) as [_ ->]. cbn [bindW] in E.
    destruct (WEvaluatePolynomial p 1) as [[b c1]|]; [|discriminate]. destruct (C1 _ _ eq_refl) as [_ ->]. cbn [bindW] in E. cbv zeta in E. destruct (e =? a + b).
    - pose proof (c_Eval p (ch p)) as C2. destruct (WEvaluatePolynomial p (ch p)) as [[e' c2]|]; [|discriminate]. destruct (C2 _ _ eq_refl) as [_ ->]. cbn [bindW] in E.
      destruct (Wverify_loop ch e' proof _) as [[x' c']|] eqn:EL; [|discriminate]. injection E as <- <-. destruct (IH _ _ _ _ EL) as [L1 L2]. split; [lia|]. intros Hx. rewrite (L2 Hx). lia.
    - cbn in E. injection E as <- <-. split; [lia|]. intros H. contradiction.
  Qed.

  Lemma c_Verify (ch : list F -> F) claim proof bN bG x c : WVerify ch claim proof bN bG = Some (x, c) ->
    let full := list_sum (map (fun p => 3 * (length p - 1)) proof)%nat in
    (c <= full)%nat /\ (x <> Reject -> c = full).
  Proof.
    intros E full. unfold WVerify in E. destruct (Wverify_loop ch claim proof []) as [[r c0]|] eqn:EL; [|discriminate]. destruct (c_loop _ _ _ _ _ _ EL) as [L1 L2]. cbn [bindW] in E.
    destruct r as [[q e]|].
    - destruct (slice q 0 bG); [|discriminate]. destruct (slice q bG _); [|discriminate]. destruct (slice q (2 * bG) _); [|discriminate]. cbn in E. injection E as <- <-.
      rewrite Nat.add_0_r. split; [exact L1|]. intros _. apply L2. discriminate.
    - cbn in E. injection E as <- <-. rewrite Nat.add_0_r. split; [exact L1|]. intros H. contradiction.
  Qed.
End S.
