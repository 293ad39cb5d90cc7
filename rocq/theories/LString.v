(** Lemmas about the printing functions. *)
From Coq Require Import List ZArith Lia Ascii String Bool.
From Verif Require Import Field FrPrime Fr MString SpecString.
Import ListNotations.
Local Open Scope Z_scope.

Lemma digit_val d : 0 <= d < 10 -> nat_of_ascii (digit d) = (48 + Z.to_nat d)%nat.
Proof. intros H. unfold digit. rewrite nat_ascii_embedding; lia. Qed.
Lemma digit_is d : 0 <= d < 10 -> is_digit (digit d).
Proof. intros H. unfold is_digit. rewrite digit_val by exact H. lia. Qed.
Lemma digit_value_digit d : 0 <= d < 10 -> digit_value (digit d) = d.
Proof. intros H. unfold digit_value. rewrite digit_val by exact H. lia. Qed.
Lemma digit_of_value c : is_digit c -> digit (digit_value c) = c.
Proof.
  intros H. unfold is_digit in H. unfold digit, digit_value. replace (48 + Z.to_nat (Z.of_nat (nat_of_ascii c) - 48))%nat with (nat_of_ascii c) by lia.
  apply ascii_nat_embedding.
Qed.
Lemma digit_value_range c : is_digit c -> 0 <= digit_value c < 10.
Proof. unfold is_digit, digit_value. lia. Qed.

Lemma value_app s c : value (s ++ [c]) = 10 * value s + digit_value c.
Proof. unfold value. rewrite fold_left_app. reflexivity. Qed.
Lemma value_nonneg s : (forall c, In c s -> is_digit c) -> 0 <= value s.
Proof.
  induction s as [|c s IH] using rev_ind; intros H; [cbn; lia|]. rewrite value_app.
  pose proof (IH ltac:(intros; apply H, in_app_iff; auto)). pose proof (digit_value_range c ltac:(apply H, in_app_iff; cbn; auto)). lia.
Qed.

Lemma digits_S f n : digits (S f) n = if n <? 10 then [digit n] else (digits f (n / 10) ++ [digit (n mod 10)])%list.
Proof. reflexivity. Qed.
Lemma digits_ok fuel : forall n, 0 <= n < 2 ^ Z.of_nat (S fuel) -> decimal (digits (S fuel) n) n.
Proof.
  induction fuel as [|f IH]; intros n Hn; rewrite digits_S; destruct (Z.ltb_spec n 10) as [H|H].
  1, 3: split; [discriminate|]; split; [intros c [<-|[]]; apply digit_is; lia|]; split;
    [unfold value; cbn [fold_left]; rewrite digit_value_digit; lia|cbn; congruence].
  - cbn in Hn. lia.
  - assert (Hq : 0 <= n / 10 < 2 ^ Z.of_nat (S f)).
    { split; [apply Z.div_pos; lia|]. apply Z.div_lt_upper_bound; [lia|]. rewrite Nat2Z.inj_succ, Z.pow_succ_r in Hn by lia. lia. }
    destruct (IH (n / 10) Hq) as (D1 & D2 & D3 & D4). pose proof (Z.mod_pos_bound n 10 ltac:(lia)) as Hm.
    split; [intros E; apply app_eq_nil in E; destruct E; discriminate|]. split; [|split].
    + intros c Hc. apply in_app_iff in Hc. destruct Hc as [Hc|[<-|[]]]; [auto|apply digit_is; exact Hm].
    + rewrite value_app, D3, digit_value_digit by exact Hm. symmetry. apply Z.div_mod. lia.
    + intros Hh. exfalso. destruct (digits (S f) (n / 10)) as [|c s]; [congruence|]. cbn [hd app] in Hh, D4. specialize (D4 Hh).
      rewrite D4 in D3. unfold value, digit_value in D3. cbn in D3. assert (1 <= n / 10) by (apply Z.div_le_lower_bound; lia). lia.
Qed.

Lemma log2_bound n : 0 <= n -> n < 2 ^ Z.of_nat (S (Z.to_nat (Z.log2 n))).
Proof.
  intros H. rewrite Nat2Z.inj_succ, Z2Nat.id by apply Z.log2_nonneg. destruct (Z.eq_dec n 0) as [->|Hn]; [cbn; lia|].
  apply Z.log2_spec. lia.
Qed.

Lemma intString_ok n : signed_decimal (intString n) n.
Proof.
  unfold intString, signed_decimal. destruct (Z.ltb_spec n 0) as [H|H].
  - right. split; [exact H|]. eexists. split; [reflexivity|]. apply digits_ok. split; [lia|apply log2_bound; lia].
  - left. split; [exact H|]. apply digits_ok. split; [exact H|apply log2_bound; exact H].
Qed.

(** the notation is unique *)
Lemma decimal_unique s t n : decimal s n -> decimal t n -> s = t.
Proof.
  revert t n. induction s as [|c s IH] using rev_ind; intros t n (S1 & S2 & S3 & S4) (T1 & T2 & T3 & T4); [congruence|].
  destruct t as [|d t _] using rev_ind; [congruence|]. clear S1 T1. rewrite value_app in S3, T3.
  assert (Hc : is_digit c) by (apply S2, in_app_iff; cbn; auto). assert (Hd : is_digit d) by (apply T2, in_app_iff; cbn; auto).
  pose proof (digit_value_range c Hc). pose proof (digit_value_range d Hd).
  assert (E1 : value s = value t) by lia. assert (E2 : digit_value c = digit_value d) by lia.
  assert (E3 : c = d) by (rewrite <- (digit_of_value c Hc), <- (digit_of_value d Hd), E2; reflexivity). subst d. f_equal.
  assert (S5 : forall e, In e s -> is_digit e) by (intros; apply S2, in_app_iff; auto).
  assert (T5 : forall e, In e t -> is_digit e) by (intros; apply T2, in_app_iff; auto).
  assert (Hz : forall u, (forall e, In e u -> is_digit e) -> (hd "0"%char (u ++ [c]) = "0"%char -> u ++ [c] = ["0"%char]) -> u <> [] ->
    decimal u (value u) /\ 0 < value u).
  { intros u U1 U2 U3. destruct u as [|x u]; [congruence|]. cbn [hd app] in U2.
    assert (Hx : x <> "0"%char). { intros E. specialize (U2 E). injection U2 as _ U2. destruct u; discriminate. }
    split. - split; [discriminate|]. split; [exact U1|]. split; [reflexivity|]. cbn [hd]. congruence.
    - assert (Hx0 : 0 < digit_value x).
      { pose proof (digit_value_range x (U1 x (or_introl eq_refl))). destruct (Z.eq_dec (digit_value x) 0) as [E|E]; [|lia].
        exfalso. apply Hx. rewrite <- (digit_of_value x (U1 x (or_introl eq_refl))), E. reflexivity. }
      clear -Hx0 U1. induction u as [|e u IH] using rev_ind; [unfold value; cbn; lia|].
      change (x :: u ++ [e])%list with ((x :: u) ++ [e])%list in *. rewrite value_app.
      pose proof (IH ltac:(intros; apply U1, in_app_iff; auto)). pose proof (digit_value_range e ltac:(apply U1, in_app_iff; cbn; auto)). lia. }
  destruct s as [|x s].
  - destruct t as [|y t]; [reflexivity|]. destruct (Hz (y :: t) T5 T4 ltac:(discriminate)) as [_ H1]. change (value []) with 0 in E1. lia.
  - destruct t as [|y t].
    + destruct (Hz (x :: s) S5 S4 ltac:(discriminate)) as [_ H1]. change (value []) with 0 in E1. lia.
    + destruct (Hz (x :: s) S5 S4 ltac:(discriminate)) as [H1 _]. destruct (Hz (y :: t) T5 T4 ltac:(discriminate)) as [H2 _].
      rewrite <- E1 in H2. exact (IH (y :: t) _ H1 H2).
Qed.

Lemma decimal_value s n n' : decimal s n -> decimal s n' -> n = n'.
Proof. intros (_ & _ & H & _) (_ & _ & H' & _). congruence. Qed.

Lemma not_minus c : is_digit c -> c <> "-"%char.
Proof. intros H E. subst. unfold is_digit in H. cbn in H. lia. Qed.

Lemma signed_value s n n' : signed_decimal s n -> signed_decimal s n' -> n = n'.
Proof.
  intros [[H1 H2]|[H1 (t & -> & H2)]] [[H3 H4]|[H3 (t' & E & H4)]].
  - eapply decimal_value; eauto.
  - subst s. exfalso. destruct H2 as (_ & H2 & _). exact (not_minus _ (H2 _ (or_introl eq_refl)) eq_refl).
  - exfalso. destruct H4 as (_ & H4 & _). exact (not_minus _ (H4 _ (or_introl eq_refl)) eq_refl).
  - injection E as <-. assert (- n = - n') by (eapply decimal_value; eauto). lia.
Qed.

Lemma FrString_ok x : decimal (FrString x) (frval x).
Proof.
  destruct (intString_ok (frval x)) as [[_ H]|[H _]]; [exact H|]. pose proof (frval_range x). lia.
Qed.

(** What PrettyStringFr prints. *)
Lemma pretty_ok x : exists n, signed_decimal (PrettyStringFr x) n /\ mkfr n = x /\ (0 <= n -> n = frval x) /\ (n < 0 -> - n = frval (fr_opp x)).
Proof.
  unfold PrettyStringFr. pose proof (frval_range x) as R. pose proof (frval_range (fr_opp x)) as R'.
  destruct (Nat.leb_spec (List.length (FrString x)) (List.length (FrString (fr_opp x)))) as [H|H].
  - exists (frval x). split; [left; split; [lia|apply FrString_ok]|]. split; [apply mkfr_frval|]. split; [auto|lia].
  - assert (Hx : frval (fr_opp x) <> 0).
    { intros E. assert (E0 : frval x = 0).
      { unfold fr_opp in E. rewrite frval_mkfr in E. apply Z.mod_divide in E; [|lia]. destruct E as [k E].
        destruct (Z.eq_dec k 0) as [->|Hk]; [lia|]. destruct (Z.lt_ge_cases k 0); nia. }
      assert (x = fr_opp x) by (apply fr_eq; congruence). rewrite <- H0 in H. lia. }
    exists (- frval (fr_opp x)). split; [|split; [|split; lia]].
    + right. split; [lia|]. exists (FrString (fr_opp x)). split; [reflexivity|]. rewrite Z.opp_involutive. apply FrString_ok.
    + apply fr_eq. rewrite frval_mkfr. unfold fr_opp. rewrite frval_mkfr.
      rewrite <- (Z.mod_small (frval x) frModulus R) at 2. rewrite <- (Z.sub_0_l (_ mod _)), Zminus_mod_idemp_r. f_equal. lia.
Qed.

Lemma pretty_inj x y : PrettyStringFr x = PrettyStringFr y -> x = y.
Proof.
  intros E. destruct (pretty_ok x) as (n & H1 & <- & _). destruct (pretty_ok y) as (n' & H2 & <- & _). rewrite E in H1.
  f_equal. eapply signed_value; eauto.
Qed.

(** The shorter one: among the decimal notations of the two representatives, without counting the sign. *)
Lemma pretty_short x s s' : decimal s (frval x) -> decimal s' (frval (fr_opp x)) ->
  PrettyStringFr x = if (List.length s <=? List.length s')%nat then s else ("-"%char :: s')%list.
Proof.
  intros H H'. rewrite (decimal_unique s _ _ H (FrString_ok x)), (decimal_unique s' _ _ H' (FrString_ok (fr_opp x))). reflexivity.
Qed.

(** ** Slices *)
Definition plain (s : Str) : Prop := s <> [] /\ forall c, In c s -> c <> ","%char /\ c <> "]"%char.

Lemma signed_plain s n : signed_decimal s n -> plain s.
Proof.
  assert (D : forall t k, decimal t k -> forall c, In c t -> c <> ","%char /\ c <> "]"%char).
  { intros t k (_ & H & _) c Hc. specialize (H c Hc). unfold is_digit in H. split; intros ->; cbn in H; lia. }
  intros [[_ H]|[_ (t & -> & H)]].
  - split; [apply H|eapply D; eauto].
  - split; [discriminate|]. intros c [<-|Hc]; [split; discriminate|]. eapply D; eauto.
Qed.

Definition joined {A} (f : A -> Str) (l : list A) : Str :=
  (fold_left (fun res x => res ++ (f x ++ str ", ")) l (str "[") ++ str "]")%list.
Lemma joined_eq {A} (f : A -> Str) l : joined f l = ("["%char :: flat_map (fun x => f x ++ str ", ")%list l ++ ["]"%char])%list.
Proof.
  unfold joined. assert (H : forall acc, fold_left (fun res x => res ++ (f x ++ str ", "))%list l acc = (acc ++ flat_map (fun x => f x ++ str ", ")%list l)%list).
  { induction l as [|x l IH]; intros acc; cbn [fold_left flat_map]; [rewrite app_nil_r; reflexivity|]. rewrite IH, <- app_assoc. reflexivity. }
  rewrite H. reflexivity.
Qed.
Lemma split_comma (s t r r' : Str) : (forall c, In c s -> c <> ","%char) -> (forall c, In c t -> c <> ","%char) ->
  (s ++ ","%char :: r = t ++ ","%char :: r')%list -> s = t /\ r = r'.
Proof.
  revert t. induction s as [|a s IH]; intros t Hs Ht E; destruct t as [|b t]; cbn in E.
  - injection E as <-. auto.
  - injection E as E _. exfalso. exact (Ht b (or_introl eq_refl) (eq_sym E)).
  - injection E as E _. exfalso. exact (Hs a (or_introl eq_refl) E).
  - injection E as <- E. destruct (IH t) as [-> ->]; auto; intros c Hc; [apply Hs|apply Ht]; right; exact Hc.
Qed.
Lemma joined_inj {A} (f : A -> Str) : (forall x, plain (f x)) -> (forall x y, f x = f y -> x = y) ->
  forall l l', joined f l = joined f l' -> l = l'.
Proof.
  intros Hp Hi l l'. rewrite !joined_eq. intros E. injection E as E. revert l' E.
  induction l as [|x l IH]; intros [|y l'] E; [reflexivity| | |].
  - exfalso. cbn [flat_map app] in E. destruct (Hp y) as [H1 H2]. destruct (f y) as [|c s]; [congruence|]. cbn in E. injection E as E _.
    apply (H2 c (or_introl eq_refl)). auto.
  - exfalso. cbn [flat_map app] in E. destruct (Hp x) as [H1 H2]. destruct (f x) as [|c s]; [congruence|]. cbn in E. injection E as E _.
    apply (H2 c (or_introl eq_refl)). auto.
  - cbn [flat_map] in E. rewrite <- !app_assoc in E. cbn [str list_ascii_of_string app] in E.
    destruct (split_comma (f x) (f y) _ _ ltac:(intros c Hc; apply (Hp x); exact Hc) ltac:(intros c Hc; apply (Hp y); exact Hc) E) as [E1 E2].
    injection E2 as E2. f_equal; [apply Hi; exact E1|apply IH; exact E2].
Qed.

Lemma FrSlice_inj l l' : FrSliceToString l = FrSliceToString l' -> l = l'.
Proof.
  apply (joined_inj PrettyStringFr); [|exact pretty_inj]. intros x. destruct (pretty_ok x) as (n & H & _). eapply signed_plain; eauto.
Qed.
Lemma IntSlice_inj l l' : IntSliceToString l = IntSliceToString l' -> l = l'.
Proof.
  apply (joined_inj intString); [intros x; eapply signed_plain, intString_ok|]. intros x y E. pose proof (intString_ok x) as H. rewrite E in H.
  eapply signed_value; [exact H|apply intString_ok].
Qed.
Lemma UintSlice_inj l l' : UintSliceToString l = UintSliceToString l' -> l = l'.
Proof.
  apply (joined_inj (fun x => intString (Z.of_N x))); [intros x; eapply signed_plain, intString_ok|]. intros x y E.
  pose proof (intString_ok (Z.of_N x)) as H. rewrite E in H. apply N2Z.inj. eapply signed_value; [exact H|apply intString_ok].
Qed.

Lemma Uint64ToFr_ok x : (x < 2 ^ 64)%N -> frval (Uint64ToFr x) = Z.of_N x.
Proof.
  intros H. unfold Uint64ToFr. rewrite frval_mkfr. apply Z.mod_small. split; [lia|].
  apply Z.lt_trans with (2 ^ 64); [lia|]. reflexivity.
Qed.
