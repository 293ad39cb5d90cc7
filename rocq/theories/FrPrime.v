(** Primality of the BN254 scalar modulus (the modulus of gurvy's bn256/fr), by Pocklington's
    criterion; Fermat's little theorem.  Nothing here models code of the repository. *)
From Coq Require Import List ZArith Znumtheory Zpow_facts Lia Permutation Bool.
Import ListNotations.
Local Open Scope Z_scope.

(** ** Fermat's little theorem *)
Fixpoint prodz (l : list Z) : Z := match l with [] => 1 | a :: l' => a * prodz l' end.

Lemma prodz_perm l m : Permutation l m -> prodz l = prodz m.
Proof. induction 1; simpl; lia. Qed.

Definition residues (p : Z) : list Z := map Z.of_nat (seq 1 (Z.to_nat p - 1)).

Lemma in_residues p x : 1 < p -> In x (residues p) <-> 1 <= x < p.
Proof.
  intros Hp. unfold residues. rewrite in_map_iff. split.
  - intros (n & <- & H). apply in_seq in H. lia.
  - intros H. exists (Z.to_nat x). split; [lia|]. apply in_seq. lia.
Qed.

Lemma NoDup_map_inj {A B} (f : A -> B) l :
  (forall x y, In x l -> In y l -> f x = f y -> x = y) -> NoDup l -> NoDup (map f l).
Proof.
  induction l as [|a l IH]; intros H Hnd; [constructor|].
  inversion Hnd as [|? ? Ha Hl]; subst. simpl. constructor.
  - intros Hin. apply in_map_iff in Hin. destruct Hin as (b & E & Hb).
    apply H in E; [subst; contradiction|right; assumption|left; reflexivity].
  - apply IH; [|assumption]. intros x y Hx Hy. apply H; right; assumption.
Qed.

Lemma residues_NoDup p : NoDup (residues p).
Proof.
  unfold residues. apply NoDup_map_inj; [intros; lia|apply seq_NoDup].
Qed.

Lemma prime_not_div_mul p a b : prime p -> ~ (p | a) -> ~ (p | b) -> ~ (p | a * b).
Proof. intros Hp Ha Hb H. apply prime_mult in H; [|assumption]. tauto. Qed.

Lemma small_not_div p x : 1 <= x < p -> ~ (p | x).
Proof. intros H D. apply Z.divide_pos_le in D; lia. Qed.

Lemma residues_mul_perm p a : prime p -> ~ (p | a) ->
  Permutation (map (fun x => (a * x) mod p) (residues p)) (residues p).
Proof.
  intros Hp Ha. pose proof (prime_ge_2 p Hp) as H2.
  apply NoDup_Permutation_bis.
  - apply NoDup_map_inj; [|apply residues_NoDup].
    intros x y Hx Hy E. apply in_residues in Hx, Hy; try lia.
    assert (D : (p | a * (x - y))).
    { apply Z.mod_divide; [lia|]. rewrite Z.mul_sub_distr_l, Zminus_mod, E, Z.sub_diag. apply Z.mod_0_l. lia. }
    apply prime_mult in D; [|assumption]. destruct D as [D|D]; [contradiction|].
    destruct D as [k D]. assert (k = 0) by nia. lia.
  - rewrite map_length. lia.
  - intros y Hy. apply in_map_iff in Hy. destruct Hy as (x & <- & Hx).
    apply in_residues in Hx; [|lia]. apply in_residues; [lia|].
    pose proof (Z.mod_pos_bound (a * x) p ltac:(lia)) as B.
    assert ((a * x) mod p <> 0); [|lia].
    intros E. apply Z.mod_divide in E; [|lia].
    revert E. apply prime_not_div_mul; auto. apply small_not_div. lia.
Qed.

Lemma prodz_map_mul p a l : 1 < p ->
  prodz (map (fun x => (a * x) mod p) l) mod p = (a ^ Z.of_nat (length l) * prodz l) mod p.
Proof.
  intros Hp. induction l as [|x l IH].
  - simpl. reflexivity.
  - cbn [map prodz length]. rewrite Z.mul_mod, IH, Z.mod_mod by lia.
    rewrite <- Z.mul_mod by lia. f_equal.
    rewrite Nat2Z.inj_succ, Z.pow_succ_r by lia. ring.
Qed.

Lemma prodz_not_div p l : prime p -> (forall x, In x l -> ~ (p | x)) -> ~ (p | prodz l).
Proof.
  intros Hp. induction l as [|x l IH]; intros H; simpl.
  - intros D. pose proof (prime_ge_2 p Hp). apply Z.divide_1_r_nonneg in D; lia.
  - apply prime_not_div_mul; auto; [apply H; left; reflexivity|].
    apply IH. intros y Hy. apply H. right. exact Hy.
Qed.

Theorem fermat_little p a : prime p -> ~ (p | a) -> a ^ (p - 1) mod p = 1.
Proof.
  intros Hp Ha. pose proof (prime_ge_2 p Hp) as H2.
  assert (E := prodz_map_mul p a (residues p) ltac:(lia)).
  rewrite (prodz_perm _ _ (residues_mul_perm p a Hp Ha)) in E.
  replace (Z.of_nat (length (residues p))) with (p - 1) in E
    by (unfold residues; rewrite map_length, seq_length; lia).
  set (P := prodz (residues p)) in *. set (A := a ^ (p - 1)) in *.
  assert (D : (p | (A - 1) * P)).
  { apply Z.mod_divide; [lia|]. rewrite Z.mul_sub_distr_r, Z.mul_1_l, Zminus_mod, <- E, Z.sub_diag.
    apply Z.mod_0_l. lia. }
  apply prime_mult in D; [|assumption]. destruct D as [D|D].
  - destruct D as [k D]. replace A with (1 + k * p) by lia. rewrite Z.mod_add by lia. apply Z.mod_1_l. lia.
  - exfalso. revert D. apply prodz_not_div; [assumption|].
    intros x Hx. apply in_residues in Hx; [|lia]. apply small_not_div. exact Hx.
Qed.

(** ** Pocklington *)
Lemma pow_mod_mul p x u v : 0 < p -> 0 <= u -> 0 <= v -> x ^ u mod p = 1 -> x ^ (u * v) mod p = 1 mod p.
Proof.
  intros Hp Hu Hv E. rewrite Z.pow_mul_r by assumption.
  rewrite Zpower_mod, E by lia. rewrite Z.pow_1_l by lia. reflexivity.
Qed.

(** x^u = x^v = 1 implies x^gcd(u,v) = 1 *)
Lemma pow_gcd p x u v : 1 < p -> 0 < u -> 0 < v ->
  x ^ u mod p = 1 -> x ^ v mod p = 1 -> x ^ (Z.gcd u v) mod p = 1.
Proof.
  intros Hp Hu Hv Eu Ev.
  destruct (Z.gcd_bezout u v (Z.gcd u v) eq_refl) as (s & t & B).
  (* s*u + t*v = g; add multiples to make both sides non-negative *)
  set (g := Z.gcd u v) in *. assert (Hg : 0 <= g) by apply Z.gcd_nonneg.
  set (m := Z.abs s + Z.abs t).
  assert (Hs : 0 <= s + m * v) by (unfold m; nia).
  assert (Ht : 0 <= m * u - t) by (unfold m; nia).
  (* u*(s+m v) = g + v*(m u - t) *)
  assert (Eq : u * (s + m * v) = g + v * (m * u - t)) by lia.
  assert (E1 := pow_mod_mul p x u (s + m * v) ltac:(lia) ltac:(lia) Hs Eu).
  assert (E2 := pow_mod_mul p x v (m * u - t) ltac:(lia) ltac:(lia) Ht Ev).
  rewrite Eq in E1. rewrite Z.pow_add_r in E1 by nia.
  rewrite Z.mul_mod, E2 in E1 by lia.
  rewrite <- Z.mul_mod, Z.mul_1_r in E1 by lia. rewrite E1. apply Z.mod_1_l. lia.
Qed.

Lemma prime_power_divisor q e g : prime q -> 0 < e -> 0 < g -> (g | q ^ e) -> (q ^ e | g) \/ (g | q ^ (e - 1)).
Proof.
  intros Hq He Hg [h Eh]. pose proof (prime_ge_2 q Hq) as H2.
  assert (Hqe : 0 < q ^ e) by (apply Z.pow_pos_nonneg; lia).
  assert (Hh : 0 < h) by nia.
  destruct (Zdivide_dec q h) as [[k Ek]|Hnd].
  - right. exists k. assert (q * q ^ (e - 1) = q ^ e) by (rewrite <- Z.pow_succ_r by lia; f_equal; lia). nia.
  - left. assert (R : rel_prime h (q ^ e)).
    { apply rel_prime_Zpower_r; [lia|]. apply rel_prime_sym. apply prime_rel_prime; assumption. }
    assert (h | 1).
    { apply Gauss with (b := q ^ e).
      - rewrite Z.mul_1_r. exists g. lia.
      - exact R. }
    apply Z.divide_1_r_nonneg in H; [|lia]. subst h. exists 1. lia.
Qed.

(** One prime power of the factored part. *)
Lemma pocklington_factor n a q e p :
  1 < n -> prime q -> 0 < e -> (q ^ e | n - 1) ->
  a ^ (n - 1) mod n = 1 -> Z.gcd (a ^ ((n - 1) / q) - 1) n = 1 ->
  prime p -> (p | n) -> (q ^ e | p - 1).
Proof.
  intros Hn Hq He [c Ec] Ea Eg Hp Hpn.
  pose proof (prime_ge_2 p Hp) as Hp2. pose proof (prime_ge_2 q Hq) as Hq2.
  assert (Hqe : 0 < q ^ e) by (apply Z.pow_pos_nonneg; lia).
  assert (Hqe1 : 0 < q ^ (e - 1)) by (apply Z.pow_pos_nonneg; lia).
  assert (Eqe : q ^ e = q * q ^ (e - 1)) by (rewrite <- Z.pow_succ_r by lia; f_equal; lia).
  assert (Hc : 0 < c) by nia.
  assert (Ediv : (n - 1) / q = c * q ^ (e - 1)).
  { rewrite Ec, Eqe. replace (c * (q * q ^ (e - 1))) with (c * q ^ (e - 1) * q) by ring. apply Z.div_mul. lia. }
  set (b := a ^ c).
  assert (Hb1 : b ^ (q ^ e) mod p = 1).
  { unfold b. rewrite <- Z.pow_mul_r by lia. rewrite <- Ec.
    destruct Hpn as [k Ek]. 
    assert (E : a ^ (n - 1) = 1 + n * (a ^ (n - 1) / n)) by (rewrite (Z.div_mod (a ^ (n - 1)) n) at 1 by lia; lia).
    rewrite E, Ek. replace (1 + k * p * (a ^ (k * p - 1) / (k * p))) with (1 + (k * (a ^ (k * p - 1) / (k * p))) * p) by ring.
    rewrite Z.mod_add by lia. apply Z.mod_1_l. lia. }
  assert (Hb2 : b ^ (q ^ (e - 1)) mod p <> 1).
  { intros E. unfold b in E. rewrite <- Z.pow_mul_r in E by lia. rewrite <- Ediv in E.
    assert (D : (p | a ^ ((n - 1) / q) - 1)).
    { apply Z.mod_divide; [lia|]. rewrite Zminus_mod, E, (Z.mod_1_l p), Z.sub_diag by lia. apply Z.mod_0_l. lia. }
    assert (D1 : (p | 1)) by (rewrite <- Eg; apply Z.gcd_greatest; assumption).
    apply Z.divide_1_r_nonneg in D1; lia. }
  assert (Hnb : ~ (p | b)).
  { intros D. apply Z.mod_divide in D; [|lia]. rewrite Zpower_mod, D in Hb1 by lia.
    rewrite Z.pow_0_l in Hb1 by lia. rewrite Z.mod_0_l in Hb1 by lia. lia. }
  pose proof (fermat_little p b Hp Hnb) as Hf.
  pose proof (pow_gcd p b (p - 1) (q ^ e) ltac:(lia) ltac:(lia) Hqe Hf Hb1) as Hgcd.
  set (g := Z.gcd (p - 1) (q ^ e)) in *.
  assert (Hg0 : 0 < g).
  { assert (0 <= g) by apply Z.gcd_nonneg. assert (g <> 0); [|lia].
    intros E. apply Z.gcd_eq_0_r in E. lia. }
  destruct (prime_power_divisor q e g Hq He Hg0 (Z.gcd_divide_r _ _)) as [D|D].
  - eapply Z.divide_trans; [exact D|apply Z.gcd_divide_l].
  - exfalso. apply Hb2. destruct D as [k Ek]. rewrite Ek, Z.mul_comm.
    assert (Hk : 0 <= k) by (clear - Ek Hqe1 Hg0; nia).
    rewrite (pow_mod_mul p b g k ltac:(lia) ltac:(lia) Hk Hgcd). apply Z.mod_1_l. lia.
Qed.

Lemma prime_divisor_exists n : 1 < n -> exists p, prime p /\ (p | n).
Proof.
  intros Hn. pattern n. apply (Zlt_lower_bound_ind _ 2); [|lia].
  clear n Hn. intros n IH Hn.
  destruct (prime_dec n) as [Hp|Hnp].
  - exists n. split; [assumption|apply Z.divide_refl].
  - destruct (not_prime_divide n ltac:(lia) Hnp) as (d & Hd & D).
    destruct (IH d ltac:(lia)) as (p & Hp & Dp). exists p. split; [assumption|].
    eapply Z.divide_trans; eauto.
Qed.

(** If every prime divisor of n exceeds its square root, n is prime. *)
Lemma prime_of_large_divisors n : 1 < n -> (forall p, prime p -> (p | n) -> n < p * p) -> prime n.
Proof.
  intros Hn H. destruct (prime_dec n) as [Hp|Hnp]; [assumption|exfalso].
  destruct (not_prime_divide n Hn Hnp) as (d & Hd & [k Ek]).
  destruct (prime_divisor_exists d ltac:(lia)) as (p & Hp & Dp).
  destruct (prime_divisor_exists k ltac:(nia)) as (p' & Hp' & Dp').
  pose proof (prime_ge_2 p Hp). pose proof (prime_ge_2 p' Hp').
  assert (Hk : 0 < k) by nia.
  assert (n < p * p).
  { apply H; [assumption|]. eapply Z.divide_trans; [exact Dp|]. exists k. exact Ek. }
  assert (n < p' * p').
  { apply H; [assumption|]. eapply Z.divide_trans; [exact Dp'|]. exists d. lia. }
  apply Z.divide_pos_le in Dp; [|lia]. apply Z.divide_pos_le in Dp'; [|lia].
  assert (p * p' <= n) by (rewrite Ek, (Z.mul_comm k d); apply Z.mul_le_mono_nonneg; lia).
  destruct (Z.le_ge_cases p p').
  - assert (p * p <= p * p') by (apply Z.mul_le_mono_nonneg_l; lia). lia.
  - assert (p' * p' <= p * p') by (apply Z.mul_le_mono_nonneg_r; lia). lia.
Qed.

Definition cert_ok (n a : Z) (qe : Z * Z) : bool :=
  let (q, e) := qe in
  (0 <? e) && ((n - 1) mod (q ^ e) =? 0) && (Z.gcd (Zpow_mod a ((n - 1) / q) n - 1) n =? 1).

Definition prod_cert (l : list (Z * Z)) : Z := prodz (map (fun qe => fst qe ^ snd qe) l).

Lemma prod_divides p l : 
  (forall q e, In (q, e) l -> prime q /\ 0 < e) -> NoDup (map fst l) ->
  (forall q e, In (q, e) l -> (q ^ e | p)) -> (prod_cert l | p).
Proof.
  induction l as [|[q e] l IH]; intros H1 H2 H3.
  - exists p. unfold prod_cert. simpl. lia.
  - unfold prod_cert. cbn [map prodz fst snd]. fold (prod_cert l).
    inversion H2 as [|? ? Hq Hl]; subst.
    destruct (H1 q e (or_introl eq_refl)) as [Pq Pe].
    assert (Dl : (prod_cert l | p)).
    { apply IH; auto; intros q' e' Hin; [apply H1|apply H3]; right; assumption. }
    assert (R : rel_prime (q ^ e) (prod_cert l)).
    { clear IH H3 Dl Hl. induction l as [|[q' e'] l IH].
      - unfold prod_cert. simpl. apply rel_prime_1 || (apply rel_prime_sym; apply rel_prime_1).
      - unfold prod_cert. cbn [map prodz fst snd]. fold (prod_cert l).
        assert (R1 : rel_prime (q ^ e) (q' ^ e')).
        { destruct (H1 q' e' (or_intror (or_introl eq_refl))) as [Pq' Pe'].
          apply rel_prime_sym. apply rel_prime_Zpower_r; [lia|]. apply rel_prime_sym.
          apply rel_prime_Zpower_r; [lia|].
          apply prime_rel_prime; [assumption|]. intros D. apply prime_div_prime in D; try assumption.
          subst. apply Hq. left. reflexivity. }
        apply rel_prime_mult; [exact R1|].
        apply IH.
        + intros q'' e'' [Hin|Hin]; [apply H1; left; assumption|apply H1; right; right; assumption].
        + cbn [map fst] in H2. inversion H2 as [|? ? A B]; subst. constructor.
          * intros Hin. apply A. right. exact Hin.
          * inversion B; assumption.
        + intros Hin. apply Hq. right. exact Hin. }
    destruct (H3 q e (or_introl eq_refl)) as [k Ek].
    destruct Dl as [m Em].
    assert (D : (prod_cert l | k)).
    { apply Gauss with (b := q ^ e).
      - exists m. lia.
      - apply rel_prime_sym. exact R. }
    destruct D as [j Ej]. exists j. rewrite Ek, Ej. ring.
Qed.

Theorem pocklington n a l :
  1 < n -> (forall q e, In (q, e) l -> prime q) -> NoDup (map fst l) ->
  Zpow_mod a (n - 1) n = 1 -> forallb (cert_ok n a) l = true ->
  n < prod_cert l * prod_cert l -> prime n.
Proof.
  intros Hn Hq Hnd Ea Hc HF.
  rewrite Zpow_mod_correct in Ea by lia.
  assert (HC : forall q e, In (q, e) l -> 0 < e /\ (q ^ e | n - 1) /\ Z.gcd (a ^ ((n - 1) / q) - 1) n = 1).
  { intros q e Hin. rewrite forallb_forall in Hc. specialize (Hc (q, e) Hin).
    unfold cert_ok in Hc. apply andb_prop in Hc. destruct Hc as [Hc H3].
    apply andb_prop in Hc. destruct Hc as [H1 H2].
    apply Z.ltb_lt in H1. apply Z.eqb_eq in H2, H3.
    assert (q ^ e <> 0). { pose proof (prime_ge_2 q (Hq q e Hin)). apply Z.pow_nonzero; lia. }
    split; [assumption|]. split; [apply Z.mod_divide; assumption|].
    rewrite Zpow_mod_correct in H3 by lia.
    transitivity (Z.gcd (a ^ ((n - 1) / q) mod n - 1) n); [|exact H3].
    rewrite (Z.gcd_comm (a ^ ((n - 1) / q) - 1)), (Z.gcd_comm (a ^ ((n - 1) / q) mod n - 1)).
    rewrite <- (Z.gcd_mod (a ^ ((n - 1) / q) - 1) n) by lia.
    rewrite <- (Z.gcd_mod (a ^ ((n - 1) / q) mod n - 1) n) by lia.
    f_equal. rewrite Zminus_mod_idemp_l. reflexivity. }
  apply prime_of_large_divisors; [assumption|]. intros p Hp Dp.
  pose proof (prime_ge_2 p Hp) as Hp2.
  assert (D : (prod_cert l | p - 1)).
  { apply prod_divides; [|assumption|].
    - intros q e Hin. split; [eauto|apply (HC q e Hin)].
    - intros q e Hin. destruct (HC q e Hin) as (H1 & H2 & H3).
      eapply pocklington_factor; eauto. }
  apply Z.divide_pos_le in D; [|lia].
  assert (0 <= prod_cert l).
  { assert (forall x, In x (map (fun qe => fst qe ^ snd qe) l) -> 0 <= x).
    { intros x Hx. apply in_map_iff in Hx. destruct Hx as ([q e] & <- & Hin).
      pose proof (prime_ge_2 q (Hq q e Hin)). cbn [fst snd]. apply Z.pow_nonneg. lia. }
    unfold prod_cert. revert H. generalize (map (fun qe => fst qe ^ snd qe) l).
    induction l0 as [|x l0 IH]; simpl; intros H; [lia|].
    apply Z.mul_nonneg_nonneg; [apply H; left; reflexivity|apply IH; intros; apply H; right; assumption]. }
  nia.
Qed.

(** Trial division for the small factors. *)
Fixpoint trial (fuel : nat) (d n : Z) : bool :=
  match fuel with
  | O => false
  | S k => if n <? d * d then true else if n mod d =? 0 then false else trial k (d + 1) n
  end.

Lemma trial_ok fuel d n : 1 < d -> 1 < n -> (forall x, 1 < x < d -> ~ (x | n)) -> trial fuel d n = true -> prime n.
Proof.
  revert d; induction fuel as [|k IH]; intros d Hd Hn H E; [discriminate|].
  cbn [trial] in E. destruct (Z.ltb_spec n (d * d)) as [Hlt|Hge].
  - apply prime_of_large_divisors; [assumption|]. intros p Hp Dp.
    pose proof (prime_ge_2 p Hp). destruct (Z.lt_ge_cases p d) as [Hpd|Hpd]; [|nia].
    exfalso. apply (H p); [lia|assumption].
  - destruct (Z.eqb_spec (n mod d) 0) as [E0|E0]; [discriminate|].
    apply (IH (d + 1)); [lia|assumption| |assumption].
    intros x Hx D. destruct (Z.eq_dec x d) as [->|].
    + apply E0. apply Z.mod_divide; [lia|assumption].
    + apply (H x); [lia|assumption].
Qed.

Lemma small_prime n : 1 < n -> trial (Z.to_nat (Z.sqrt n + 1)) 2 n = true -> prime n.
Proof. intros Hn H. apply (trial_ok _ 2) in H; auto; [lia|]. intros x Hx. lia. Qed.

Lemma prime_661 : prime 661.
Proof. apply small_prime; [lia|vm_compute; reflexivity]. Qed.

Lemma prime_93001 : prime 93001.
Proof. apply small_prime; [lia|vm_compute; reflexivity]. Qed.

Lemma prime_853 : prime 853.
Proof. apply small_prime; [lia|vm_compute; reflexivity]. Qed.

Lemma prime_1637 : prime 1637.
Proof. apply small_prime; [lia|vm_compute; reflexivity]. Qed.

Lemma prime_12048837557 : prime 12048837557.
Proof.
  apply (pocklington _ 2 [(93001, 1); (661, 1)]).
  - lia.
  - intros q e [E|[E|[]]]; injection E as <- <-;
      [exact prime_93001|exact prime_661].
  - repeat constructor; simpl; intuition congruence.
  - vm_compute; reflexivity.
  - vm_compute; reflexivity.
  - vm_compute; reflexivity.
Qed.

Lemma prime_5156902474397 : prime 5156902474397.
Proof.
  apply (pocklington _ 2 [(12048837557, 1)]).
  - lia.
  - intros q e [E|[]]; injection E as <- <-;
      [exact prime_12048837557].
  - repeat constructor; simpl; intuition congruence.
  - vm_compute; reflexivity.
  - vm_compute; reflexivity.
  - vm_compute; reflexivity.
Qed.

Lemma prime_1670836401704629 : prime 1670836401704629.
Proof.
  apply (pocklington _ 2 [(5156902474397, 1)]).
  - lia.
  - intros q e [E|[]]; injection E as <- <-;
      [exact prime_5156902474397].
  - repeat constructor; simpl; intuition congruence.
  - vm_compute; reflexivity.
  - vm_compute; reflexivity.
  - vm_compute; reflexivity.
Qed.

Lemma prime_639533339 : prime 639533339.
Proof.
  apply (pocklington _ 2 [(853, 1); (1637, 1)]).
  - lia.
  - intros q e [E|[E|[]]]; injection E as <- <-;
      [exact prime_853|exact prime_1637].
  - repeat constructor; simpl; intuition congruence.
  - vm_compute; reflexivity.
  - vm_compute; reflexivity.
  - vm_compute; reflexivity.
Qed.

Lemma prime_65865678001877903 : prime 65865678001877903.
Proof.
  apply (pocklington _ 2 [(639533339, 1)]).
  - lia.
  - intros q e [E|[]]; injection E as <- <-;
      [exact prime_639533339].
  - repeat constructor; simpl; intuition congruence.
  - vm_compute; reflexivity.
  - vm_compute; reflexivity.
  - vm_compute; reflexivity.
Qed.

Lemma prime_13818364434197438864469338081 : prime 13818364434197438864469338081.
Proof.
  apply (pocklington _ 2 [(65865678001877903, 1)]).
  - lia.
  - intros q e [E|[]]; injection E as <- <-;
      [exact prime_65865678001877903].
  - repeat constructor; simpl; intuition congruence.
  - vm_compute; reflexivity.
  - vm_compute; reflexivity.
  - vm_compute; reflexivity.
Qed.

(** The BN254 (bn256) scalar field modulus. *)
Definition frModulus : Z :=
  21888242871839275222246405745257275088548364400416034343698204186575808495617.

(** [a^(n-1) mod n] from [a^((n-1)/q) mod n]: saves one long exponentiation. *)
Lemma pow_via_quotient n a q : 1 < n -> 0 < q -> (n - 1) mod q = 0 ->
  Zpow_mod (Zpow_mod a ((n - 1) / q) n) q n = 1 -> Zpow_mod a (n - 1) n = 1.
Proof.
  intros Hn Hq Hm. rewrite !Zpow_mod_correct by lia. rewrite <- Zpower_mod by lia.
  rewrite <- Z.pow_mul_r; [|apply Z.div_pos; lia|lia].
  rewrite Z.mul_comm, <- Z_div_exact_full_2 by lia. auto.
Qed.

Theorem frModulus_prime : prime frModulus.
Proof.
  apply (pocklington _ 2 [(1670836401704629, 1); (13818364434197438864469338081, 1)]).
  - vm_compute; reflexivity.
  - intros q e [E|[E|[]]]; injection E as <- <-.
    + exact prime_1670836401704629.
    + exact prime_13818364434197438864469338081.
  - repeat constructor; simpl; intuition congruence.
  - apply (pow_via_quotient _ _ 1670836401704629); [reflexivity|reflexivity|vm_compute; reflexivity|].
    vm_compute; reflexivity.
  - vm_compute; reflexivity.
  - vm_compute; reflexivity.
Qed.
