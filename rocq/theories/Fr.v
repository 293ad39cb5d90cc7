(** The BN254 scalar field as an instance of [Field].
    Models the values and operations of gurvy's bn256/fr.Element (an external dependency,
    not part of /repo): canonical representatives modulo [frModulus]. *)
From Coq Require Import List ZArith Znumtheory Zpow_facts Lia Bool Eqdep_dec Field.
From Verif Require Import Field FrPrime LPoly2.
Local Open Scope Z_scope.

Definition in_fr (x : Z) : bool := (0 <=? x) && (x <? frModulus).

Definition FrT : Type := { x : Z | in_fr x = true }.

Lemma in_fr_spec x : in_fr x = true <-> 0 <= x < frModulus.
Proof. unfold in_fr. rewrite andb_true_iff, Z.leb_le, Z.ltb_lt. tauto. Qed.

Lemma frModulus_pos : 1 < frModulus.
Proof. reflexivity. Qed.

Lemma in_fr_mod x : in_fr (x mod frModulus) = true.
Proof. apply in_fr_spec. apply Z.mod_pos_bound. reflexivity. Qed.

Definition frval (x : FrT) : Z := proj1_sig x.
Definition mkfr (x : Z) : FrT := exist _ (x mod frModulus) (in_fr_mod x).

Lemma fr_eq (x y : FrT) : frval x = frval y -> x = y.
Proof.
  destruct x as [x Hx], y as [y Hy]. cbn [frval proj1_sig]. intros E. subst y.
  f_equal. apply UIP_dec. apply bool_dec.
Qed.

Lemma frval_range (x : FrT) : 0 <= frval x < frModulus.
Proof. destruct x as [x Hx]. apply in_fr_spec. exact Hx. Qed.

Lemma frval_mkfr x : frval (mkfr x) = x mod frModulus.
Proof. reflexivity. Qed.

Lemma mkfr_frval x : mkfr (frval x) = x.
Proof. apply fr_eq. rewrite frval_mkfr. apply Z.mod_small. apply frval_range. Qed.

Lemma mkfr_eq x y : x mod frModulus = y mod frModulus -> mkfr x = mkfr y.
Proof. intros H. apply fr_eq. rewrite !frval_mkfr. exact H. Qed.

Definition fr_add (x y : FrT) : FrT := mkfr (frval x + frval y).
Definition fr_mul (x y : FrT) : FrT := mkfr (frval x * frval y).
Definition fr_sub (x y : FrT) : FrT := mkfr (frval x - frval y).
Definition fr_opp (x : FrT) : FrT := mkfr (- frval x).
(** Inverse: extended Euclid, checked; [x^(r-2)] if the check fails (zero for zero). *)
Fixpoint egcd (fuel : nat) (a b u v : Z) : Z :=
  match fuel with
  | O => u
  | S k => if b =? 0 then u else let (q, r) := Z.div_eucl a b in egcd k b r v (u - q * v)
  end.
Definition fr_inv (x : FrT) : FrT :=
  let u := egcd 800 (frval x) frModulus 1 0 in
  if (u * frval x) mod frModulus =? 1 then mkfr u
  else mkfr (Zpow_mod (frval x) (frModulus - 2) frModulus).
Definition fr_eqb (x y : FrT) : bool := frval x =? frval y.

Lemma fr_eqb_spec x y : reflect (x = y) (fr_eqb x y).
Proof.
  unfold fr_eqb. destruct (Z.eqb_spec (frval x) (frval y)) as [E|E]; constructor.
  - apply fr_eq. exact E.
  - intros ->. apply E. reflexivity.
Qed.

Lemma fr_modn0 : frModulus <> 0.
Proof. discriminate. Qed.

Lemma fr_inv_l x : x <> mkfr 0 -> fr_mul (fr_inv x) x = mkfr 1.
Proof.
  intros Hx. apply fr_eq. unfold fr_mul, fr_inv.
  generalize (egcd 800 (frval x) frModulus 1 0). intros u. cbv zeta.
  destruct (Z.eqb_spec ((u * frval x) mod frModulus) 1) as [Eu|_];
    [rewrite !frval_mkfr, Zmult_mod_idemp_l, Eu; reflexivity|].
  rewrite !frval_mkfr.
  rewrite Zpow_mod_correct by exact fr_modn0.
  rewrite Z.mod_mod, Zmult_mod_idemp_l by exact fr_modn0.
  assert (E : frval x ^ (frModulus - 2) * frval x = frval x ^ (frModulus - 1)).
  { replace (frModulus - 1) with (Z.succ (frModulus - 2)) by (vm_compute; reflexivity).
    rewrite Z.pow_succ_r by (vm_compute; discriminate). apply Z.mul_comm. }
  rewrite E, fermat_little.
  - reflexivity.
  - exact frModulus_prime.
  - intros D. apply Hx. apply fr_eq. rewrite frval_mkfr.
    pose proof (frval_range x) as R. destruct D as [k Ek].
    assert (0 < frModulus) by reflexivity. assert (k = 0) by nia. subst k.
    rewrite Ek. reflexivity.
Qed.

Ltac fr_ring := intros; apply fr_eq; unfold fr_add, fr_mul, fr_sub, fr_opp; rewrite ?frval_mkfr;
  rewrite ?Zplus_mod_idemp_l, ?Zplus_mod_idemp_r, ?Zmult_mod_idemp_l, ?Zmult_mod_idemp_r, ?Zminus_mod_idemp_l, ?Zminus_mod_idemp_r.

Lemma fr_ring_theory : ring_theory (mkfr 0) (mkfr 1) fr_add fr_mul fr_sub fr_opp (@eq FrT).
Proof.
  constructor.
  - intros x. rewrite <- (mkfr_frval x) at 2. apply mkfr_eq. rewrite frval_mkfr. f_equal.
  - intros x y. apply mkfr_eq. f_equal. ring.
  - fr_ring. f_equal. ring.
  - intros x. rewrite <- (mkfr_frval x) at 2. apply mkfr_eq. rewrite frval_mkfr.
    rewrite Zmult_mod_idemp_l. f_equal. ring.
  - intros x y. apply mkfr_eq. f_equal. ring.
  - fr_ring. f_equal. ring.
  - fr_ring. f_equal. ring.
  - fr_ring. f_equal.
  - fr_ring. rewrite Z.add_opp_diag_r. reflexivity.
Qed.

Lemma fr_field_theory : field_theory (mkfr 0) (mkfr 1) fr_add fr_mul fr_sub fr_opp
               (fun x y => fr_mul x (fr_inv y)) fr_inv (@eq FrT).
Proof.
  constructor.
  - exact fr_ring_theory.
  - intros E. apply (f_equal frval) in E. vm_compute in E. discriminate.
  - reflexivity.
  - exact fr_inv_l.
Qed.

Lemma fr_inv_zero : fr_inv (mkfr 0) = mkfr 0.
Proof. apply fr_eq. vm_compute. reflexivity. Qed.

Definition Fr : Field :=
  MkField FrT (mkfr 0) (mkfr 1) fr_add fr_mul fr_sub fr_opp fr_inv fr_eqb
    fr_field_theory fr_inv_zero fr_eqb_spec.

Lemma fnat_mkfr n : fnat (F:=Fr) n = mkfr (Z.of_nat n).
Proof.
  induction n as [|n IH]; [reflexivity|].
  cbn [fnat]. rewrite IH. apply fr_eq. change (@fadd Fr) with fr_add. unfold fr_add.
  rewrite !frval_mkfr. change (frval (@fone Fr)) with (1 mod frModulus).
  rewrite <- Zplus_mod. f_equal. lia.
Qed.

(** Small integers are distinct in the field. *)
Lemma Fr_distinct n : Z.of_nat n <= frModulus -> distinct_upto (F:=Fr) n.
Proof.
  intros H i j Hi Hj E. rewrite !fnat_mkfr in E. apply (f_equal frval) in E.
  rewrite !frval_mkfr, !Z.mod_small in E by lia. lia.
Qed.

Lemma Fr_distinct_13 : distinct_upto (F:=Fr) 13.
Proof. apply Fr_distinct. vm_compute. discriminate. Qed.
