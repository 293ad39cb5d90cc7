(** The MiMC hashes of three and of nine zeros differ, for the round constants of the code. *)
From Coq Require Import List Arith Lia Bool ZArith.
From Verif Require Import Field FrPrime Fr Go MHash MArk SpecHash LHash MSnark SpecSnark.
Import ListNotations.
Local Open Scope Z_scope.

(** The number without its [n] lowest bits. *)
Fixpoint pdrop (n : nat) (p : positive) : Z :=
  match n, p with
  | O, _ => Zpos p
  | S _, xH => 0
  | S n, xO p => pdrop n p
  | S n, xI p => pdrop n p
  end.
Definition zdrop (n : nat) (x : Z) : Z := match x with Zpos p => pdrop n p | _ => 0 end.

(** A smaller number of the same class modulo [frModulus]; [recip] is 2^510 / frModulus. *)
Definition recip : Z := 153139381818454018477577869068761289266858026142902538442762978823351945372822.
Definition reduce (x : Z) : Z := x - frModulus * zdrop 258 (zdrop 252 x * recip).

Definition sqr (x : Z) : Z := match x with Zpos p => Zpos (Pos.square p) | _ => x * x end.

Definition zround (x c : Z) : Z :=
  let t := x + c in
  let t2 := reduce (sqr t) in
  let t3 := reduce (t2 * t) in
  let t6 := reduce (sqr t3) in
  reduce (t6 * t).

(** [n] more zeros hashed. *)
Fixpoint zhash (cs : list Z) (n : nat) (h : Z) : Z :=
  match n with O => h | S n => zhash cs n (fold_left zround cs h + h) end.

Lemma mkfr_reduce x : mkfr (reduce x) = mkfr x.
Proof.
  apply mkfr_eq. unfold reduce. replace (x - _) with (x + (- zdrop 258 (zdrop 252 x * recip)) * frModulus) by ring.
  apply Z_mod_plus_full.
Qed.

Lemma sqr_mul x : sqr x = x * x.
Proof. destruct x as [|p|p]; cbn [sqr]; try reflexivity. rewrite Pos.square_spec. reflexivity. Qed.

Lemma mkfr_mul x y : (mkfr (x * y) : Fr) = ((mkfr x : Fr) * (mkfr y : Fr))%F.
Proof. change (mkfr (x * y) = fr_mul (mkfr x) (mkfr y)). apply mkfr_eq. rewrite !frval_mkfr. apply Zmult_mod. Qed.

Lemma mkfr_add x y : (mkfr (x + y) : Fr) = ((mkfr x : Fr) + (mkfr y : Fr))%F.
Proof. change (mkfr (x + y) = fr_add (mkfr x) (mkfr y)). apply mkfr_eq. rewrite !frval_mkfr. apply Zplus_mod. Qed.

Add Field FfieldZeroHash : (f_theory Fr).

Lemma zround_ok x c : (mkfr (zround x c) : Fr) = fpow ((mkfr x : Fr) + 0 + (mkfr c : Fr))%F 7.
Proof.
  unfold zround. cbv zeta. rewrite !mkfr_reduce, mkfr_mul, !mkfr_reduce, sqr_mul, mkfr_mul, !mkfr_reduce, mkfr_mul, !mkfr_reduce, sqr_mul, mkfr_mul, mkfr_add.
  set (u := mkfr x : Fr). set (v := mkfr c : Fr). change (mkfr x) with u. change (mkfr c) with v. cbn [fpow]. ring.
Qed.

Lemma zcipher_ok cs x : (mkfr (fold_left zround cs x) : Fr) = mimc_cipher (F:=Fr) (map mkfr cs) 0%F (mkfr x).
Proof.
  unfold mimc_cipher. revert x. induction cs as [|c cs IH]; intros x; [reflexivity|]. cbn [fold_left map]. rewrite IH, zround_ok. reflexivity.
Qed.

Lemma zhash_ok cs n : forall h, (mkfr (zhash cs n h) : Fr) = fold_left (mimc_compress (F:=Fr) (map mkfr cs)) (repeat 0%F n) (mkfr h).
Proof.
  induction n as [|n IH]; intros h; [reflexivity|]. cbn [zhash repeat fold_left]. rewrite IH. f_equal.
  rewrite mkfr_add, zcipher_ok. unfold mimc_compress. set (u := mimc_cipher _ _ _). set (v := mkfr h : Fr).
  change ((u + v)%F = (u + v + 0)%F). ring.
Qed.

Lemma challenge_zeros n : challenge Arks (repeat (0 : Fr)%F n) = mkfr (zhash (firstn 91 arkStrings) n 0).
Proof. unfold challenge. rewrite zhash_ok. unfold Arks. rewrite firstn_map. reflexivity. Qed.

Definition differ (cs : list Z) : bool :=
  let h3 := zhash cs 3 0 in negb (h3 mod frModulus =? zhash cs 6 h3 mod frModulus).

Lemma computed : differ (firstn 91 arkStrings) = true.
Proof. vm_compute. reflexivity. Qed.

Theorem zeros_no_collision : challenge Arks (repeat (0 : Fr)%F 3) <> challenge Arks (repeat (0 : Fr)%F 9).
Proof.
  pose proof computed as H. intros E. rewrite !challenge_zeros in E. apply (f_equal frval) in E. rewrite !frval_mkfr in E.
  revert H E. generalize (firstn 91 arkStrings). intros cs H E. change (zhash cs 9 0) with (zhash cs 6 (zhash cs 3 0)) in E.
  unfold differ in H. cbv zeta in H. rewrite <- E, Z.eqb_refl in H. discriminate H.
Qed.
