(** Fields with decidable equality, finite sums and powers.
    This file does not model any particular function of the repository: it is the
    algebraic language in which [fr.Element] values are described.  The record is
    instantiated with the BN254 scalar field in [Fr.v]. *)
From Coq Require Import List Arith Lia Bool Ring Field Permutation.
Import ListNotations.

(** Abstraction of gurvy's [fr.Element]: Add, Sub, Mul, Neg, Inverse, IsZero, [==].
    [Inverse] of zero is zero in gurvy, hence [finv_zero]. *)
Record Field := MkField {
  carrier :> Type;
  fzero : carrier;
  fone : carrier;
  fadd : carrier -> carrier -> carrier;
  fmul : carrier -> carrier -> carrier;
  fsub : carrier -> carrier -> carrier;
  fopp : carrier -> carrier;
  finv : carrier -> carrier;
  feqb : carrier -> carrier -> bool;
  f_theory : field_theory fzero fone fadd fmul fsub fopp
               (fun x y => fmul x (finv y)) finv (@eq carrier);
  finv_zero : finv fzero = fzero;
  feqb_spec : forall x y, reflect (x = y) (feqb x y)
}.

Arguments fzero {_}.
Arguments fone {_}.
Arguments fadd {_} _ _.
Arguments fmul {_} _ _.
Arguments fsub {_} _ _.
Arguments fopp {_} _.
Arguments finv {_} _.
Arguments feqb {_} _ _.

Declare Scope F_scope.
Delimit Scope F_scope with F.
Bind Scope F_scope with carrier.
Notation "0" := fzero : F_scope.
Notation "1" := fone : F_scope.
Infix "+" := fadd : F_scope.
Infix "*" := fmul : F_scope.
Infix "-" := fsub : F_scope.
Notation "- x" := (fopp x) : F_scope.
Infix "=?" := feqb : F_scope.

(** [SetUint64] for the small integers used by the code. *)
Fixpoint fnat {F : Field} (n : nat) : F :=
  match n with O => 0%F | S k => (fnat k + 1)%F end.

(** [x^n]. *)
Fixpoint fpow {F : Field} (x : F) (n : nat) : F :=
  match n with O => 1%F | S k => (x * fpow x k)%F end.

(** Sum of [f] over the elements of a list. *)
Fixpoint suml {F : Field} {A : Type} (l : list A) (f : A -> F) : F :=
  match l with [] => 0%F | a :: l' => (f a + suml l' f)%F end.

(** Product of [f] over the elements of a list. *)
Fixpoint prodl {F : Field} {A : Type} (l : list A) (f : A -> F) : F :=
  match l with [] => 1%F | a :: l' => (f a * prodl l' f)%F end.

(** [sum_(i < n) f i]. *)
Definition sumn {F : Field} (n : nat) (f : nat -> F) : F := suml (seq 0 n) f.

Section Sums.
  Context {F : Field}.
  Add Field Ffield : (f_theory F).
  Open Scope F_scope.
  Implicit Types x y z : F.

  Lemma f_1_neq_0 : (1 : F) <> 0.
  Proof. exact (F_1_neq_0 (f_theory F)). Qed.

  Lemma f_mul_inv_l x : x <> 0 -> finv x * x = 1.
  Proof. exact (Finv_l (f_theory F) x). Qed.

  Lemma feqb_refl x : (x =? x) = true.
  Proof. destruct (feqb_spec F x x); congruence. Qed.

  Lemma feqb_eq x y : (x =? y) = true <-> x = y.
  Proof. destruct (feqb_spec F x y); split; congruence. Qed.

  Lemma feqb_neq x y : (x =? y) = false <-> x <> y.
  Proof. destruct (feqb_spec F x y); split; congruence. Qed.

  Lemma f_eq_dec (x y : F) : {x = y} + {x <> y}.
  Proof. destruct (feqb_spec F x y); [left|right]; assumption. Qed.

  Lemma f_integral x y : x * y = 0 -> x = 0 \/ y = 0.
  Proof.
    intros H. destruct (f_eq_dec x 0) as [E|E]; [left; exact E|right].
    transitivity (finv x * (x * y)).
    - rewrite <- (Rmul_1_l (F_R (f_theory F)) y) at 1.
      rewrite <- (f_mul_inv_l x E). ring.
    - rewrite H. ring.
  Qed.

  Lemma f_mul_cancel_l x y z : x <> 0 -> x * y = x * z -> y = z.
  Proof.
    intros Hx H.
    assert (E : x * (y - z) = 0) by (transitivity (x*y - x*z); [ring|rewrite H; ring]).
    destruct (f_integral _ _ E) as [E'|E']; [contradiction|].
    transitivity (y - z + z); [ring|rewrite E'; ring].
  Qed.

  Lemma f_sub_eq x y : x - y = 0 -> x = y.
  Proof. intros H. transitivity (x - y + y); [ring|rewrite H; ring]. Qed.

  Lemma fnat_add n m : fnat (F:=F) (n + m) = fnat n + fnat m.
  Proof. induction n; simpl; [ring|rewrite IHn; ring]. Qed.

  Lemma fnat_mul n m : fnat (F:=F) (n * m) = fnat n * fnat m.
  Proof. induction n; simpl; [ring|rewrite fnat_add, IHn; ring]. Qed.

  (** sums over lists *)
  Lemma suml_ext {A} (l : list A) (f g : A -> F) :
    (forall a, In a l -> f a = g a) -> suml l f = suml l g.
  Proof.
    induction l as [|a l IH]; simpl; intros H; [reflexivity|].
    rewrite (H a) by auto. rewrite IH; [reflexivity|]. intros; apply H; auto.
  Qed.

  Lemma suml_app {A} (l1 l2 : list A) (f : A -> F) :
    suml (l1 ++ l2) f = suml l1 f + suml l2 f.
  Proof. induction l1; simpl; [ring|rewrite IHl1; ring]. Qed.

  Lemma suml_add {A} (l : list A) (f g : A -> F) :
    suml l (fun a => f a + g a) = suml l f + suml l g.
  Proof. induction l; simpl; [ring|rewrite IHl; ring]. Qed.

  Lemma suml_sub {A} (l : list A) (f g : A -> F) :
    suml l (fun a => f a - g a) = suml l f - suml l g.
  Proof. induction l; simpl; [ring|rewrite IHl; ring]. Qed.

  Lemma suml_scal_l {A} (l : list A) (f : A -> F) c :
    suml l (fun a => c * f a) = c * suml l f.
  Proof. induction l; simpl; [ring|rewrite IHl; ring]. Qed.

  Lemma suml_scal_r {A} (l : list A) (f : A -> F) c :
    suml l (fun a => f a * c) = suml l f * c.
  Proof. induction l; simpl; [ring|rewrite IHl; ring]. Qed.

  Lemma suml_zero {A} (l : list A) (f : A -> F) :
    (forall a, In a l -> f a = 0) -> suml l f = 0.
  Proof.
    induction l as [|a l IH]; simpl; intros H; [reflexivity|].
    rewrite (H a) by auto. rewrite IH by (intros; apply H; auto). ring.
  Qed.

  Lemma suml_map {A B} (l : list A) (h : A -> B) (f : B -> F) :
    suml (map h l) f = suml l (fun a => f (h a)).
  Proof. induction l; simpl; [reflexivity|rewrite IHl; reflexivity]. Qed.

  Lemma suml_swap {A B} (l : list A) (m : list B) (f : A -> B -> F) :
    suml l (fun a => suml m (fun b => f a b)) = suml m (fun b => suml l (fun a => f a b)).
  Proof.
    induction l as [|a l IH]; simpl.
    - symmetry; apply suml_zero; reflexivity.
    - rewrite IH, suml_add. reflexivity.
  Qed.

  Lemma suml_perm {A} (l m : list A) (f : A -> F) :
    Permutation l m -> suml l f = suml m f.
  Proof.
    induction 1 as [|a l m _ IH|a b l|l m k _ IH1 _ IH2]; simpl.
    - reflexivity.
    - rewrite IH; reflexivity.
    - ring.
    - congruence.
  Qed.

  Lemma suml_flat_map {A B} (l : list A) (h : A -> list B) (f : B -> F) :
    suml (flat_map h l) f = suml l (fun a => suml (h a) f).
  Proof.
    induction l as [|a l IH]; simpl; [reflexivity|]. rewrite suml_app, IH; reflexivity.
  Qed.

  Lemma suml_filter {A} (l : list A) (p : A -> bool) (f : A -> F) :
    suml (filter p l) f = suml l (fun a => if p a then f a else 0).
  Proof.
    induction l as [|a l IH]; simpl; [reflexivity|].
    destruct (p a); simpl; rewrite IH; ring.
  Qed.

  (** indexed sums *)
  Lemma sumn_ext n (f g : nat -> F) :
    (forall i, (i < n)%nat -> f i = g i) -> sumn n f = sumn n g.
  Proof. intros H. apply suml_ext. intros a Ha. apply in_seq in Ha. apply H; lia. Qed.

  Lemma sumn_S n (f : nat -> F) : sumn (S n) f = sumn n f + f n.
  Proof. unfold sumn. rewrite seq_S, suml_app. simpl. ring. Qed.

  Lemma sumn_0 (f : nat -> F) : sumn 0 f = 0.
  Proof. reflexivity. Qed.

  Lemma sumn_1 (f : nat -> F) : sumn 1 f = f 0%nat.
  Proof. unfold sumn; simpl. ring. Qed.

  Lemma sumn_zero n (f : nat -> F) : (forall i, (i < n)%nat -> f i = 0) -> sumn n f = 0.
  Proof. intros H. apply suml_zero. intros a Ha. apply in_seq in Ha. apply H; lia. Qed.

  Lemma sumn_plus n m (f : nat -> F) :
    sumn (n + m) f = sumn n f + sumn m (fun i => f (n + i)%nat).
  Proof.
    induction m as [|m IH].
    - rewrite Nat.add_0_r. rewrite sumn_0. ring.
    - rewrite Nat.add_succ_r, !sumn_S, IH. ring.
  Qed.

  Lemma sumn_S_l n (f : nat -> F) : sumn (S n) f = f 0%nat + sumn n (fun i => f (S i)).
  Proof. change (S n) with (1 + n)%nat. rewrite sumn_plus, sumn_1. reflexivity. Qed.

  Lemma sumn_add n (f g : nat -> F) : sumn n (fun i => f i + g i) = sumn n f + sumn n g.
  Proof. apply suml_add. Qed.
  Lemma sumn_sub n (f g : nat -> F) : sumn n (fun i => f i - g i) = sumn n f - sumn n g.
  Proof. apply suml_sub. Qed.
  Lemma sumn_scal_l n (f : nat -> F) c : sumn n (fun i => c * f i) = c * sumn n f.
  Proof. apply suml_scal_l. Qed.
  Lemma sumn_scal_r n (f : nat -> F) c : sumn n (fun i => f i * c) = sumn n f * c.
  Proof. apply suml_scal_r. Qed.
  Lemma sumn_swap n m (f : nat -> nat -> F) :
    sumn n (fun i => sumn m (fun j => f i j)) = sumn m (fun j => sumn n (fun i => f i j)).
  Proof. apply suml_swap. Qed.
  Lemma sumn_suml_swap {A} n (l : list A) (f : nat -> A -> F) :
    sumn n (fun i => suml l (fun j => f i j)) = suml l (fun j => sumn n (fun i => f i j)).
  Proof. apply suml_swap. Qed.

  Lemma sumn_delta n j (f : nat -> F) :
    (j < n)%nat -> sumn n (fun i => if Nat.eqb i j then f i else 0) = f j.
  Proof.
    induction n as [|n IH]; intros Hj; [lia|]. rewrite sumn_S.
    destruct (Nat.eq_dec n j) as [->|Hne].
    - rewrite Nat.eqb_refl, sumn_zero; [ring|].
      intros i Hi. destruct (Nat.eqb_spec i j); [lia|reflexivity].
    - rewrite IH by lia. destruct (Nat.eqb_spec n j); [lia|ring].
  Qed.

  Lemma sumn_delta_out n j (f : nat -> F) :
    (n <= j)%nat -> sumn n (fun i => if Nat.eqb i j then f i else 0) = 0.
  Proof.
    intros H. apply sumn_zero. intros i Hi. destruct (Nat.eqb_spec i j); [lia|reflexivity].
  Qed.

  (** splitting an index [a * m + b] *)
  Lemma sumn_mul n m (f : nat -> F) :
    sumn (n * m) f = sumn n (fun i => sumn m (fun j => f (i * m + j)%nat)).
  Proof.
    induction n as [|n IH]; [reflexivity|].
    rewrite sumn_S, <- IH. replace (S n * m)%nat with (n * m + m)%nat by lia.
    rewrite sumn_plus. reflexivity.
  Qed.

  Lemma suml_nth {A} (l : list A) (d : A) (f : A -> F) :
    suml l f = sumn (length l) (fun i => f (nth i l d)).
  Proof.
    induction l as [|a l IH]; [reflexivity|].
    cbn [length]. rewrite sumn_S_l. simpl. rewrite IH. reflexivity.
  Qed.

  Lemma prodl_ext {A} (l : list A) (f g : A -> F) :
    (forall a, In a l -> f a = g a) -> prodl l f = prodl l g.
  Proof.
    induction l as [|a l IH]; simpl; intros H; [reflexivity|].
    rewrite (H a) by auto. rewrite IH; [reflexivity|]. intros; apply H; auto.
  Qed.

  Lemma prodl_app {A} (l1 l2 : list A) (f : A -> F) :
    prodl (l1 ++ l2) f = prodl l1 f * prodl l2 f.
  Proof. induction l1; simpl; [ring|rewrite IHl1; ring]. Qed.

  Lemma prodl_zero {A} (l : list A) (f : A -> F) a :
    In a l -> f a = 0 -> prodl l f = 0.
  Proof.
    induction l as [|b l IH]; simpl; [tauto|]. intros [->|H] H0.
    - rewrite H0; ring.
    - rewrite IH by assumption; ring.
  Qed.

  Lemma prodl_nonzero {A} (l : list A) (f : A -> F) :
    (forall a, In a l -> f a <> 0) -> prodl l f <> 0.
  Proof.
    induction l as [|b l IH]; simpl; intros H; [apply f_1_neq_0|].
    intros E. destruct (f_integral _ _ E) as [E'|E'].
    - apply (H b); auto.
    - apply IH; auto.
  Qed.

  Lemma fpow_add x n m : fpow x (n + m) = fpow x n * fpow x m.
  Proof. induction n; simpl; [ring|rewrite IHn; ring]. Qed.

  Lemma fpow_mul x n m : fpow x (n * m) = fpow (fpow x n) m.
  Proof.
    induction m as [|m IH]; simpl.
    - rewrite Nat.mul_0_r; reflexivity.
    - rewrite Nat.mul_succ_r, fpow_add, IH. ring.
  Qed.

  Lemma fpow_mult_base x y n : fpow (x * y) n = fpow x n * fpow y n.
  Proof. induction n; simpl; [ring|rewrite IHn; ring]. Qed.

End Sums.
