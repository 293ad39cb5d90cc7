(** Mathematical specifications used in the theorem statements.
    Nothing here mentions the model of the code. *)
From Coq Require Import List Arith Lia Bool.
From Verif Require Import Field.
Import ListNotations.

(** The bits of [j] on [n] positions, most significant first. *)
Fixpoint to_bits (n j : nat) : list bool :=
  match n with
  | O => []
  | S k => if 2 ^ k <=? j then true :: to_bits k (j - 2 ^ k) else false :: to_bits k j
  end.

Section Spec.
  Context {F : Field}.
  Open Scope F_scope.

  (** All bit strings of length [n] (first bit = most significant). *)
  Fixpoint cube (n : nat) : list (list bool) :=
    match n with
    | O => [[]]
    | S k => map (cons false) (cube k) ++ map (cons true) (cube k)
    end.

  (** The number written in binary by [b], first bit most significant. *)
  Fixpoint bits_val (b : list bool) : nat :=
    match b with
    | [] => 0
    | c :: b' => (if c then 2 ^ length b' else 0) + bits_val b'
    end%nat.

  (** [prod_i (b_i ? x_i : 1 - x_i)]: the Lagrange kernel of the vertex [b] at the point [x]. *)
  Fixpoint chi (b : list bool) (x : list F) : F :=
    match b, x with
    | c :: b', y :: x' => (if c then y else 1 - y) * chi b' x'
    | _, _ => 1
    end.

  (** Multilinear extension of the table [t] at the point [x]. *)
  Definition mle (t : list F) (x : list F) : F :=
    suml (cube (length x)) (fun b => nth (bits_val b) t 0 * chi b x).

  (** [prod_i (q_i h_i + (1 - q_i)(1 - h_i))]. *)
  Fixpoint eqprod (q h : list F) : F :=
    match q, h with
    | x :: q', y :: h' => (x * y + (1 - x) * (1 - y)) * eqprod q' h'
    | _, _ => 1
    end.

  (** A bit string as a point of F^n. *)
  Definition bpoint (b : list bool) : list F := map (fun c : bool => if c then 1 else 0) b.

  (** [sum_i c_i x^i]. *)
  Definition peval (c : list F) (x : F) : F :=
    sumn (length c) (fun i => nth i c 0 * fpow x i).

  (** [f] is given by a polynomial of degree at most [d]. *)
  Definition poly_deg_le (d : nat) (f : F -> F) : Prop :=
    exists c, length c = S d /\ forall x, f x = peval c x.

  (** The table whose entry [u * C + s] is entry [u] of chunk [s], for [C] chunks of [m] entries. *)
  Definition interleave (m : nat) (chunks : list (list F)) : list F :=
    let C := length chunks in
    map (fun i => nth (i / C) (nth (i mod C) chunks []) 0) (seq 0 (m * C)).

End Spec.
