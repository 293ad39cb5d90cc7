(** What the memory-level theorems are stated with. *)
From Coq Require Import List Arith.
From Verif Require Import Field MHeap.
Import ListNotations.

Section SpecHeap.
  Context {F : Field}.
  Open Scope F_scope.
  Implicit Types (m : list F) (s dst left right : Slice).

  (** a slice lying inside the memory *)
  Definition swf m s : Prop := (slen s <= scap s)%nat /\ (base s + scap s <= length m)%nat.
  (** cell i of slice s; the values of a slice *)
  Definition rd m s i : F := nth (base s + i) m 0.
  Definition tab m s : list F := map (rd m s) (seq 0 (slen s)).

  (** the destination can be used with operand [s]: it will be reallocated, or it starts at the
      same address, or the two do not overlap *)
  Definition compat (size : nat) dst s : Prop :=
    (scap dst < size)%nat \/ base s = base dst \/
    (base s + size <= base dst)%nat \/ (base dst + size <= base s)%nat.

  (** after the operation the destination header [dst'] has [size] cells, cell i holds [val i],
      all other existing cells are unchanged, and the destination was reallocated only if its
      capacity was too small *)
  Definition pointwise m dst (m' : list F) dst' size (val : nat -> F) : Prop :=
    slen dst' = size /\ (length m <= length m')%nat /\
    (forall i, (i < size)%nat -> rd m' dst' i = val i) /\
    (forall a, (a < length m)%nat -> (a < base dst' \/ base dst' + size <= a)%nat -> nth a m' 0 = nth a m 0) /\
    base dst' = (if (scap dst <? size)%nat then length m else base dst).

  (** [m'] contains all cells of [m] unchanged *)
  Definition ext m m' : Prop :=
    (length m <= length m')%nat /\ forall a, (a < length m)%nat -> nth a m' 0 = nth a m 0.

  (** the addresses of a slice; two slices without common address *)
  Definition cell s (a : nat) : Prop := (base s <= a < base s + slen s)%nat.
  Definition apart s s' : Prop := forall a, cell s a -> ~ cell s' a.
End SpecHeap.
