(** What is asked of a frontend, and when two gadgets build equivalent constraints. *)
From Coq Require Import List Arith Bool.
From Verif Require Import Field Go MSnark MFront SpecSnark SpecSize.
Import ListNotations.

Section S.
  Context {F : Field}.
  Open Scope F_scope.

  (** A frontend may rewrite an expression and recognise constants, but must not change values nor mention other wires. *)
  Definition faithful (fe : Frontend F) : Prop :=
    (forall w l, w 0%nat = 1 -> lc_val w (reduce fe l) = lc_val w l) /\
    (forall t l, In t (reduce fe l) -> snd t = 0%nat \/ In (snd t) (map snd l)) /\
    (forall w l c, w 0%nat = 1 -> constantOf fe l = Some c -> lc_val w l = c).

  (** A frontend that recognises no constants. *)
  Definition never_folds (fe : Frontend F) : Prop := forall l, constantOf fe l = None.

  (** From the same system [cs0], the gadget [m] on wires and the gadget [m'] on expressions panic together; else [m'] adds
      constraints that determine its new wires, the results have the same values, the assertions amount to the same, and there
      are as many assertions and at most as many other constraints as [m] has multiplications, and exactly as many if no constant is ever recognised. *)
  Definition same_gadget {A B} (fe : Frontend F) (cs0 : CS F) (va : (nat -> F) -> A -> list F) (vb : (nat -> F) -> B -> list F)
    (m : M (F:=F) A) (m' : M (F:=F) B) : Prop :=
    match m cs0, m' cs0 with
    | None, None => True
    | Some (a, cs), Some (b, cs') =>
        cs_ok cs' /\ grows cs0 cs' /\
        (forall w w', gates_ok w cs -> gates_ok w' cs' -> agree_below (nbWires cs0) w w' ->
           va w a = vb w' b /\ (asserts_ok w cs <-> asserts_ok w' cs')) /\
        asserts cs' = asserts cs /\
        (length (gates cs') + muls cs0 <= muls cs + length (gates cs0))%nat /\
        (never_folds fe -> (length (gates cs') + muls cs0 = muls cs + length (gates cs0))%nat)
    | _, _ => False
    end.

  (** The witness [w], given on the wires of [cs0], extends to one that satisfies [cs]. *)
  Definition extends_to (cs0 cs : CS F) (w : nat -> F) : Prop := exists w', agree_below (nbWires cs0) w w' /\ satisfied w' cs.

  (** variables: allocated wires other than the constant one *)
  Definition wires (cs : CS F) (l : list nat) : Prop := vars cs l /\ proper l.
End S.
