(** What the sum-check protocol is about. *)
From Coq Require Import List Arith Lia Bool.
From Verif Require Import Field Spec MCircuit SpecCircuit.
Import ListNotations.

Section S.
  Context {F : Field}.
  Open Scope F_scope.

  (** [sum_(h,l,r) eq(h) * sum_i static_i(l,r) * gate_i(vL(l,h), vR(r,h))] for [n] instances and
      [g] rows; entry (row [l], instance [h]) of a table is at [l * n + h]. *)
  Definition table_sum (n g : nat) (gates : list (Gate F)) (statics : list (list F)) (eq vL vR : list F) : F :=
    sumn n (fun h => sumn g (fun l => sumn g (fun r =>
      nth h eq 0 * suml (combine gates statics) (fun gs =>
        nth (l * g + r) (snd gs) 0 * geval (fst gs) (nth (l * n + h) vL 0) (nth (r * n + h) vR 0))))).

  (** The function of the point [xL ++ xR ++ x'] that is summed over the boolean cube. *)
  Definition combinator (kL kR : nat) (gates : list (Gate F)) (statics : list (list F)) (eq vL vR : list F)
      (x : list F) : F :=
    let xL := firstn kL x in
    let xR := firstn kR (skipn kL x) in
    let x' := skipn (kL + kR) x in
    mle eq x' * suml (combine gates statics) (fun gs =>
      mle (snd gs) (xL ++ xR) * geval (fst gs) (mle vL (xL ++ x')) (mle vR (xR ++ x'))).

  (** Sum of [f] over the boolean values of the last [k] variables, the first ones being [x]. *)
  Definition cube_sum (f : list F -> F) (k : nat) (x : list F) : F :=
    suml (cube k) (fun b => f (x ++ bpoint b)).

  (** Tables over [kL], [kR] and [kN] variables. *)
  Definition tables_ok (kL kR kN : nat) (gates : list (Gate F)) (statics : list (list F)) (eq vL vR : list F) : Prop :=
    length eq = (2 ^ kN)%nat /\ length vL = (2 ^ (kL + kN))%nat /\ length vR = (2 ^ (kR + kN))%nat /\
    length statics = length gates /\ (forall tab, In tab statics -> length tab = (2 ^ (kL + kR))%nat).

  (** The largest declared degrees. *)
  Definition maxHL (gates : list (Gate F)) : nat := list_max (map degHL gates).
  Definition maxHR (gates : list (Gate F)) : nat := list_max (map degHR gates).
  Definition maxHP (gates : list (Gate F)) : nat := list_max (map degHPrime gates).

  (** The degree allowed in round [i]: [dL] in the first [kL] rounds, [dR] in the next [kR], then [dP]. *)
  Definition phase_deg (kL kR dL dR dP i : nat) : nat :=
    (if i <? kL then dL else if i <? kL + kR then dR else dP)%nat.

  (** The round polynomials [cs] answer the claim [v], the challenge of a polynomial being [ch c],
      and leave the claim [fin]. *)
  Fixpoint answers (ch : list F -> F) (v : F) (cs : list (list F)) (fin : F) : Prop :=
    match cs with
    | [] => fin = v
    | c :: cs' => c <> [] /\ v = peval c 0 + peval c 1 /\ answers ch (peval c (ch c)) cs' fin
    end.
End S.
