(** Adversaries against a hash function whose values are independent: the random oracle. *)
From Coq Require Import List Arith Lia Bool.
From Verif Require Import Field Spec MCircuit SpecCircuit MSumcheck SpecSumcheck MSumPar SpecSumPar MGkr SpecGkr SpecInter MFiat.
Import ListNotations.

Section S.
  Context {F : Field}.
  Open Scope F_scope.

  Fixpoint all_eqb {A} (eqb : A -> A -> bool) (x y : list A) : bool :=
    match x, y with
    | [], [] => true
    | u :: x', v :: y' => eqb u v && all_eqb eqb x' y'
    | _, _ => false
    end.

  Definition query_eqb (x y : Query F) : bool :=
    let table := all_eqb (all_eqb (@feqb F)) in
    table (qIn x) (qIn y) && table (qOut x) (qOut y) && table (qMsgs x) (qMsgs y) && all_eqb (@feqb F) (qChals x) (qChals y).

  (** The first answer to the query [t] in the log [lg]. *)
  Fixpoint lookup (lg : list (Query F * F)) (t : Query F) : F :=
    match lg with
    | [] => 0
    | (t', r) :: lg' => if query_eqb t' t then r else lookup lg' t
    end.

  (** An adversary asks [Q] queries, each one depending on the answers before it, and then gives a statement and a proof. *)
  Record Adversary := MkAdversary {
    ask : list F -> Query F;
    give : list F -> list (list F) * list (list F) * Proof F }.

  (** What query number [i] is when the answers are taken from [tape]: the adversary's for [i < Q], the verifier's from
      then on.  [lg] has the queries and answers so far.  The adversary also sees the fresh value on the tape when
      it repeats a query, which gives it nothing but more random values. *)
  Definition next_query (bN : nat) (c : Circuit F) (A : Adversary) (Q : nat) (tape : list F) (lg : list (Query F * F)) (i : nat) : Query F :=
    if (i <? Q)%nat then ask A (firstn i tape)
    else
      let '(inputs, outputs, pf) := give A (firstn Q tape) in
      let n0 := start_count bN c in
      let msgs := messages (length c) pf in
      fs_query n0 inputs outputs msgs (fs_challenges (lookup lg) n0 inputs outputs msgs (i - Q)).

  Fixpoint game_log (bN : nat) (c : Circuit F) (A : Adversary) (Q : nat) (tape : list F) (n : nat) : list (Query F * F) :=
    match n with
    | O => []
    | S n' =>
      let lg := game_log bN c A Q tape n' in
      lg ++ [(next_query bN c A Q tape lg n', nth n' tape 0)]
    end.

  (** The adversary gets a false statement accepted: the outputs are not those of the circuit on the inputs. *)
  Definition breaks (m k b : nat) (c : Circuit F) (A : Adversary) (Q : nat) (tape : list F) : Prop :=
    let bN := (m + k)%nat in
    let '(inputs, outputs, pf) := give A (firstn Q tape) in
    chunked k m b inputs /\ chunked k m (lBGOutputs (nth (length c - 1) c (NewLayer []))) outputs /\
    (exists a, assignment_of c (2 ^ m) inputs a /\ outputs <> nth (length c) a []) /\
    FSVerify (lookup (game_log bN c A Q tape (Q + fs_count bN c))) bN c pf inputs outputs = Some true.
End S.

Arguments Adversary : clear implicits.
