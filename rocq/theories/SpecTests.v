(** Vocabulary for what the tests notice (MTests.v). *)
From Coq Require Import List NArith.
From Verif Require Import Field Go MPoly MSumcheck.
Import ListNotations.

Section SpecTests.
  Context {F : Field}.
  Open Scope F_scope.

  (** entry [u] of chunk [s] *)
  Definition cell (chunks : list (list F)) (s u : nat) : option F :=
    match nth_error chunks s with Some c => nth_error c u | None => None end.

  (** the entries (row, chunk) that TestChunked compares one by one *)
  Definition probes (chunkSize nChunks : nat) : list (nat * nat) :=
    let md x n := N.to_nat (x mod N.of_nat n) in
    [(0, 0); (chunkSize - 1, nChunks - 1);
     (md 1897979%N chunkSize, md 5648709%N nChunks);
     (md 987950%N chunkSize, md 907532%N nChunks);
     (md 4547687%N chunkSize, md 367570%N nChunks)]%nat.

  (** Sum-check verification without any check: the challenges and the last value. *)
  Fixpoint replay_loop (ch : list F -> F) (value : F) (proof : list (list F)) : option (list F * F) :=
    match proof with
    | [] => Some ([], value)
    | c :: proof' =>
      value <- EvaluatePolynomial c (ch c) ;;
      ' (rs, v) <- replay_loop ch value proof' ;;
      Some (ch c :: rs, v)
    end.
  Definition replay (ch : list F -> F) (claim : F) (proof : list (list F)) (bN bG : nat) : option (VerifyResult F) :=
    ' (rs, v) <- replay_loop ch claim proof ;;
    Some (Accept (skipn (2 * bG) rs) (firstn bG rs) (firstn bG (skipn bG rs)) v).
End SpecTests.
