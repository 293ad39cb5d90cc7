(** Data races of the multi-threaded prover: the addresses a goroutine's next step reads and writes. *)
From Coq Require Import List Arith Bool.
From Verif Require MForkJoin.
From Verif Require Import Field Go MCircuit MSumcheck MSumPar MHeap SpecHeap MSumHeap SpecSumHeap.
Import ListNotations.

Section S.
  Context {F : Field}.
  Open Scope F_scope.
  Notation state := (st (Wk:=HSub F) (E:=list F) (R:=F) (MS:=MLoc (F:=F)) (G:=HMerged (F:=F))
    (Out:=list (list F) * list F * list F * list F * list F)).

  Definition cells (ss : list Slice) (a : nat) : Prop := exists s, In s ss /\ cell s a.

  (** par.go:241-245 reads the static tables of the prover; 262, 271, 280 and 266, 275, 284 the tables of the
      sub-prover; 155-173 the three tables of the received sub-prover, 131-143 the static tables of the first one. *)
  Definition reads (P : HMT F) (t : tid) (s : state) (a : nat) : Prop :=
    match t with
    | TWorker x =>
      match nth_error (ws s) x with
      | Some WInit => cells (hStatic P) a
      | Some (WLoop _ w) | Some (WFold _ w _) => cells (tables1 (hsubProver w)) a
      | _ => False
      end
    | TMain =>
      match main s with
      | MMerge _ _ =>
        match cbuf (finC s) with
        | (_, w) :: _ => cells [pVL (hsubProver w); pVR (hsubProver w); pEq (hsubProver w)] a
        | [] => False
        end
      | MFinish g => cells (snd g) a
      | _ => False
      end
    | THelper _ => False
    end.

  (** Among the existing addresses, only folding (266, 275, 284) writes. *)
  Definition writes (t : tid) (s : state) (a : nat) : Prop :=
    match t with
    | TWorker x => match nth_error (ws s) x with Some (WFold _ w _) => cells (tables1 (hsubProver w)) a | _ => False end
    | _ => False
    end.

  (** Two goroutines about to access one address, one of them for writing *)
  Definition race (P : HMT F) (s : state) : Prop :=
    exists t t' a, t <> t' /\ writes t s a /\ (reads P t' s a \/ writes t' s a).

  (** Two memories of the same size with the same values at the addresses of [A] *)
  Definition agree (A : nat -> Prop) (m1 m2 : list F) : Prop :=
    length m1 = length m2 /\ forall a, A a -> nth a m1 0 = nth a m2 0.
  (** A step of goroutine [t] *)
  Definition hmt_run (ch : list F -> F) (P : HMT F) (nCore nChunks bG k rest : nat) (t : tid) (sm : state * list F)
    : act (state * list F) :=
    hrun (Mem:=list F) (Wk:=HSub F) (E:=list F) (R:=F) (MS:=MLoc) (G:=HMerged) [] 0 hzSub nChunks nCore k
      (hsubInit P) hsubMore hsubEvals hsubFold consumeEvals (mtRound ch bG) (hmergeSub nChunks) (hmtFinish ch rest) t sm.

  (** The same effect on the control state, and memories that agree on [A] *)
  Definition same_outcome (A : nat -> Prop) (o1 o2 : act (state * list F)) : Prop :=
    match o1, o2 with
    | Blocks, Blocks | Panics, Panics => True
    | Gives (s1, m1), Gives (s2, m2) => s1 = s2 /\ agree A m1 m2
    | _, _ => False
    end.
End S.

(** Fork/join loops (MForkJoin.v): goroutine [i] is about to run action [a]. *)
Definition about_to {M A} (s : MForkJoin.st (M:=M) (A:=A)) (i : nat) (a : A) : Prop :=
  exists r, nth_error (MForkJoin.thr s) i = Some (MForkJoin.TRun (a :: r)).
