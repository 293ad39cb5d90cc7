(** Memory-level model of the sum-check provers (sumcheck/prover.go, sumcheck/par.go): the tables
    are slices of one shared memory (MHeap.v) which the folds overwrite in place.  The evaluations
    only read the tables; the buffers they allocate for themselves are not put in the memory, nor
    are the slices sent over evalsChan (each is made by its sender and never used by it again). *)
From Coq Require Import List Arith Lia Bool.
From Verif Require Import Field Go Trans MCommon MPoly MCircuit MSumcheck MSumPar MHeap SpecHeap.
Import ListNotations.

(** ** The machine of MSumPar.v with a memory shared by all goroutines *)
Section HMachine.
  Context {Mem Wk E R MS G Out : Type}.
  Variables (zE : E) (zR : R) (zW : Wk).
  Variables nChunks nTok nRounds : nat.
  Variable hinit : nat -> Mem -> option (Mem * Wk).
  Variable wmore : nat -> Wk -> bool.
  Variable hevals : Mem -> nat -> Wk -> option E.
  Variable hfold : nat -> Wk -> R -> Mem -> option (Mem * Wk).
  Variable consume : option E -> E -> option E.
  Variable mround : nat -> MS -> E -> option (MS * R).
  Variable hmerge : Mem -> option G -> nat * Wk -> option G.
  Variable hfinish : Mem -> MS -> G -> option Out.

  (** The memory after a step of goroutine [a]: only setting up a sub-prover (par.go:241-253, deep
      copies) and folding (266, 275, 284) write to it.  A step is one local computation or one
      channel or semaphore operation. *)
  Definition written (a : tid) (s : st (Wk:=Wk) (E:=E) (R:=R) (MS:=MS) (G:=G) (Out:=Out)) (m : Mem) : Mem :=
    match a with
    | TWorker x =>
      match nth_error (ws s) x with
      | Some WInit => match hinit x m with Some (m', _) => m' | None => m end
      | Some (WFold j p r) => match hfold j p r m with Some (m', _) => m' | None => m end
      | _ => m
      end
    | _ => m
    end.

  Definition hrun (a : tid) (sm : st * Mem) : act (st * Mem) :=
    let (s, m) := sm in
    match run zE zR zW nChunks nTok nRounds (fun x => option_map snd (hinit x m)) wmore (hevals m)
            (fun j p r => option_map snd (hfold j p r m)) consume mround (hmerge m) (hfinish m) a s with
    | Blocks => Blocks
    | Panics => Panics
    | Gives s' => Gives (s', written a s m)
    end.

  Inductive hstep (sm : st * Mem) : option (st * Mem) -> Prop :=
  | hstep_ok a sm' : hrun a sm = Gives sm' -> hstep sm (Some sm')
  | hstep_panic a : hrun a sm = Panics -> hstep sm None.
End HMachine.

Section Heap.
  Context {F : Field}.
  Open Scope F_scope.
  Variable GetChallenge : list F -> F.
  Notation Mem := (list F).

  (** sumcheck/prover.go:17-29 SingleThreadedProver *)
  Record HProver := MkHP {
    pVL : Slice; pVR : Slice; pEq : Slice; pGates : list (Gate F); pStatic : list Slice;
    pHL : nat; pHR : nat; pHPrime : nat }.

  (** sumcheck/prover.go:32-57 NewSingleThreadedProver *)
  Definition NewHP (vL vR eq : Slice) (gates : list (Gate F)) (statics : list Slice) : HProver :=
    let p := NewSingleThreadedProver [] [] [] gates [] in
    MkHP vL vR eq gates statics (dHL p) (dHR p) (dHPrime p).

  (** The prover as the evaluations of evals.go see it. *)
  Definition view (m : Mem) (p : HProver) : Prover F :=
    MkProver (tab m (pVL p)) (tab m (pVR p)) (tab m (pEq p)) (pGates p) (map (tab m) (pStatic p))
      (pHL p) (pHR p) (pHPrime p).

  (** [for i := range tables { tables[i].Fold(r) }] *)
  Definition HFoldAll (m : Mem) (ss : list Slice) (r : F) : option (Mem * list Slice) :=
    foldM (fun '(m, acc) s => '(m, s') <- HFold m s r ;; Some (m, acc ++ [s'])) ss (m, []).

  (** sumcheck/prover.go:113-118 FoldHL *)
  Definition HFoldHL (m : Mem) (p : HProver) (r : F) : option (Mem * HProver) :=
    '(m, st) <- HFoldAll m (pStatic p) r ;;
    '(m, v) <- HFold m (pVL p) r ;;
    Some (m, MkHP v (pVR p) (pEq p) (pGates p) st (pHL p) (pHR p) (pHPrime p)).
  (** sumcheck/prover.go:121-126 FoldHR *)
  Definition HFoldHR (m : Mem) (p : HProver) (r : F) : option (Mem * HProver) :=
    '(m, st) <- HFoldAll m (pStatic p) r ;;
    '(m, v) <- HFold m (pVR p) r ;;
    Some (m, MkHP (pVL p) v (pEq p) (pGates p) st (pHL p) (pHR p) (pHPrime p)).
  (** sumcheck/prover.go:129-133 FoldHPrime *)
  Definition HFoldHPrime (m : Mem) (p : HProver) (r : F) : option (Mem * HProver) :=
    '(m, vr) <- HFold m (pVR p) r ;;
    '(m, vl) <- HFold m (pVL p) r ;;
    '(m, e) <- HFold m (pEq p) r ;;
    Some (m, MkHP vl vr e (pGates p) (pStatic p) (pHL p) (pHR p) (pHPrime p)).

  (** ** sumcheck/prover.go:60-110, the single-threaded Prove *)
  Definition hround (evals : Prover F -> option (list F)) (fold : Mem -> HProver -> F -> option (Mem * HProver))
      (st : Mem * HProver * list (list F) * list F) : option (Mem * HProver * list (list F) * list F) :=
    let '(m, p, proof, q) := st in
    e <- evals (view m p) ;;
    c <- InterpolateOnRange e ;;
    let r := GetChallenge c in
    '(m, p) <- fold m p r ;;
    Some (m, p, proof ++ [c], q ++ [r]).
  Definition hrounds (k : nat) evals fold (st : Mem * HProver * list (list F) * list F) :=
    forN k (fun st _ => hround evals fold st) st.

  Definition HProve (m : Mem) (p : HProver)
    : option (Mem * (list (list F) * list F * list F * list F * list F)) :=
    let n := slen (pEq p) in
    g <- godiv (slen (pVR p)) n ;;
    let bN := log2ceil n in
    let bG := log2ceil g in
    '(m, p, proof, qL) <- hrounds bG GetEvalsOnHL HFoldHL (m, p, [], []) ;;
    '(m, p, proof, qR) <- hrounds bG GetEvalsOnHR HFoldHR (m, p, proof, []) ;;
    '(m, p, proof, qPrime) <- hrounds bN GetEvalsOnHPrime HFoldHPrime (m, p, proof, []) ;;
    finalClaims <- finalClaimsOf (view m p) ;;
    Some (m, (proof, qPrime, qL, qR, finalClaims)).

  (** ** The multi-threaded prover *)

  (** sumcheck/par.go:13-25 MultiThreadedProver *)
  Record HMT := MkHMT {
    hVL : list Slice; hVR : list Slice; hEq : list Slice; hGates : list (Gate F); hStatic : list Slice }.
  (** The values of its tables *)
  Definition viewMT (m : Mem) (p : HMT) : MTProver F :=
    MkMT (map (tab m) (hVL p)) (map (tab m) (hVR p)) (map (tab m) (hEq p)) (hGates p) (map (tab m) (hStatic p)).

  Record HSub := MkHSub { hsubProver : HProver; hsubG : nat; hsubN : nat }.
  Definition viewSub (m : Mem) (s : HSub) : Sub F := MkSub (view m (hsubProver s)) (hsubG s) (hsubN s).

  (** par.go:241-245: deep copies *)
  Definition HCopyAll (m : Mem) (ss : list Slice) : option (Mem * list Slice) :=
    foldM (fun '(m, acc) s => '(m, d) <- HDeepCopy m s ;; Some (m, acc ++ [d])) ss (m, []).

  (** par.go:241-258 *)
  Definition hsubInit (p : HMT) (i : nat) (m : Mem) : option (Mem * HSub) :=
    '(m, st) <- HCopyAll m (hStatic p) ;;
    vL <- get (hVL p) i ;;
    vR <- get (hVR p) i ;;
    eq <- get (hEq p) i ;;
    let sp := NewHP vL vR eq (hGates p) st in
    let n := slen (pEq sp) in
    g <- godiv (slen (pVR sp)) n ;;
    Some (m, MkHSub sp (log2ceil g) (log2ceil n)).

  (** par.go:260-285 *)
  Definition hsubMore (j : nat) (s : HSub) : bool := (j <? hsubG s + hsubG s + hsubN s)%nat.
  Definition hsubEvals (m : Mem) (j : nat) (s : HSub) : option (list F) :=
    (if j <? hsubG s then GetEvalsOnHL (view m (hsubProver s))
     else if j <? hsubG s + hsubG s then GetEvalsOnHR (view m (hsubProver s))
     else GetEvalsOnHPrime (view m (hsubProver s)))%nat.
  Definition hsubFold (j : nat) (s : HSub) (r : F) (m : Mem) : option (Mem * HSub) :=
    '(m, sp) <- (if j <? hsubG s then HFoldHL m (hsubProver s) r
           else if j <? hsubG s + hsubG s then HFoldHR m (hsubProver s) r
           else HFoldHPrime m (hsubProver s) r)%nat ;;
    Some (m, MkHSub sp (hsubG s) (hsubN s)).

  (** par.go:155-173.  newVL, newVR, newEq are made by ConsumeMergeProvers and not shared: kept by
      value.  The static tables are those of the first prover received. *)
  Definition HMerged : Type := list F * list F * list F * list (Gate F) * list Slice.
  Definition viewMerged (m : Mem) (g : HMerged) : Merged :=
    let '(a, b, c, gates, st) := g in (a, b, c, gates, map (tab m) st).
  Definition hmergeSub (nToMerge : nat) (m : Mem) (g : option HMerged) (x : nat * HSub) : option HMerged :=
    let p := hsubProver (snd x) in
    let '(newVL, newVR, newEq, gates, st) :=
      match g with
      | None => (repeat 0 nToMerge, repeat 0 nToMerge, repeat 0 nToMerge, pGates p, pStatic p)
      | Some g => g
      end in
    a <- hget m (pVL p) 0 ;; newVL <- set newVL (fst x) a ;;
    b <- hget m (pVR p) 0 ;; newVR <- set newVR (fst x) b ;;
    c <- hget m (pEq p) 0 ;; newEq <- set newEq (fst x) c ;;
    Some (newVL, newVR, newEq, gates, st).
  (** par.go:131-143, 175-181: FoldHPrime does not fold the static tables, only the new ones *)
  Definition hmtFinish (k : nat) (m : Mem) (l : MLoc (F:=F)) (g : HMerged) := mtFinish GetChallenge k l (viewMerged m g).

  (** par.go:81-107 *)
  Definition hmtPrepare (p : HMT) : option (nat * nat * nat * nat) :=
    let nChunks := length (hEq p) in
    eq0 <- get (hEq p) 0 ;;
    let n := (nChunks * slen eq0)%nat in
    vL0 <- get (hVL p) 0 ;;
    g <- godiv (nChunks * slen vL0) n ;;
    let bN := log2ceil n in
    let bG := log2ceil g in
    let logNChunk := log2ceil nChunks in
    Some (nChunks, bG, (2 * bG + bN - logNChunk)%nat, Nat.min logNChunk (2 * bG + bN)).

  Definition hzSub : HSub := MkHSub (MkHP nilSlice nilSlice nilSlice [] [] 0 0 0) 0 0.

  (** The transition system of Prove(nCore) with the shared memory. *)
  Definition hmt_step (p : HMT) (nCore : nat) (nChunks bG k rest : nat) :=
    hstep (Mem:=Mem) (Wk:=HSub) (E:=list F) (R:=F) (MS:=MLoc) (G:=HMerged) [] 0 hzSub nChunks nCore k
      (hsubInit p) hsubMore hsubEvals hsubFold consumeEvals (mtRound GetChallenge bG) (hmergeSub nChunks) (hmtFinish rest).
  Definition hmt_init (nCore nChunks : nat) (m : Mem) :=
    (init (Wk:=HSub) (E:=list F) (R:=F) (G:=HMerged)
      (Out:=list (list F) * list F * list F * list F * list F) nChunks nCore (MkLoc (F:=F) [] [] [] []), m).
End Heap.

Arguments HProver : clear implicits.
Arguments HMT : clear implicits.
Arguments HSub : clear implicits.
