(** Model of sumcheck/par.go: the multi-threaded sum-check prover, as a transition system of the
    main goroutine, one sub-prover goroutine per chunk and the goroutines of Broadcast, which
    communicate by channels.  Scheduling is an arbitrary interleaving of the steps below.

    The first part is the control skeleton (who sends what to whom, when), with the local
    computations as parameters; the second part gives those computations. *)
From Coq Require Import List Arith Lia Bool.
From Verif Require Import Field Go Trans MCommon MPoly MCircuit MSumcheck.
Import ListNotations.

(** A buffered channel: its content in FIFO order, and whether it is closed. *)
Record chan (T : Type) := MkChan { cbuf : list T; cclosed : bool }.
Arguments MkChan {T} _ _.
Arguments cbuf {T} _.
Arguments cclosed {T} _.

(** What an operation or a step does: block, panic, or go on. *)
Inductive act (T : Type) := Blocks | Panics | Gives (x : T).
Arguments Blocks {T}.
Arguments Panics {T}.
Arguments Gives {T} _.

Definition emptyChan {T} : chan T := MkChan [] false.

(** [c <- v] on a channel of capacity [cap] *)
Definition csend {T} (cap : nat) (c : chan T) (v : T) : act (chan T) :=
  if cclosed c then Panics
  else if length (cbuf c) <? cap then Gives (MkChan (cbuf c ++ [v]) false) else Blocks.

(** [<-c]; an empty closed channel gives the zero value *)
Definition crecv {T} (zero : T) (c : chan T) : act (T * chan T) :=
  match cbuf c with
  | v :: b => Gives (v, MkChan b (cclosed c))
  | [] => if cclosed c then Gives (zero, c) else Blocks
  end.

(** [close(c)] *)
Definition cclose {T} (c : chan T) : act (chan T) :=
  if cclosed c then Panics else Gives (MkChan (cbuf c) true).

Section Machine.
  (** Local state of a sub-prover goroutine, messages, local state of main, merged data, result. *)
  Context {Wk E R MS G Out : Type}.
  Variables (zE : E) (zR : R) (zW : Wk).
  (** Number of chunks, of semaphore tokens, of rounds run by main with the sub-provers. *)
  Variables nChunks nTok nRounds : nat.
  (** par.go:240-258, 261-288: sub-prover [i] is set up; does it run a round [j]; its evaluations
      and fold of round [j] *)
  Variable winit : nat -> option Wk.
  Variable wmore : nat -> Wk -> bool.
  Variable wevals : nat -> Wk -> option E.
  Variable wfold : nat -> Wk -> R -> option Wk.
  (** par.go:187-192: the running sum and a received message *)
  Variable consume : option E -> E -> option E.
  (** par.go:117-126: main's bookkeeping of round [i] from the summed evaluations; the challenge *)
  Variable mround : nat -> MS -> E -> option (MS * R).
  (** par.go:159-173; 129-143 *)
  Variable merge : option G -> nat * Wk -> option G.
  Variable mfinish : MS -> G -> option Out.

  (** RunForChunk: not started; about to Acquire; before 240; at the head of loop iteration [j]; about to send
      on evalsChan, Release, receive from rChan, Acquire, fold; about to send on finChan, Release, close rChan. *)
  Inductive wpc :=
  | WIdle | WStart | WInit
  | WLoop (j : nat) (p : Wk) | WSend (j : nat) (p : Wk) (e : E) | WRel (j : nat) (p : Wk)
  | WRecv (j : nat) (p : Wk) | WAcq (j : nat) (p : Wk) (r : R) | WFold (j : nat) (p : Wk) (r : R)
  | WFin (p : Wk) | WRelF | WClose | WEnd.

  (** A goroutine of Broadcast: not started, about to send, about to call wg.Done, finished. *)
  Inductive hpc := HIdle | HSend (r : R) | HDone | HEnd.

  (** Main: starting sub-prover [k]; in round [i], [m] messages consumed; about to interpolate; in
      Broadcast, starting goroutine [k]; in wg.Wait; merging, [m] provers received; finishing; closing
      evalsChan, finChan; returned. *)
  Inductive mpc :=
  | MSpawn (k : nat) | MCons (i m : nat) (acc : option E) | MRound (i : nat) (e : E)
  | MGo (i : nat) (r : R) (k : nat) | MWait (i : nat)
  | MMerge (m : nat) (g : option G) | MFinish (g : G) | MCloseE (o : Out) | MCloseF (o : Out) | MEnd (o : Out).

  Record st := MkSt {
    main : mpc; loc : MS;
    evC : chan E; finC : chan (nat * Wk); rCs : list (chan R);
    wg : nat; hs : list hpc; ws : list wpc; toks : nat }.

  (** par.go:81-112: the channels are made and the loop starting the sub-provers is entered.  (rChans[i] is made
      in iteration [i]; nobody uses it before.) *)
  Definition init (m : MS) : st :=
    MkSt (MSpawn 0) m emptyChan emptyChan (repeat emptyChan nChunks) 0 [] (repeat WIdle nChunks) nTok.

  (** Head of the loop par.go:115 *)
  Definition head (i : nat) : mpc := if i <? nRounds then MCons i 0 None else MMerge 0 None.

  Definition step_main (s : st) : act st :=
    let '(MkSt pc l eC fC rC w h t k0) := s in
    match pc with
    | MSpawn k =>                                                          (* 109-112 *)
      if k <? nChunks then Gives (MkSt (MSpawn (S k)) l eC fC rC w h (upd t k WStart) k0)
      else Gives (MkSt (head 0) l eC fC rC w h t k0)
    | MCons i m acc =>                                                     (* 116, 186-195 *)
      match crecv zE eC with
      | Blocks => Blocks | Panics => Panics
      | Gives (e, eC) =>
        match consume acc e with
        | None => Panics
        | Some a => Gives (MkSt (if S m <? nChunks then MCons i (S m) (Some a) else MRound i a) l eC fC rC w h t k0)
        end
      end
    | MRound i e =>                                                        (* 117-126, 199-200 *)
      match mround i l e with
      | None => Panics
      | Some (l, r) => Gives (MkSt (MGo i r 0) l eC fC rC (length rC) (repeat HIdle (length rC)) t k0)
      end
    | MGo i r k =>                                                         (* 201-206 *)
      if k <? length rC then Gives (MkSt (MGo i r (S k)) l eC fC rC w (upd h k (HSend r)) t k0)
      else Gives (MkSt (MWait i) l eC fC rC w h t k0)
    | MWait i =>                                                           (* 207 *)
      match w with O => Gives (MkSt (head (S i)) l eC fC rC w h t k0) | S _ => Blocks end
    | MMerge m g =>                                                        (* 129, 152-173 *)
      match crecv (0, zW) fC with
      | Blocks => Blocks | Panics => Panics
      | Gives (x, fC) =>
        match merge g x with
        | None => Panics
        | Some g => Gives (MkSt (if S m <? nChunks then MMerge (S m) (Some g) else MFinish g) l eC fC rC w h t k0)
        end
      end
    | MFinish g =>                                                         (* 131-143, 175-181 *)
      match mfinish l g with None => Panics | Some o => Gives (MkSt (MCloseE o) l eC fC rC w h t k0) end
    | MCloseE o =>                                                         (* 145 *)
      match cclose eC with Blocks => Blocks | Panics => Panics | Gives eC => Gives (MkSt (MCloseF o) l eC fC rC w h t k0) end
    | MCloseF o =>                                                         (* 146 *)
      match cclose fC with Blocks => Blocks | Panics => Panics | Gives fC => Gives (MkSt (MEnd o) l eC fC rC w h t k0) end
    | MEnd _ => Blocks
    end.

  (** Goroutine of Broadcast for channel [x], par.go:202-205 *)
  Definition step_helper (x : nat) (s : st) : act st :=
    let '(MkSt pc l eC fC rC w h t k0) := s in
    match nth_error h x, nth_error rC x with
    | Some (HSend r), Some c =>
      match csend 1 c r with
      | Blocks => Blocks | Panics => Panics
      | Gives c => Gives (MkSt pc l eC fC (upd rC x c) w (upd h x HDone) t k0)
      end
    | Some HDone, _ =>
      match w with O => Panics | S w => Gives (MkSt pc l eC fC rC w (upd h x HEnd) t k0) end
    | _, _ => Blocks
    end.

  (** Sub-prover [x], par.go:233-291 *)
  Definition step_worker (x : nat) (s : st) : act st :=
    let '(MkSt pc l eC fC rC w h t k0) := s in
    match nth_error t x with
    | Some WStart =>                                                       (* 240 *)
      match k0 with O => Blocks | S k => Gives (MkSt pc l eC fC rC w h (upd t x WInit) k) end
    | Some WInit =>                                                        (* 241-258 *)
      match winit x with None => Panics | Some p => Gives (MkSt pc l eC fC rC w h (upd t x (WLoop 0 p)) k0) end
    | Some (WLoop j p) =>                                                  (* 261, 270, 279 *)
      if wmore j p then
        match wevals j p with None => Panics | Some e => Gives (MkSt pc l eC fC rC w h (upd t x (WSend j p e)) k0) end
      else Gives (MkSt pc l eC fC rC w h (upd t x (WFin p)) k0)
    | Some (WSend j p e) =>                                                (* 262, 271, 280 *)
      match csend nChunks eC e with
      | Blocks => Blocks | Panics => Panics
      | Gives eC => Gives (MkSt pc l eC fC rC w h (upd t x (WRel j p)) k0)
      end
    | Some (WRel j p) =>                                                   (* 263, 272, 281 *)
      if k0 <? nTok then Gives (MkSt pc l eC fC rC w h (upd t x (WRecv j p)) (S k0)) else Blocks
    | Some (WRecv j p) =>                                                  (* 264, 273, 282 *)
      match nth_error rC x with
      | None => Blocks
      | Some c =>
        match crecv zR c with
        | Blocks => Blocks | Panics => Panics
        | Gives (r, c) => Gives (MkSt pc l eC fC (upd rC x c) w h (upd t x (WAcq j p r)) k0)
        end
      end
    | Some (WAcq j p r) =>                                                 (* 265, 274, 283 *)
      match k0 with O => Blocks | S k => Gives (MkSt pc l eC fC rC w h (upd t x (WFold j p r)) k) end
    | Some (WFold j p r) =>                                                (* 266, 275, 284 *)
      match wfold j p r with None => Panics | Some p => Gives (MkSt pc l eC fC rC w h (upd t x (WLoop (S j) p)) k0) end
    | Some (WFin p) =>                                                     (* 287 *)
      match csend nChunks fC (x, p) with
      | Blocks => Blocks | Panics => Panics
      | Gives fC => Gives (MkSt pc l eC fC rC w h (upd t x WRelF) k0)
      end
    | Some WRelF =>                                                        (* 288 *)
      if k0 <? nTok then Gives (MkSt pc l eC fC rC w h (upd t x WClose) (S k0)) else Blocks
    | Some WClose =>                                                       (* 289 *)
      match nth_error rC x with
      | None => Blocks
      | Some c =>
        match cclose c with
        | Blocks => Blocks | Panics => Panics
        | Gives c => Gives (MkSt pc l eC fC (upd rC x c) w h (upd t x WEnd) k0)
        end
      end
    | Some WIdle | Some WEnd | None => Blocks
    end.

  Inductive tid := TMain | THelper (x : nat) | TWorker (x : nat).

  Definition run (a : tid) (s : st) : act st :=
    match a with TMain => step_main s | THelper x => step_helper x s | TWorker x => step_worker x s end.

  (** One step of any goroutine; [None] is a panic. *)
  Inductive step (s : st) : option st -> Prop :=
  | step_ok a s' : run a s = Gives s' -> step s (Some s')
  | step_panic a : run a s = Panics -> step s None.
End Machine.

Section Par.
  Context {F : Field}.
  Open Scope F_scope.
  Variable GetChallenge : list F -> F.

  (** sumcheck/par.go:13-25 MultiThreadedProver; the degrees, which nothing reads, are left out (the gates' degrees
      are recomputed by NewSingleThreadedProver) *)
  Record MTProver := MkMT {
    tVL : list (list F); tVR : list (list F); tEq : list (list F);
    tGates : list (Gate F); tStatic : list (list F) }.

  (** Local state of a sub-prover goroutine: the prover, bG, bN. *)
  Record Sub := MkSub { subProver : Prover F; subG : nat; subN : nat }.

  (** par.go:241-258.  DeepCopy of the static tables: values are not shared in this model. *)
  Definition subInit (p : MTProver) (i : nat) : option Sub :=
    vL <- get (tVL p) i ;;
    vR <- get (tVR p) i ;;
    eq <- get (tEq p) i ;;
    let sp := NewSingleThreadedProver vL vR eq (tGates p) (tStatic p) in
    let n := length (sEq sp) in
    g <- godiv (length (sVR sp)) n ;;
    Some (MkSub sp (log2ceil g) (log2ceil n)).

  (** par.go:260-285: the three loops one after the other; iteration [j] counted from the first *)
  Definition subMore (j : nat) (s : Sub) : bool := (j <? subG s + subG s + subN s)%nat.
  Definition subEvals (j : nat) (s : Sub) : option (list F) :=
    (if j <? subG s then GetEvalsOnHL (subProver s)
     else if j <? subG s + subG s then GetEvalsOnHR (subProver s)
     else GetEvalsOnHPrime (subProver s))%nat.
  Definition subFold (j : nat) (s : Sub) (r : F) : option Sub :=
    sp <- (if j <? subG s then FoldHL (subProver s) r
           else if j <? subG s + subG s then FoldHR (subProver s) r
           else FoldHPrime (subProver s) r)%nat ;;
    Some (MkSub sp (subG s) (subN s)).

  (** par.go:186-195 ConsumeAccumulate: what is done with each message *)
  Definition consumeEvals (acc : option (list F)) (tmp : list F) : option (list F) :=
    match acc with
    | None => Some tmp
    | Some res => forN (length res) (fun res i => x <- get res i ;; y <- get tmp i ;; set res i (x + y)) res
    end.

  (** Main's local variables: proof, qPrime, qL, qR.  They are filled in increasing order, hence by appending. *)
  Record MLoc := MkLoc { lProof : list (list F); lQP : list F; lQL : list F; lQR : list F }.

  (** par.go:117-126 *)
  Definition mtRound (bG i : nat) (l : MLoc) (evals : list F) : option (MLoc * F) :=
    c <- InterpolateOnRange evals ;;
    let r := GetChallenge c in
    let proof := lProof l ++ [c] in
    Some ((if i <? bG then MkLoc proof (lQP l) (lQL l ++ [r]) (lQR l)
           else if i <? 2 * bG then MkLoc proof (lQP l) (lQL l) (lQR l ++ [r])
           else MkLoc proof (lQP l ++ [r]) (lQL l) (lQR l))%nat, r).

  (** ConsumeMergeProvers's variables newVL, newVR, newEq, gates, staticTables. *)
  Definition Merged : Type := list F * list F * list F * list (Gate F) * list (list F).

  (** par.go:155-173 *)
  Definition mergeSub (nToMerge : nat) (g : option Merged) (x : nat * Sub) : option Merged :=
    let p := subProver (snd x) in
    let '(newVL, newVR, newEq, gates, st) :=
      match g with
      | None => (repeat 0 nToMerge, repeat 0 nToMerge, repeat 0 nToMerge, sGates p, sStatic p)
      | Some g => g
      end in
    a <- get (sVL p) 0 ;; newVL <- set newVL (fst x) a ;;
    b <- get (sVR p) 0 ;; newVR <- set newVR (fst x) b ;;
    c <- get (sEq p) 0 ;; newEq <- set newEq (fst x) c ;;
    Some (newVL, newVR, newEq, gates, st).

  (** par.go:175-181, 131-143, 148 *)
  Definition mtFinish (k : nat) (l : MLoc) (g : Merged) : option (list (list F) * list F * list F * list F * list F) :=
    let '(newVL, newVR, newEq, gates, st) := g in
    let newP := NewSingleThreadedProver newVL newVR newEq gates st in
    '(p, proof, qPrime) <- rounds GetChallenge k GetEvalsOnHPrime FoldHPrime (newP, lProof l, lQP l) ;;
    fc <- finalClaimsOf p ;;
    Some (proof, qPrime, lQL l, lQR l, fc).

  (** par.go:81-148 Prove up to the first goroutine: nChunks, bG, the number of rounds with the sub-provers and of
      those left after.  (Go's division by n and indexing of eq[0], vL[0] may panic.) *)
  Definition mtPrepare (p : MTProver) : option (nat * nat * nat * nat) :=
    let nChunks := length (tEq p) in
    eq0 <- get (tEq p) 0 ;;
    let n := (nChunks * length eq0)%nat in
    vL0 <- get (tVL p) 0 ;;
    g <- godiv (nChunks * length vL0) n ;;
    let bN := log2ceil n in
    let bG := log2ceil g in
    let logNChunk := log2ceil nChunks in
    Some (nChunks, bG, (2 * bG + bN - logNChunk)%nat, Nat.min logNChunk (2 * bG + bN)).

  Definition zSub : Sub := MkSub (MkProver [] [] [] [] [] 0 0 0) 0 0.

  (** The transition system of Prove(nCore). *)
  Definition mt_step (p : MTProver) (nCore : nat) (nChunks bG k rest : nat) :=
    step (Wk:=Sub) (E:=list F) (R:=F) (MS:=MLoc) (G:=Merged) [] 0 zSub nChunks nCore k
      (subInit p) subMore subEvals subFold consumeEvals (mtRound bG) (mergeSub nChunks) (mtFinish rest).
  Definition mt_init (nCore nChunks : nat) := init (Wk:=Sub) (E:=list F) (R:=F) (G:=Merged)
    (Out:=list (list F) * list F * list F * list F * list F) nChunks nCore (MkLoc [] [] [] []).

  (** ** GetClaim, par.go:61-78 and 211-230 *)

  (** GetClaimForChunk: not started; about to Acquire; computing; sending; Releasing (deferred); finished. *)
  Inductive cpc := CIdle | CStart | CRun | CSend (x : F) | CRel | CEnd.
  (** GetClaim: starting goroutine [k]; [m] values received with sum [res]; returned. *)
  Inductive cmain := CSpawn (k : nat) | CSum (m : nat) (res : F) | CRet (res : F).
  Record cst := MkC { cmn : cmain; cch : chan F; cws : list cpc; ctok : nat }.

  (** par.go:215-229 *)
  Definition chunkClaim (p : MTProver) (i : nat) : option F :=
    vL <- get (tVL p) i ;;
    vR <- get (tVR p) i ;;
    eq <- get (tEq p) i ;;
    GetClaim (NewSingleThreadedProver vL vR eq (tGates p) (tStatic p)).

  Section Claim.
    Variable p : MTProver.
    Variable nCore : nat.
    Notation nChunks := (length (tEq p)).

    Definition claim_init : cst := MkC (CSpawn 0) emptyChan (repeat CIdle nChunks) nCore.

    Definition claim_main (s : cst) : act cst :=
      let '(MkC pc c t k) := s in
      match pc with
      | CSpawn i => if (i <? nChunks)%nat then Gives (MkC (CSpawn (S i)) c (upd t i CStart) k)
                    else Gives (MkC (CSum 0 0) c t k)
      | CSum m res =>
        if (m <? nChunks)%nat then
          match crecv 0 c with
          | Blocks => Blocks | Panics => Panics
          | Gives (x, c) => Gives (MkC (CSum (S m) (x + res)) c t k)
          end
        else Gives (MkC (CRet res) c t k)
      | CRet _ => Blocks
      end.

    Definition claim_worker (x : nat) (s : cst) : act cst :=
      let '(MkC pc c t k) := s in
      match nth_error t x with
      | Some CStart => match k with O => Blocks | S k => Gives (MkC pc c (upd t x CRun) k) end
      | Some CRun => match chunkClaim p x with None => Panics | Some v => Gives (MkC pc c (upd t x (CSend v)) k) end
      | Some (CSend v) =>
        match csend nChunks c v with
        | Blocks => Blocks | Panics => Panics
        | Gives c => Gives (MkC pc c (upd t x CRel) k)
        end
      | Some CRel => if (k <? nCore)%nat then Gives (MkC pc c (upd t x CEnd) (S k)) else Blocks
      | Some CIdle | Some CEnd | None => Blocks
      end.

    (** [None]: main; [Some x]: the goroutine of chunk [x]. *)
    Definition claim_run (a : option nat) (s : cst) : act cst :=
      match a with None => claim_main s | Some x => claim_worker x s end.

    Inductive claim_step (s : cst) : option cst -> Prop :=
    | cs_ok a s' : claim_run a s = Gives s' -> claim_step s (Some s')
    | cs_panic a : claim_run a s = Panics -> claim_step s None.
  End Claim.
End Par.

Arguments MTProver : clear implicits.
Arguments Sub : clear implicits.
