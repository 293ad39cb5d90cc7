(** Model of package circuit: gates.go, layers.go, circuit.go. *)
From Coq Require Import List Arith ZArith Lia Bool.
From Verif Require Import Field Go MCommon MPoly.
Import ListNotations.

Section Circuit.
  Context {F : Field}.
  Open Scope F_scope.

  (** The strings returned by ID(): "AddGate", "MulGate", "CopyGate", "CipherGate-<ark>" and those
      of gates defined elsewhere.  The decimal string of an ark determines the ark, so the
      string is represented by the ark itself. *)
  Inductive GateId := IdAdd | IdMul | IdCopy | IdCipher (ark : F) | IdOther (n : nat).

  Definition id_eqb (a b : GateId) : bool :=
    match a, b with
    | IdAdd, IdAdd | IdMul, IdMul | IdCopy, IdCopy => true
    | IdCipher x, IdCipher y => feqb x y
    | IdOther n, IdOther m => (n =? m)%nat
    | _, _ => false
    end.

  (** circuit/gates.go:11-24 the interface Gate.  [Eval(res, vL, vR)] writes [*res]; it is
      modelled by the value written, for a [res] that points to neither operand (as in every
      call of the repository).  [GnarkEval] is modelled by the value of the returned variable. *)
  Record Gate := MkGate {
    gid : GateId;
    geval : F -> F -> F;
    gmanyVL : list F -> list F -> F -> option (list F);
    gmanyVR : list F -> F -> list F -> option (list F);
    gnark : F -> F -> F;
    gdegs : nat * nat * nat }.

  Definition degHL (g : Gate) : nat := fst (fst (gdegs g)).
  Definition degHR (g : Gate) : nat := snd (fst (gdegs g)).
  Definition degHPrime (g : Gate) : nat := snd (gdegs g).

  (** circuit/gates.go:27-36 EvaluateCombinator *)
  Definition EvaluateCombinator (vL vR eq : F) (gates : list Gate) (statics : list F) : option F :=
    res <- foldM (fun res ig =>
      let tmp := geval (snd ig) vL vR in
      s <- get statics (fst ig) ;;
      let tmp := s * tmp in
      Some (res + tmp)) (combine (seq 0 (length gates)) gates) 0 ;;
    Some (res * eq).

  (** circuit/gates.go:39-73 AddGate *)
  Definition AddGate : Gate := MkGate
    IdAdd
    (fun vL vR => vL + vR)
    (fun res vLs vR => forN (length vLs) (fun res i => vL <- get vLs i ;; set res i (vL + vR)) res)
    (fun res vL vRs => forN (length vRs) (fun res i => vR <- get vRs i ;; set res i (vL + vR)) res)
    (fun vL vR => vL + vR)
    (1, 1, 1)%nat.

  (** circuit/gates.go:76-108 MulGate *)
  Definition MulGate : Gate := MkGate
    IdMul
    (fun vL vR => vL * vR)
    (fun res vLs vR => forN (length vLs) (fun res i => vL <- get vLs i ;; set res i (vL * vR)) res)
    (fun res vL vRs => forN (length vRs) (fun res i => vR <- get vRs i ;; set res i (vL * vR)) res)
    (fun vL vR => vL * vR)
    (1, 1, 2)%nat.

  (** [copy(dst, src)]: copies min(len(dst), len(src)) elements. *)
  Definition gocopy (dst src : list F) : list F :=
    firstn (length dst) src ++ skipn (length src) dst.

  (** circuit/gates.go:111-142 CopyGate *)
  Definition CopyGate : Gate := MkGate
    IdCopy
    (fun vL vR => vL)
    (fun res vLs vR => Some (gocopy res vLs))
    (fun res vL vRs => forN (length vRs) (fun res i => set res i vL) res)
    (fun vL vR => vL)
    (1, 0, 1)%nat.

  (** circuit/gates.go:145-218 CipherGate *)
  Definition CipherGate (ark : F) : Gate := MkGate
    (IdCipher ark)
    (* Eval, 158-169 *)
    (fun vL vR =>
       let tmp := vR + ark in
       let res := tmp * tmp in
       let res := res * tmp in
       let res := res * res in
       let res := res * tmp in
       res + vL)
    (* EvalManyVL, 200-213 *)
    (fun res vLs vR =>
       let tmp := vR + ark in
       let right := tmp * tmp in
       let right := right * tmp in
       let right := right * right in
       let right := right * tmp in
       forN (length vLs) (fun res i => vL <- get vLs i ;; set res i (right + vL)) res)
    (* EvalManyVR, 183-196 *)
    (fun res vL vRs => forN (length vRs) (fun res i =>
       vR <- get vRs i ;;
       let tmp := vR + ark in
       res <- set res i (tmp * tmp) ;;
       x <- get res i ;; res <- set res i (x * tmp) ;;
       x <- get res i ;; res <- set res i (x * x) ;;
       x <- get res i ;; res <- set res i (x * tmp) ;;
       x <- get res i ;; set res i (x + vL)) res)
    (* GnarkEval, 172-179 *)
    (fun vL vR =>
       let tmp := vR + ark in
       let cipher := tmp * tmp in
       let cipher := cipher * tmp in
       let cipher := cipher * cipher in
       let cipher := cipher * tmp in
       cipher + vL)
    (1, 7, 7)%nat.

  (** circuit/layers.go:13-16 Wire.  Indices are non-negative ints. *)
  Record Wire := MkWire { wL : nat; wR : nat; wO : nat; wGate : Gate }.

  (** circuit/layers.go:19-23 Layer *)
  Record Layer := MkLayer { Wires : list Wire; lGates : list Gate; lBGInputs : nat; lBGOutputs : nat }.

  (** circuit/layers.go:105-113 BGOutputs *)
  Definition BGOutputs (wires : list Wire) : nat :=
    let res := fold_left (fun res wire => if (res <? wO wire)%nat then wO wire else res) wires 0%nat in
    log2ceil (res + 1).

  (** circuit/layers.go:116-127 BGInputs *)
  Definition BGInputs (wires : list Wire) : nat :=
    let res := fold_left (fun res wire =>
      let res := if (res <? wL wire)%nat then wL wire else res in
      if (res <? wR wire)%nat then wR wire else res) wires 0%nat in
    log2ceil (res + 1).

  (** circuit/layers.go:130-139 Gates.  The map [gates] is looked up but never written. *)
  Definition Gates (wires : list Wire) : list Gate :=
    let gates : list GateId := [] in
    fold_left (fun res wire =>
      if existsb (id_eqb (gid (wGate wire))) gates then res else res ++ [wGate wire]) wires [].

  (** circuit/layers.go:26-33 NewLayer *)
  Definition NewLayer (wires : list Wire) : Layer :=
    MkLayer wires (Gates wires) (BGInputs wires) (BGOutputs wires).

  (** circuit/layers.go:49-55: the wiring of one gate as a table *)
  Definition wiring_table (l : Layer) (gate : Gate) : option (list F) :=
    let gO := (2 ^ (2 * lBGInputs l))%nat in
    let gL := (2 ^ lBGInputs l)%nat in
    foldM (fun tab w =>
      if id_eqb (gid (wGate w)) (gid gate) then
        let k := (gO * wO w + gL * wL w + wR w)%nat in
        x <- get tab k ;; set tab k (x + 1)
      else Some tab) (Wires l) (repeat 0 (2 ^ lBGOutputs l * 2 ^ (2 * lBGInputs l))%nat).

  (** circuit/layers.go:37-64 GetStaticTable *)
  Definition GetStaticTable (l : Layer) (q : list F) : option (list (list F)) :=
    mapM (fun gate => tab <- wiring_table l gate ;; FoldMany tab q) (lGates l).

  (** circuit/layers.go:78-96: what one goroutine of Evaluate computes.  Line 91 reads
      [inps[wRN*N+h]] where [wRN] is already [w.R*N]. *)
  Definition eval_chunk (l : Layer) (inps : list F) : option (list F) :=
    let GInputs := (2 ^ lBGInputs l)%nat in
    let GOutputs := (2 ^ lBGOutputs l)%nat in
    let N := (length inps / GInputs)%nat in
    foldM (fun subRes w =>
      let wON := (wO w * N)%nat in
      let wLN := (wL w * N)%nat in
      let wRN := (wR w * N)%nat in
      forN N (fun subRes h =>
        vL <- get inps (wLN + h) ;;
        vR <- get inps (wRN * N + h) ;;
        let tmp := geval (wGate w) vL vR in
        x <- get subRes (wON + h) ;;
        set subRes (wON + h) (x + tmp)) subRes) (Wires l) (repeat 0 (N * GOutputs)%nat).

  (** circuit/layers.go:68-102 Evaluate, the goroutines being run one after the other.  The
      concurrent version is [layer_exec] below, on the machine of MForkJoin.v. *)
  Definition LayerEvaluate (l : Layer) (inputs : list (list F)) : option (list (list F)) :=
    mapM (eval_chunk l) inputs.

  (** circuit/layers.go:76-99: goroutine [i]; the shared memory is [res].  One action per
      goroutine: everything else it writes ([subRes], [tmp]) is local to it. *)
  Definition layer_exec (l : Layer) (inputs : list (list F)) (i : nat) (res : list (list F))
    : option (list (list F)) :=
    inps <- get inputs i ;;
    subRes <- eval_chunk l inps ;;
    set res i subRes.

  (** one goroutine per chunk *)
  Definition per_chunk (n : nat) : list (list nat) := map (fun i => [i]) (seq 0 n).

  (** circuit/circuit.go:13-21 Circuit and Assignment are their only field. *)
  Definition Circuit := list Layer.
  Definition Assignment := list (list (list F)).

  (** circuit/circuit.go:24-34 NewCircuit *)
  Definition NewCircuit (wiring : list (list Wire)) : Circuit := map NewLayer wiring.

  (** circuit/circuit.go:37-47 Assign *)
  Definition Assign (c : Circuit) (inputs : list (list F)) : option Assignment :=
    let assignment := repeat [] (length c + 1) in
    assignment <- set assignment 0 inputs ;;
    foldM (fun assignment il =>
      cur <- get assignment (fst il) ;;
      nxt <- LayerEvaluate (snd il) cur ;;
      set assignment (fst il + 1) nxt) (combine (seq 0 (length c)) c) assignment.

  (** circuit/circuit.go:50-68 LayerAsBKTWithCopy, goroutines one after the other *)
  Definition LayerAsBKTWithCopy (a : Assignment) (layer : nat) : option (list (list F)) :=
    vals <- get a layer ;; Some (map DeepCopy vals).

  (** circuit/circuit.go:58-64: goroutine [i] of LayerAsBKTWithCopy *)
  Definition copy_exec (vals : list (list F)) (i : nat) (res : list (list F)) : option (list (list F)) :=
    tab <- get vals i ;;
    let fresh := repeat 0 (length tab) in
    set res i (gocopy fresh tab).

  (** circuit/circuit.go:71-78 LayerAsBKTNoCopy *)
  Definition LayerAsBKTNoCopy (a : Assignment) (layer : nat) : option (list (list F)) :=
    vals <- get a layer ;; Some vals.
End Circuit.

Arguments GateId : clear implicits.
Arguments Gate : clear implicits.
Arguments Wire : clear implicits.
Arguments Layer : clear implicits.
Arguments Circuit : clear implicits.
Arguments Assignment : clear implicits.
