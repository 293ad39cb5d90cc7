(** Model of the test circuits of the packages under snark/: polynomial/{eq,multilinear,univariate}_test.go,
    hash/mimc_test.go and sumcheck/sumcheck_test.go (gkr/mimc_test.go is at the end of MSnark.v).

    A circuit structure compiled by frontend.Compile: the constraint system holding its variables only, and the
    wires of its fields in order.  A witness structure has the same fields with optional values. *)
From Coq Require Import List Arith NArith Lia Bool.
From Verif Require Import Field Go MCommon MPoly MHash MAux MSnark.
Import ListNotations.

Section GnarkTests.
  Context {F : Field}.
  Open Scope F_scope.
  Variable Arks : list F.
  Notation "x <-- e ;;; k" := (mbind e (fun x => k)) (at level 60, e at next level, right associativity).
  Notation "' p <-- e ;;; k" := (mbind e (fun p => k)) (at level 60, p pattern, e at next level, right associativity).

  (** [make([][]frontend.Variable, n)] filled with rows of [m] fresh variables *)
  Definition freshRows (n m : nat) : list (list (option F)) := repeat (repeat None m) n.
  (** [l[i].Assign(x)] and [l[k][i].Assign(x)] *)
  Definition assign1 (l : list (option F)) (i : nat) (x : F) : option (list (option F)) :=
    v <- get l i ;; v <- assignVar v x ;; set l i v.
  Definition assign2 (l : list (list (option F))) (k i : nat) (x : F) : option (list (list (option F))) :=
    row <- get l k ;; row <- assign1 row i x ;; set l k row.

  (** ** snark/polynomial/eq_test.go *)

  (** eq_test.go:14-34 TestEqCircuit and AllocateTestEqCircuit, compiled *)
  Definition EqCompile (nTests testSize : nat) : CS F * (list (list nat) * list (list nat) * list nat) :=
    let rows := freshRows nTests testSize in
    let s1 := (1 + length (concat rows))%nat in
    let s2 := (s1 + length (concat rows))%nat in
    (MkCS (s2 + nTests) [] [], (wires2 1 rows, wires2 s1 rows, seq s2 nTests)).
  (** eq_test.go:46-52 Define *)
  Definition EqDefine (H Q : list (list nat)) (ExpectedValue : list nat) : @M F unit :=
    mfold (fun _ i =>
      hi <-- lift (get H i) ;;;
      qi <-- lift (get Q i) ;;;
      h <-- SEqEval hi qi ;;;
      e <-- lift (get ExpectedValue i) ;;;
      cAssertIsEqual h e) (seq 0 (length H)) tt.
  (** eq_test.go:36-44 Assign, on a witness structure given by its three fields; the inner loop ranges over Q *)
  Definition EqAssign (eq : list (list (option F)) * list (list (option F)) * list (option F)) (H Q : list (list F))
    : option (list (list (option F)) * list (list (option F)) * list (option F)) :=
    forN (length H) (fun '(eH, eQ, eE) k =>
      ' (eH, eQ) <- forN (length Q) (fun '(eH, eQ) n =>
        hk <- get H k ;; x <- get hk n ;; eH <- assign2 eH k n x ;;
        qk <- get Q k ;; y <- get qk n ;; eQ <- assign2 eQ k n y ;;
        Some (eH, eQ)) (eH, eQ) ;;
      qk <- get Q k ;; hk <- get H k ;;
      e <- EvalEq qk hk ;; eE <- assign1 eE k e ;;
      Some (eH, eQ, eE)) eq.
  (** eq_test.go:62 *)
  Definition EqWitness (nTests testSize : nat) : list (list (option F)) * list (list (option F)) * list (option F) :=
    (freshRows nTests testSize, freshRows nTests testSize, repeat None nTests).

  (** ** snark/hash/mimc_test.go *)

  (** mimc_test.go:17-41 TestMimcCircuit and Allocate, compiled *)
  Definition HashCompile (nTests testSize : nat) : CS F * (list (list nat) * list nat) :=
    let rows := freshRows nTests testSize in
    let s1 := (1 + length (concat rows))%nat in
    (MkCS (s1 + nTests) [] [], (wires2 1 rows, seq s1 nTests)).
  (** mimc_test.go:22-28 Define *)
  Definition HashDefine (X : list (list nat)) (Y : list nat) : @M F unit :=
    mfold (fun _ k =>
      xk <-- lift (get X k) ;;;
      y <-- SMimcHash Arks xk ;;;
      yk <-- lift (get Y k) ;;;
      cAssertIsEqual yk y) (seq 0 (length X)) tt.
  (** mimc_test.go:43-51 Assign *)
  Definition HashAssign (c : list (list (option F)) * list (option F)) (x : list (list F))
    : option (list (list (option F)) * list (option F)) :=
    forN (length x) (fun '(cX, cY) k =>
      xk <- get x k ;;
      cX <- forN (length xk) (fun cX n => v <- get xk n ;; assign2 cX k n v) cX ;;
      y <- MimcHash Arks xk ;;
      cY <- assign1 cY k y ;;
      Some (cX, cY)) c.
  Definition HashWitness (nTests testSize : nat) : list (list (option F)) * list (option F) :=
    (freshRows nTests testSize, repeat None nTests).

  (** ** snark/polynomial/multilinear_test.go *)

  (** multilinear_test.go:14-25, compiled *)
  Definition MultilinearCompile (nVars : nat) : CS F * (list nat * list nat * nat) :=
    let p := SAllocateMultilinear (F:=F) nVars in
    let s1 := (1 + length p)%nat in
    (MkCS (s1 + nVars + 1) [] [], (wires1 1 p, seq s1 nVars, (s1 + nVars)%nat)).
  (** multilinear_test.go:27-31 Define *)
  Definition MultilinearDefine (P XEval : list nat) (YEval : nat) : @M F unit :=
    actualEval <-- SEval P XEval ;;;
    cAssertIsEqual actualEval YEval.
  (** multilinear_test.go:45-63: the witness for the table [p] and the point [x] *)
  Definition MultilinearWitness (nVars : nat) (p x : list F) : option (list (option F) * list (option F) * option F) :=
    y <- Evaluate p x ;;
    wP <- SMultiAssign (SAllocateMultilinear nVars) (FrToGenericArray (fun c => c) p) ;;
    wX <- forN nVars (fun wX i => xi <- get x i ;; assign1 wX i xi) (repeat None nVars) ;;
    wY <- assignVar None y ;;
    Some (wP, wX, wY).

  (** ** snark/polynomial/univariate_test.go *)

  (** univariate_test.go:12-16, 32-34, compiled *)
  Definition UnivariateCompile (degree : nat) : CS F * (list nat * nat * nat) :=
    (MkCS (1 + (degree + 1) + 2) [] [], (seq 1 (degree + 1), 1 + (degree + 1), 1 + (degree + 1) + 1)%nat).
  (** univariate_test.go:18-28 Define *)
  Definition UnivariateDefine (poly : list nat) (ZnO Expected : nat) : @M F unit :=
    zno <-- SZeroAndOne poly ;;;
    x <-- cConstant (fnat 5) ;;;
    PAtX <-- SUniEval poly x ;;;
    _ <-- cAssertIsEqual zno ZnO ;;;
    cAssertIsEqual PAtX Expected.

  (** ** snark/sumcheck/sumcheck_test.go *)

  (** sumcheck_test.go:12-27 SumcheckCircuit and AllocateSumcheckCircuit, compiled: InitialClaim, Proof,
      ExpectedQL, ExpectedQR, ExpectedQPrime *)
  Definition SumcheckCompile (bN bG degHL degHR degHPrime : nat) : CS F * (nat * list (list nat) * list nat * list nat * list nat) :=
    let p := SAllocateSumcheck (F:=F) bN bG degHL degHR degHPrime in
    let s := (2 + length (concat p))%nat in
    (MkCS (s + bG + bG + bN) [] [], (1%nat, wires2 2 p, seq s bG, seq (s + bG) bG, seq (s + bG + bG) bN)).
  (** sumcheck_test.go:29-41 Define; hR and hL are named in the other order than in AssertValid *)
  Definition SumcheckDefine (InitialClaim : nat) (proof : list (list nat)) (ExpectedQL ExpectedQR ExpectedQPrime : list nat) : @M F unit :=
    '(hR, hL, hPrime, _) <-- SSumcheckAssertValid Arks proof InitialClaim 1 ;;;
    _ <-- mfold (fun _ i =>
      l <-- lift (get hL i) ;;;
      el <-- lift (get ExpectedQL i) ;;;
      _ <-- cAssertIsEqual l el ;;;
      r <-- lift (get hR i) ;;;
      er <-- lift (get ExpectedQR i) ;;;
      cAssertIsEqual r er) (seq 0 (length hR)) tt ;;;
    mfold (fun _ i =>
      p <-- lift (get hPrime i) ;;;
      ep <-- lift (get ExpectedQPrime i) ;;;
      cAssertIsEqual p ep) (seq 0 (length hPrime)) tt.
  (** sumcheck_test.go:62-74: the witness structure *)
  Definition SumcheckWitness (bN bG degHL degHR degHPrime : nat) (firstClaim : F) (proof : list (list F))
      (expectedQL expectedQR expectedQPrime : list F)
    : option (option F * list (list (option F)) * list (option F) * list (option F) * list (option F)) :=
    c <- assignVar None firstClaim ;;
    p <- SSumcheckAssign (SAllocateSumcheck bN bG degHL degHR degHPrime) proof ;;
    ' (l, r) <- forN (length expectedQL) (fun '(l, r) i =>
      x <- get expectedQL i ;; l <- assign1 l i x ;;
      y <- get expectedQR i ;; r <- assign1 r i y ;;
      Some (l, r)) (repeat None bG, repeat None bG) ;;
    q <- forN (length expectedQPrime) (fun q i => x <- get expectedQPrime i ;; assign1 q i x) (repeat None bN) ;;
    Some (c, p, l, r, q).
End GnarkTests.
