(** 64-bit integers, continued: the functions under snark/, sumcheck.Verify and GetInitialQPrimeAndQ with
    [int]s, negative values included. *)
From Coq Require Import List ZArith.
From Verif Require Import Go Field MInt MSumcheck MGkr MSnark.
Import ListNotations.
Local Open Scope Z_scope.
Local Open Scope bool_scope.

(** [l[a:b]] for slices whose capacity is their length *)
Definition zslice {A} (l : list A) (a b : Z) : option (list A) :=
  if (0 <=? a) && (a <=? b) && (b <=? len l) then slice l (Z.to_nat a) (Z.to_nat b) else None.

(** [for i := a; i < b; i++]: the counter stays below the [int] b *)
Definition forZ {S} (a b : Z) (f : S -> Z -> option S) (s : S) : option S :=
  forN (Z.to_nat (b - a)) (fun s k => f s (a + Z.of_nat k)) s.

Section Int2.
  Context {F : Field}.
  Variable maxLen : Z.

  (** snark/polynomial/univariate.go:21-23 AllocateUnivariate; a fresh variable has no value *)
  Definition AllocateUnivariate64 (degree : Z) : option (list (option F)) :=
    make64 maxLen None (add64 degree 1).

  (** snark/polynomial/multilinear.go:16-19 AllocateMultilinear *)
  Definition AllocateMultilinear64 (nVars : Z) : option (list (option F)) :=
    size <- shl64 1 nVars ;;
    make64 maxLen None size.

  (** snark/sumcheck/sumcheck.go:21-36 AllocateProof; a polynomial not yet allocated is nil *)
  Definition AllocateSumcheck64 (bN bG degHL degHR degHPrime : Z) : option (list (list (option F))) :=
    hPolys <- make64 maxLen [] (add64 bN (mul64 2 bG)) ;;
    hPolys <- forZ 0 bG (fun hPolys i => u <- AllocateUnivariate64 degHL ;; zset hPolys i u) hPolys ;;
    hPolys <- forZ bG (mul64 2 bG) (fun hPolys i => u <- AllocateUnivariate64 degHR ;; zset hPolys i u) hPolys ;;
    forZ (mul64 2 bG) (add64 (mul64 2 bG) bN) (fun hPolys i => u <- AllocateUnivariate64 degHPrime ;; zset hPolys i u) hPolys.

  (** snark/gkr/proof.go:24-40 AllocateProof: a layer is its (BG, DegHL, DegHR, DegHPrime) *)
  Definition AllocateProof64 (bN : Z) (layers : list (Z * Z * Z * Z)) : option (SProof (option F)) :=
    let nLayers := len layers in
    SumcheckProofs <- make64 maxLen [] nLayers ;;
    ClaimsLeft <- make64 maxLen None nLayers ;;
    ClaimsRight <- make64 maxLen None nLayers ;;
    SumcheckProofs <- forN (length SumcheckProofs) (fun SumcheckProofs i =>
      '(BG, DegHL, DegHR, DegHPrime) <- get layers i ;;
      p <- AllocateSumcheck64 bN BG DegHL DegHR DegHPrime ;;
      set SumcheckProofs i p) SumcheckProofs ;;
    Some (MkSProof SumcheckProofs ClaimsLeft ClaimsRight).

  (** snark/polynomial/multilinear.go:32-39 AssignFromChunkedBKT *)
  Definition AssignFromChunkedBKT64 (table : list (option F)) (values : list (list F)) : option (list (option F)) :=
    let nChunks := len values in
    forN (length values) (fun table b =>
      vb <- get values b ;;
      forN (length vb) (fun table i =>
        x <- get vb i ;;
        let k := add64 (Z.of_nat b) (mul64 (Z.of_nat i) nChunks) in
        v <- zget table k ;;
        v <- assignVar v x ;;
        zset table k v) table) table.

  (** snark/polynomial/multilinear.go:82-99 EvalMixed *)
  Definition EvalMixed64 (table qL qR qPrime : list nat) : M (F:=F) (nat * nat) :=
    mbind (lift (shl64 1 (len qL))) (fun nChunks =>
    mbind (lift (quot64 (len table) nChunks)) (fun chunkSize =>
    mbind (lift (make64 maxLen 0%nat nChunks)) (fun intermediateTable =>
    mbind (mmap (fun i =>
      mbind (lift (zslice table (mul64 (Z.of_nat i) chunkSize) (mul64 (add64 (Z.of_nat i) 1) chunkSize))) (fun t =>
      SEval t qPrime)) (seq 0 (length intermediateTable))) (fun intermediateTable =>
    mbind (SEval intermediateTable qL) (fun vL =>
    mbind (SEval intermediateTable qR) (fun vR =>
    ret (vL, vR))))))).

  (** snark/sumcheck/sumcheck.go:67-69, sumcheck/verifier.go:39-41: the challenges cut in three *)
  Definition cut64 {A} (hs : list A) (bG : Z) : option (list A * list A * list A) :=
    hL <- zslice hs 0 bG ;;
    hR <- zslice hs bG (mul64 2 bG) ;;
    hPrime <- zslice hs (mul64 2 bG) (len hs) ;;
    Some (hL, hR, hPrime).

  (** snark/sumcheck/sumcheck.go:51-72 AssertValid *)
  Definition SumcheckAssertValid64 (Arks : list F) (HPolys : list (list nat)) (initialClaim : nat) (bG : Z)
    : M (list nat * list nat * list nat * nat) :=
    mbind (mfold (fun '(hs, claimCurr) poly =>
      mbind (SZeroAndOne poly) (fun zeroAndOne =>
      mbind (cAssertIsEqual zeroAndOne claimCurr) (fun _ =>
      mbind (SMimcHash Arks poly) (fun h =>
      mbind (SUniEval poly h) (fun claimCurr =>
      ret (hs ++ [h], claimCurr)))))) HPolys ([], initialClaim)) (fun '(hs, claimCurr) =>
    mbind (lift (cut64 hs bG)) (fun '(hL, hR, hPrime) =>
    ret (hL, hR, hPrime, claimCurr))).

  (** sumcheck/verifier.go:14-44 Verify; bN is not used *)
  Definition Verify64 (GetChallenge : list F -> F) (claim : F) (proof : list (list F)) (bN bG : Z) : option (VerifyResult F) :=
    res <- verify_loop GetChallenge claim proof [] ;;
    match res with
    | None => Some Reject
    | Some (challenges, expectedValue) =>
      '(qL, qR, qPrime) <- cut64 challenges bG ;;
      Some (Accept qPrime qL qR expectedValue)
    end.

  (** gkr/prover.go:37-52 GetInitialQPrimeAndQ; uint64(i + 1) is i + 1 *)
  Definition GetInitialQPrimeAndQ64 (bN bG : Z) : option (list F * list F) :=
    q <- make64 maxLen fzero bG ;;
    qPrime <- make64 maxLen fzero bN ;;
    q <- forN (length q) (fun q i => zset q (Z.of_nat i) (fnat (Z.to_nat (add64 (Z.of_nat i) 1)))) q ;;
    qPrime <- forN (length qPrime) (fun qPrime i => zset qPrime (Z.of_nat i) (fnat (Z.to_nat (add64 (Z.of_nat i) 1)))) qPrime ;;
    Some (qPrime, q).
End Int2.
