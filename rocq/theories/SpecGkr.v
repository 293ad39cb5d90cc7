(** What the GKR protocol needs and proves. *)
From Coq Require Import List Arith Lia Bool.
From Verif Require Import Field Spec Trans MCircuit SpecCircuit MSumcheck SpecSumcheck MSumPar SpecSumPar MGkr.
Import ListNotations.

Section S.
  Context {F : Field}.
  Open Scope F_scope.

  (** The gate list of the layer has the gate of every wire, and no ID twice. *)
  Definition gates_once (l : Layer F) : Prop :=
    NoDup (map gid (lGates l)) /\ forall w, In w (Wires l) -> In (wGate w) (lGates l).

  Definition layer_ok (l : Layer F) : Prop :=
    wf_layer l /\ gates_once l /\ (lBGInputs l = 0%nat \/ lGates l <> []) /\
    (forall g, In g (lGates l) -> gate_ok g) /\
    (maxHL (lGates l) <= 10 /\ maxHR (lGates l) <= 10 /\ maxHP (lGates l) <= 10)%nat.

  (** Enough for the claim of a layer: no bound on the degrees. *)
  Definition claimable (l : Layer F) : Prop :=
    wf_layer l /\ gates_once l /\ (lBGInputs l = 0%nat \/ lGates l <> []) /\
    (forall g, In g (lGates l) -> many_ok g).

  (** [mtProve] returns what every schedule of the multi-threaded sum-check prover returns, on
      arguments of the right shape. *)
  Definition follows_machine (ch : list F -> F) (nCore : nat)
      (mtProve : MTProver F -> option (list (list F) * list F * list F * list F * list F)) : Prop :=
    forall p n k bG K c out, mt_ok p n k bG -> Prove ch (whole p k bG) = Some out ->
      mtPrepare p = Some (n, bG, K, c) ->
      must (mt_step ch p nCore n bG K c) (fun s => main s = MEnd out) (mt_init nCore n) ->
      mtProve p = Some out.

  (** [mtClaim] returns what every schedule of its method GetClaim returns. *)
  Definition follows_claim (nCore : nat) (mtClaim : MTProver F -> option F) : Prop :=
    forall p n k bG claim, mt_ok p n k bG -> GetClaim (whole p k bG) = Some claim ->
      must (claim_step p nCore) (fun s => cmn s = CRet claim) (claim_init p nCore) -> mtClaim p = Some claim.

  (** The tables of a layer of the assignment, put back together: [2^c] chunks of [2^m] instances. *)
  Definition glued (b m : nat) (chunks : list (list F)) : list F := interleave (2 ^ (b + m)) chunks.

  (** The point at which the verifier reads the outputs: 1, 2, 3, ... on both parts. *)
  Definition count (n : nat) : list F := map (fun i => fnat (i + 1)) (seq 0 n).

  (** The value claimed by the outputs there. *)
  Definition output_claim (bN m : nat) (l : Layer F) (outputs : list (list F)) : F :=
    mle (glued (lBGOutputs l) m outputs) (count (lBGOutputs l) ++ count bN).

  (** Shape of the tables: [2^k] chunks of [2^m] instances with [2^b] rows. *)
  Definition chunked (k m b : nat) (chunks : list (list F)) : Prop :=
    length chunks = (2 ^ k)%nat /\ forall t, In t chunks -> length t = (2 ^ b * 2 ^ m)%nat.

  (** The polynomial of a layer, as in the GKR protocol: [V] is the table of the layer below,
      [weight o] the coefficient of output [o] in the claim, [qP] the point of the claim in the
      instance variables. *)
  Definition layer_poly (l : Layer F) (weight : nat -> F) (qP V x : list F) : F :=
    let b := lBGInputs l in
    let xL := firstn b x in
    let xR := firstn b (skipn b x) in
    let x' := skipn (b + b) x in
    eqprod qP x' * suml (Wires l) (fun w =>
      weight (wO w) * (chi (to_bits b (wL w)) xL * chi (to_bits b (wR w)) xR) *
      geval (wGate w) (mle V (xL ++ x')) (mle V (xR ++ x'))).

  (** A round polynomial that differs from the true one and agrees with it at its challenge. *)
  Definition sumcheck_collision (ch : list F -> F) (f : list F -> F) (rounds : nat) (proof : list (list F)) : Prop :=
    exists i c, (i < rounds)%nat /\ nth_error proof i = Some c /\
      let true_poly t := cube_sum f (rounds - S i)%nat (map ch (firstn i proof) ++ [t]) in
      (exists t, peval c t <> true_poly t) /\ peval c (ch c) = true_poly (ch c).

  (** A wrong pair of claims whose random combination is right. *)
  Definition lambda_collision (ch : list F -> F) (cl cr tl tr : F) : Prop :=
    (cl, cr) <> (tl, tr) /\ cr * ch [cl; cr] + cl = tr * ch [cl; cr] + tl.

  (** The challenges of the sum-check of layer [j], and its three parts. *)
  Definition chal (ch : list F -> F) (pf : Proof F) (j : nat) : list F := map ch (nth j (SumcheckProofs pf) []).
  Definition ptL (ch : list F -> F) (pf : Proof F) (b j : nat) : list F := firstn b (chal ch pf j).
  Definition ptR (ch : list F -> F) (pf : Proof F) (b j : nat) : list F := firstn b (skipn b (chal ch pf j)).
  Definition ptP (ch : list F -> F) (pf : Proof F) (b j : nat) : list F := skipn (b + b) (chal ch pf j).

  (** The polynomial of layer [j] of a circuit of [n] layers in the run on the proof [pf]; the
      claim about the outputs is at the point [(q, qP)]. *)
  Definition run_poly_from (ch : list F -> F) (pf : Proof F) (n : nat) (q qP : list F) (j : nat) (l : Layer F) (V : list F) : list F -> F :=
    let b := lBGOutputs l in
    let lam := ch [nth (S j) (ClaimsLeft pf) 0; nth (S j) (ClaimsRight pf) 0] in
    if (S j =? n)%nat then layer_poly l (fun o => chi (to_bits b o) q) qP V
    else layer_poly l (fun o => chi (to_bits b o) (ptL ch pf b (S j)) + lam * chi (to_bits b o) (ptR ch pf b (S j)))
           (ptP ch pf b (S j)) V.

  (** The same at the point [count], which the code uses. *)
  Definition run_poly (ch : list F -> F) (pf : Proof F) (n bN j : nat) (l : Layer F) (V : list F) : list F -> F :=
    run_poly_from ch pf n (count (lBGOutputs l)) (count bN) j l V.

  (** A collision in the part of the proof about layer [j] of the circuit [c]; [a] is the true
      assignment.  Either a round polynomial collides, or the claims about the layer above (which has
      the claims of index [j]) do. *)
  Definition collision_from (ch : list F -> F) (pf : Proof F) (c : list (Layer F)) (m k : nat) (a : list (list (list F)))
      (q qP : list F) (j : nat) : Prop :=
    exists l, nth_error c j = Some l /\
      let b := lBGInputs l in
      let V := glued b m (nth j a []) in
      (sumcheck_collision ch (run_poly_from ch pf (length c) q qP j l V) (2 * b + (m + k)) (nth j (SumcheckProofs pf) []) \/
       (0 < j)%nat /\ lambda_collision ch (nth j (ClaimsLeft pf) 0) (nth j (ClaimsRight pf) 0)
         (mle V (ptL ch pf b j ++ ptP ch pf b j)) (mle V (ptR ch pf b j ++ ptP ch pf b j))).

  (** The same at the point [count]. *)
  Definition collision_at (ch : list F -> F) (pf : Proof F) (c : list (Layer F)) (m k : nat) (a : list (list (list F))) (j : nat) : Prop :=
    exists l, nth_error c j = Some l /\
      let b := lBGInputs l in
      let V := glued b m (nth j a []) in
      (sumcheck_collision ch (run_poly ch pf (length c) (m + k) j l V) (2 * b + (m + k)) (nth j (SumcheckProofs pf) []) \/
       (0 < j)%nat /\ lambda_collision ch (nth j (ClaimsLeft pf) 0) (nth j (ClaimsRight pf) 0)
         (mle V (ptL ch pf b j ++ ptP ch pf b j)) (mle V (ptR ch pf b j ++ ptP ch pf b j))).

  (** Some polynomial whose values at 0 and 1 add up to 0 does not have its challenge as a root. *)
  Definition escapes_zero (ch : list F -> F) : Prop :=
    exists p : list F, p <> [] /\ peval p 0 + peval p 1 = 0 /\ peval p (ch p) <> 0.

  (** The number of polynomials and claims is right and no polynomial is empty. *)
  Definition proof_shape (c : list (Layer F)) (bN : nat) (pf : Proof F) : Prop :=
    length (ClaimsLeft pf) = length c /\ length (ClaimsRight pf) = length c /\ length (SumcheckProofs pf) = length c /\
    forall j l sp, nth_error c j = Some l -> nth_error (SumcheckProofs pf) j = Some sp ->
      length sp = (2 * lBGInputs l + bN)%nat /\ ~ In [] sp.

  (** The points with [n] coordinates from [S]. *)
  Fixpoint grid (S : list F) (n : nat) : list (list F) :=
    match n with
    | O => [[]]
    | Datatypes.S k => flat_map (fun x => map (fun y => y :: x) S) (grid S k)
    end.

  (** The multi-threaded prover as a function: the single-threaded prover on the glued tables. *)
  Definition mtWhole (ch : list F -> F) (p : MTProver F) : option (list (list F) * list F * list F * list F * list F) :=
    let k := Nat.log2 (length (nth 0 (tEq p) [])) in
    let b := (Nat.log2 (length (nth 0 (tVL p) [])) - k)%nat in
    Prove ch (whole p k b).
  Definition claimWhole (p : MTProver F) : option F :=
    let k := Nat.log2 (length (nth 0 (tEq p) [])) in
    let b := (Nat.log2 (length (nth 0 (tVL p) [])) - k)%nat in
    GetClaim (whole p k b).
End S.
