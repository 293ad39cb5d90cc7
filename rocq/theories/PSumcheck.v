(** Property theorems for the single-threaded part of package sumcheck (C27-C29, C32-C35). *)
From Coq Require Import List Arith ZArith Lia Bool.
From Verif Require Import Field Go MCommon Spec MPoly MCircuit SpecCircuit LCircuit MSumcheck SpecSumcheck
  LSumcheck4 LSumcheck5 FrPrime Fr LPoly3 PPoly PCircuit.
Import ListNotations.

(** Tables used in the examples: two instances, two rows, the gates of a MiMC-like layer. *)
Definition ex_gates : list (Gate Fr) := [CipherGate (el 1); CopyGate].
Definition ex_st : list (list Fr) := [frs [0;0;1;0]%Z; frs [0;0;2;0]%Z].
Definition ex_eq : list Fr := frs [3;-2]%Z.
Definition ex_v : list Fr := frs [1;2;5;6]%Z.
Lemma ex_ok : tables_ok 1 1 1 ex_gates ex_st ex_eq ex_v ex_v.
Proof. repeat split. intros tab [<-|[<-|[]]]; reflexivity. Qed.
Lemma ex_gates_ok : forall g, In g ex_gates -> gate_ok g.
Proof. intros g [<-|[<-|[]]]; [apply cipher_ok|apply copy_ok]. Qed.

(* ---------------------------------------------------------------- C27 *)
(** Any number of instances and rows, no power of two needed. *)
Theorem C27_getclaim : forall (F : Field) (n g : nat) (gates : list (Gate F)) statics eq vL vR,
  0 < n -> length eq = n -> length vL = g * n -> length vR = g * n ->
  length statics = length gates -> (forall tab, In tab statics -> length tab = g * g) ->
  GetClaim (NewSingleThreadedProver vL vR eq gates statics) = Some (table_sum n g gates statics eq vL vR).
Proof. exact @getclaim_ok. Qed.
Print Assumptions C27_getclaim.

(** With power-of-two sizes it is the sum of the combinator over the boolean cube. *)
Theorem C27_cube : forall (F : Field) (bG bN : nat) (gates : list (Gate F)) statics eq vL vR,
  tables_ok bG bG bN gates statics eq vL vR ->
  GetClaim (NewSingleThreadedProver vL vR eq gates statics)
  = Some (cube_sum (combinator bG bG gates statics eq vL vR) (bG + bG + bN) []).
Proof. exact @getclaim_cube. Qed.
Print Assumptions C27_cube.

(** 3*((5 + 2^7) + 2*5) - 2*((6 + 3^7) + 2*6) *)
Example C27_ex : val (GetClaim (NewSingleThreadedProver ex_v ex_v ex_eq ex_gates ex_st))
  = Some ((3 * (5 + 2^7 + 2*5) - 2 * (6 + 3^7 + 2*6)) mod frModulus)%Z.
Proof. vm_compute. reflexivity. Qed.

(* ---------------------------------------------------------------- C28 *)
Theorem C28_evals : forall (F : Field) (kL kR kN : nat) (gates : list (Gate F)) statics eq vL vR,
  (forall g, In g gates -> many_ok g) ->
  let p := NewSingleThreadedProver vL vR eq gates statics in
  let partial f k d := map (fun t => cube_sum f k [fnat t]) (seq 0 (d + 2)) in
  (tables_ok (S kL) kR kN gates statics eq vL vR -> gates <> [] ->
   GetEvalsOnHL p = Some (partial (combinator (S kL) kR gates statics eq vL vR) (kL + kR + kN) (maxHL gates))) /\
  (tables_ok 0 (S kR) kN gates statics eq vL vR ->
   GetEvalsOnHR p = Some (partial (combinator 0 (S kR) gates statics eq vL vR) (kR + kN) (maxHR gates))) /\
  (tables_ok 0 0 (S kN) gates statics eq vL vR ->
   GetEvalsOnHPrime p = Some (partial (combinator 0 0 gates statics eq vL vR) kN (maxHP gates))).
Proof.
  exact (fun F kL kR kN gates st eq vL vR Hm => conj (fun H Hne => evals_HL_ok kL kR kN gates st eq vL vR H Hne Hm)
    (conj (fun H => evals_HR_ok kR kN gates st eq vL vR H Hm) (evals_HP_ok kN gates st eq vL vR))).
Qed.
Print Assumptions C28_evals.

(** The interpolated polynomial agrees with the partial sum at every field element. *)
Theorem C28_hL_everywhere : forall kL kR kN (gates : list (Gate Fr)) statics eq vL vR,
  tables_ok (S kL) kR kN gates statics eq vL vR -> gates <> [] -> (forall g, In g gates -> gate_ok g) ->
  maxHL gates <= 10 ->
  exists evals c, GetEvalsOnHL (NewSingleThreadedProver vL vR eq gates statics) = Some evals /\
    InterpolateOnRange evals = Some c /\ length c = length evals /\
    forall x, peval c x = cube_sum (combinator (S kL) kR gates statics eq vL vR) (kL + kR + kN) [x].
Proof. exact rounds_everywhere. Qed.
Print Assumptions C28_hL_everywhere.

Theorem C28_hR_everywhere : forall kR kN (gates : list (Gate Fr)) statics eq vL vR,
  tables_ok 0 (S kR) kN gates statics eq vL vR -> (forall g, In g gates -> gate_ok g) ->
  maxHR gates <= 10 ->
  exists evals c, GetEvalsOnHR (NewSingleThreadedProver vL vR eq gates statics) = Some evals /\
    InterpolateOnRange evals = Some c /\ length c = length evals /\
    forall x, peval c x = cube_sum (combinator 0 (S kR) gates statics eq vL vR) (kR + kN) [x].
Proof. exact rounds_everywhere_HR. Qed.
Print Assumptions C28_hR_everywhere.

Theorem C28_hPrime_everywhere : forall kN (gates : list (Gate Fr)) statics eq vL vR,
  tables_ok 0 0 (S kN) gates statics eq vL vR -> (forall g, In g gates -> gate_ok g) ->
  maxHP gates <= 10 ->
  exists evals c, GetEvalsOnHPrime (NewSingleThreadedProver vL vR eq gates statics) = Some evals /\
    InterpolateOnRange evals = Some c /\ length c = length evals /\
    forall x, peval c x = cube_sum (combinator 0 0 gates statics eq vL vR) kN [x].
Proof. exact rounds_everywhere_HP. Qed.
Print Assumptions C28_hPrime_everywhere.

(** maxHL = 1: three evaluations. At 0 the left row is row 0, which no gate reads. *)
Example C28_ex :
  option_map (map frval) (GetEvalsOnHL (NewSingleThreadedProver ex_v ex_v ex_eq ex_gates ex_st))
  = Some [0; 3 * (5 + 2^7 + 2*5) - 2 * (6 + 3^7 + 2*6) + frModulus; 2 * (3 * (9 + 2^7 + 2*9) - 2 * (10 + 3^7 + 2*10)) + frModulus]%Z.
Proof. vm_compute. reflexivity. Qed.
Example C28_ex_hyps : tables_ok 1 1 1 ex_gates ex_st ex_eq ex_v ex_v /\ ex_gates <> [] /\
  (forall g, In g ex_gates -> gate_ok g) /\ maxHL ex_gates <= 10.
Proof. split; [exact ex_ok|]. split; [discriminate|]. split; [exact ex_gates_ok|cbn; lia]. Qed.

(* ---------------------------------------------------------------- C29 *)
(** For every challenge function [ch]. *)
Theorem C29_complete : forall (ch : list Fr -> Fr) bN bG (gates : list (Gate Fr)) statics eq vL vR,
  tables_ok bG bG bN gates statics eq vL vR -> (bG = 0 \/ gates <> []) -> (forall g, In g gates -> gate_ok g) ->
  (maxHL gates <= 10 /\ maxHR gates <= 10 /\ maxHP gates <= 10) ->
  exists proof qP qL qR,
    let p := NewSingleThreadedProver vL vR eq gates statics in
    let claim := table_sum (2 ^ bN) (2 ^ bG) gates statics eq vL vR in
    let vl := mle vL (qL ++ qP) in
    let vr := mle vR (qR ++ qP) in
    let e := mle eq qP in
    let sts := map (fun t => mle t (qL ++ qR)) statics in
    let fin := combinator bG bG gates statics eq vL vR (qL ++ qR ++ qP) in
    Prove ch p = Some (proof, qP, qL, qR, vl :: vr :: e :: sts) /\
    GetClaim p = Some claim /\
    Verify ch claim proof bN bG = Some (Accept qP qL qR fin) /\
    EvaluateCombinator vl vr e gates sts = Some fin /\
    length proof = 2 * bG + bN /\ length qL = bG /\ length qR = bG /\ length qP = bN /\
    map (@length Fr) proof = repeat (maxHL gates + 2) bG ++ repeat (maxHR gates + 2) bG ++ repeat (maxHP gates + 2) bN.
Proof. exact complete_Fr. Qed.
Print Assumptions C29_complete.

(** The bound on the degrees is sharp: with a larger one the first round panics. *)
Theorem C29_degree_limit : forall (F : Field) (ch : list F -> F) bN bG (gates : list (Gate F)) statics eq vL vR,
  tables_ok bG bG bN gates statics eq vL vR -> gates <> [] -> (forall g, In g gates -> many_ok g) ->
  0 < bG -> 10 < maxHL gates ->
  Prove ch (NewSingleThreadedProver vL vR eq gates statics) = None.
Proof. exact @degree_limit. Qed.
Print Assumptions C29_degree_limit.

Example C29_ex (ch : list Fr -> Fr) : exists proof qP qL qR claims fin,
  Prove ch (NewSingleThreadedProver ex_v ex_v ex_eq ex_gates ex_st) = Some (proof, qP, qL, qR, claims) /\
  Verify ch (table_sum 2 2 ex_gates ex_st ex_eq ex_v ex_v) proof 1 1 = Some (Accept qP qL qR fin) /\ length proof = 3.
Proof.
  destruct (C29_complete ch 1 1 ex_gates ex_st ex_eq ex_v ex_v ex_ok) as (proof & qP & qL & qR & H1 & _ & H2 & _ & H3 & _).
  - right. discriminate.
  - exact ex_gates_ok.
  - cbn. lia.
  - eauto 10.
Qed.

(* ---------------------------------------------------------------- C32 *)
Theorem C32_accept : forall (F : Field) (ch : list F -> F) claim proof bN bG qP qL qR fin,
  Verify ch claim proof bN bG = Some (Accept qP qL qR fin) <->
  answers ch claim proof fin /\ length qL = bG /\ length qR = bG /\ map ch proof = qL ++ qR ++ qP.
Proof. exact @Verify_accept. Qed.
Print Assumptions C32_accept.

Theorem C32_reject : forall (F : Field) (ch : list F -> F) claim proof bN bG,
  Verify ch claim proof bN bG = Some Reject <->
  exists pre c post e, proof = pre ++ c :: post /\ answers ch claim pre e /\ c <> [] /\
    e <> (peval c 0 + peval c 1)%F.
Proof. exact @Verify_reject. Qed.
Print Assumptions C32_reject.

Theorem C32_panic : forall (F : Field) (ch : list F -> F) claim proof bN bG,
  Verify ch claim proof bN bG = None <->
  (exists pre post e, proof = pre ++ [] :: post /\ answers ch claim pre e) \/
  (length proof < 2 * bG /\ exists fin, answers ch claim proof fin).
Proof. exact @Verify_panic. Qed.
Print Assumptions C32_panic.

(** 5 = p(0)+p(1) for p = 1 + 3x; p(10) = 31 = q(0)+q(1) for q = 31 - 31x. *)
Definition ex_ch (c : list Fr) : Fr := el 10.
Definition show_verdict (v : option (VerifyResult Fr)) :=
  match v with
  | None => None
  | Some Reject => Some None
  | Some (Accept qP qL qR fin) => Some (Some (map frval qP, map frval qL, map frval qR, frval fin))
  end.
Example C32_ex :
  show_verdict (Verify ex_ch (el 5) [frs [1;3]%Z; frs [31;-31]%Z] 0 1) = Some (Some ([], [10], [10], frModulus - 279)%Z) /\
  show_verdict (Verify ex_ch (el 5) [frs [1;3]%Z; frs [30;-31]%Z] 0 1) = Some None /\
  show_verdict (Verify ex_ch (el 5) [frs [1;3]%Z] 0 1) = None.
Proof. vm_compute. repeat split. Qed.

(* ---------------------------------------------------------------- C33 *)
Theorem C33_sound : forall (F : Field) (ch : list F -> F) bN bG (gates : list (Gate F)) statics eq vL vR
    claim proof qP qL qR fin,
  tables_ok bG bG bN gates statics eq vL vR ->
  length proof = 2 * bG + bN ->
  Verify ch claim proof bN bG = Some (Accept qP qL qR fin) ->
  fin = combinator bG bG gates statics eq vL vR (qL ++ qR ++ qP) ->
  claim <> table_sum (2 ^ bN) (2 ^ bG) gates statics eq vL vR ->
  exists i c, nth_error proof i = Some c /\
    let true_poly t := cube_sum (combinator bG bG gates statics eq vL vR) (2 * bG + bN - S i)
                         (map ch (firstn i proof) ++ [t]) in
    (exists t, peval c t <> true_poly t) /\ peval c (ch c) = true_poly (ch c).
Proof. exact @soundness. Qed.
Print Assumptions C33_sound.

(** How rare the collisions are: a wrong polynomial of the right degree agrees with the true one
    at no more points than that degree. *)
Theorem C33_few_collisions : forall (F : Field) bN bG (gates : list (Gate F)) statics eq vL vR rs c t xs,
  tables_ok bG bG bN gates statics eq vL vR -> (forall g, In g gates -> degs_ok g) ->
  length rs < 2 * bG + bN ->
  let true_poly t := cube_sum (combinator bG bG gates statics eq vL vR) (2 * bG + bN - S (length rs)) (rs ++ [t]) in
  let d := phase_deg bG bG (maxHL gates + 1) (maxHR gates + 1) (maxHP gates + 1) (length rs) in
  length c <= S d -> peval c t <> true_poly t ->
  NoDup xs -> (forall x, In x xs -> peval c x = true_poly x) -> length xs <= d.
Proof. exact @bad_challenges. Qed.
Print Assumptions C33_few_collisions.

(** A wrong claim that is accepted with the right final value: with the constant challenge 0, the
    polynomial of the only round only has to be right at 0. Table eq = [3; -2], one add gate, v = 1. *)
Example C33_ex :
  let eq := frs [3;-2]%Z in let v := frs [1;1]%Z in
  tables_ok 0 0 1 [AddGate] [frs [1]%Z] eq v v /\
  show_verdict (Verify (fun _ => el 0) (el 100) [frs [6;88]%Z] 1 0) = Some (Some ([0], [], [], 6)%Z) /\
  frval (combinator 0 0 [AddGate] [frs [1]%Z] eq v v [el 0]) = 6%Z /\
  frval (table_sum 2 1 [AddGate] [frs [1]%Z] eq v v) = 2%Z.
Proof.
  split; [repeat split; intros tab [<-|[]]; reflexivity|]. vm_compute. repeat split.
Qed.

(* ---------------------------------------------------------------- C34 *)
(** Whatever the degree bound [d], the claim, the challenges and the number of rounds announced,
    a proof with a polynomial of a larger degree is accepted. *)
Theorem C34_degree_refuted : forall (F : Field) (ch : list F -> F) (claim : F) (d bN : nat),
  exists proof fin, Verify ch claim proof bN 0 = Some (Accept (map ch proof) [] [] fin) /\
    exists c, In c proof /\ d < length c /\ last c 0%F <> 0%F.
Proof. exact @no_degree_bound. Qed.
Print Assumptions C34_degree_refuted.

(** Nor is the number of rounds checked. *)
Theorem C34_rounds_refuted : forall (F : Field) (ch : list F -> F) (claim : F) (bN : nat),
  Verify ch claim [] bN 0 = Some (Accept [] [] [] claim).
Proof. exact (fun F ch claim bN => eq_refl). Qed.
Print Assumptions C34_rounds_refuted.

(* ---------------------------------------------------------------- C35 *)
Theorem C35_sumcheck_empty_refuted : forall (F : Field) (ch : list F -> F) claim bN bG rest,
  Verify ch claim ([] :: rest) bN bG = None.
Proof. exact @verify_panics_empty. Qed.
Print Assumptions C35_sumcheck_empty_refuted.

Theorem C35_sumcheck_short_refuted : forall (F : Field) (ch : list F -> F) claim bN bG,
  0 < bG -> Verify ch claim [] bN bG = None.
Proof. exact @verify_panics_short. Qed.
Print Assumptions C35_sumcheck_short_refuted.

(** The only proofs on which it panics are those of C32_panic; in particular: *)
Theorem C35_sumcheck_partial : forall (F : Field) (ch : list F -> F) claim proof bN bG,
  (forall c, In c proof -> c <> []) -> 2 * bG <= length proof ->
  Verify ch claim proof bN bG <> None.
Proof. exact @verify_no_panic. Qed.
Print Assumptions C35_sumcheck_partial.
