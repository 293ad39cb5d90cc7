(** Property C86: the initial point of the GKR test circuit. *)
From Coq Require Import List Arith ZArith Lia.
From Verif Require Import Field FrPrime Fr Go Spec MCircuit SpecCircuit MGkr SpecGkr MHash MArk SpecHash MSnark SpecSnark LHash4 LPoly3 PPoly PCircuit PHash LPoint.
Import ListNotations.

(** Two tables agree at some point, unless they differ by one and the same constant at every index. *)
Theorem C86_agree : forall (F : Field) n (A B : list F),
  (exists q, length q = n /\ mle A q = mle B q) <-> ~ exists d, d <> 0%F /\ forall i, i < 2 ^ n -> nth i A 0%F = (nth i B 0 + d)%F.
Proof. exact @agree_somewhere. Qed.
Print Assumptions C86_agree.

(** The circuit of snark/gkr/mimc_test.go has a witness at every initial point at which the outputs have the right value. *)
Theorem C86_any_point : forall (arks : list Fr) bN vi, 91 <= length arks -> length vi = 2 * 2 ^ bN ->
  exists c sc a, CreateMimcCircuit arks = Some c /\ SCreateMimcCircuit arks = Some sc /\ Assign c [vi] = Some a /\
    length (nth 0 (nth 91 a []) []) = 2 ^ bN /\
    forall cs p qP vIn vOut, AllocateGKRMimcTestCircuit bN sc = (cs, (p, qP, vIn, vOut)) ->
    exists cs', SGkrAssertValid arks p sc [] qP vIn vOut cs = Some (tt, cs') /\
    forall q vo, length q = bN -> length vo = 2 ^ bN -> mle vo q = mle (nth 0 (nth 91 a []) []) q ->
    exists w, satisfied w cs' /\ map w qP = q /\ map w vIn = vi /\ map w vOut = vo /\
      forall j, ~ collision_from (challenge arks) (read_proof w p) c bN 0 a [] (map w qP) j.
Proof. exact (fun arks bN vi HA => test_circuit_at arks bN vi HA (Fr_distinct_le 12 ltac:(lia))). Qed.
Print Assumptions C86_any_point.

(** The initial point is a variable of that circuit like any other.  Hence the outputs for which it has a witness without colliding
    challenges: all but those that differ from the right ones by one and the same constant. *)
Theorem C86_exact : forall (arks : list Fr) bN vi, 91 <= length arks -> length vi = 2 * 2 ^ bN ->
  exists c sc a, CreateMimcCircuit arks = Some c /\ SCreateMimcCircuit arks = Some sc /\ Assign c [vi] = Some a /\
    forall cs p qP vIn vOut, AllocateGKRMimcTestCircuit bN sc = (cs, (p, qP, vIn, vOut)) ->
    exists cs', SGkrAssertValid arks p sc [] qP vIn vOut cs = Some (tt, cs') /\
    forall vo, length vo = 2 ^ bN ->
      ((exists w, satisfied w cs' /\ map w vIn = vi /\ map w vOut = vo /\
          forall j, ~ collision_from (challenge arks) (read_proof w p) c bN 0 a [] (map w qP) j) <->
       ~ exists d, d <> 0%F /\ forall h, h < 2 ^ bN -> nth h vo 0%F = (nth h (nth 0 (nth 91 a []) []) 0 + d)%F).
Proof. exact (fun arks bN vi HA => test_circuit_exact arks bN vi HA (Fr_distinct_le 12 ltac:(lia))). Qed.
Print Assumptions C86_exact.

(** One right output is enough: the others can be anything. *)
Theorem C86_one_right : forall (arks : list Fr) bN vi, 91 <= length arks -> length vi = 2 * 2 ^ bN ->
  exists c sc a, CreateMimcCircuit arks = Some c /\ SCreateMimcCircuit arks = Some sc /\ Assign c [vi] = Some a /\
    forall cs p qP vIn vOut, AllocateGKRMimcTestCircuit bN sc = (cs, (p, qP, vIn, vOut)) ->
    exists cs', SGkrAssertValid arks p sc [] qP vIn vOut cs = Some (tt, cs') /\
    forall vo h, length vo = 2 ^ bN -> h < 2 ^ bN -> nth h vo 0%F = nth h (nth 0 (nth 91 a []) []) 0%F ->
      exists w, satisfied w cs' /\ map w qP = bpoint (to_bits bN h) /\ map w vIn = vi /\ map w vOut = vo.
Proof. exact (fun arks bN vi HA => test_circuit_one arks bN vi HA (Fr_distinct_le 12 ltac:(lia))). Qed.
Print Assumptions C86_one_right.

(** So the circuit binds its outputs exactly when it has one instance. *)
Theorem C86_binds : forall (arks : list Fr) bN vi, 91 <= length arks -> length vi = 2 * 2 ^ bN ->
  exists c sc a, CreateMimcCircuit arks = Some c /\ SCreateMimcCircuit arks = Some sc /\ Assign c [vi] = Some a /\
    forall cs p qP vIn vOut, AllocateGKRMimcTestCircuit bN sc = (cs, (p, qP, vIn, vOut)) ->
    exists cs', SGkrAssertValid arks p sc [] qP vIn vOut cs = Some (tt, cs') /\
    ((exists w, satisfied w cs' /\ map w vIn = vi /\ map w vOut <> nth 0 (nth 91 a []) [] /\
        forall j, ~ collision_from (challenge arks) (read_proof w p) c bN 0 a [] (map w qP) j) <-> 0 < bN).
Proof. exact (fun arks bN vi HA => test_circuit_wrong arks bN vi HA (Fr_distinct_le 12 ltac:(lia))). Qed.
Print Assumptions C86_binds.

(** (1, 4) and (2, 6) agree at -1; the hypotheses hold for the round constants of the code and two instances. *)
Example C86_ex : frval (mle (frs [1;4]%Z) [el (-1)%Z]) = frval (mle (frs [2;6]%Z) [el (-1)%Z]) /\
  91 <= length Arks /\ length (frs [1;2;3;4]%Z) = 2 * 2 ^ 1.
Proof. split; [vm_compute; reflexivity|]. split; [exact enough_arks|reflexivity]. Qed.
