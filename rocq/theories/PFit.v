(** Property theorems: the gadgets under snark/ on all sizes (C87). *)
From Coq Require Import List Arith ZArith Lia Bool.
From Verif Require Import Field Go Spec SpecDomain MPoly LDomain FrPrime Fr MArk MHash MGkr MSnark SpecSnark SpecFit LSnark2 LSnark6 LFit LFit2 LPoly3 PPoly PCircuit PHash PSnark.
Import ListNotations.

(* ---------------------------------------------------------------- C87 *)
(** EvalMixed: the table is cut in [n] pieces of [k] entries, the rest is ignored. *)
Theorem C87_eval_mixed : forall (F : Field) (cs : CS F) t qL qR qP,
  cs_ok cs -> vars cs t -> vars cs qL -> vars cs qR -> vars cs qP ->
  let n := 2 ^ length qL in let k := length t / n in
  ((length qL < length qR \/ k < 2 ^ length qP) /\ SEvalMixed t qL qR qP cs = None) \/
  (length qR <= length qL /\ 2 ^ length qP <= k /\
   exists vL vR cs', SEvalMixed t qL qR qP cs = Some ((vL, vR), cs') /\ computes cs cs' /\ vars cs' [vL; vR] /\
     forall w, gates_ok w cs' ->
       let m := map (fun i => folded (map w (firstn k (skipn (i * k) t))) (map w qP)) (seq 0 n) in
       w vL = folded m (map w qL) /\ w vR = folded m (map w qR)).
Proof. exact @SEvalMixed_exact. Qed.
Print Assumptions C87_eval_mixed.

(** A power of two entries, as many left as right coordinates: what the native function computes. *)
Theorem C87_eval_mixed_native : forall (F : Field) (t qL qR qP : list F) s,
  length qR = length qL -> length t = 2 ^ (length qL + length qP + s) ->
  let n := 2 ^ length qL in let k := length t / n in
  let m := map (fun i => folded (firstn k (skipn (i * k) t)) qP) (seq 0 n) in
  EvaluateLeftAndRight t qP qL qR = Some (folded m qL, folded m qR).
Proof. exact @pieces_native. Qed.
Print Assumptions C87_eval_mixed_native.

(** Other tables: another value.  Here 6 entries at the point (1, 0): the gadget reads entry 2, the native function entry 3. *)
Theorem C87_eval_mixed_refuted : exists (cs : CS Fr) t qL vL vR cs' w,
  cs_ok cs /\ vars cs (t ++ qL) /\ length t = 6 /\ SEvalMixed t qL qL [] cs = Some ((vL, vR), cs') /\ gates_ok w cs' /\
  EvaluateLeftAndRight (map w t) [] (map w qL) (map w qL) <> Some (w vL, w vR).
Proof. exact mixed_differs. Qed.
Print Assumptions C87_eval_mixed_refuted.

(** AssignFromChunkedBKT on a table without values: entry [j] gets entry [j / n] of chunk [j mod n], and no value if there is none. *)
Theorem C87_assign_table : forall (F : Field) T (values : list (list F)),
  (fits_table T values /\ SAssignFromChunkedBKT (F:=F) (repeat None T) values =
     Some (map (fun j => nth_error (nth (j mod length values) values []) (j / length values)) (seq 0 T))) \/
  (~ fits_table T values /\ SAssignFromChunkedBKT (F:=F) (repeat None T) values = None).
Proof. exact @SAssignFromChunked_exact. Qed.
Print Assumptions C87_assign_table.

(** Missing entries go unnoticed: all the variables have a value exactly when every chunk is complete. *)
Theorem C87_assign_complete : forall (F : Field) s (values : list (list F)) r,
  SAssignFromChunkedBKT (F:=F) (repeat None (s * length values)) values = Some r ->
  (forall v, In v r -> v <> None) <-> (forall c, In c values -> length c = s).
Proof. exact @assigned_complete. Qed.
Print Assumptions C87_assign_complete.

(** Four variables, two chunks, one value too few; one value too many. *)
Example C87_assign_ex :
  option_map (map (option_map frval)) (SAssignFromChunkedBKT (F:=Fr) (repeat None 4) [frs [1;2]%Z; frs [3]%Z]) =
    Some [Some 1; Some 3; Some 2; None]%Z /\
  option_map (@length _) (SAssignFromChunkedBKT (F:=Fr) (repeat None 4) [frs [1;2;5]%Z; frs [3]%Z]) = None.
Proof. split; vm_compute; reflexivity. Qed.

(** Proof.Assign: what it needs, what it assigns.  Further entries of the proof are ignored. *)
Theorem C87_assign_proof : forall (F : Field) bN (sc : list (SLayer F)) (pf : Proof F),
  let alloc := SAllocateProof (F:=F) bN sc in
  let fits := map (map (@length F)) (firstn (length sc) (SumcheckProofs pf)) = map (map (@length _)) (sSumchecks alloc) /\
              length sc <= length (ClaimsLeft pf) /\ length sc <= length (ClaimsRight pf) in
  let pf' := cut (length sc) pf in
  (fits /\ SAssign alloc pf =
     Some (MkSProof (map (map (map Some)) (SumcheckProofs pf')) (map Some (ClaimsLeft pf')) (map Some (ClaimsRight pf')))) \/
  (~ fits /\ SAssign alloc pf = None).
Proof. exact @SAssign_exact. Qed.
Print Assumptions C87_assign_proof.

Theorem C87_assign_once : forall (F : Field) bN (sc : list (SLayer F)) (pf pf' : Proof F) r,
  sc <> [] -> SAssign (SAllocateProof bN sc) pf = Some r -> SAssign r pf' = None.
Proof. exact @SAssign_once. Qed.
Print Assumptions C87_assign_once.

(** One layer with one round and two coefficients; the second claim on the left is ignored. *)
Example C87_assign_proof_ex :
  let sc := [MkSLayer 2 8 1 0 [] []] : list (SLayer Fr) in
  option_map (fun r => (map (option_map frval) (sLeft r), map (map (map (option_map frval))) (sSumchecks r)))
    (SAssign (SAllocateProof (F:=Fr) 1 sc) (MkProof [[frs [5;6]%Z]] (frs [7;8]%Z) (frs [9]%Z))) = Some ([Some 7%Z], [[[Some 5; Some 6]]]%Z) /\
  option_map (fun r => length (sLeft r)) (SAssign (SAllocateProof (F:=Fr) 1 sc) (MkProof [[frs [5]%Z]] (frs [7;8]%Z) (frs [9]%Z))) = None.
Proof. split; vm_compute; reflexivity. Qed.

(** The verifier of the MiMC circuit can be built from the variables of a proof, of a point and of two tables exactly when
    they are [buildable].  The first part of the point has any length: the last layer does not look at it. *)
Theorem C87_builds : forall (F : Field) (arks : list F), 91 <= length arks -> forall (p : SProof nat) (cs : CS F) sc qI qPI vIn vOut,
  SCreateMimcCircuit arks = Some sc -> cs_ok cs ->
  vars cs (concat (concat (sSumchecks p)) ++ sLeft p ++ sRight p ++ qI ++ qPI ++ vIn ++ vOut) ->
  (SGkrAssertValid arks p sc qI qPI vIn vOut cs <> None <-> buildable p (length qI) (length qPI) (length vIn) (length vOut)).
Proof. exact @SGkr_builds. Qed.
Print Assumptions C87_builds.

(** 91 sum-checks of three rounds: two instances, three initial coordinates instead of one and tables of 16 entries. *)
Example C87_builds_ex :
  let p := MkSProof (repeat [[1;2];[3;4];[5;6]] 91) (repeat 7 91) (repeat 8 91) in
  buildable p 3 1 16 16 /\ ~ buildable p 3 1 3 16 /\ ~ buildable p 4 1 16 16 /\
  ~ buildable (MkSProof ([[1;2];[3;4]] :: repeat [[1;2];[3;4];[5;6]] 90) (repeat 7 91) (repeat 8 91)) 3 1 16 16.
Proof.
  assert (N : forall j, j < 91 -> nth j (repeat [[1;2];[3;4];[5;6]] 91) [] = [[1;2];[3;4];[5;6]]) by (intros j Hj; apply nth_repeat_lt; exact Hj).
  split; [|split; [|split]].
  - unfold buildable. cbn [sSumchecks sLeft sRight]. rewrite !repeat_length.
    split; [lia|]. split; [lia|]. split; [lia|]. split; [intros j Hj; rewrite N by lia; intros [H|[H|[H|[]]]]; discriminate|].
    split; [cbn; lia|]. split; [intros j Hj; rewrite !N by lia; lia|]. split; cbn; lia.
  - intros (_ & _ & _ & _ & _ & _ & _ & H). cbn in H. lia.
  - intros (_ & _ & _ & _ & _ & _ & H & _). cbn in H. lia.
  - intros (_ & _ & _ & _ & _ & H & _). specialize (H 0 ltac:(lia)). cbn in H. lia.
Qed.
