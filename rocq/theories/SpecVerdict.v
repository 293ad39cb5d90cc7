(** What the GKR verifier checks layer by layer, in terms of the proof object alone. *)
From Coq Require Import List Arith Lia Bool.
From Verif Require Import Field Spec MCircuit SpecCircuit MSumcheck SpecSumcheck MGkr SpecGkr SpecDomain SpecHonest.
Import ListNotations.

Section S.
  Context {F : Field}.
  Open Scope F_scope.
  Variable ch : list F -> F.
  Variables (c : list (Layer F)) (bN : nat) (pf : Proof F).
  (** The value of the claimed outputs at the initial point. *)
  Variable out : F.

  (** What is to be shown about the outputs of layer [j]: the top layer has the claim about the outputs, the others the
      random combination of the two claims about the layer above. *)
  Definition claim_at (j : nat) : F :=
    if (S j =? length c)%nat then out
    else nth (S j) (ClaimsLeft pf) 0 + ch [nth (S j) (ClaimsLeft pf) 0; nth (S j) (ClaimsRight pf) 0] * nth (S j) (ClaimsRight pf) 0.

  (** The point of that claim in the instance variables. *)
  Definition instance_at (l : Layer F) (j : nat) : list F :=
    if (S j =? length c)%nat then count bN else ptP ch pf (lBGOutputs l) (S j).

  (** The weight of output [o] in that claim. *)
  Definition weight_at (l : Layer F) (j o : nat) : F :=
    let bits := to_bits (lBGOutputs l) o in
    if (S j =? length c)%nat then chi bits (count (lBGOutputs l))
    else chi bits (ptL ch pf (lBGOutputs l) (S j)) +
         ch [nth (S j) (ClaimsLeft pf) 0; nth (S j) (ClaimsRight pf) 0] * chi bits (ptR ch pf (lBGOutputs l) (S j)).

  (** The value that the two claims about the inputs of layer [j] give to its polynomial at the challenges; a wire has the
      gates that the layer lists with its ID. *)
  Definition value_at (l : Layer F) (j : nat) : F :=
    let b := lBGInputs l in
    eqprod (instance_at l j) (ptP ch pf b j) *
    suml (Wires l) (fun w => weight_at l j (wO w) *
      (chi (to_bits b (wL w)) (ptL ch pf b j) * chi (to_bits b (wR w)) (ptR ch pf b j)) *
      suml (listed l w) (fun g => geval g (nth j (ClaimsLeft pf) 0) (nth j (ClaimsRight pf) 0))).

  (** The round polynomials of layer [j] answer its claim and leave [fin]; they are enough, and both claims about the
      inputs of the layer are there. *)
  Definition answered (j : nat) (l : Layer F) (fin : F) : Prop :=
    nth_error c j = Some l /\
    exists sp, nth_error (SumcheckProofs pf) j = Some sp /\ answers ch (claim_at j) sp fin /\
      (2 * lBGInputs l + length (instance_at l j) <= length sp)%nat /\
      (j < length (ClaimsLeft pf))%nat /\ (j < length (ClaimsRight pf))%nat.

  Definition passes (j : nat) : Prop := exists l, answered j l (value_at l j).
  Definition mismatch (j : nat) : Prop := exists l fin, answered j l fin /\ fin <> value_at l j.

  (** A round polynomial whose values at 0 and 1 do not add up, after rounds that are in order. *)
  Definition turned_down (j : nat) : Prop :=
    exists sp pre p post e, nth_error (SumcheckProofs pf) j = Some sp /\ sp = pre ++ p :: post /\
      answers ch (claim_at j) pre e /\ p <> [] /\ e <> peval p 0 + peval p 1.

  (** No proof for the layer; or an empty polynomial after rounds that are in order; or all rounds in order, but too few of
      them, or a claim missing. *)
  Definition crashes (j : nat) : Prop :=
    nth_error (SumcheckProofs pf) j = None \/
    exists l sp, nth_error c j = Some l /\ nth_error (SumcheckProofs pf) j = Some sp /\
      ((exists pre post e, sp = pre ++ [] :: post /\ answers ch (claim_at j) pre e) \/
       (exists fin, answers ch (claim_at j) sp fin /\
         (length sp < 2 * lBGInputs l + length (instance_at l j) \/
          length (ClaimsLeft pf) <= j \/ length (ClaimsRight pf) <= j)%nat)).

  (** Layer [j] and all layers above it pass. *)
  Definition pass_from (j : nat) : Prop := forall i, (j <= i < length c)%nat -> passes i.

  (** The two claims about the inputs of the circuit are right; [V] is the table of the inputs. *)
  Definition inputs_right (b : nat) (V : list F) : Prop :=
    nth 0 (ClaimsLeft pf) 0 = mle V (ptL ch pf b 0 ++ ptP ch pf b 0) /\
    nth 0 (ClaimsRight pf) 0 = mle V (ptR ch pf b 0 ++ ptP ch pf b 0).

  (** ** The verdicts *)
  Definition accepts (b : nat) (V : list F) : Prop :=
    pass_from 0 /\ length (ptP ch pf b 0) = bN /\ inputs_right b V.

  (** The layers from the top pass, down to one, not the top layer, whose last value is not the one of its claims. *)
  Definition early : Prop := exists j, (S j < length c)%nat /\ pass_from (S j) /\ mismatch j.

  Definition refuses (b : nat) (V : list F) : Prop :=
    mismatch (length c - 1) \/
    (exists j, (j < length c)%nat /\ pass_from (S j) /\ turned_down j) \/
    (pass_from 0 /\ length (ptP ch pf b 0) = bN /\ ~ inputs_right b V).

  Definition panics (b : nat) : Prop :=
    (exists j, (j < length c)%nat /\ pass_from (S j) /\ crashes j) \/
    (pass_from 0 /\ length (ptP ch pf b 0) <> bN).

  (** ** The verdicts on inputs of any shape
      The value of chunks at a point, and the two values at points with a common part, where they exist (C81). *)
  Definition chunk_value (chunks : list (list F)) (q : list F) (v : F) : Prop :=
    exists x y L, q = x ++ y /\ y <> [] /\ length chunks = (2 ^ length y)%nat /\ even_chunks L chunks /\
      (2 ^ length x <= L)%nat /\ v = folded (blend L chunks y) x.
  Definition chunk_values (chunks : list (list F)) (hP hL hR : list F) (v w : F) : Prop :=
    exists x y L, hP = x ++ y /\ y <> [] /\ length chunks = (2 ^ length y)%nat /\ even_chunks L chunks /\
      (2 ^ (Nat.max (length hL) (length hR) + length x) <= L)%nat /\
      v = folded (blend L chunks y) (hL ++ x) /\ w = folded (blend L chunks y) (hR ++ x).

  Definition inputs_value (b : nat) (inputs : list (list F)) (v w : F) : Prop :=
    chunk_values inputs (ptP ch pf b 0) (ptL ch pf b 0) (ptR ch pf b 0) v w.

  Definition accepts_any (b : nat) (inputs : list (list F)) : Prop :=
    pass_from 0 /\ inputs_value b inputs (nth 0 (ClaimsLeft pf) 0) (nth 0 (ClaimsRight pf) 0).

  Definition refuses_any (b : nat) (inputs : list (list F)) : Prop :=
    mismatch (length c - 1) \/
    (exists j, (j < length c)%nat /\ pass_from (S j) /\ turned_down j) \/
    (pass_from 0 /\ exists v w, inputs_value b inputs v w /\ (v <> nth 0 (ClaimsLeft pf) 0 \/ w <> nth 0 (ClaimsRight pf) 0)).

  Definition panics_any (b : nat) (inputs : list (list F)) : Prop :=
    (exists j, (j < length c)%nat /\ pass_from (S j) /\ crashes j) \/
    (pass_from 0 /\ ~ exists v w, inputs_value b inputs v w).
End S.
