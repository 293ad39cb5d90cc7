(** Rank-1 constraint systems: witnesses, satisfaction, extension. *)
From Coq Require Import List Arith Lia Bool.
From Verif Require Import Field Go SpecHash MCircuit MGkr MSnark.
Import ListNotations.

Section S.
  Context {F : Field}.
  Open Scope F_scope.

  (** A witness gives every wire a value; wire 0 has the value 1. *)
  Definition lc_val (w : nat -> F) (l : list (F * nat)) : F := suml l (fun t => fst t * w (snd t)).
  Definition holds (w : nat -> F) (r : r1c F) : Prop := lc_val w (rL r) * lc_val w (rR r) = lc_val w (rO r).
  Definition gates_ok (w : nat -> F) (cs : CS F) : Prop := w 0%nat = 1 /\ Forall (holds w) (gates cs).
  Definition asserts_ok (w : nat -> F) (cs : CS F) : Prop := Forall (holds w) (assertions cs).
  Definition satisfied (w : nat -> F) (cs : CS F) : Prop := gates_ok w cs /\ asserts_ok w cs.

  (** Constraints mention allocated wires only. *)
  Definition below (n : nat) (r : r1c F) : Prop :=
    forall t, In t (rL r ++ rR r ++ rO r) -> (snd t < n)%nat.
  Definition cs_ok (cs : CS F) : Prop :=
    (0 < nbWires cs)%nat /\ Forall (below (nbWires cs)) (gates cs) /\ Forall (below (nbWires cs)) (assertions cs).

  Definition agree_below (n : nat) (w w' : nat -> F) : Prop := forall v, (v < n)%nat -> w v = w' v.

  (** [cs'] has the constraints of [cs] and more; every witness for the gates of [cs] extends to the
      new wires, in exactly one way. *)
  Definition grows (cs cs' : CS F) : Prop :=
    (nbWires cs <= nbWires cs')%nat /\
    (exists g, gates cs' = gates cs ++ g) /\
    (exists a, assertions cs' = assertions cs ++ a) /\
    (forall w, gates_ok w cs -> exists w', agree_below (nbWires cs) w w' /\ gates_ok w' cs') /\
    (forall w w', gates_ok w cs' -> gates_ok w' cs' -> agree_below (nbWires cs) w w' -> agree_below (nbWires cs') w w').

  (** The same with no new assertion: a gadget that only computes. *)
  Definition computes (cs cs' : CS F) : Prop := cs_ok cs' /\ grows cs cs' /\ assertions cs' = assertions cs.

  (** A gadget that computes and asserts; under the gates, the new assertions amount to [P]. *)
  Definition imposes (cs cs' : CS F) (P : (nat -> F) -> Prop) : Prop :=
    cs_ok cs' /\ grows cs cs' /\ forall w, gates_ok w cs' -> (asserts_ok w cs' <-> asserts_ok w cs /\ P w).

  (** The challenges derived with MiMC, with the 91 constants [Arks]. *)
  Definition challenge (Arks : list F) (m : list F) : F := fold_left (mimc_compress (firstn 91 Arks)) m 0.

  (** Variables are allocated wires. *)
  Definition vars (cs : CS F) (l : list nat) : Prop := forall v, In v l -> (v < nbWires cs)%nat.

  (** A table gadget of a layer yields the [i]-th static table of the native layer at [q]. *)
  Definition table_gadget (gen : StaticTableGenerator (F:=F)) (l : Layer F) (i : nat) : Prop :=
    forall cs q, cs_ok cs -> vars cs q -> length q = lBGOutputs l ->
      exists tab cs', gen q cs = Some (tab, cs') /\ computes cs cs' /\ vars cs' tab /\
        length tab = (2 ^ (2 * lBGInputs l))%nat /\
        forall w, gates_ok w cs' -> exists ts, GetStaticTable l (map w q) = Some ts /\ nth_error ts i = Some (map w tab).

  (** A gate gadget computes the native gate. *)
  Definition gate_gadget (sg : SGate (F:=F)) (g : Gate F) : Prop :=
    forall cs vL vR, cs_ok cs -> vars cs [vL; vR] ->
      exists r cs', sg vL vR cs = Some (r, cs') /\ computes cs cs' /\ vars cs' [r] /\
        forall w, gates_ok w cs' -> w r = geval g (w vL) (w vR).

  (** The in-circuit description of a native layer. *)
  Definition describes (sl : SLayer F) (l : Layer F) : Prop :=
    sBG sl = lBGInputs l /\ Forall2 gate_gadget (sGates sl) (lGates l) /\ length (sTables sl) = length (sGates sl) /\
    forall i gen, nth_error (sTables sl) i = Some gen -> table_gadget gen l i.

  (** The native proof that the witness gives to the variables of a proof. *)
  Definition read_proof (w : nat -> F) (p : SProof nat) : Proof F :=
    MkProof (map (map (map w)) (sSumchecks p)) (map w (sLeft p)) (map w (sRight p)).

  (** The variables of a proof for a circuit: allocated wires in the shape AllocateProof gives. *)
  Definition proof_vars (cs : CS F) (bN : nat) (sc : list (SLayer F)) (p : SProof nat) : Prop :=
    vars cs (concat (concat (sSumchecks p)) ++ sLeft p ++ sRight p) /\
    map (map (@length nat)) (sSumchecks p) = map (map (@length _)) (sSumchecks (SAllocateProof bN sc)) /\
    length (sLeft p) = length sc /\ length (sRight p) = length sc.
End S.
