(** A run that is rejected (lemmas for PRun.v). *)
From Coq Require Import List Arith ZArith Lia Bool.
From Verif Require Import Field Go Spec MPoly MCircuit SpecCircuit MSumcheck SpecSumcheck MSumPar SpecSumPar MGkr SpecGkr SpecHonest SpecRun LRun
  FrPrime Fr LGkr3 LPoly3 PPoly.
Import ListNotations.

Definition far : list (Wire Fr) := [MkWire 3 1 0 MulGate].
Definition far_inputs : list (list Fr) := [frs [1;1; 2;2; 3;3; 4;4]%Z; frs [1;1; 2;2; 3;3; 4;5]%Z].

Lemma honest_rejected : exists (ws : list (Wire Fr)) m k inputs, NoDup (map (fun w => gid (wGate w)) ws) /\
  (forall w, In w ws -> library_gate (wGate w)) /\ 0 < k /\ chunked k m (BGInputs ws) inputs /\
  forall (ch : list Fr -> Fr) nCore mtProve, 0 < nCore -> follows_machine ch nCore mtProve ->
  exists a pf, Assign (NewCircuit [ws]) inputs = Some a /\ GkrProve ch mtProve (NewCircuit [ws]) a nCore = Some pf /\
    GkrVerify ch (m + k) (NewCircuit [ws]) pf inputs (nth 1 a []) = Some false.
Proof.
  assert (Hc : chunked 1 1 (BGInputs far) far_inputs) by (split; [reflexivity|intros t [<-|[<-|[]]]; reflexivity]).
  exists far, 1, 1, far_inputs. split; [constructor; [intros []|constructor]|]. split; [intros w [<-|[]]; constructor|]. split; [lia|]. split; [exact Hc|].
  intros ch nCore mtProve HC Hmt. destruct (run_one_layer ch nCore mtProve far 1 1 far_inputs HC Hmt) as (a & pf & E1 & E2 & _ & HF).
  - lia.
  - discriminate.
  - intros w [<-|[]]. split; [constructor|vm_compute; lia].
  - exact Hc.
  - exists a, pf. split; [exact E1|]. split; [exact E2|]. apply HF. intros H. apply (f_equal frval) in H. vm_compute in H. discriminate H.
Qed.
