(** Property theorems about the provers in shared memory (C54). *)
From Coq Require Import List Arith ZArith Lia Bool.
From Verif Require Import Field Go Trans MCommon Spec MPoly MCircuit SpecCircuit MSumcheck SpecSumcheck MSumPar SpecSumPar MGkr SpecGkr
  MHeap SpecHeap MSumHeap SpecSumHeap LSumHeap3 MGkrHeap SpecGkrHeap LGkrHeap FrPrime Fr PPoly PCircuit PSumcheck PSumPar PGkr.
Import ListNotations.

(* ---------------------------------------------------------------- C54 *)
(** The GKR prover.  Slices of the assignment may overlap.  No cell of the memory the call started with changes, the proof is
    that of the value-level prover, and a second call gives it again. *)
Theorem C54_gkr_unchanged : forall (ch : list Fr -> Fr) nCore hmtProve c b m k M A inputs,
  0 < nCore -> follows_heap ch nCore hmtProve -> c <> [] -> (forall l, In l c -> layer_ok l) -> fits b c ->
  (forall ss s, In ss A -> In s ss -> swf M s) -> chunked k m b inputs -> assignment_of c (2 ^ m) inputs (viewA M A) ->
  exists M' pf, HGkrProve ch hmtProve M c A nCore = Some (M', pf) /\ ext M M' /\ viewA M' A = viewA M A /\
    GkrProve ch (mtWhole ch) c (viewA M A) nCore = Some pf /\
    exists M'', HGkrProve ch hmtProve M' c A nCore = Some (M'', pf) /\ ext M' M''.
Proof. exact gkr_unchanged_Fr. Qed.
Print Assumptions C54_gkr_unchanged.

(** The multi-threaded sum-check prover, whose sub-provers run in one memory: under every schedule the result is that of the
    single-threaded prover on the tables put together, and only the tables it was given are written (besides new memory). *)
Theorem C54_mt : forall (F : Field) (ch : list F -> F) m P n k bG nCore out,
  separateMT m P -> mt_ok (viewMT m P) n k bG -> 0 < nCore -> Prove ch (whole (viewMT m P) k bG) = Some out ->
  hmtPrepare P = Some (n, bG, bG + bG + k, log2ceil n) /\
  must (hmt_step ch P nCore n bG (bG + bG + k) (log2ceil n))
    (fun sm => main (fst sm) = MEnd out /\ ws (fst sm) = repeat WEnd n /\ toks (fst sm) = nCore /\
       rCs (fst sm) = repeat (MkChan [] true) n /\ evC (fst sm) = MkChan [] true /\ finC (fst sm) = MkChan [] true /\
       only (tablesMT P) m (snd sm))
    (hmt_init nCore n m).
Proof. exact @hmt_same_result. Qed.
Print Assumptions C54_mt.

(** The single-threaded one. *)
Theorem C54_single : forall (F : Field) (ch : list F -> F) m p, separate1 m p ->
  match HProve ch m p with
  | Some (m', out) => Prove ch (view m p) = Some out /\ only (tables1 p) m m'
  | None => Prove ch (view m p) = None
  end.
Proof. exact @HProve_ok. Qed.
Print Assumptions C54_single.

(** The hypothesis of C54_gkr_unchanged on [hmtProve] can be met. *)
Theorem C54_follows : forall (F : Field) (ch : list F -> F) nCore,
  follows_heap ch nCore (fun (m : list F) (p : HMT F) => out <- mtWhole ch (viewMT m p) ;; Some (m, out)).
Proof. exact @hmtWhole_follows. Qed.
Print Assumptions C54_follows.

Example C54_gkr_ex : exists M A M' pf, viewA M A = assign toy_circuit toy_inputs /\
  HGkrProve ex_hash (fun (m : list Fr) (p : HMT Fr) => out <- mtWhole ex_hash (viewMT m p) ;; Some (m, out)) M toy_circuit A 3 = Some (M', pf) /\
  viewA M' A = assign toy_circuit toy_inputs.
Proof.
  destruct (store_ok (assign toy_circuit toy_inputs) []) as (M & A & _ & W & V).
  destruct (C54_gkr_unchanged ex_hash 3 _ toy_circuit 1 0 1 M A toy_inputs ltac:(lia) (C54_follows Fr ex_hash 3) ltac:(discriminate) toy_ok
    ltac:(repeat split) W toy_chunked) as (M' & pf & E & _ & V' & _).
  { rewrite V. apply toy_assignment, toy_chunked. }
  exists M, A, M', pf. rewrite V', V. auto.
Qed.

(** The tables of the examples, one after the other in memory. *)
Definition ex_mem : list Fr := frs [1;2;5;6; 1;2;5;6; 3;-2; 0;0;1;0; 0;0;2;0]%Z.
Definition ex_hp : HProver Fr :=
  NewHP (MkSlice 0 4 4) (MkSlice 4 4 4) (MkSlice 8 2 2) ex_gates [MkSlice 10 4 4; MkSlice 14 4 4].
Lemma ex_separate : separate1 ex_mem ex_hp.
Proof.
  split.
  - intros s Hs. cbn in Hs. repeat (destruct Hs as [<-|Hs]; [split; cbn; lia|]). destruct Hs.
  - repeat constructor; intros a Ha Hb; unfold cell in *; cbn in *; lia.
Qed.

Example C54_mt_ex : exists m P out, separateMT m P /\ viewMT m P = ex_mt /\ mt_ok (viewMT m P) 2 0 1 /\
  must (hmt_step (fun c => hd fzero c) P 3 2 1 2 1) (fun sm => main (fst sm) = MEnd out /\ only (tablesMT P) m (snd sm)) (hmt_init 3 2 m).
Proof.
  pose (m := frs [1;5;2;6; 1;5;2;6; 3;-2; 0;0;1;0; 0;0;2;0]%Z).
  pose (P := MkHMT [MkSlice 0 2 2; MkSlice 2 2 2] [MkSlice 4 2 2; MkSlice 6 2 2] [MkSlice 8 1 1; MkSlice 9 1 1] ex_gates
    [MkSlice 10 4 4; MkSlice 14 4 4]).
  destruct C30_ex as (out & HP & _). assert (V : viewMT m P = ex_mt) by reflexivity.
  assert (S : separateMT m P).
  { split; [|split].
    - intros s Hs. cbn in Hs. repeat (destruct Hs as [<-|Hs]; [split; cbn; lia|]). destruct Hs.
    - repeat constructor; intros a Ha Hb; unfold cell in *; cbn in *; lia.
    - intros s s' Hs Hs'. cbn in Hs, Hs'. repeat (destruct Hs as [<-|Hs]; [repeat (destruct Hs' as [<-|Hs'];
        [intros a Ha Hb; unfold cell in *; cbn in *; lia|]); destruct Hs'|]). destruct Hs. }
  exists m, P, out. rewrite <- V in HP. assert (O : mt_ok (viewMT m P) 2 0 1) by (rewrite V; exact ex_mt_ok).
  split; [exact S|]. split; [exact V|]. split; [exact O|].
  destruct (C54_mt Fr _ m P 2 0 1 3 out S O ltac:(lia) HP) as [_ H]. eapply must_mono; [|exact H]. intros sm Hs. split; apply Hs.
Qed.

(** In contrast to the GKR prover, a sum-check prover overwrites the tables it was given, and the memory a second call
    starts from gives another proof. *)
Definition hash1 (c : list Fr) : Fr := (hd fzero c + el 3)%F.
Definition twice (m : list Fr) (p : HProver Fr) : option (list Z * list Z * list Z) :=
  '(m1, (proof1, _, _, _, _)) <- HProve hash1 m p ;;
  '(_, (proof2, _, _, _, _)) <- HProve hash1 m1 p ;;
  Some (map frval (tab m1 (pEq p)), map frval (nth 0 proof1 []), map frval (nth 0 proof2 [])).
Theorem C54_sumcheck_overwrites : exists m p t proof1 proof2, separate1 m p /\ twice m p = Some (t, proof1, proof2) /\
  t <> map frval (tab m (pEq p)) /\ proof1 <> proof2.
Proof.
  exists ex_mem, ex_hp. destruct (twice ex_mem ex_hp) as [[[t p1] p2]|] eqn:E.
  - exists t, p1, p2. split; [exact ex_separate|]. split; [exact eq_refl|].
    assert (H : match twice ex_mem ex_hp with Some (t, p1, p2) =>
      (if list_eq_dec Z.eq_dec t (map frval (tab ex_mem (pEq ex_hp))) then false else true) = true /\
      (if list_eq_dec Z.eq_dec p1 p2 then false else true) = true | None => False end) by (vm_compute; split; reflexivity).
    rewrite E in H. destruct H as [H1 H2].
    split; [destruct (list_eq_dec Z.eq_dec t _); congruence|destruct (list_eq_dec Z.eq_dec p1 p2); congruence].
  - exfalso. assert (H : match twice ex_mem ex_hp with Some _ => True | None => False end) by (vm_compute; exact I). rewrite E in H. exact H.
Qed.
Print Assumptions C54_sumcheck_overwrites.

(** The two copies of the layer are needed: with one slice for vL and vR the proof is wrong. *)
Definition shared (m : list Fr) (p : HProver Fr) : option (list (list Z) * list (list Z)) :=
  '(_, (proof1, _, _, _, _)) <- HProve hash1 m p ;;
  '(proof2, _, _, _, _) <- Prove hash1 (view m p) ;;
  Some (map (map frval) proof1, map (map frval) proof2).
Theorem C54_two_copies : exists m p proof1 proof2, pVL p = pVR p /\ shared m p = Some (proof1, proof2) /\ proof1 <> proof2.
Proof.
  exists ex_mem, (NewHP (MkSlice 0 4 4) (MkSlice 0 4 4) (MkSlice 8 2 2) ex_gates [MkSlice 10 4 4; MkSlice 14 4 4]).
  match goal with |- context [shared ?m ?p] => destruct (shared m p) as [[p1 p2]|] eqn:E; [
    assert (H : match shared m p with Some (p1, p2) =>
      (if list_eq_dec (list_eq_dec Z.eq_dec) p1 p2 then false else true) = true | None => False end) by (vm_compute; reflexivity) |
    exfalso; assert (H : match shared m p with Some _ => True | None => False end) by (vm_compute; exact I); rewrite E in H; exact H] end.
  rewrite E in H. exists p1, p2. split; [reflexivity|]. split; [reflexivity|]. destruct (list_eq_dec _ p1 p2); congruence.
Qed.
Print Assumptions C54_two_copies.
