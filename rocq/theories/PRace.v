(** Property theorems about data races in the multi-threaded prover (C61). *)
From Coq Require Import List Arith ZArith Lia Bool.
From Verif Require MForkJoin.
From Verif Require Import Field Go Trans MCommon MPoly MCircuit MSumcheck SpecSumcheck MSumPar SpecSumPar
  MHeap SpecHeap MSumHeap SpecSumHeap SpecRace LRace LRace2 FrPrime Fr PPoly PCircuit PSumcheck PHeap.
Import ListNotations.

(* ---------------------------------------------------------------- C61 *)
(** In no reachable state are two goroutines about to access one address, one of them for writing.  Any number of
    chunks, cores and rounds, any tables. *)
Theorem C61_race_free : forall (F : Field) (ch : list F -> F) m P n nCore bG k rest,
  separateMT m P -> length (hVL P) = n -> length (hVR P) = n -> length (hEq P) = n ->
  forall s m', reach (hmt_step ch P nCore n bG k rest) (hmt_init nCore n m) (s, m') -> ~ race P s.
Proof. exact @race_free. Qed.
Print Assumptions C61_race_free.

(** [reads] and [writes] are what they say, in every state.  A step changes no other existing cell... *)
Theorem C61_writes : forall (F : Field) (ch : list F -> F) P nCore n bG k rest t s m s' m',
  hmt_run ch P nCore n bG k rest t (s, m) = Gives (s', m') ->
  length m <= length m' /\ forall a, a < length m -> ~ writes t s a -> nth a m' 0%F = nth a m 0%F.
Proof. exact @run_writes. Qed.
Print Assumptions C61_writes.

(** ... and what it does depends on the cells it reads alone. *)
Theorem C61_reads : forall (F : Field) (ch : list F -> F) P nCore n bG k rest (A : nat -> Prop) t s m1 m2,
  (forall a, reads P t s a -> A a) -> agree A m1 m2 ->
  same_outcome A (hmt_run ch P nCore n bG k rest t (s, m1)) (hmt_run ch P nCore n bG k rest t (s, m2)).
Proof. exact @run_agree. Qed.
Print Assumptions C61_reads.

(** Neither other cells in [A] nor another control state are the same outcome. *)
Example C61_other_outcomes : forall s,
  ~ same_outcome (F:=Fr) (fun a => a = 1) (Gives (s, frs [1;2]%Z)) (Gives (s, frs [1;3]%Z)) /\
  (forall s' m, s <> s' -> ~ same_outcome (F:=Fr) (fun a => a = 1) (Gives (s, m)) (Gives (s', m))) /\
  same_outcome (F:=Fr) (fun a => a = 1) (Gives (s, frs [1;2]%Z)) (Gives (s, frs [3;2]%Z)).
Proof.
  intros s. split; [|split].
  - intros [_ [_ H]]. specialize (H 1 eq_refl). apply (f_equal frval) in H. vm_compute in H. discriminate.
  - intros s' m Hne [H _]. exact (Hne H).
  - split; [reflexivity|]. split; [reflexivity|]. intros a ->. reflexivity.
Qed.

(** Two chunks of two instances in one memory; [sh] is the distance of the vL tables. *)
Definition race_P (sh : nat) : HMT Fr :=
  MkHMT [MkSlice 0 2 2; MkSlice sh 2 2] [MkSlice 4 2 2; MkSlice 6 2 2] [MkSlice 8 2 2; MkSlice 10 2 2] [CopyGate] [MkSlice 12 1 1].
Definition race_mem : list Fr := frs [1;2;3;4;5;6;7;8;9;10;11;12;1]%Z.

Example C61_ex : forall s m', reach (hmt_step hash1 (race_P 2) 2 2 0 1 1) (hmt_init 2 2 race_mem) (s, m') -> ~ race (race_P 2) s.
Proof.
  apply (C61_race_free Fr hash1 race_mem (race_P 2) 2); try reflexivity. split; [|split].
  - intros s Hs. cbn in Hs. repeat (destruct Hs as [<-|Hs]; [split; cbn; lia|]). destruct Hs.
  - repeat constructor; intros a Ha Hb; unfold cell in *; cbn in *; lia.
  - intros s s' Hs Hs'. cbn in Hs, Hs'. repeat (destruct Hs as [<-|Hs]; [repeat (destruct Hs' as [<-|Hs'];
      [intros a Ha Hb; unfold cell in *; cbn in *; lia|]); destruct Hs'|]). destruct Hs.
Qed.

(** The definition of a race is not empty: when the two chunks share the table vL, both sub-provers can be about to fold it. *)
Fixpoint exec (P : HMT Fr) (l : list tid) sm :=
  match l with
  | [] => Some sm
  | t :: l => match hmt_run hash1 P 2 2 0 1 1 t sm with Gives sm => exec P l sm | _ => None end
  end.
Lemma exec_reach P l : forall i0 sm sm', reach (hmt_step hash1 P 2 2 0 1 1) i0 sm -> exec P l sm = Some sm' ->
  reach (hmt_step hash1 P 2 2 0 1 1) i0 sm'.
Proof.
  induction l as [|t l IH]; intros i0 sm sm' H E; cbn [exec] in E; [injection E as <-; exact H|].
  destruct (hmt_run hash1 P 2 2 0 1 1 t sm) as [| |sm1] eqn:E1; try discriminate.
  apply (IH i0 sm1 sm'); [|exact E]. eapply reach_step; [exact H|]. exact (hstep_ok _ _ _ _ _ _ _ _ _ _ _ _ _ _ _ t _ E1).
Qed.
Definition about_to_fold (sm : option (st (Wk:=HSub Fr) (E:=list Fr) (R:=Fr) (MS:=MLoc (F:=Fr)) (G:=HMerged (F:=Fr))
    (Out:=list (list Fr) * list Fr * list Fr * list Fr * list Fr) * list Fr)) (x : nat) : option (nat * nat) :=
  match sm with
  | Some (s, _) =>
    match nth_error (ws s) x with
    | Some (WFold _ w _) => Some (base (pVL (hsubProver w)), slen (pVL (hsubProver w)))
    | _ => None
    end
  | None => None
  end.
Definition sched : list tid :=
  let w x n := repeat (TWorker x) n in
  [TMain; TMain; TMain] ++ w 0 5 ++ w 1 5 ++ [TMain; TMain; TMain; TMain; TMain; THelper 0; THelper 1] ++ w 0 2 ++ w 1 2.
Theorem C61_shared_table : exists s m', reach (hmt_step hash1 (race_P 0) 2 2 0 1 1) (hmt_init 2 2 race_mem) (s, m') /\ race (race_P 0) s.
Proof.
  assert (H0 : about_to_fold (exec (race_P 0) sched (hmt_init 2 2 race_mem)) 0 = Some (0, 2)) by (vm_compute; reflexivity).
  assert (H1 : about_to_fold (exec (race_P 0) sched (hmt_init 2 2 race_mem)) 1 = Some (0, 2)) by (vm_compute; reflexivity).
  destruct (exec (race_P 0) sched (hmt_init 2 2 race_mem)) as [[s m']|] eqn:E; [|discriminate].
  exists s, m'. split; [eapply exec_reach; [apply reach_refl|exact E]|]. clear E.
  exists (TWorker 0), (TWorker 1), 0. split; [discriminate|]. cbn [writes about_to_fold] in *.
  destruct (nth_error (ws s) 0) as [[]|]; try discriminate. destruct (nth_error (ws s) 1) as [[]|]; try discriminate.
  injection H0 as A1 A2. injection H1 as B1 B2.
  split; [|right]; eexists; (split; [left; reflexivity|]); unfold cell; lia.
Qed.
Print Assumptions C61_shared_table.

(** The loops of Sub and Mul: one goroutine writes dst[a], another reads its operands at b and writes dst[b]. *)
Theorem C61_sub : forall (F : Field) (m : list F) dst left right nCore,
  0 < nCore -> swf m dst -> swf m left -> swf m right -> slen right = slen left ->
  compat (slen left) dst left -> compat (slen left) dst right ->
  exists m1 dst' prog, HSub_start m dst left right nCore = Some (m1, dst', prog) /\
    forall s i j a b, reach (MForkJoin.step (sub_exec dst' left right) prog nCore true false) (MForkJoin.init prog nCore true m1) s ->
      i <> j -> about_to s i a -> about_to s j b ->
      base dst' + a <> base dst' + b /\ base dst' + a <> base left + b /\ base dst' + a <> base right + b.
Proof. exact @sub_race_free. Qed.
Print Assumptions C61_sub.

Theorem C61_mul : forall (F : Field) (m : list F) dst x lambda nCore,
  0 < nCore -> swf m dst -> swf m x -> compat (slen x) dst x ->
  exists m1 dst' prog, HMul_start m dst x nCore = Some (m1, dst', prog) /\
    forall s i j a b, reach (MForkJoin.step (mul_exec dst' x lambda) prog nCore true false) (MForkJoin.init prog nCore true m1) s ->
      i <> j -> about_to s i a -> about_to s j b ->
      base dst' + a <> base dst' + b /\ base dst' + a <> base x + b.
Proof. exact @mul_race_free. Qed.
Print Assumptions C61_mul.

(** Layer.Evaluate (layers.go:70-102) and LayerAsBKTWithCopy (circuit.go:51-67): goroutine i writes entry i of the result... *)
Theorem C61_layer : forall (F : Field) (l : Layer F) (inputs : list (list F)) nCore s i j a b,
  reach (MForkJoin.step (layer_exec l inputs) (per_chunk (length inputs)) nCore false true)
    (MForkJoin.init (per_chunk (length inputs)) nCore false (repeat [] (length inputs))) s ->
  i <> j -> about_to s i a -> about_to s j b -> a = i /\ b = j.
Proof. exact @layer_race_free. Qed.
Print Assumptions C61_layer.

Theorem C61_copy : forall (F : Field) (vals : list (list F)) nCore s i j a b,
  reach (MForkJoin.step (copy_exec vals) (per_chunk (length vals)) nCore false true)
    (MForkJoin.init (per_chunk (length vals)) nCore false (repeat [] (length vals))) s ->
  i <> j -> about_to s i a -> about_to s j b -> a = i /\ b = j.
Proof. exact @copy_race_free. Qed.
Print Assumptions C61_copy.

(** ... and action i writes that entry alone, with a value that depends on the inputs alone. *)
Theorem C61_layer_writes : forall (F : Field) (l : Layer F) (inputs : list (list F)) i, i < length inputs ->
  (forall res, layer_exec l inputs i res = None) \/
  exists out, forall res, i < length res -> layer_exec l inputs i res = Some (upd res i out).
Proof. exact @layer_writes. Qed.
Print Assumptions C61_layer_writes.

Theorem C61_copy_writes : forall (F : Field) (vals : list (list F)) i, i < length vals ->
  exists out, forall res, i < length res -> copy_exec vals i res = Some (upd res i out).
Proof. exact @copy_writes. Qed.
Print Assumptions C61_copy_writes.

(** Two goroutines can indeed be about to write at the same time. *)
Example C61_layer_ex : exists s,
  reach (MForkJoin.step (layer_exec (NewLayer [MkWire 1 0 0 CopyGate]) [frs [1; 2]%Z; frs [3; 4]%Z]) (per_chunk 2) 2 false true)
    (MForkJoin.init (per_chunk 2) 2 false [[]; []]) s /\ about_to s 0 0 /\ about_to s 1 1.
Proof.
  eexists. split; [|split].
  - eapply reach_step; [eapply reach_step; [eapply reach_step; [eapply reach_step; [apply reach_refl|]|]|]|].
    + apply MForkJoin.s_go.
    + apply MForkJoin.s_go.
    + apply (MForkJoin.s_acq _ _ _ _ _ 0). reflexivity.
    + apply (MForkJoin.s_acq _ _ _ _ _ 1). reflexivity.
  - exists []. reflexivity.
  - exists []. reflexivity.
Qed.
