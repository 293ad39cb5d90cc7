(** The size of the proofs and their independence of chunks and threads, over Fr and for the MiMC circuit. *)
From Coq Require Import List Arith NArith ZArith Lia Bool.
From Verif Require Import Field FrPrime Fr Go MCommon Spec Trans MPoly LPoly2 LPoly3 MCircuit SpecCircuit LCircuit LCircuit3 MSumcheck SpecSumcheck MSumPar
  SpecSumPar MGkr SpecGkr LGkr2 LGkr5 MHash MArk SpecHash LHash LHash3 SpecProof LProof.
Import ListNotations.

Lemma proof_size (ch : list Fr -> Fr) nCore mtProve c b m k inputs a :
  (0 < nCore)%nat -> follows_machine ch nCore mtProve -> c <> [] ->
  (forall l, In l c -> layer_ok l) -> fits b c -> chunked k m b inputs -> assignment_of c (2 ^ m) inputs a ->
  exists pf, GkrProve ch mtProve c a nCore = Some pf /\
    length (ClaimsLeft pf) = length c /\ length (ClaimsRight pf) = length c /\ length (SumcheckProofs pf) = length c /\
    (forall i l, nth_error c i = Some l -> map (@length Fr) (nth i (SumcheckProofs pf) []) = coefficients l (m + k)) /\
    elements pf = list_sum (map (fun l => layer_elements l (m + k)) c).
Proof.
  intros H1 H2 H3 H5 H6 [H7 H8] H9.
  destruct (nth_error c (length c - 1)) as [l|] eqn:Hl.
  2: { apply nth_error_None in Hl. destruct c; [congruence|cbn in Hl; lia]. }
  destruct (gkr_complete_from ch nCore mtProve (Fr_distinct_le 12 ltac:(lia)) H1 H2 m k c b inputs a H5 H6 H8 H7 H9 H3 l Hl)
    as (pf & E & (L1 & L2 & L3) & HS & _).
  exists pf. split; [exact E|]. split; [exact L2|]. split; [exact L3|]. split; [exact L1|].
  assert (HC : forall i l, nth_error c i = Some l -> map (@length Fr) (nth i (SumcheckProofs pf) []) = coefficients l (m + k)).
  { intros i l' Hl'. exact (HS i l' (Nat.le_0_l i) Hl'). }
  split; [exact HC|]. exact (size_of c (m + k) pf L1 L2 L3 HC).
Qed.

Lemma same_proof_Fr (ch : list Fr -> Fr) c b nCore mtProve m k inputs a nCore' mtProve' m' k' inputs' a' :
  c <> [] -> (forall l, In l c -> layer_ok l) -> fits b c ->
  (0 < nCore)%nat -> follows_machine ch nCore mtProve -> chunked k m b inputs -> assignment_of c (2 ^ m) inputs a ->
  (0 < nCore')%nat -> follows_machine ch nCore' mtProve' -> chunked k' m' b inputs' -> assignment_of c (2 ^ m') inputs' a' ->
  (m + k = m' + k')%nat -> glued b m inputs = glued b m' inputs' ->
  GkrProve ch mtProve c a nCore = GkrProve ch mtProve' c a' nCore'.
Proof.
  intros Hc. apply (same_proof ch c b nCore mtProve m k inputs a nCore' mtProve' m' k' inputs' a' (Fr_distinct_le 12 ltac:(lia)) Hc).
Qed.

Lemma mimc_elements (cs : list Fr) (a : Fr) bN :
  list_sum (map (fun l => layer_elements l bN) (mimc_layers cs a)) = (S (length cs) * (14 + 9 * bN))%nat.
Proof.
  unfold mimc_layers. rewrite map_app, list_sum_app, map_map.
  replace (map (fun x => layer_elements (mimc_mid x) bN) cs) with (repeat (14 + 9 * bN)%nat (length cs)).
  - rewrite sum_repeat. cbn [map list_sum fold_right]. unfold layer_elements. cbn. lia.
  - induction cs as [|x cs IH]; [reflexivity|]. cbn [length repeat map]. rewrite IH. f_equal. unfold layer_elements. cbn. lia.
Qed.

Lemma mimc_size (ch : list Fr -> Fr) nCore mtProve m k inputs :
  (0 < nCore)%nat -> follows_machine ch nCore mtProve -> chunked k m 1 inputs ->
  exists c a pf, CreateMimcCircuit Arks = Some c /\ Assign c inputs = Some a /\ GkrProve ch mtProve c a nCore = Some pf /\
    elements pf = (91 * (14 + 9 * (m + k)))%nat.
Proof.
  intros H1 H2 H4. set (c := mimc_layers (firstn 90 Arks) (nth 90 Arks 0%F)). exists c.
  assert (L90 : length (firstn 90 Arks) = 90%nat) by (rewrite firstn_length, Arks_length; reflexivity).
  assert (Hc : c <> []).
  { intros H. apply (f_equal (@length _)) in H. unfold c, mimc_layers in H. rewrite app_length in H. cbn [length] in H. lia. }
  destruct (assign_ok c 1 (2 ^ m) inputs) as (a & EA & Ha).
  { intros l Hl. apply (mimc_layer_ok _ _ l Hl). } { apply mimc_fits. } { apply mimc_right. } { apply H4. }
  destruct (proof_size ch nCore mtProve c 1 m k inputs a H1 H2 Hc (mimc_layer_ok _ _) (mimc_fits _ _) H4 Ha) as (pf & E & _ & _ & _ & _ & HE).
  exists a, pf. split; [apply CreateMimcCircuit_ok; rewrite Arks_length; lia|]. split; [exact EA|]. split; [exact E|].
  rewrite HE. unfold c. rewrite mimc_elements, L90. reflexivity.
Qed.

(** The code on the MiMC circuit, cut into chunks differently. *)
Lemma mimc_same (ch : list Fr -> Fr) nCore mtProve m k inputs nCore' mtProve' m' k' inputs' :
  (0 < nCore)%nat -> follows_machine ch nCore mtProve -> chunked k m 1 inputs ->
  (0 < nCore')%nat -> follows_machine ch nCore' mtProve' -> chunked k' m' 1 inputs' ->
  (m + k = m' + k')%nat -> glued 1 m inputs = glued 1 m' inputs' ->
  exists c a a' pf, CreateMimcCircuit Arks = Some c /\ Assign c inputs = Some a /\ Assign c inputs' = Some a' /\
    GkrProve ch mtProve c a nCore = Some pf /\ GkrProve ch mtProve' c a' nCore' = Some pf.
Proof.
  intros H1 H2 H3 H1' H2' H3' Hs Hg. set (c := mimc_layers (firstn 90 Arks) (nth 90 Arks 0%F)). exists c.
  assert (Hc : c <> []).
  { intros H. apply (f_equal (@length _)) in H. unfold c, mimc_layers in H. rewrite app_length in H. cbn [length] in H. lia. }
  destruct (assign_ok c 1 (2 ^ m) inputs) as (a & EA & Ha).
  { intros l Hl. apply (mimc_layer_ok _ _ l Hl). } { apply mimc_fits. } { apply mimc_right. } { apply H3. }
  destruct (assign_ok c 1 (2 ^ m') inputs') as (a' & EA' & Ha').
  { intros l Hl. apply (mimc_layer_ok _ _ l Hl). } { apply mimc_fits. } { apply mimc_right. } { apply H3'. }
  destruct (proof_size ch nCore mtProve c 1 m k inputs a H1 H2 Hc (mimc_layer_ok _ _) (mimc_fits _ _) H3 Ha) as (pf & E & _).
  exists a, a', pf. split; [apply CreateMimcCircuit_ok; rewrite Arks_length; lia|]. split; [exact EA|]. split; [exact EA'|]. split; [exact E|].
  rewrite <- E. symmetry.
  exact (same_proof_Fr ch c 1 nCore mtProve m k inputs a nCore' mtProve' m' k' inputs' a' Hc (mimc_layer_ok _ _) (mimc_fits _ _) H1 H2 H3 Ha H1' H2' H3' Ha' Hs Hg).
Qed.

(** The proof is smaller than the inputs and outputs from 2^12 instances on. *)
Lemma smaller n : (91 * (14 + 9 * n) < 3 * 2 ^ n <-> 12 <= n)%N.
Proof.
  assert (Hg : forall k, (91 * (14 + 9 * (12 + k)) < 3 * 2 ^ (12 + k))%N).
  { intros k. induction k using N.peano_ind; [vm_compute; reflexivity|].
    replace (12 + N.succ k)%N with (N.succ (12 + k)) by lia. rewrite N.pow_succ_r'. lia. }
  split; intros H.
  - destruct (N.le_gt_cases 12 n) as [|Hlt]; [assumption|]. exfalso.
    assert (HM : n = 0%N \/ n = 1%N \/ n = 2%N \/ n = 3%N \/ n = 4%N \/ n = 5%N \/ n = 6%N \/ n = 7%N \/ n = 8%N \/ n = 9%N \/ n = 10%N \/ n = 11%N) by lia.
    repeat (destruct HM as [->|HM]; [vm_compute in H; discriminate|]). subst n. vm_compute in H. discriminate.
  - replace n with (12 + (n - 12))%N by lia. apply Hg.
Qed.
