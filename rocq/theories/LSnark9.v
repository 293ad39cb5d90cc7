(** The variables of the test circuit and their assignment. *)
From Coq Require Import List Arith Lia Bool Ring Field.
From Verif Require Import Field Go MCommon Spec LSpec LPoly2 MHash MCircuit SpecCircuit MSumcheck MSumPar MGkr SpecGkr LHash3 MSnark SpecSnark LSnark LSnark4 LSnark6 LSnark7 LSnark8.
Import ListNotations.

Section L.
  Context {F : Field}.
  Open Scope F_scope.

  Lemma map_seq_mid (pre l post : list F) s : s = length pre -> map (fun v => nth v (pre ++ l ++ post) 0) (seq s (length l)) = l.
  Proof.
    intros ->. apply (list_ext 0); [rewrite map_length, seq_length; reflexivity|]. intros i Hi. rewrite map_length, seq_length in Hi.
    rewrite (nth_map_lt _ _ _ _ 0%nat) by (rewrite seq_length; exact Hi). rewrite seq_nth by exact Hi.
    rewrite app_nth2 by lia. rewrite app_nth1 by lia. f_equal. lia.
  Qed.

  Lemma wires1_len {V} s (l : list V) : length (wires1 s l) = length l.
  Proof. apply seq_length. Qed.
  Lemma wires2_len {V} (l : list (list V)) : forall s, map (@length _) (wires2 s l) = map (@length _) l.
  Proof. induction l as [|x l IH]; intros s; cbn [wires2 map]; [reflexivity|]. rewrite wires1_len, IH. reflexivity. Qed.
  Lemma wires3_len {V} (l : list (list (list V))) : forall s, map (map (@length _)) (wires3 s l) = map (map (@length _)) l.
  Proof. induction l as [|x l IH]; intros s; cbn [wires3 map]; [reflexivity|]. rewrite wires2_len, IH. reflexivity. Qed.

  Lemma wires2_in {V} (l : list (list V)) : forall s v, In v (concat (wires2 s l)) -> (s <= v < s + length (concat l))%nat.
  Proof.
    induction l as [|x l IH]; intros s v H; cbn [wires2 concat] in *; [destruct H|]. rewrite app_length.
    apply in_app_or in H. destruct H as [H|H]; [apply in_seq in H; lia|]. apply IH in H. lia.
  Qed.
  Lemma wires3_in {V} (l : list (list (list V))) : forall s v, In v (concat (concat (wires3 s l))) -> (s <= v < s + length (concat (concat l)))%nat.
  Proof.
    induction l as [|x l IH]; intros s v H; cbn [wires3 concat] in *; [destruct H|]. rewrite concat_app in *. rewrite app_length.
    apply in_app_or in H. destruct H as [H|H]; [apply wires2_in in H; lia|]. apply IH in H. lia.
  Qed.

  Lemma wires2_val {V} (full post : list F) (shape : list (list V)) : forall (l : list (list F)) pre,
    map (@length _) l = map (@length _) shape -> full = pre ++ concat l ++ post ->
    map (map (fun v => nth v full 0)) (wires2 (length pre) shape) = l.
  Proof.
    induction shape as [|x shape IH]; intros [|y l] pre HL E; cbn in HL; try discriminate; [reflexivity|].
    injection HL as H1 H2. cbn [wires2 map concat] in *. f_equal.
    - unfold wires1. rewrite <- H1, E, <- app_assoc. apply map_seq_mid. reflexivity.
    - rewrite <- H1, <- app_length. apply IH; [exact H2|]. rewrite E, <- !app_assoc. reflexivity.
  Qed.
  Lemma same_len_concat {A B} (l : list (list A)) (l' : list (list B)) : map (@length _) l = map (@length _) l' -> length (concat l) = length (concat l').
  Proof.
    revert l'. induction l as [|x l IH]; intros [|y l'] E; cbn in E; try discriminate; [reflexivity|].
    injection E as E1 E2. cbn [concat]. rewrite !app_length, E1, (IH l' E2). reflexivity.
  Qed.
  Lemma wires3_val {V} (full post : list F) (shape : list (list (list V))) : forall (l : list (list (list F))) pre,
    map (map (@length _)) l = map (map (@length _)) shape -> full = pre ++ concat (concat l) ++ post ->
    map (map (map (fun v => nth v full 0))) (wires3 (length pre) shape) = l.
  Proof.
    induction shape as [|x shape IH]; intros [|y l] pre HL E; cbn in HL; try discriminate; [reflexivity|].
    injection HL as H1 H2. cbn [wires3 map concat] in *. rewrite concat_app in E. f_equal.
    - apply (wires2_val full (concat (concat l) ++ post)); [exact H1|]. rewrite E, <- !app_assoc. reflexivity.
    - rewrite <- (same_len_concat _ _ H1), <- app_length. apply IH; [exact H2|]. rewrite E, <- !app_assoc. reflexivity.
  Qed.

  Lemma test_circuit_ok bN (sc : list (SLayer F)) cs p qP vIn vOut : AllocateGKRMimcTestCircuit bN sc = (cs, (p, qP, vIn, vOut)) ->
    cs_ok cs /\ proof_vars cs bN sc p /\ vars cs (qP ++ vIn ++ vOut) /\
    length qP = bN /\ length vIn = (2 * 2 ^ bN)%nat /\ length vOut = (2 ^ bN)%nat.
  Proof.
    intros E. injection E as <- <- <- <- <-. split; [|split; [|split]].
    - split; [cbn [nbWires]; lia|split; constructor].
    - split; [|split; [|split]]; cbn [sSumchecks sLeft sRight].
      + intros v Hv. cbn [nbWires]. rewrite !in_app_iff in Hv. cbn [SAllocateProof sSumchecks sLeft sRight] in *. 
        destruct Hv as [Hv|[Hv|Hv]]; [apply wires3_in in Hv; lia| |]; apply in_seq in Hv; lia.
      + apply wires3_len.
      + rewrite wires1_len. apply repeat_length.
      + rewrite wires1_len. apply repeat_length.
    - intros v Hv. cbn [nbWires]. rewrite !in_app_iff in Hv. destruct Hv as [Hv|[Hv|Hv]]; apply in_seq in Hv; lia.
    - rewrite !wires1_len, seq_length. unfold SAllocateMultilinear. rewrite !repeat_length.
      split; [reflexivity|]. split; [rewrite Nat.add_comm; reflexivity|reflexivity].
  Qed.

  (** Every assignment of the right shape is given by a witness of the compiled circuit. *)
  Lemma test_circuit_witness bN (sc : list (SLayer F)) cs p qP vIn vOut (pf : Proof F) q vi vo :
    AllocateGKRMimcTestCircuit bN sc = (cs, (p, qP, vIn, vOut)) ->
    same_lengths (SumcheckProofs pf) (sSumchecks (SAllocateProof (F:=F) bN sc)) ->
    length (ClaimsLeft pf) = length sc -> length (ClaimsRight pf) = length sc ->
    length q = bN -> length vi = (2 ^ (bN + 1))%nat -> length vo = (2 ^ bN)%nat ->
    exists w, satisfied w cs /\ read_proof w p = pf /\ map w qP = q /\ map w vIn = vi /\ map w vOut = vo.
  Proof.
    intros E HS HL HR Hq Hi Ho. injection E as <- <- <- <- <-.
    set (S := sSumchecks (SAllocateProof bN sc)) in *.
    assert (LS : length (concat (concat S)) = length (concat (concat (SumcheckProofs pf)))).
    { clear - HS. unfold same_lengths in HS. revert HS. generalize (SumcheckProofs pf) as x. induction S as [|s S IH]; intros [|x0 x] E; cbn in E; try discriminate; [reflexivity|].
      injection E as E1 E2. cbn [concat]. rewrite !concat_app, !app_length, (same_len_concat _ _ E1), (IH x E2). reflexivity. }
    pose proof LS as LS'. unfold S, SAllocateProof in LS'. cbn [sSumchecks] in LS'.
    set (full := [1] ++ concat (concat (SumcheckProofs pf)) ++ ClaimsLeft pf ++ ClaimsRight pf ++ q ++ vi ++ vo ++ []).
    assert (HAt : forall pre l post s n, full = pre ++ l ++ post -> s = length pre -> n = length l -> map (fun v => nth v full 0) (seq s n) = l).
    { intros pre l post s n -> Es ->. apply map_seq_mid. exact Es. }
    exists (fun v => nth v full 0).
    split; [|split; [|split; [|split]]].
    - split; [split; [reflexivity|constructor]|constructor].
    - unfold read_proof. cbn [sSumchecks sLeft sRight].
      destruct pf as [sp cl cr]. cbn [SumcheckProofs ClaimsLeft ClaimsRight] in *. f_equal.
      + exact (wires3_val full _ S sp [1] HS eq_refl).
      + apply (HAt ([1] ++ concat (concat sp)) cl (cr ++ q ++ vi ++ vo ++ [])); unfold full; rewrite <- ?app_assoc; auto; rewrite ?repeat_length, ?app_length; cbn [length sSumchecks SAllocateProof]; try lia; reflexivity.
      + apply (HAt ([1] ++ concat (concat sp) ++ cl) cr (q ++ vi ++ vo ++ [])); unfold full; rewrite <- ?app_assoc; auto; rewrite ?repeat_length, ?app_length; cbn [length sSumchecks SAllocateProof]; try lia; reflexivity.
    - apply (HAt ([1] ++ concat (concat (SumcheckProofs pf)) ++ ClaimsLeft pf ++ ClaimsRight pf) q (vi ++ vo ++ [])); unfold full; rewrite <- ?app_assoc; auto; rewrite ?repeat_length, ?app_length; cbn [length sSumchecks SAllocateProof]; try lia; reflexivity.
    - apply (HAt ([1] ++ concat (concat (SumcheckProofs pf)) ++ ClaimsLeft pf ++ ClaimsRight pf ++ q) vi (vo ++ [])); unfold full, SAllocateMultilinear; rewrite <- ?app_assoc; auto; rewrite ?repeat_length, ?app_length; cbn [length sSumchecks SAllocateProof]; try lia; reflexivity.
    - apply (HAt ([1] ++ concat (concat (SumcheckProofs pf)) ++ ClaimsLeft pf ++ ClaimsRight pf ++ q ++ vi) vo []); unfold full, SAllocateMultilinear; rewrite <- ?app_assoc; auto; rewrite ?repeat_length, ?app_length; cbn [length sSumchecks SAllocateProof]; try lia; reflexivity.
  Qed.
End L.
