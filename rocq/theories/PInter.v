(** Property theorems about provers that answer independent challenges (C67). *)
From Coq Require Import List Arith Lia Bool ZArith.
From Verif Require Import Field Go Spec FrPrime Fr MCircuit SpecCircuit MSumcheck SpecSumcheck MSumPar SpecSumPar MGkr SpecGkr MHash MArk SpecInter
  LCircuit LPoly3 LGrid LCircuit3 LInter LInter2 LInter3 PPoly PCircuit PSumcheck PGkr.
Import ListNotations.

(* ---------------------------------------------------------------- C67 *)
(** The sum-check: [sigma] chooses the next polynomial from the challenges so far. [L] is any list of challenge vectors with
    which a wrong claim is accepted, the last value being right. *)
Theorem C67_sumcheck : forall (F : Field) bN bG (gates : list (Gate F)) statics eq vL vR claim sigma (S0 : list F) L,
  tables_ok bG bG bN gates statics eq vL vR -> (forall g, In g gates -> degs_ok g) ->
  claim <> table_sum (2 ^ bN) (2 ^ bG) gates statics eq vL vR ->
  let n := 2 * bG + bN in
  let deg := phase_deg bG bG (maxHL gates + 1) (maxHR gates + 1) (maxHP gates + 1) in
  (forall rs, length rs < n -> length (sigma rs) <= S (deg (length rs))) ->
  NoDup L ->
  (forall rs, In rs L -> In rs (grid S0 n) /\ exists ch qP qL qR fin, map ch (transcript sigma rs) = rs /\
     Verify ch claim (transcript sigma rs) bN bG = Some (Accept qP qL qR fin) /\
     fin = combinator bG bG gates statics eq vL vR (qL ++ qR ++ qP)) ->
  length L <= list_sum (map deg (seq 0 n)) * length S0 ^ (n - 1).
Proof. exact @sumcheck_count. Qed.
Print Assumptions C67_sumcheck.

(** GKR, with the [return true] of gkr/verifier.go:99 removed. *)
Theorem C67_gkr : forall (F : Field) m k b (c : list (Layer F)) inputs a outputs llast pf (S0 : list F) L,
  (forall l, In l c -> layer_ok l) -> fits b c -> chunked k m b inputs -> assignment_of c (2 ^ m) inputs a ->
  c <> [] -> 0 < k -> nth_error c (length c - 1) = Some llast -> chunked k m (lBGOutputs llast) outputs ->
  output_claim (m + k) m llast outputs <> output_claim (m + k) m llast (nth (length c) a []) ->
  let N := challenge_count (m + k) c in
  causal (length c) N pf -> (forall rs, length rs = N -> degrees_ok (m + k) c (pf rs)) ->
  NoDup L ->
  (forall rs, In rs L -> In rs (grid S0 N) /\ exists ch, map ch (messages (length c) (pf rs)) = rs /\
     GkrVerifyWith ch false (m + k) c (pf rs) inputs outputs = Some true) ->
  length L <= total_degree (m + k) c * length S0 ^ (N - 1).
Proof. exact @gkr_count. Qed.
Print Assumptions C67_gkr.

(** The code itself, on circuits of one layer. *)
Theorem C67_one_layer : forall (F : Field) m k (l : Layer F) inputs a outputs pf (S0 : list F) L,
  layer_ok l -> chunked k m (lBGInputs l) inputs -> assignment_of [l] (2 ^ m) inputs a ->
  0 < k -> chunked k m (lBGOutputs l) outputs ->
  output_claim (m + k) m l outputs <> output_claim (m + k) m l (nth 1 a []) ->
  let N := 2 * lBGInputs l + (m + k) in
  causal 1 N pf -> (forall rs, length rs = N -> degrees_ok (m + k) [l] (pf rs)) ->
  NoDup L ->
  (forall rs, In rs L -> In rs (grid S0 N) /\ exists ch, map ch (messages 1 (pf rs)) = rs /\
     GkrVerify ch (m + k) [l] (pf rs) inputs outputs = Some true) ->
  length L <= layer_degree (m + k) l * length S0 ^ (N - 1).
Proof. exact @one_layer_count. Qed.
Print Assumptions C67_one_layer.

(** The MiMC circuit: the fraction is (1000 + 728 bN) / |S0|. *)
Theorem C67_mimc : forall (F : Field) (arks : list F) m k c inputs a outputs pf (S0 : list F) L,
  91 <= length arks -> CreateMimcCircuit arks = Some c -> 0 < k -> chunked k m 1 inputs -> chunked k m 0 outputs ->
  Assign c inputs = Some a ->
  let bN := m + k in
  mle (glued 0 m outputs) (count bN) <> mle (glued 0 m (nth 91 a [])) (count bN) ->
  let N := 272 + 91 * bN in
  causal 91 N pf -> (forall rs, length rs = N -> degrees_ok bN c (pf rs)) ->
  NoDup L ->
  (forall rs, In rs L -> In rs (grid S0 N) /\ exists ch, map ch (messages 91 (pf rs)) = rs /\
     GkrVerifyWith ch false bN c (pf rs) inputs outputs = Some true) ->
  length L <= (1000 + 728 * bN) * length S0 ^ (N - 1).
Proof. exact @mimc_count. Qed.
Print Assumptions C67_mimc.

(** One layer that squares 2 and 3, the wrong output 39 for 9: the prover is right at 2, 3 and 4 and the bound is met. *)
Definition square_layer : Layer Fr := nth 0 square_circuit (NewLayer []).
Definition lucky (rs : list Fr) : Proof Fr :=
  let v := (el 2 + hd (el 0) rs)%F in MkProof [[frs [24; -22; 13]%Z]] [v] [v].
Example C67_ex : let outputs := [frs [4]%Z; frs [39]%Z] in let L := map (fun z => frs [z]) [2;3;4]%Z in
  layer_ok square_layer /\ chunked 1 0 (lBGInputs square_layer) square_inputs /\
  assignment_of [square_layer] (2 ^ 0) square_inputs (assign [square_layer] square_inputs) /\
  chunked 1 0 (lBGOutputs square_layer) outputs /\
  output_claim 1 0 square_layer outputs <> output_claim 1 0 square_layer (nth 1 (assign [square_layer] square_inputs) []) /\
  causal 1 1 lucky /\ (forall rs, length rs = 1 -> degrees_ok 1 [square_layer] (lucky rs)) /\ NoDup L /\
  (forall rs, In rs L -> In rs (grid (frs [0;1;2;3;4]%Z) 1) /\ exists ch, map ch (messages 1 (lucky rs)) = rs /\
     GkrVerify ch 1 [square_layer] (lucky rs) square_inputs outputs = Some true) /\
  length L = layer_degree 1 square_layer * 5 ^ 0.
Proof.
  cbv zeta.
  split.
  { split; [apply NewLayer_wf|]. split; [split; [|intros w Hw; cbn in *; intuition (subst; auto)]|].
    - repeat constructor; cbn; intuition discriminate.
    - split; [left; reflexivity|]. split; [|cbn; lia]. intros g [<-|[]]; apply mul_ok. }
  split; [split; [reflexivity|]; intros t [<-|[<-|[]]]; reflexivity|].
  split.
  { destruct (assign_ok [square_layer] 0 (2 ^ 0) square_inputs) as (a & E & Ha).
    - intros l [<-|[]]. apply NewLayer_wf.
    - repeat split.
    - left. reflexivity.
    - intros t [<-|[<-|[]]]; reflexivity.
    - unfold assign. rewrite E. exact Ha. }
  split; [split; [reflexivity|]; intros t [<-|[<-|[]]]; reflexivity|].
  split; [intros H; apply (f_equal frval) in H; vm_compute in H; discriminate|].
  split; [intros [|i] rs rs' Hi _ _ _; [reflexivity|lia]|].
  split.
  { intros rs _ j l Hl. destruct j as [|[|j]]; try discriminate. injection Hl as <-. split; [reflexivity|].
    intros [|[|i]] p Hp; try discriminate. injection Hp as <-. vm_compute. lia. }
  split.
  { repeat constructor; cbn; intros H; repeat (destruct H as [H|H]; [apply (f_equal (map frval)) in H; vm_compute in H; discriminate|]); exact H. }
  split; [|vm_compute; reflexivity].
  intros rs Hrs. cbn [map In] in Hrs.
  assert (Hz : exists z, In z [2;3;4]%Z /\ rs = frs [z]) by (destruct Hrs as [<-|[<-|[<-|[]]]]; eexists; (split; [|reflexivity]); cbn; auto).
  clear Hrs. destruct Hz as (z & Hz & ->). split.
  - apply grid_in. split; [reflexivity|]. intros y [<-|[]]. apply in_map. cbn in Hz |- *. intuition.
  - exists (fun _ => el z). split; [reflexivity|]. cbn in Hz. intuition; subst z; vm_compute; reflexivity.
Qed.

(** One round of the sum-check with one add gate, the true polynomial being 6 - 10 x; the prover is right at 2 and 3. *)
Example C67_ex2 : let eq := frs [3;-2]%Z in let v := frs [1;1]%Z in let sigma := fun _ : list Fr => frs [12;-15;1]%Z in
  let L := map (fun z => frs [z]) [2;3]%Z in
  tables_ok 0 0 1 [AddGate] [frs [1]%Z] eq v v /\ (forall g : Gate Fr, In g [AddGate] -> degs_ok g) /\
  el 10 <> table_sum (2 ^ 1) (2 ^ 0) [AddGate] [frs [1]%Z] eq v v /\ NoDup L /\
  (forall rs, In rs L -> In rs (grid (frs [0;1;2;3]%Z) 1) /\ exists ch qP qL qR fin, map ch (transcript sigma rs) = rs /\
     Verify ch (el 10) (transcript sigma rs) 1 0 = Some (Accept qP qL qR fin) /\
     fin = combinator 0 0 [AddGate] [frs [1]%Z] eq v v (qL ++ qR ++ qP)) /\
  length L = list_sum (map (phase_deg 0 0 (maxHL (F:=Fr) [AddGate] + 1) (maxHR (F:=Fr) [AddGate] + 1) (maxHP (F:=Fr) [AddGate] + 1)) (seq 0 1)) * 4 ^ 0.
Proof.
  cbv zeta.
  split; [repeat split; try reflexivity; intros t [<-|[]]; reflexivity|].
  split; [intros g [<-|[]]; apply add_ok|].
  split; [intros H; apply (f_equal frval) in H; vm_compute in H; discriminate|].
  split.
  { repeat constructor; cbn; intros H; repeat (destruct H as [H|H]; [apply (f_equal (map frval)) in H; vm_compute in H; discriminate|]); exact H. }
  split; [|vm_compute; reflexivity].
  intros rs Hrs. cbn [map In] in Hrs.
  assert (Hz : exists z, In z [2;3]%Z /\ rs = frs [z]) by (destruct Hrs as [<-|[<-|[]]]; eexists; (split; [|reflexivity]); cbn; auto).
  clear Hrs. destruct Hz as (z & Hz & ->). split.
  - apply grid_in. split; [reflexivity|]. intros y [<-|[]]. apply in_map. cbn in Hz |- *. intuition.
  - exists (fun _ => el z), (frs [z]), [], []. eexists. split; [reflexivity|].
    destruct Hz as [<-|[<-|[]]]; (split; [reflexivity|apply fr_eq; vm_compute; reflexivity]).
Qed.
