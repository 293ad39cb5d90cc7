(** The count for the GKR verifier without its early return, for the code on circuits of one layer, and for the MiMC circuit. *)
From Coq Require Import List Arith Lia Bool Ring Field.
From Verif Require Import Field Go Spec LSpec MCircuit SpecCircuit MSumcheck SpecSumcheck MSumPar SpecSumPar MGkr SpecGkr MHash SpecInter
  LGrid LSumcheck4 LSumcheck5 LGkr LGkr2 LGkr3 LGkr5 LCircuit3 LHash3 LSnark11 LInter LInter2.
Import ListNotations.

Section L.
  Context {F : Field}.
  Add Field FfieldInter3 : (f_theory F).
  Open Scope F_scope.

  Lemma gkr_count m k b (c : list (Layer F)) inputs a outputs llast pf (S0 : list F) L :
    (forall l, In l c -> layer_ok l) -> fits b c -> chunked k m b inputs -> assignment_of c (2 ^ m) inputs a ->
    c <> [] -> (0 < k)%nat -> nth_error c (length c - 1) = Some llast -> chunked k m (lBGOutputs llast) outputs ->
    output_claim (m + k) m llast outputs <> output_claim (m + k) m llast (nth (length c) a []) ->
    let N := challenge_count (m + k) c in
    causal (length c) N pf -> (forall rs, length rs = N -> degrees_ok (m + k) c (pf rs)) ->
    NoDup L ->
    (forall rs, In rs L -> In rs (grid S0 N) /\ exists ch, map ch (messages (length c) (pf rs)) = rs /\
       GkrVerifyWith ch false (m + k) c (pf rs) inputs outputs = Some true) ->
    (length L <= total_degree (m + k) c * length S0 ^ (N - 1))%nat.
  Proof.
    intros Hl Hfits Hin Ha Hc Hk Hlast Hout Hne N Hcau Hdeg HL HA.
    assert (HLs : forall l, In l c -> wf_layer l /\ gates_once l) by (intros l H; destruct (Hl l H) as (X & Y & _); split; assumption).
    assert (Lq : forall n, length (count (F:=F) n) = n) by (intros n; unfold count; rewrite map_length, seq_length; reflexivity).
    apply (collisions_count m k b c inputs a Hl Hfits Hin Ha (count (lBGOutputs llast)) (count (m + k)) (Lq _) pf S0 Hcau Hdeg L HL).
    intros rs Hrs. destruct (HA rs Hrs) as (Hg & ch & Hch & HV). split; [exact Hg|]. exists ch. split; [exact Hch|].
    apply (gkr_sound_from ch m k b c inputs a (pf rs) HLs Hfits Hin Ha llast (count (lBGOutputs llast)) (count (m + k)) (glued (lBGOutputs llast) m outputs)); auto.
    eapply verify_accepted; eauto.
  Qed.

  Lemma one_layer_count m k (l : Layer F) inputs a outputs pf (S0 : list F) L :
    layer_ok l -> chunked k m (lBGInputs l) inputs -> assignment_of [l] (2 ^ m) inputs a ->
    (0 < k)%nat -> chunked k m (lBGOutputs l) outputs ->
    output_claim (m + k) m l outputs <> output_claim (m + k) m l (nth 1 a []) ->
    let N := (2 * lBGInputs l + (m + k))%nat in
    causal 1 N pf -> (forall rs, length rs = N -> degrees_ok (m + k) [l] (pf rs)) ->
    NoDup L ->
    (forall rs, In rs L -> In rs (grid S0 N) /\ exists ch, map ch (messages 1 (pf rs)) = rs /\
       GkrVerify ch (m + k) [l] (pf rs) inputs outputs = Some true) ->
    (length L <= layer_degree (m + k) l * length S0 ^ (N - 1))%nat.
  Proof.
    intros Hl Hin Ha Hk Hout Hne N Hcau Hdeg HL HA.
    assert (EN : challenge_count (m + k) [l] = N) by (unfold challenge_count, N; cbn [map list_sum fold_right length]; lia).
    assert (ED : total_degree (m + k) [l] = layer_degree (m + k) l) by (unfold total_degree; cbn [map list_sum fold_right length]; lia).
    rewrite <- ED. clear ED.
    pose proof (gkr_count m k (lBGInputs l) [l] inputs a outputs l pf S0 L) as H. cbv zeta in H. rewrite EN in H. apply H; auto.
    - intros l' [<-|[]]. exact Hl.
    - cbn. auto.
    - discriminate.
  Qed.

  Lemma mimc_degrees cs (a : F) l : In l (mimc_layers cs a) ->
    lBGInputs l = 1%nat /\ forall bN, layer_degree bN l = (10 + 8 * bN)%nat.
  Proof.
    intros Hin. assert (Hb : lBGInputs l = 1%nat /\ maxHL (lGates l) = 1%nat /\ maxHR (lGates l) = 7%nat /\ maxHP (lGates l) = 7%nat).
    { destruct (mimc_layer_cases _ _ l Hin) as [[a' ->]| ->]; vm_compute; auto. }
    destruct Hb as (Hb & D1 & D2 & D3). split; [exact Hb|]. intros bN. unfold layer_degree, layer_round_degree. rewrite Hb, D1, D2, D3.
    cbn [Nat.mul Nat.add seq map list_sum fold_right].
    assert (E : forall s, (2 <= s)%nat -> fold_right Nat.add 0%nat (map (phase_deg 1 1 2 8 8) (seq s bN)) = (8 * bN)%nat).
    { induction bN as [|bN IH]; intros s Hs; [reflexivity|]. cbn [seq map fold_right]. rewrite IH by lia. unfold phase_deg.
      destruct (Nat.ltb_spec s 1); [lia|]. destruct (Nat.ltb_spec s (1 + 1)); [lia|]. lia. }
    rewrite E by lia. change (phase_deg 1 1 2 8 8 0) with 2%nat. change (phase_deg 1 1 2 8 8 1) with 8%nat. lia.
  Qed.

  Lemma list_sum_const {A} (g : A -> nat) l v : (forall x, In x l -> g x = v) -> list_sum (map g l) = (length l * v)%nat.
  Proof.
    induction l as [|x l IH]; intros H; [reflexivity|]. cbn [map length]. change (list_sum (g x :: map g l)) with (g x + list_sum (map g l))%nat.
    rewrite (H x (or_introl eq_refl)), IH; [lia|]. intros y Hy. apply H. right. exact Hy.
  Qed.

  Lemma mimc_totals (arks : list F) c bN : CreateMimcCircuit arks = Some c -> (91 <= length arks)%nat ->
    challenge_count bN c = (272 + 91 * bN)%nat /\ total_degree bN c = (1000 + 728 * bN)%nat.
  Proof.
    intros Ec HA. rewrite CreateMimcCircuit_ok in Ec by exact HA. apply some_inj in Ec. subst c.
    assert (HL : length (mimc_layers (firstn 90 arks) (nth 90 arks 0)) = 91%nat).
    { unfold mimc_layers. rewrite app_length, map_length, firstn_length. cbn [length]. lia. }
    unfold challenge_count, total_degree.
    rewrite (list_sum_const _ _ (2 + bN)%nat), (list_sum_const _ _ (10 + 8 * bN)%nat), HL; [lia| |].
    - intros l Hl. apply (mimc_degrees _ _ l Hl).
    - intros l Hl. destruct (mimc_degrees _ _ l Hl) as [-> _]. lia.
  Qed.

  Lemma mimc_count (arks : list F) m k c inputs a outputs pf (S0 : list F) L :
    (91 <= length arks)%nat -> CreateMimcCircuit arks = Some c -> (0 < k)%nat -> chunked k m 1 inputs -> chunked k m 0 outputs ->
    Assign c inputs = Some a ->
    let bN := (m + k)%nat in
    mle (glued 0 m outputs) (count bN) <> mle (glued 0 m (nth 91 a [])) (count bN) ->
    let N := (272 + 91 * bN)%nat in
    causal 91 N pf -> (forall rs, length rs = N -> degrees_ok bN c (pf rs)) ->
    NoDup L ->
    (forall rs, In rs L -> In rs (grid S0 N) /\ exists ch, map ch (messages 91 (pf rs)) = rs /\
       GkrVerifyWith ch false bN c (pf rs) inputs outputs = Some true) ->
    (length L <= (1000 + 728 * bN) * length S0 ^ (N - 1))%nat.
  Proof.
    intros HA Ec Hk Hin Hout EA bN Hne N Hcau Hdeg HL H.
    destruct (mimc_totals arks c bN Ec HA) as [TN TD]. pose proof Ec as Ec'.
    rewrite CreateMimcCircuit_ok in Ec' by exact HA. apply some_inj in Ec'.
    assert (HCL : length c = 91%nat).
    { rewrite <- Ec'. unfold mimc_layers. rewrite app_length, map_length, firstn_length. cbn [length]. lia. }
    destruct (assign_ok c 1 (2 ^ m) inputs) as (a' & EA' & Ha).
    { rewrite <- Ec'. intros l Hl. apply (mimc_layer_ok _ _ l Hl). } { rewrite <- Ec'. apply mimc_fits. } { rewrite <- Ec'. apply mimc_right. } { apply Hin. }
    rewrite EA in EA'. apply some_inj in EA'. subst a'.
    assert (Hlast : nth_error c (length c - 1) = Some (mimc_last (nth 90 arks 0))).
    { rewrite HCL, <- Ec'. unfold mimc_layers. rewrite nth_error_app2 by (rewrite map_length, firstn_length; lia).
      rewrite map_length, firstn_length, Nat.min_l by lia. reflexivity. }
    pose proof (gkr_count m k 1 c inputs a outputs (mimc_last (nth 90 arks 0)) pf S0 L) as G. cbv zeta in G.
    fold bN in G. rewrite TN, TD, HCL in G. fold N in G. apply G; auto.
    - rewrite <- Ec'. apply mimc_layer_ok.
    - rewrite <- Ec'. apply mimc_fits.
    - intros E. rewrite E in HCL. discriminate.
    - rewrite HCL in Hlast. exact Hlast.
  Qed.
End L.
