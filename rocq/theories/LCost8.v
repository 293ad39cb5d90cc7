(** The whole GKR verifier (lemmas for PCost2.v). *)
From Coq Require Import List Arith ZArith Lia Bool.
From Verif Require Import Field Go MCommon LCommon MPoly LPoly MCircuit SpecCircuit MSumcheck MGkr SpecGkr MHash MCost SpecCost MCost2 SpecCost2 LCost LCost2 LCost5 LCost6 LCost7 LGkr2.
Import ListNotations.

Section S.
  Context {F : Field}.
  Open Scope F_scope.

  Lemma slice_size {A} (l : list A) a b r : slice l a b = Some r -> length r = (b - a)%nat.
  Proof.
    unfold slice. destruct ((_ <=? _)%nat && (_ <=? _)%nat) eqn:B; [|discriminate]. intros [= <-].
    apply andb_true_iff in B. destruct B as [B1 B2]. apply Nat.leb_le in B1, B2. rewrite firstn_length, skipn_length. lia.
  Qed.

  Section V.
    Variables (h : nat) (ch : list F -> F) (wch : list F -> W F).
    Hypothesis Hch : forall m, wch m = Some (ch m, (h * length m)%nat).

    Lemma w_rounds : forall proof e q x k, Wverify_rounds wch e proof q = Some (x, k) ->
      (k <= rounds_work h proof)%nat /\ forall q' e', x = Some (q', e') -> k = rounds_work h proof /\ length q' = (length q + length proof)%nat.
    Proof.
      induction proof as [|p proof IH]; intros e q x k E.
      { injection E as <- <-. split; [cbn; lia|]. intros q' e' [= <- <-]. split; [reflexivity|cbn; lia]. }
      cbn [Wverify_rounds] in E. unfold rounds_work in *. cbn [map]. change (list_sum (?x :: ?r)) with (x + list_sum r)%nat.
      apply inv_bind in E. destruct E as (a & k1 & k2 & E1 & E & ->). destruct (c_Eval p _ _ _ E1) as [_ ->].
      apply inv_bind in E. destruct E as (b & k3 & k4 & E2 & E & ->). destruct (c_Eval p _ _ _ E2) as [_ ->]. cbv zeta in E.
      destruct (e =? a + b).
      - apply inv_bind in E. destruct E as (r & k5 & k6 & E3 & E & ->). rewrite Hch in E3. injection E3 as <- <-.
        apply inv_bind in E. destruct E as (e2 & k7 & k8 & E4 & E & ->). destruct (c_Eval p _ _ _ E4) as [_ ->].
        destruct (IH _ _ _ _ E) as [L1 L2]. split; [lia|]. intros q' e' Hx. destruct (L2 q' e' Hx) as [-> HL]. rewrite app_length in HL. cbn [length] in HL |- *. split; lia.
      - injection E as <- <-. split; [lia|]. intros q' e' [=].
    Qed.

    Lemma w_Verify claim proof bN bG x k : WVerifyHashing wch claim proof bN bG = Some (x, k) ->
      (k <= rounds_work h proof)%nat /\ forall nP nL nR t, x = Accept nP nL nR t ->
        k = rounds_work h proof /\ length nL = bG /\ length nR = bG /\ length nP = (length proof - 2 * bG)%nat.
    Proof.
      unfold WVerifyHashing. intros E. apply inv_bind in E. destruct E as (r & k1 & k2 & E1 & E & ->). destruct (w_rounds _ _ _ _ _ E1) as [L1 L2].
      destruct r as [[q e]|].
      - apply inv_opt in E. destruct E as (qL & S1 & E). apply inv_opt in E. destruct E as (qR & S2 & E). apply inv_opt in E. destruct E as (qP & S3 & E).
        injection E as <- <-. destruct (L2 q e eq_refl) as [-> HL]. cbn [length] in HL. apply slice_size in S1, S2, S3. split; [lia|].
        intros nP nL nR t [= <- <- <- <-]. repeat split; lia.
      - injection E as <- <-. split; [lia|]. intros nP nL nR t [=].
    Qed.

    Variables (c : list (Layer F)) (gates : list (list (WGate F))) (prices : list (list Price)) (bN b : nat) (pf : Proof F).
    Hypothesis HP : priced_layers c gates prices.
    Hypothesis Hfits : fits b c.
    Hypothesis Hsp : forall j l, nth_error c j = Some l -> length (nth j (SumcheckProofs pf) []) = (2 * lBGInputs l + bN)%nat.

    Lemma w_layers om : forall todo lt qP qL qR x k, nth_error c todo = Some lt -> length qP = bN -> length qL = lBGInputs lt -> length qR = lBGInputs lt ->
      WverifyLayers wch gates om c bN pf todo qP qL qR = Some (x, k) ->
      (k <= inner_sum h bN c prices (SumcheckProofs pf) todo)%nat /\
      forall nP nL nR, x = inr (nP, nL, nR) -> k = inner_sum h bN c prices (SumcheckProofs pf) todo /\
        length nP = bN /\ length nL = b /\ length nR = b.
    Proof.
      induction todo as [|j IH]; intros lt qP qL qR x k Hlt H1 H2 H3 E.
      { cbn [WverifyLayers] in E. injection E as <- <-. split; [cbn; lia|]. intros nP nL nR [= <- <- <-]. split; [reflexivity|].
        assert (lBGInputs lt = b) by (destruct c as [|l0 c']; [discriminate|]; injection Hlt as ->; apply Hfits). repeat split; congruence. }
      cbn [WverifyLayers] in E. unfold inner_sum in *. rewrite seq_S, map_app, list_sum_app. cbn [Nat.add map]. change (list_sum [?x]) with (x + 0)%nat.
      apply inv_opt in E. destruct E as (cl & _ & E). apply inv_opt in E. destruct E as (cr & _ & E). cbv zeta in E.
      apply inv_bind in E. destruct E as (lam & k1 & k2 & E1 & E & ->). rewrite Hch in E1. injection E1 as <- <-. cbn [length].
      apply inv_bind in E. destruct E as (cm & k3 & k4 & E1 & E & ->). injection E1 as <- <-.
      apply inv_opt in E. destruct E as (sp & Gsp & E). apply inv_opt in E. destruct E as (l & Gl & E).
      assert (Hj : nth_error c j = Some l) by exact Gl. rewrite Hj.
      assert (Nsp : nth j (SumcheckProofs pf) [] = sp) by (apply nth_error_nth; exact Gsp). rewrite Nsp. pose proof (Hsp j l Hj) as Lsp. rewrite Nsp in Lsp.
      assert (Ho : lBGOutputs l = lBGInputs lt) by exact (eq_sym (fits_next c b j l lt Hfits Hj Hlt)).
      apply inv_bind in E. destruct E as (res & k5 & k6 & E1 & E & ->). destruct (w_Verify _ _ _ _ _ _ E1) as [L1 L2].
      unfold inner_work. destruct res as [|nP nL nR t].
      { injection E as <- <-. split; [lia|]. intros ? ? ? [=]. }
      destruct (L2 _ _ _ _ eq_refl) as (-> & N1 & N2 & N3). assert (N3' : length nP = bN) by lia.
      apply inv_bind in E. destruct E as (ev & k7 & k8 & E2 & E & ->). destruct (c_EvalEq _ _ _ _ E2) as [_ ->]. rewrite H1.
      apply inv_opt in E. destruct E as (vl & _ & E). apply inv_opt in E. destruct E as (vr & _ & E).
      apply inv_bind in E. destruct E as (sts & k9 & k10 & E3 & E & ->).
      destruct (c_statics l qL qR nL nR _ _ (eq_trans H2 (eq_sym Ho)) (eq_trans H3 (eq_sym Ho)) N1 N2 _ _ E3) as [_ ->].
      apply inv_bind in E. destruct E as (v & k11 & k12 & E4 & E & ->). destruct (HP j l Hj) as [_ HG]. destruct (c_Combinator _ _ _ _ _ _ HG _ _ E4) as [_ ->].
      destruct (t =? v).
      - destruct (IH l _ _ _ _ _ Hj N3' N1 N2 E) as [M1 M2]. unfold inner_work in M1, M2. split; [lia|]. intros nP' nL' nR' Hx. destruct (M2 _ _ _ Hx) as (-> & M3). split; [lia|exact M3].
      - injection E as <- <-. split; [lia|]. intros ? ? ? [=].
    Qed.

    (** A run that goes through does not meet line 99. *)
    Lemma layers_through om bN' : forall todo qP qL qR r k,
      WverifyLayers wch gates false c bN' pf todo qP qL qR = Some (inr r, k) -> WverifyLayers wch gates om c bN' pf todo qP qL qR = Some (inr r, k).
    Proof.
      induction todo as [|j IH]; intros qP qL qR r k E; [exact E|]. cbn [WverifyLayers] in E |- *.
      apply inv_opt in E. destruct E as (cl & -> & E). apply inv_opt in E. destruct E as (cr & -> & E). cbv zeta in E |- *.
      apply inv_bind in E. destruct E as (lam & k1 & k2 & -> & E & ->). cbn [bindW].
      apply inv_bind in E. destruct E as (cm & k3 & k4 & E1 & E & ->). rewrite E1. cbn [bindW].
      apply inv_opt in E. destruct E as (sp & -> & E). apply inv_opt in E. destruct E as (l & -> & E).
      apply inv_bind in E. destruct E as (res & k5 & k6 & -> & E & ->). cbn [bindW].
      destruct res as [|nP nL nR t]; [discriminate E|].
      apply inv_bind in E. destruct E as (ev & k7 & k8 & -> & E & ->). cbn [bindW].
      apply inv_opt in E. destruct E as (vl & -> & E). apply inv_opt in E. destruct E as (vr & -> & E).
      apply inv_bind in E. destruct E as (sts & k9 & k10 & -> & E & ->). cbn [bindW].
      apply inv_bind in E. destruct E as (v & k11 & k12 & -> & E & ->). cbn [bindW].
      destruct (t =? v); [|discriminate E]. rewrite (IH _ _ _ _ _ E). reflexivity.
    Qed.

    Lemma layers_strict bN' : forall todo qP qL qR v k, WverifyLayers wch gates false c bN' pf todo qP qL qR = Some (inl v, k) -> v = false.
    Proof.
      induction todo as [|j IH]; intros qP qL qR v k E; [discriminate E|]. cbn [WverifyLayers] in E.
      apply inv_opt in E. destruct E as (cl & _ & E). apply inv_opt in E. destruct E as (cr & _ & E). cbv zeta in E.
      apply inv_bind in E. destruct E as (lam & k1 & k2 & _ & E & _).
      apply inv_bind in E. destruct E as (cm & k3 & k4 & _ & E & _).
      apply inv_opt in E. destruct E as (sp' & _ & E). apply inv_opt in E. destruct E as (l' & _ & E).
      apply inv_bind in E. destruct E as (res & k5 & k6 & _ & E & _). destruct res as [|nP' nL' nR' t]; [injection E as <- _; reflexivity|].
      apply inv_bind in E. destruct E as (ev & k7 & k8 & _ & E & _).
      apply inv_opt in E. destruct E as (vl & _ & E). apply inv_opt in E. destruct E as (vr & _ & E).
      apply inv_bind in E. destruct E as (sts & k9 & k10 & _ & E & _).
      apply inv_bind in E. destruct E as (x & k11 & k12 & _ & E & _).
      destruct (t =? x); [exact (IH _ _ _ _ _ E)|injection E as <- _; reflexivity].
    Qed.

    Variables (m k : nat) (l : Layer F) (inputs outputs : list (list F)).
    Hypothesis HbN : bN = (m + k)%nat.
    Hypothesis Hl : nth_error c (length c - 1) = Some l.
    Hypothesis Hin : chunked k m b inputs.
    Hypothesis Hout : chunked k m (lBGOutputs l) outputs.

    Lemma w_Gkr om v n : WGkrVerifyWith wch gates om bN c pf inputs outputs = Some (v, n) ->
      (n <= verifier_work h bN m b c prices (SumcheckProofs pf) l)%nat /\
      (om = false -> v = true -> n = verifier_work h bN m b c prices (SumcheckProofs pf) l).
    Proof.
      unfold WGkrVerifyWith. cbv zeta. intros E. apply inv_opt in E. destruct E as (last & G1 & E).
      assert (Hlast : last = (length c - 1)%nat). { revert G1. unfold gosub. destruct (_ <=? _)%nat; [|discriminate]. intros [= <-]. reflexivity. }
      apply inv_opt in E. destruct E as (l' & G2 & E). assert (Hl' : nth_error c last = Some l') by exact G2. rewrite Hlast, Hl in Hl'. injection Hl' as <-.
      unfold GetInitialQPrimeAndQ in E. cbv beta iota zeta in E.
      apply inv_bind in E. destruct E as (claim & k1 & k2 & E1 & E & ->).
      match type of E1 with WEvaluateChunked _ ?q = _ =>
        assert (Lq : length q = (lBGOutputs l + (m + k))%nat) by (rewrite app_length, !map_length, !seq_length; lia);
        destruct (c_EvaluateChunked k m (lBGOutputs l) outputs q Hout Lq _ _ E1) as [_ ->] end. clear E1.
      apply inv_opt in E. destruct E as (sp & Gsp & E). 
      assert (Nsp : nth last (SumcheckProofs pf) [] = sp) by (apply nth_error_nth; exact Gsp). pose proof (Hsp last l ltac:(rewrite Hlast; exact Hl)) as Lsp. rewrite Nsp in Lsp.
      apply inv_bind in E. destruct E as (res & k5 & k6 & E1 & E & ->). destruct (w_Verify _ _ _ _ _ _ E1) as [L1 L2].
      unfold verifier_work, last_work, reading_work. rewrite <- Hlast, Nsp, HbN.
      destruct res as [|nP nL nR t].
      { injection E as <- <-. split; [lia|]. intros _ [=]. }
      destruct (L2 _ _ _ _ eq_refl) as (-> & N1 & N2 & N3). assert (N3' : length nP = bN) by lia.
      apply inv_bind in E. destruct E as (ev & k7 & k8 & E2 & E & ->). destruct (c_EvalEq _ _ _ _ E2) as [_ ->]. rewrite map_length, seq_length.
      apply inv_opt in E. destruct E as (vl & _ & E). apply inv_opt in E. destruct E as (vr & _ & E).
      apply inv_bind in E. destruct E as (sts & k9 & k10 & E3 & E & ->).
      match type of E3 with WevaluateStaticTables _ ?q _ _ = _ =>
        assert (Lq' : length q = lBGOutputs l) by (rewrite map_length, seq_length; reflexivity);
        destruct (c_static l q nL nR Lq' N1 N2 _ _ E3) as [_ ->] end.
      apply inv_bind in E. destruct E as (x & k11 & k12 & E4 & E & ->). destruct (HP last l ltac:(rewrite Hlast; exact Hl)) as [_ HG]. destruct (c_Combinator _ _ _ _ _ _ HG _ _ E4) as [_ ->].
      destruct (t =? x); [|injection E as <- <-; split; [lia|intros _ [=]]].
      apply inv_bind in E. destruct E as (r & k13 & k14 & E5 & E & ->). rewrite HbN in E5, N3' |- *.
      pose proof E5 as E5'. rewrite <- HbN in E5, N3'.
      destruct (w_layers om last l _ _ _ _ _ ltac:(rewrite Hlast; exact Hl) N3' N1 N2 E5) as [M1 M2]. rewrite HbN in M1, M2.
      destruct r as [bo|[[nP' nL'] nR']].
      { injection E as <- <-. split; [lia|]. intros -> ->. discriminate (layers_strict _ _ _ _ _ _ _ E5). }
      destruct (M2 _ _ _ eq_refl) as (-> & M3 & M4 & M5).
      apply inv_bind in E. destruct E as ([xl xr] & k15 & k16 & E6 & E & ->).
      destruct (c_Mixed k m b inputs _ _ _ Hin M3 M4 M5 _ _ E6) as [_ ->].
      apply inv_opt in E. destruct E as (v0 & _ & E). apply inv_opt in E. destruct E as (w0 & _ & E). injection E as <- <-. split; lia.
    Qed.

    Lemma gkr_through om n : WGkrVerifyWith wch gates false bN c pf inputs outputs = Some (true, n) ->
      WGkrVerifyWith wch gates om bN c pf inputs outputs = Some (true, n).
    Proof.
      unfold WGkrVerifyWith. cbv zeta. intros E. apply inv_opt in E. destruct E as (last & -> & E).
      apply inv_opt in E. destruct E as (l' & -> & E). unfold GetInitialQPrimeAndQ in E |- *. cbv beta iota zeta in E |- *.
      apply inv_bind in E. destruct E as (claim & k1 & k2 & -> & E & ->). cbn [bindW].
      apply inv_opt in E. destruct E as (sp & -> & E). 
      apply inv_bind in E. destruct E as (res & k5 & k6 & -> & E & ->). cbn [bindW].
      destruct res as [|nP nL nR t]; [discriminate E|].
      apply inv_bind in E. destruct E as (ev & k7 & k8 & -> & E & ->). cbn [bindW].
      apply inv_opt in E. destruct E as (vl & -> & E). apply inv_opt in E. destruct E as (vr & -> & E).
      apply inv_bind in E. destruct E as (sts & k9 & k10 & -> & E & ->). cbn [bindW].
      apply inv_bind in E. destruct E as (x & k11 & k12 & -> & E & ->). cbn [bindW].
      destruct (t =? x); [|discriminate E].
      apply inv_bind in E. destruct E as (r & k13 & k14 & E5 & E & ->).
      destruct r as [bo|r]; [apply layers_strict in E5; subst bo; discriminate E|].
      rewrite (layers_through om _ _ _ _ _ _ _ E5). cbn [bindW]. rewrite E. reflexivity.
    Qed.

    Lemma verify_bound om v : GkrVerifyWith ch om bN c pf inputs outputs = Some v ->
      exists n, WGkrVerifyWith wch gates om bN c pf inputs outputs = Some (v, n) /\ (n <= verifier_work h bN m b c prices (SumcheckProofs pf) l)%nat.
    Proof.
      intros E. assert (Hc : forall m, erase (wch m) = Some (ch m)) by (intros; rewrite Hch; reflexivity).
      rewrite <- (er_GkrVerify ch wch Hc c gates prices HP) in E. destruct (erased _ _ E) as [n En]. exists n. split; [exact En|]. exact (proj1 (w_Gkr om v n En)).
    Qed.

    Lemma verify_exact om : GkrVerifyWith ch false bN c pf inputs outputs = Some true ->
      WGkrVerifyWith wch gates om bN c pf inputs outputs = Some (true, verifier_work h bN m b c prices (SumcheckProofs pf) l).
    Proof.
      intros E. assert (Hc : forall m, erase (wch m) = Some (ch m)) by (intros; rewrite Hch; reflexivity).
      rewrite <- (er_GkrVerify ch wch Hc c gates prices HP) in E. destruct (erased _ _ E) as [n En].
      rewrite <- (proj2 (w_Gkr false true n En) eq_refl eq_refl). apply gkr_through. exact En.
    Qed.
  End V.
End S.
