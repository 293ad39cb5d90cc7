(** Lemmas about the GKR verifier: forged proofs, ignored outputs, panics. *)
From Coq Require Import List Arith Lia Bool Ring Field.
From Verif Require Import Field Go MCommon Spec LSpec LCommon MPoly LPoly LPoly2 LPoly3 Trans LForkJoin MCircuit SpecCircuit LCircuit LCircuit2
  LCircuit3 MSumcheck LSumcheck SpecSumcheck LSumcheck4 LSumcheck5 MSumPar SpecSumPar LSumPar4 MGkr SpecGkr LGkr LGkr2 LGkr3.
Import ListNotations.

Section L.
  Context {F : Field}.
  Add Field FfieldGkr4 : (f_theory F).
  Open Scope F_scope.
  Variable ch : list F -> F.

  Lemma answers_snoc (p : list F) : forall cs v e, answers ch v cs e -> p <> [] -> e = peval p 0 + peval p 1 ->
    answers ch v (cs ++ [p]) (peval p (ch p)).
  Proof.
    induction cs as [|c cs IH]; cbn [answers app].
    - intros v e -> Hp He. auto.
    - intros v e (H1 & H2 & H3) Hp He. eauto using IH.
  Qed.

  Lemma eqprod_app_r (q h e : list F) : (length q <= length h)%nat -> eqprod q (h ++ e) = eqprod q h.
  Proof.
    revert h; induction q as [|x q IH]; intros [|y h]; cbn [length eqprod app]; intros H; try lia; auto.
    rewrite IH by lia. reflexivity.
  Qed.

  (** ** Forged proofs *)

  (** [pf] with the polynomial [p] added to the sum-check proof of layer [j]. *)
  Definition forge (pf : Proof F) (j : nat) (p : list F) : Proof F :=
    MkProof (upd (SumcheckProofs pf) j (nth j (SumcheckProofs pf) [] ++ [p])) (ClaimsLeft pf) (ClaimsRight pf).

  Lemma forge_accepted bN (c : list (Layer F)) pf inputs outputs : (2 <= length c)%nat ->
    GkrVerifyWith ch false bN c pf inputs outputs = Some true ->
    exists tot, forall p, p <> [] -> tot = peval p 0 + peval p 1 -> peval p (ch p) <> tot ->
      forall inputs', GkrVerify ch bN c (forge pf (length c - 2) p) inputs' outputs = Some true.
  Proof.
    intros Hc HV. apply GkrVerify_inv in HV; [|destruct c; [cbn in Hc; lia|discriminate]|reflexivity].
    destruct HV as (l & claim & sp & qP & qL & qR & tot0 & vl & vr & sts & zP & zL & zR & al & ar &
      E1 & E2 & E3 & E4 & E5 & E6 & E7 & E8 & E9 & E10 & _).
    destruct (length c - 1)%nat as [|j] eqn:Ej; [lia|]. replace (length c - 2)%nat with j by lia.
    pose proof (verifyLayers_inv _ _ _ _ _ _ _ _ _ _ E10) as
      (cl & cr & spj & lj & qP' & qL' & qR' & tot & vlj & vrj & stsj & I1 & I2 & I3 & I4 & I5 & I6 & I7 & I8 & I9 & I10 & _).
    exists tot. intros p Hp Ht Hne inputs'.
    assert (Hj : (j < length (SumcheckProofs pf))%nat) by (apply nth_error_Some; congruence).
    unfold GkrVerify, GkrVerifyWith.
    assert (Eg : gosub (length c) 1 = Some (S j)) by (unfold gosub; destruct (Nat.leb_spec 1 (length c)); [f_equal; lia|lia]).
    rewrite Eg. unfold get at 1. rewrite E1.
    change (GetInitialQPrimeAndQ bN (lBGOutputs l)) with (count (F:=F) bN, count (F:=F) (lBGOutputs l)). cbv beta iota zeta.
    rewrite E2. unfold get, forge. cbn [SumcheckProofs ClaimsLeft ClaimsRight].
    rewrite nth_error_upd. destruct (Nat.eqb_spec j (S j)) as [|_]; [lia|]. cbn [andb]. rewrite E3, E4.
    assert (Lc : length (count (F:=F) bN) = bN) by (unfold count; rewrite map_length, seq_length; reflexivity).
    rewrite EvalEq_spec by lia. rewrite E6, E7, E8, E9, feqb_refl.
    cbn [verifyLayers]. replace (j + 1)%nat with (S j) by lia. unfold get. cbn [SumcheckProofs ClaimsLeft ClaimsRight].
    rewrite I1, I2. cbv zeta. rewrite nth_error_upd, Nat.eqb_refl. cbn [andb].
    destruct (Nat.ltb_spec j (length (SumcheckProofs pf))); [|lia]. rewrite I4.
    rewrite (nth_error_nth _ _ [] I3). apply Verify_accept in I5. destruct I5 as (A1 & A2 & A3 & A4).
    assert (EV : Verify ch (cr * ch [cl; cr] + cl) (spj ++ [p]) bN (lBGInputs lj) = Some (Accept (qP' ++ [ch p]) qL' qR' (peval p (ch p)))).
    { apply Verify_accept. split; [eapply answers_snoc; eauto|]. split; [exact A2|]. split; [exact A3|].
      rewrite map_app, A4, <- !app_assoc. reflexivity. }
    rewrite EV. rewrite EvalEq_spec by (rewrite app_length; cbn; lia). rewrite eqprod_app_r by exact I6.
    rewrite I7, I8, I9, I10. destruct (peval p (ch p) =? tot) eqn:Eq; [apply feqb_eq in Eq; congruence|]. reflexivity.
  Qed.

  Lemma forge_poly : (1 + 1 : F) <> 0 -> escapes_zero ch -> forall tot : F,
    exists p : list F, p <> [] /\ tot = peval p 0 + peval p 1 /\ peval p (ch p) <> tot.
  Proof.
    intros H2 (p0 & P1 & P2 & P3) tot. destruct (f_eq_dec tot 0) as [->|Ht].
    - exists p0. auto.
    - exists [tot * finv (1 + 1)].
      assert (Ep : forall x, peval [tot * finv (1 + 1)] x = tot * finv (1 + 1)).
      { intros x. unfold peval. unfold sumn. cbn. field. exact H2. }
      rewrite !Ep. split; [discriminate|]. split; [field; exact H2|].
      intros E. apply Ht. assert (Et : tot = tot * finv (1 + 1) + tot * finv (1 + 1)) by (field; exact H2).
      rewrite E in Et. transitivity (tot + tot - tot); [ring|]. rewrite <- Et. ring.
  Qed.

  (** With one layer only the two verifiers agree. *)
  Lemma single_layer mm bN (l : Layer F) pf inputs outputs :
    GkrVerifyWith ch mm bN [l] pf inputs outputs = GkrVerify ch bN [l] pf inputs outputs.
  Proof. reflexivity. Qed.

  (** The code rejects only what the repaired verifier rejects. *)
  Lemma verifyLayers_reject (c : list (Layer F)) bN pf j : forall qP qL qR,
    match verifyLayers ch true c bN pf j qP qL qR with
    | Some (inl false) => verifyLayers ch false c bN pf j qP qL qR = Some (inl false)
    | Some (inl true) => verifyLayers ch false c bN pf j qP qL qR = Some (inl false)
    | r => verifyLayers ch false c bN pf j qP qL qR = r
    end.
  Proof.
    induction j as [|j IH]; intros qP qL qR; cbn [verifyLayers]; [reflexivity|].
    destruct (get _ _); [|reflexivity]. destruct (get _ _); [|reflexivity]. destruct (get _ _); [|reflexivity]. destruct (get _ _); [|reflexivity].
    cbv zeta. destruct (Verify _ _ _ _ _) as [[|qP' qL' qR' tot]|]; try reflexivity.
    destruct (EvalEq _ _); [|reflexivity]. destruct (get _ _); [|reflexivity]. destruct (get _ _); [|reflexivity].
    destruct (evaluateStaticTablesLinCombs _ _ _ _ _ _ _); [|reflexivity]. destruct (EvaluateCombinator _ _ _ _ _); [|reflexivity].
    destruct (_ =? _); [apply IH|reflexivity].
  Qed.

  Lemma code_vs_repaired bN (c : list (Layer F)) pf inputs outputs :
    (GkrVerify ch bN c pf inputs outputs = Some false -> GkrVerifyWith ch false bN c pf inputs outputs = Some false) /\
    (GkrVerify ch bN c pf inputs outputs = None <-> GkrVerifyWith ch false bN c pf inputs outputs = None) /\
    (GkrVerifyWith ch false bN c pf inputs outputs = Some true -> GkrVerify ch bN c pf inputs outputs = Some true).
  Proof.
    unfold GkrVerify, GkrVerifyWith. destruct (gosub (length c) 1) as [last|]; [|intuition discriminate].
    destruct (get c last) as [l|]; [|intuition discriminate].
    destruct (GetInitialQPrimeAndQ bN (lBGOutputs l)) as [qPrime q].
    destruct (EvaluateChunked _ _); [|intuition discriminate]. destruct (get _ _); [|intuition discriminate].
    destruct (Verify _ _ _ _ _) as [[|qP' qL' qR' tot]|]; [intuition discriminate| |intuition discriminate].
    destruct (EvalEq _ _); [|intuition discriminate]. destruct (get _ _); [|intuition discriminate]. destruct (get _ _); [|intuition discriminate].
    destruct (evaluateStaticTables _ _ _ _); [|intuition discriminate]. destruct (EvaluateCombinator _ _ _ _ _); [|intuition discriminate].
    destruct (_ =? _); [|intuition discriminate].
    pose proof (verifyLayers_reject c bN pf last qP' qL' qR') as H.
    destruct (verifyLayers ch true c bN pf last qP' qL' qR') as [[[]|]|]; rewrite H; intuition (discriminate || auto).
  Qed.

  (** ** Ignored outputs *)

  Lemma chi_top (n i : nat) (q : list F) : (i < 2 ^ n)%nat -> chi (to_bits (S n) i) (1 :: q) = 0.
  Proof. intros H. cbn [to_bits]. destruct (Nat.leb_spec (2 ^ n) i); [lia|]. cbn [chi]. ring. Qed.

  Lemma count_S n : exists q, count (F:=F) (S n) = 1 :: q.
  Proof. unfold count. cbn [seq map]. eexists. f_equal. cbn. ring. Qed.

  Lemma count_length n : length (count (F:=F) n) = n.
  Proof. unfold count. rewrite map_length, seq_length. reflexivity. Qed.

  Lemma mle_rows (t : list F) q x : mle t (q ++ x) = sumn (2 ^ length q) (fun o => sumn (2 ^ length x) (fun h =>
    nth (o * 2 ^ length x + h) t 0 * (chi (to_bits (length q) o) q * chi (to_bits (length x) h) x))).
  Proof.
    rewrite mle_app, sum_cube. apply sumn_ext. intros o Ho. rewrite sum_cube. apply sumn_ext. intros h Hh.
    rewrite !bits_val_to_bits by assumption. ring.
  Qed.

  (** The entries the claim depends on: both top bits set. *)
  Lemma output_claim_ext bN m (l : Layer F) outs outs' : (0 < bN)%nat ->
    (forall o h, (o < 2 ^ lBGOutputs l)%nat -> (2 ^ lBGOutputs l <= 2 * o + 1)%nat -> (h < 2 ^ bN)%nat -> (2 ^ bN <= 2 * h)%nat ->
      nth (o * 2 ^ bN + h) (glued (lBGOutputs l) m outs) 0 = nth (o * 2 ^ bN + h) (glued (lBGOutputs l) m outs') 0) ->
    output_claim bN m l outs = output_claim bN m l outs'.
  Proof.
    intros Hb H. unfold output_claim. rewrite !mle_rows, !count_length. apply sumn_ext. intros o Ho. apply sumn_ext. intros h Hh.
    destruct bN as [|b']; [lia|]. destruct (le_lt_dec (2 ^ b') h) as [Hge|Hlt].
    2: { destruct (count_S b') as (q & ->). rewrite (chi_top b' h) by exact Hlt. ring. }
    destruct (lBGOutputs l) as [|b] eqn:Eb.
    - rewrite H; [reflexivity|lia|cbn; lia|exact Hh|cbn [Nat.pow]; lia].
    - destruct (le_lt_dec (2 ^ b) o) as [Hge'|Hlt].
      + rewrite H; [reflexivity|exact Ho|cbn [Nat.pow]; lia|exact Hh|cbn [Nat.pow]; lia].
      + destruct (count_S b) as (q & ->). rewrite (chi_top b o) by exact Hlt. ring.
  Qed.

  Lemma outputs_ignored mm m k (c : list (Layer F)) l pf inputs outs outs' : (0 < k)%nat ->
    nth_error c (length c - 1) = Some l -> chunked k m (lBGOutputs l) outs -> chunked k m (lBGOutputs l) outs' ->
    (forall o h, (o < 2 ^ lBGOutputs l)%nat -> (2 ^ lBGOutputs l <= 2 * o + 1)%nat -> (h < 2 ^ (m + k))%nat -> (2 ^ (m + k) <= 2 * h)%nat ->
      nth (o * 2 ^ (m + k) + h) (glued (lBGOutputs l) m outs) 0 = nth (o * 2 ^ (m + k) + h) (glued (lBGOutputs l) m outs') 0) ->
    GkrVerifyWith ch mm (m + k) c pf inputs outs = GkrVerifyWith ch mm (m + k) c pf inputs outs'.
  Proof.
    intros Hk Hl [O1 O2] [O1' O2'] H. apply output_claim_ext in H; [|lia]. unfold GkrVerifyWith.
    destruct (gosub (length c) 1) as [last|] eqn:Eg; [|reflexivity].
    assert (last = (length c - 1)%nat) as -> by (unfold gosub in Eg; destruct (1 <=? length c)%nat; congruence).
    assert (Egc : get c (length c - 1) = Some l) by exact Hl. rewrite Egc.
    change (GetInitialQPrimeAndQ (m + k) (lBGOutputs l)) with (count (F:=F) (m + k), count (F:=F) (lBGOutputs l)). cbv beta iota zeta.
    destruct (evaluate_chunked_spec F outs (count (lBGOutputs l) ++ count (m + k)) k (lBGOutputs l + m) Hk O1) as [_ EC].
    { intros t Ht. rewrite Nat.pow_add_r. auto. } { rewrite app_length, !count_length. lia. }
    destruct (evaluate_chunked_spec F outs' (count (lBGOutputs l) ++ count (m + k)) k (lBGOutputs l + m) Hk O1') as [_ EC'].
    { intros t Ht. rewrite Nat.pow_add_r. auto. } { rewrite app_length, !count_length. lia. }
    rewrite EC, EC'. unfold output_claim, glued in H. rewrite H. reflexivity.
  Qed.

  (** Two different output batches accepted with one proof. *)
  Lemma two_outputs mm m k (c : list (Layer F)) l pf inputs outs : (0 < k)%nat -> (1 : F) <> 0 ->
    nth_error c (length c - 1) = Some l -> chunked k m (lBGOutputs l) outs ->
    exists outs', chunked k m (lBGOutputs l) outs' /\ nth 0 (nth 0 outs' []) 0 <> nth 0 (nth 0 outs []) 0 /\
      GkrVerifyWith ch mm (m + k) c pf inputs outs' = GkrVerifyWith ch mm (m + k) c pf inputs outs.
  Proof.
    intros Hk H1 Hl Ho. pose proof Ho as [O1 O2]. pose proof (pow_pos k) as Pk. pose proof (pow_pos m) as Pm.
    pose proof (pow_pos (lBGOutputs l)) as Pb.
    destruct outs as [|t0 outs]; [cbn in O1; lia|].
    pose proof (O2 t0 (or_introl eq_refl)) as L0.
    destruct t0 as [|x t0]; [cbn in L0; destruct (2 ^ lBGOutputs l)%nat, (2 ^ m)%nat; cbn in L0; lia|].
    exists (((x + 1) :: t0) :: outs).
    assert (Ho' : chunked k m (lBGOutputs l) (((x + 1) :: t0) :: outs)).
    { split; [exact O1|]. intros t [<-|Ht]; [exact L0|apply O2; right; exact Ht]. }
    split; [exact Ho'|]. cbn [nth]. split.
    { intros E. apply H1. transitivity (x + 1 - x); [ring|]. rewrite E. ring. }
    apply (outputs_ignored mm m k c l); auto. intros o h Hob _ Hh Hh2. unfold glued, interleave. cbn [length]. cbn [length] in O1. rewrite O1.
    assert (Hlt : (o * 2 ^ (m + k) + h < 2 ^ (lBGOutputs l + m) * 2 ^ k)%nat).
    { replace (2 ^ (lBGOutputs l + m) * 2 ^ k)%nat with (2 ^ lBGOutputs l * 2 ^ (m + k))%nat by (rewrite !Nat.pow_add_r; lia).
      apply mul_add_lt; assumption. }
    rewrite !nth_map_seq by exact Hlt.
    set (i := (o * 2 ^ (m + k) + h)%nat) in *.
    destruct ((i mod 2 ^ k)%nat) as [|r] eqn:Er; [|reflexivity]. cbn [nth].
    destruct ((i / 2 ^ k)%nat) as [|r] eqn:Eq; [|reflexivity]. exfalso.
    pose proof (Nat.div_mod i (2 ^ k) ltac:(lia)) as D. rewrite Er, Eq in D.
    pose proof (pow_pos (m + k)). lia.
  Qed.

  (** ** Panics *)
  Lemma verify_empty mm bN (c : list (Layer F)) inputs outputs :
    GkrVerifyWith ch mm bN c (MkProof [] [] []) inputs outputs = None.
  Proof.
    unfold GkrVerifyWith. destruct (gosub _ _); [|reflexivity]. destruct (get _ _); [|reflexivity].
    destruct (GetInitialQPrimeAndQ _ _). destruct (EvaluateChunked _ _); [|reflexivity].
    destruct n; reflexivity.
  Qed.

  Lemma verify_one_chunk mm bN (c : list (Layer F)) pf inputs out :
    GkrVerifyWith ch mm bN c pf inputs [out] = None.
  Proof.
    unfold GkrVerifyWith. destruct (gosub _ _); [|reflexivity]. destruct (get _ _); [|reflexivity].
    destruct (GetInitialQPrimeAndQ _ _). rewrite EvaluateChunked_one. reflexivity.
  Qed.

  Lemma Verify_total claim sp bN bG : length sp = (2 * bG + bN)%nat -> ~ In [] sp ->
    exists r, Verify ch claim sp bN bG = Some r /\
      match r with Reject => True | Accept qP qL qR _ => length qP = bN /\ length qL = bG /\ length qR = bG end.
  Proof.
    intros HL Hn. destruct (Verify ch claim sp bN bG) as [r|] eqn:E.
    - exists r. split; [reflexivity|]. destruct r as [|qP qL qR fin]; [exact I|].
      apply Verify_accept in E. destruct E as (_ & E1 & E2 & E3).
      apply (f_equal (@length F)) in E3. rewrite map_length, !app_length in E3. lia.
    - exfalso. apply Verify_panic in E. destruct E as [(pre & post & e & -> & _)|[H _]]; [|lia].
      apply Hn. apply in_app_iff. right. left. reflexivity.
  Qed.

  Lemma get_total {A} (l : list A) i : (i < length l)%nat -> exists x, get l i = Some x.
  Proof. intros H. unfold get. destruct (nth_error l i) eqn:E; [eauto|]. apply nth_error_None in E. lia. Qed.

  Lemma combinator_total (gates : list (Gate F)) sts vl vr e : length sts = length gates ->
    exists r, EvaluateCombinator vl vr e gates sts = Some r.
  Proof. intros H. rewrite combinator_sum by lia. eauto. Qed.

  Section Total.
    Variables (mm : bool) (bN b : nat) (c : list (Layer F)) (pf : Proof F).
    Hypothesis Hwf : forall l, In l c -> wf_layer l.
    Hypothesis Hfits : fits b c.
    Hypothesis Hshape : proof_shape c bN pf.

    Lemma layers_total j : forall l qP qL qR, nth_error c j = Some l -> length qP = bN -> length qL = lBGInputs l -> length qR = lBGInputs l ->
      exists r, verifyLayers ch mm c bN pf j qP qL qR = Some r /\
        match r with inl _ => True | inr (zP, zL, zR) => length zP = bN /\ length zL = b /\ length zR = b end.
    Proof.
      destruct Hshape as (S1 & S2 & S3 & S4).
      induction j as [|j IH]; intros l qP qL qR Hl LP LL LR.
      - exists (inr (qP, qL, qR)). split; [reflexivity|].
        assert (lBGInputs l = b) by (destruct c; [discriminate|]; injection Hl as ->; exact (proj1 Hfits)). lia.
      - assert (Hj : (S j < length c)%nat) by (apply nth_error_Some; congruence).
        cbn [verifyLayers]. replace (j + 1)%nat with (S j) by lia.
        destruct (get_total (ClaimsLeft pf) (S j) ltac:(lia)) as (cl & ->).
        destruct (get_total (ClaimsRight pf) (S j) ltac:(lia)) as (cr & ->). cbv zeta.
        destruct (get_total (SumcheckProofs pf) j ltac:(lia)) as (sp & Esp). rewrite Esp.
        destruct (get_total c j ltac:(lia)) as (l' & El'). rewrite El'.
        pose proof (fits_next c b j l' l Hfits El' Hl) as Hbb.
        destruct (S4 j l' sp El' Esp) as [Q1 Q2].
        destruct (Verify_total (cr * ch [cl; cr] + cl) sp bN (lBGInputs l') Q1 Q2) as (r & -> & Hr).
        destruct r as [|qP' qL' qR' tot]; [exists (inl false); auto|]. destruct Hr as (R1 & R2 & R3).
        rewrite EvalEq_spec by lia.
        destruct (get_total (ClaimsLeft pf) j ltac:(lia)) as (vl & ->).
        destruct (get_total (ClaimsRight pf) j ltac:(lia)) as (vr & ->).
        pose proof (Hwf l' (nth_error_In _ _ El')) as Hwf'. rewrite Hbb in LL, LR.
        destruct (statics_ok l' qL Hwf' LL) as (tL & EL & LtL & _).
        destruct (statics_ok l' qR Hwf' LR) as (tR & ER & LtR & _).
        rewrite (evaluateStaticTablesLinCombs_ok l' qL qR tL tR qL' qR' (ch [cl; cr])) by assumption.
        match goal with |- context [EvaluateCombinator vl vr ?e (lGates l') ?s] => destruct (combinator_total (lGates l') s vl vr e) as (ev & ->) end.
        { rewrite !map_length, seq_length. reflexivity. }
        destruct (tot =? ev); [apply (IH l'); auto|exists (inl mm); auto].
    Qed.
  End Total.

  Lemma verify_total mm m k b (c : list (Layer F)) l pf inputs outputs : (0 < k)%nat ->
    (forall l, In l c -> wf_layer l) -> fits b c -> nth_error c (length c - 1) = Some l ->
    chunked k m b inputs -> chunked k m (lBGOutputs l) outputs -> proof_shape c (m + k) pf ->
    exists verdict, GkrVerifyWith ch mm (m + k) c pf inputs outputs = Some verdict.
  Proof.
    intros Hk Hwf Hfits Hl [I1 I2] [O1 O2] HS.
    assert (Hc : (length c - 1 < length c)%nat) by (apply nth_error_Some; congruence).
    pose proof HS as (S1 & S2 & S3 & S4).
    unfold GkrVerifyWith. unfold gosub. destruct (Nat.leb_spec 1 (length c)); [|lia].
    unfold get at 1. rewrite Hl.
    change (GetInitialQPrimeAndQ (m + k) (lBGOutputs l)) with (count (F:=F) (m + k), count (F:=F) (lBGOutputs l)). cbv beta iota zeta.
    destruct (evaluate_chunked_spec F outputs (count (lBGOutputs l) ++ count (m + k)) k (lBGOutputs l + m) Hk O1) as [_ EC].
    { intros t Ht. rewrite Nat.pow_add_r. auto. } { rewrite app_length, !count_length. lia. }
    rewrite EC. destruct (get_total (SumcheckProofs pf) (length c - 1) ltac:(lia)) as (sp & Esp). rewrite Esp.
    destruct (S4 _ l sp Hl Esp) as [Q1 Q2].
    match goal with |- context [Verify ch ?cl sp _ _] => destruct (Verify_total cl sp (m + k) (lBGInputs l) Q1 Q2) as (r & -> & Hr) end.
    destruct r as [|qP' qL' qR' tot]; [exists false; reflexivity|]. destruct Hr as (R1 & R2 & R3).
    rewrite EvalEq_spec by (rewrite count_length; lia).
    destruct (get_total (ClaimsLeft pf) (length c - 1) ltac:(lia)) as (vl & ->).
    destruct (get_total (ClaimsRight pf) (length c - 1) ltac:(lia)) as (vr & ->).
    pose proof (Hwf l (nth_error_In _ _ Hl)) as Hwf'.
    destruct (statics_ok l (count (lBGOutputs l)) Hwf' (count_length _)) as (t & Et & Lt & _).
    rewrite (evaluateStaticTables_ok l _ t qL' qR' Hwf' (count_length _) Et R2 R3).
    match goal with |- context [EvaluateCombinator vl vr ?e (lGates l) ?s] => destruct (combinator_total (lGates l) s vl vr e) as (ev & ->) end.
    { rewrite map_length. exact Lt. }
    destruct (tot =? ev); [|exists false; reflexivity].
    destruct (layers_total mm (m + k) b c pf Hwf Hfits HS (length c - 1) l qP' qL' qR' Hl R1 R2 R3) as (r & -> & Hr).
    destruct r as [bb|[[zP zL] zR]]; [exists bb; reflexivity|]. destruct Hr as (Z1 & Z2 & Z3).
    destruct (evaluate_mixed_chunked_spec F inputs zP zL zR k m b Hk I1) as [_ EM]; auto; try lia.
    { intros u Hu. rewrite Nat.pow_add_r. auto. }
    rewrite EM. destruct (get_total (ClaimsLeft pf) 0 ltac:(lia)) as (v0 & ->).
    destruct (get_total (ClaimsRight pf) 0 ltac:(lia)) as (w0 & ->). eexists; reflexivity.
  Qed.
End L.

Section W.
  Context {F : Field}.
  Lemma mtWhole_follows (ch : list F -> F) nCore : follows_machine ch nCore (mtWhole ch).
  Proof.
    intros p n k bG K c out (H1 & H2 & H3 & H4 & H5 & H6 & _) HP _ _. unfold mtWhole.
    destruct (tEq p) as [|e te] eqn:Ee; [cbn in H2; lia|]. destruct (tVL p) as [|v tv] eqn:Ev; [cbn in H3; lia|].
    cbn [nth]. rewrite (H5 e) by (left; reflexivity). rewrite (H6 v) by (left; reflexivity).
    rewrite !Nat.log2_pow2 by lia. replace (bG + k - k)%nat with bG by lia. exact HP.
  Qed.
End W.
