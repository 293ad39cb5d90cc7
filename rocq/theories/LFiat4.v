(** Completeness: against every hash function there is a proof of the true outputs. *)
From Coq Require Import List Arith Lia Bool.
From Verif Require Import Field Go MCommon Spec LSpec LCommon MPoly LPoly LPoly2 LPoly3 Trans MCircuit SpecCircuit LCircuit LCircuit2
  LCircuit3 MSumcheck LSumcheck SpecSumcheck LSumcheck4 LSumcheck5 MSumPar SpecSumPar LSumPar4 MGkr SpecGkr SpecInter LGkr LGkr2 LGkr3 LGkr4
  LGrid LSnark11 LInter LInter2 SpecProof LProof LProof2 MRepair SpecRepair LRepair LRepair2 LRepair4 MFiat SpecFiat LFiat LFiat2 LFiat3.
Import ListNotations.

Section L.
  Context {F : Field}.
  Add Field FfieldFiat4 : (f_theory F).
  Open Scope F_scope.

  (** ** Challenges as a function of the messages so far *)
  Section Chain.
    Variable next : list (list F) -> F.

    Fixpoint chain (before msgs : list (list F)) : list F :=
      match msgs with
      | [] => []
      | p :: msgs' => next (before ++ [p]) :: chain (before ++ [p]) msgs'
      end.

    Lemma chain_app x : forall before y, chain before (x ++ y) = chain before x ++ chain (before ++ x) y.
    Proof.
      induction x as [|p x IH]; intros before y; cbn [chain app]; [rewrite app_nil_r; reflexivity|].
      rewrite IH, <- app_assoc. reflexivity.
    Qed.

    Lemma chain_length x : forall before, length (chain before x) = length x.
    Proof. induction x as [|p x IH]; intros before; cbn [chain length]; [reflexivity|]. rewrite IH. reflexivity. Qed.

    (** The rounds of one sum-check. *)
    Lemma rounds_exist (f : list F -> F) (deg : nat -> nat) n : forall x before,
      (forall i y, (i < n)%nat -> length y = i -> poly_deg_le (deg i) (fun t => cube_sum f (n - S i) ((x ++ y) ++ [t]))) ->
      exists ps, map (@length F) ps = map (fun i => S (deg i)) (seq 0 n) /\
        answers_at (cube_sum f n x) ps (chain before ps) (f (x ++ chain before ps)).
    Proof.
      revert deg. induction n as [|n IH]; intros deg x before Hd.
      - exists []. split; [reflexivity|]. cbn [chain answers_at]. unfold cube_sum. cbn [cube suml bpoint map]. ring.
      - destruct (Hd 0%nat [] ltac:(lia) eq_refl) as (p & Lp & Hp). rewrite app_nil_r, Nat.sub_succ, Nat.sub_0_r in Hp. cbv beta in Hp.
        set (r := next (before ++ [p])).
        destruct (IH (fun i => deg (S i)) (x ++ [r]) (before ++ [p])) as (ps & L & HA).
        { intros i y Hi Hy. specialize (Hd (S i) (r :: y) ltac:(lia) ltac:(cbn; lia)). rewrite Nat.sub_succ in Hd. rewrite <- (app_assoc x [r] y). exact Hd. }
        exists (p :: ps). cbn [map seq]. split; [rewrite Lp, L, <- seq_shift, map_map; reflexivity|].
        cbn [chain answers_at]. fold r. split; [intros ->; discriminate|]. split; [rewrite <- !Hp; apply cube_sum_S|].
        rewrite <- Hp, <- app_assoc in *. exact HA.
    Qed.

    Lemma coefficients_map (l : Layer F) bN :
      map (fun i => S (phase_deg (lBGInputs l) (lBGInputs l) (maxHL (lGates l) + 1) (maxHR (lGates l) + 1) (maxHP (lGates l) + 1) i))
        (seq 0 (2 * lBGInputs l + bN)) = coefficients l bN.
    Proof.
      unfold coefficients. replace (2 * lBGInputs l + bN)%nat with (lBGInputs l + (lBGInputs l + bN))%nat by lia.
      rewrite !seq_app, !map_app. set (g := lBGInputs l).
      assert (HC : forall (h : nat -> nat) v s n, (forall i, (s <= i < s + n)%nat -> h i = v) -> map h (seq s n) = repeat v n).
      { clear. intros h v s n. revert s. induction n as [|n IH]; intros s Hh; [reflexivity|]. cbn [seq map repeat]. rewrite Hh, IH by (try (intros i Hi; apply Hh); lia). reflexivity. }
      unfold phase_deg. f_equal; [|f_equal]; apply HC; intros i Hi.
      - destruct (Nat.ltb_spec i g); lia.
      - destruct (Nat.ltb_spec i g); [lia|]. destruct (Nat.ltb_spec i (g + g)); lia.
      - destruct (Nat.ltb_spec i g); [lia|]. destruct (Nat.ltb_spec i (g + g)); lia.
    Qed.

    (** The sum-check of one layer. *)
    Lemma layer_exists (l : Layer F) st qP V bN before :
      layer_ok l -> length st = length (lGates l) ->
      (forall tab, In tab st -> length tab = (2 ^ lBGInputs l * 2 ^ lBGInputs l)%nat) ->
      length qP = bN -> length V = (2 ^ (lBGInputs l + bN))%nat ->
      exists sp qL' qR' qP' tot, map (@length F) sp = coefficients l bN /\
        chain before sp = qL' ++ qR' ++ qP' /\ length qL' = lBGInputs l /\ length qR' = lBGInputs l /\ length qP' = bN /\
        answers_at (table_sum (2 ^ bN) (2 ^ lBGInputs l) (lGates l) st (eqtab qP) V V) sp (qL' ++ qR' ++ qP') tot /\
        EvaluateCombinator (mle V (qL' ++ qP')) (mle V (qR' ++ qP')) (eqprod qP qP') (lGates l) (map (fun t => mle t (qL' ++ qR')) st) = Some tot.
    Proof.
      intros (Hwf & Hg & _ & Hgo & _) HW1 Hst LqP LV.
      assert (HT : tables_ok (lBGInputs l) (lBGInputs l) bN (lGates l) st (eqtab qP) V V).
      { unfold tables_ok. rewrite eqtab_length, LqP. repeat split; auto. intros tab Ht. rewrite Hst, Nat.pow_add_r by exact Ht. reflexivity. }
      set (g := lBGInputs l) in *.
      destruct (rounds_exist (combinator g g (lGates l) st (eqtab qP) V V)
        (phase_deg g g (maxHL (lGates l) + 1) (maxHR (lGates l) + 1) (maxHP (lGates l) + 1)) (2 * g + bN) [] before) as (sp & Lsp & HA).
      { intros i y Hi Hy. cbn [app]. rewrite <- Hy. apply (round_degree g g bN); auto; [intros gt Hin; apply (Hgo gt Hin)|lia]. }
      cbn [app] in HA. unfold g in Lsp. rewrite coefficients_map in Lsp. fold g in Lsp.
      assert (Lch : length (chain before sp) = (2 * g + bN)%nat).
      { rewrite chain_length. apply (f_equal (@length nat)) in Lsp. unfold coefficients in Lsp. rewrite map_length, !app_length, !repeat_length in Lsp. fold g in Lsp. lia. }
      set (rs := chain before sp) in *.
      assert (Ers : rs = firstn g rs ++ firstn g (skipn g rs) ++ skipn (g + g) rs).
      { rewrite <- skipn_add, firstn_skipn, firstn_skipn. reflexivity. }
      exists sp, (firstn g rs), (firstn g (skipn g rs)), (skipn (g + g) rs), (combinator g g (lGates l) st (eqtab qP) V V rs).
      assert (L1 : length (firstn g rs) = g) by (rewrite firstn_length; lia).
      assert (L2 : length (firstn g (skipn g rs)) = g) by (rewrite firstn_length, skipn_length; lia).
      assert (L3 : length (skipn (g + g) rs) = bN) by (rewrite skipn_length; lia).
      split; [exact Lsp|]. split; [exact Ers|]. split; [exact L1|]. split; [exact L2|]. split; [exact L3|].
      rewrite <- Ers. split.
      - pose proof (tables_shape _ _ _ _ _ _ _ _ HT) as HS. rewrite <- psum_table_sum by exact HW1. rewrite (psum_cube _ _ _ _ HS).
        replace (g + g + bN)%nat with (2 * g + bN)%nat by lia. unfold comb. rewrite New_eq. exact HA.
      - pose proof (claims_combinator (lGates l) st (eqtab qP) V V (firstn g rs) (firstn g (skipn g rs)) (skipn (g + g) rs) HW1) as HCC.
        rewrite mle_eqtab in HCC by congruence. rewrite L1, L2, <- Ers in HCC. exact HCC.
    Qed.

    (** ** The layers *)
    Section Circ.
      Variables m k b : nat.
      Variable c : list (Layer F).
      Variable inputs : list (list F).
      Variable a : list (list (list F)).
      Hypothesis Hlayers : forall l, In l c -> layer_ok l.
      Hypothesis Hfits : fits b c.
      Hypothesis Hin : chunked k m b inputs.
      Hypothesis Ha : assignment_of c (2 ^ m) inputs a.

      Local Notation bN := (m + k)%nat.
      Local Notation n := (length c).
      Local Notation TV l j := (glued (lBGInputs l) m (nth j a [])).

      Lemma Hlayers2 : forall l, In l c -> wf_layer l /\ gates_once l.
      Proof. intros l' Hl'. destruct (Hlayers l' Hl') as (X & Y & _). split; assumption. Qed.

      Lemma layers_exist j : forall l qP qL qR before, nth_error c j = Some l ->
        length qP = bN -> length qL = lBGInputs l -> length qR = lBGInputs l ->
        exists sps cls crs, length sps = j /\ length cls = j /\ length crs = j /\
          (forall i l', (i < j)%nat -> nth_error c i = Some l' -> map (@length F) (nth i sps []) = coefficients l' bN) /\
          forall sps' cls' crs',
            let pf := MkProof (sps ++ sps') (cls ++ mle (TV l j) (qL ++ qP) :: cls') (crs ++ mle (TV l j) (qR ++ qP) :: crs') in
            exists zP zL zR, iverifyLayers c pf j qP qL qR (chain before (tail_msgs pf j)) = Some (Some (zP, zL, zR)) /\
              length zP = bN /\ length zL = b /\ length zR = b /\
              nth_error (ClaimsLeft pf) 0 = Some (mle (glued b m inputs) (zL ++ zP)) /\
              nth_error (ClaimsRight pf) 0 = Some (mle (glued b m inputs) (zR ++ zP)).
      Proof.
        induction j as [|j IH]; intros l qP qL qR before Hl LP LL LR.
        - exists [], [], []. split; [reflexivity|]. split; [reflexivity|]. split; [reflexivity|]. split; [intros i l' Hi; lia|].
          intros sps' cls' crs' pf. exists qP, qL, qR. split; [reflexivity|].
          assert (Hb0 : lBGInputs l = b) by (destruct c; [discriminate|]; injection Hl as ->; exact (proj1 Hfits)).
          destruct Ha as (_ & HA0 & _). rewrite <- HA0, <- Hb0. cbn [app pf ClaimsLeft ClaimsRight nth_error]. auto.
        - destruct (nth_error c j) as [l'|] eqn:El'; [|apply nth_error_None in El'; assert (S j < n)%nat by (apply nth_error_Some; congruence); lia].
          pose proof (fits_next c b j l' l Hfits El' Hl) as Hbb.
          pose proof (Hlayers l' (nth_error_In _ _ El')) as Hok. pose proof Hok as (Hwf & Hg & _).
          assert (LL2 : length qL = lBGOutputs l') by congruence. assert (LR2 : length qR = lBGOutputs l') by congruence.
          destruct (statics_ok l' qL Hwf LL2) as (tL & EL & LtL & StL).
          destruct (statics_ok l' qR Hwf LR2) as (tR & ER & LtR & StR).
          destruct (tv_layer m k b c inputs a Hlayers2 Hfits Hin Ha j l' El') as [HT LT].
          set (cl := mle (TV l (S j)) (qL ++ qP)). set (cr := mle (TV l (S j)) (qR ++ qP)).
          set (lam := next (before ++ [[cl; cr]])).
          set (st := map (fun i => lincomb lam (nth i tL []) (nth i tR [])) (seq 0 (length (lGates l')))).
          destruct (layer_exists l' st qP (TV l' j) bN (before ++ [[cl; cr]])) as (sp & qL' & qR' & qP' & tot & Lsp & Hch & L1 & L2 & L3 & HA & HC); auto.
          { unfold st. rewrite map_length, seq_length. reflexivity. }
          { intros tab Ht. apply in_map_iff in Ht. destruct Ht as (i & <- & Hi). apply in_seq in Hi. unfold lincomb. rewrite map_length, seq_length. apply StR. lia. }
          assert (Hsum : table_sum (2 ^ bN) (2 ^ lBGInputs l') (lGates l') st (eqtab qP) (TV l' j) (TV l' j) = cr * lam + cl).
          { rewrite <- LP in HT |- *. unfold st. rewrite (layer_sum2 l' qL qR qP tL tR _ _ lam Hwf Hg LL2 LR2 EL ER HT).
            unfold cr, cl. rewrite Hbb. reflexivity. }
          rewrite Hsum in HA.
          destruct (IH l' qP' qL' qR' ((before ++ [[cl; cr]]) ++ sp) eq_refl L3 L1 L2) as (sps & cls & crs & K1 & K2 & K3 & K4 & K5).
          exists (sps ++ [sp]), (cls ++ [mle (TV l' j) (qL' ++ qP')]), (crs ++ [mle (TV l' j) (qR' ++ qP')]).
          rewrite !app_length, K1, K2, K3. cbn [length]. split; [lia|]. split; [lia|]. split; [lia|]. split.
          { intros i l2 Hi Hl2. destruct (Nat.eq_dec i j) as [->|Hne].
            - rewrite El' in Hl2. injection Hl2 as <-. rewrite app_nth2, K1, Nat.sub_diag by lia. exact Lsp.
            - rewrite app_nth1 by lia. apply K4; [lia|exact Hl2]. }
          intros sps' cls' crs'. cbv zeta.
          destruct (K5 (sp :: sps') (cl :: cls') (cr :: crs')) as (zP & zL & zR & HV & Z1 & Z2 & Z3 & Z4 & Z5).
          rewrite <- !app_assoc. cbn [app]. fold cl cr.
          set (pf := MkProof (sps ++ sp :: sps') (cls ++ mle (TV l' j) (qL' ++ qP') :: cl :: cls') (crs ++ mle (TV l' j) (qR' ++ qP') :: cr :: crs')) in *.
          assert (G1 : nth_error (ClaimsLeft pf) (S j) = Some cl) by (cbn [pf ClaimsLeft]; rewrite nth_error_app2, K2 by lia; replace (S j - j)%nat with 1%nat by lia; reflexivity).
          assert (G2 : nth_error (ClaimsRight pf) (S j) = Some cr) by (cbn [pf ClaimsRight]; rewrite nth_error_app2, K3 by lia; replace (S j - j)%nat with 1%nat by lia; reflexivity).
          assert (G3 : nth_error (SumcheckProofs pf) j = Some sp) by (cbn [pf SumcheckProofs]; rewrite nth_error_app2, K1, Nat.sub_diag by lia; reflexivity).
          assert (G4 : nth_error (ClaimsLeft pf) j = Some (mle (TV l' j) (qL' ++ qP'))) by (cbn [pf ClaimsLeft]; rewrite nth_error_app2, K2, Nat.sub_diag by lia; reflexivity).
          assert (G5 : nth_error (ClaimsRight pf) j = Some (mle (TV l' j) (qR' ++ qP'))) by (cbn [pf ClaimsRight]; rewrite nth_error_app2, K3, Nat.sub_diag by lia; reflexivity).
          exists zP, zL, zR. split; [|auto].
          rewrite tail_msgs_S, (nth_error_nth _ _ 0 G1), (nth_error_nth _ _ 0 G2), (nth_error_nth _ _ [] G3). cbn [chain]. fold lam.
          rewrite chain_app, Hch. cbn [iverifyLayers]. replace (j + 1)%nat with (S j) by lia. unfold get at 1 2. rewrite G1, G2. cbv zeta.
          unfold get at 1. cbn [nth_error skipn]. unfold get at 1. rewrite G3. unfold get at 1. rewrite El'.
          assert (HIV : IVerify (cr * lam + cl) sp ((qL' ++ qR' ++ qP') ++ chain ((before ++ [[cl; cr]]) ++ sp) (tail_msgs pf j)) (lBGInputs l') =
            Some (Some (qP', qL', qR', tot, chain ((before ++ [[cl; cr]]) ++ sp) (tail_msgs pf j)))) by (apply IVerify_accept; auto).
          rewrite HIV, EvalEq_spec by lia. unfold get. rewrite G4, G5.
          rewrite (evaluateStaticTablesLinCombs_ok l' qL qR tL tR qL' qR' lam) by assumption. fold st. rewrite HC, feqb_refl. exact HV.
      Qed.

      Lemma igkr_complete l q qP : nth_error c (n - 1) = Some l -> length q = lBGOutputs l -> length qP = bN ->
        exists pf, IGkrVerify (q ++ qP ++ chain [] (messages n pf)) bN c pf inputs (nth n a []) = Some true.
      Proof.
        intros Hl Lq LqP. assert (Hlt : (n - 1 < n)%nat) by (apply nth_error_Some; congruence).
        set (last := (n - 1)%nat) in *. assert (Hlen : n = S last) by (unfold last in *; lia).
        pose proof (Hlayers l (nth_error_In _ _ Hl)) as Hok. pose proof Hok as (Hwf & Hg & _).
        destruct (statics_ok l q Hwf Lq) as (st & Est & Lst & Sst).
        destruct (tv_layer m k b c inputs a Hlayers2 Hfits Hin Ha last l Hl) as [HT LT].
        destruct (layer_exists l st qP (TV l last) bN []) as (sp & qL' & qR' & qP' & tot & Lsp & Hch & L1 & L2 & L3 & HA & HC); auto.
        { intros tab Ht. apply (In_nth _ _ []) in Ht. destruct Ht as (i & Hi & <-). apply Sst. lia. }
        assert (Hsum : table_sum (2 ^ bN) (2 ^ lBGInputs l) (lGates l) st (eqtab qP) (TV l last) (TV l last) = mle (glued (lBGOutputs l) m (nth n a [])) (q ++ qP)).
        { rewrite Hlen. rewrite <- LqP in HT |- *. apply (layer_sum l q qP st _ _ Hwf Hg Lq Est HT). }
        rewrite Hsum in HA.
        destruct (layers_exist last l qP' qL' qR' ([] ++ sp) Hl L3 L1 L2) as (sps & cls & crs & K1 & K2 & K3 & K4 & K5).
        destruct (K5 [sp] [] []) as (zP & zL & zR & HV & Z1 & Z2 & Z3 & Z4 & Z5). 
        set (pf := MkProof (sps ++ [sp]) (cls ++ [mle (TV l last) (qL' ++ qP')]) (crs ++ [mle (TV l last) (qR' ++ qP')])) in *.
        exists pf.
        assert (G3 : nth_error (SumcheckProofs pf) last = Some sp) by (cbn [pf SumcheckProofs]; rewrite nth_error_app2, K1, Nat.sub_diag by lia; reflexivity).
        assert (G4 : nth_error (ClaimsLeft pf) last = Some (mle (TV l last) (qL' ++ qP'))) by (cbn [pf ClaimsLeft]; rewrite nth_error_app2, K2, Nat.sub_diag by lia; reflexivity).
        assert (G5 : nth_error (ClaimsRight pf) last = Some (mle (TV l last) (qR' ++ qP'))) by (cbn [pf ClaimsRight]; rewrite nth_error_app2, K3, Nat.sub_diag by lia; reflexivity).
        assert (HS : exact_shape c bN pf).
        { unfold exact_shape. cbn [pf SumcheckProofs ClaimsLeft ClaimsRight]. rewrite !app_length, K1, K2, K3, Hlen. cbn [length].
          split; [lia|]. split; [lia|]. split; [lia|]. intros j l' Hj. destruct (Nat.eq_dec j last) as [->|Hne].
          - rewrite Hl in Hj. injection Hj as <-. rewrite app_nth2, K1, Nat.sub_diag by lia. exact Lsp.
          - assert (j < n)%nat by (apply nth_error_Some; congruence). rewrite app_nth1 by lia. apply K4; [lia|exact Hj]. }
        unfold IGkrVerify. rewrite (proj2 (shapeOK_iff bN c pf) HS). cbn [negb]. rewrite gosub_some by lia. fold last.
        unfold get at 1. rewrite Hl. rewrite !slice_some by (rewrite ?app_length; lia).
        rewrite Nat.sub_0_r, skipn_O, firstn_len_app by exact Lq. rewrite skipn_len_app by exact Lq.
        replace (lBGOutputs l + bN - lBGOutputs l)%nat with bN by lia. rewrite firstn_len_app by exact LqP.
        pose proof (assignment_tables c m k b inputs a l Hin Ha Hl) as Hout.
        rewrite (REvaluateChunked_ok (nth n a []) (q ++ qP) k (lBGOutputs l + m) (tabs_chunked k m _ _ Hout)) by (rewrite app_length; lia).
        fold (glued (lBGOutputs l) m (nth n a [])). unfold get at 1. rewrite G3.
        rewrite (app_assoc q qP), skipn_len_app by (rewrite app_length; lia). rewrite Hlen at 2. rewrite messages_tail, (nth_error_nth _ _ [] G3), chain_app, Hch.
        assert (HIV : IVerify (mle (glued (lBGOutputs l) m (nth n a [])) (q ++ qP)) sp ((qL' ++ qR' ++ qP') ++ chain ([] ++ sp) (tail_msgs pf last)) (lBGInputs l) =
          Some (Some (qP', qL', qR', tot, chain ([] ++ sp) (tail_msgs pf last)))) by (apply IVerify_accept; auto).
        rewrite HIV, EvalEq_spec by lia. unfold get at 1 2. rewrite G4, G5.
        rewrite (evaluateStaticTables_ok l q st qL' qR' Hwf Lq Est L1 L2), HC, feqb_refl, HV.
        rewrite (REvaluateMixedChunked_ok inputs zP zL zR k m b (tabs_chunked k m b _ Hin) Z1 Z2 Z3). fold (glued b m inputs).
        unfold get. rewrite Z4, Z5, !feqb_refl. reflexivity.
      Qed.
    End Circ.
  End Chain.

  (** ** The challenges of the hash function *)
  Lemma fs_local (H : Query F -> F) n0 inputs outputs msgs msgs' p : (forall i, (i < p)%nat -> firstn (S i - n0) msgs = firstn (S i - n0) msgs') ->
    fs_challenges H n0 inputs outputs msgs p = fs_challenges H n0 inputs outputs msgs' p.
  Proof.
    induction p as [|p IH]; intros HE; [reflexivity|]. cbn [fs_challenges]. rewrite IH by (intros i Hi; apply HE; lia). f_equal. f_equal. f_equal.
    unfold fs_query. f_equal. rewrite fs_length_any. apply HE. lia.
  Qed.

  Lemma fs_chain (H : Query F -> F) n0 inputs outputs msgs : forall p, (p <= length msgs)%nat ->
    fs_challenges H n0 inputs outputs msgs (n0 + p) =
    fs_challenges H n0 inputs outputs [] n0 ++
    chain (fun ms => H (fs_query n0 inputs outputs ms (fs_challenges H n0 inputs outputs ms (n0 + (length ms - 1))))) [] (firstn p msgs).
  Proof.
    induction p as [|p IH]; intros Hp.
    - rewrite Nat.add_0_r. cbn [firstn chain]. rewrite app_nil_r. apply fs_local. intros i Hi. replace (S i - n0)%nat with 0%nat by lia. reflexivity.
    - rewrite Nat.add_succ_r. cbn [fs_challenges]. rewrite (IH ltac:(lia)) at 1.
      destruct (nth_error msgs p) as [x|] eqn:Ex; [|apply nth_error_None in Ex; lia].
      assert (Ef : firstn (S p) msgs = firstn p msgs ++ [x]).
      { clear - Ex. revert msgs Ex. induction p as [|p IH]; intros [|y msgs] Ex; try discriminate; cbn in Ex |- *; [congruence|]. f_equal. apply IH. exact Ex. }
      rewrite Ef, chain_app, app_assoc. f_equal. cbn [chain]. f_equal. cbn [app].
      assert (Ll : length (firstn p msgs ++ [x]) = S p) by (rewrite app_length, firstn_length; cbn; lia).
      rewrite Ll. cbn [Nat.sub]. rewrite Nat.sub_0_r, <- Ef.
      assert (EQ : fs_challenges H n0 inputs outputs (firstn (S p) msgs) (n0 + p) = fs_challenges H n0 inputs outputs msgs (n0 + p)).
      { apply fs_local. intros i Hi. rewrite firstn_firstn, Nat.min_l by lia. reflexivity. }
      rewrite EQ. f_equal. unfold fs_query. f_equal. rewrite fs_length_any. replace (S (n0 + p) - n0)%nat with (S p) by lia.
      rewrite firstn_firstn, Nat.min_id. reflexivity.
  Qed.

  Lemma fs_complete (H : Query F -> F) m k b (c : list (Layer F)) inputs a :
    (forall l, In l c -> layer_ok l) -> fits b c -> c <> [] -> chunked k m b inputs -> assignment_of c (2 ^ m) inputs a ->
    exists pf, FSVerify H (m + k) c pf inputs (nth (length c) a []) = Some true.
  Proof.
    intros Hlayers Hfits Hne Hin Ha.
    destruct (nth_error c (length c - 1)) as [l|] eqn:Hl; [|apply nth_error_None in Hl; destruct c; [congruence|cbn in Hl; lia]].
    set (outputs := nth (length c) a []). set (n0 := start_count (m + k) c).
    assert (Hn0 : n0 = (lBGOutputs l + (m + k))%nat) by (unfold n0, start_count; rewrite (nth_error_nth _ _ _ Hl); reflexivity).
    set (start := fs_challenges H n0 inputs outputs [] n0).
    assert (Ls : length start = n0) by apply fs_length_any.
    set (next := fun ms => H (fs_query n0 inputs outputs ms (fs_challenges H n0 inputs outputs ms (n0 + (length ms - 1))))).
    destruct (igkr_complete next m k b c inputs a Hlayers Hfits Hin Ha l (firstn (lBGOutputs l) start) (skipn (lBGOutputs l) start) Hl) as (pf & HV).
    - rewrite firstn_length. lia.
    - rewrite skipn_length. lia.
    - exists pf. unfold FSVerify, fs_count. fold n0 outputs.
      assert (HM : length (messages (length c) pf) = challenge_count (m + k) c).
      { unfold IGkrVerify in HV. destruct (shapeOK (m + k) c pf) eqn:ES; [|discriminate]. apply shapeOK_iff in ES.
        assert (Hn : (0 < length c)%nat) by (destruct c; [congruence|cbn; lia]).
        rewrite (count_total m k c (repeat 0 (m + k))) by (rewrite ?repeat_length; lia).
        apply (messages_length (rnds m k c)); [|exact Hn]. intros j Hj. assert (HL : nth_error c j = Some (nth j c (NewLayer []))) by (apply nth_error_nth'; exact Hj).
        destruct ES as (_ & _ & _ & HS4). specialize (HS4 j _ HL). apply (f_equal (@length nat)) in HS4. unfold coefficients in HS4.
        rewrite map_length, !app_length, !repeat_length in HS4. unfold rnds. lia. }
      rewrite fs_chain by lia. rewrite firstn_all2 by lia. fold start next. rewrite app_assoc, firstn_skipn in HV. exact HV.
  Qed.
End L.
