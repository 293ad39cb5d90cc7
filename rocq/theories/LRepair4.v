(** The repaired program: the statements of property C79. *)
From Coq Require Import List Arith ZArith Lia Bool.
From Verif Require Import Field FrPrime Fr Go MCommon Spec LSpec LCommon MPoly LPoly LPoly2 LPoly3 Trans MCircuit SpecCircuit LCircuit LCircuit2
  LCircuit3 MSumcheck LSumcheck SpecSumcheck LSumcheck4 LSumcheck5 MSumPar SpecSumPar LSumPar4 MGkr SpecGkr LGkr LGkr2 LGkr3 LGkr4
  LGrid LTests SpecProof LProof LProof2 SpecUnique LUnique LUnique2 LUnique3 LUnique4 LUnique6 MRepair SpecRepair LRepair LRepair2 LRepair3.
Import ListNotations.

Section L.
  Context {F : Field}.
  Open Scope F_scope.
  Variable ch : list F -> F.

  Lemma rplain_prove_ext qP q (c : list (Layer F)) V V' : (forall j, (j < length c)%nat -> V j = V' j) ->
    rplain_prove ch qP q c V = rplain_prove ch qP q c V'.
  Proof.
    intros H. unfold rplain_prove. destruct (gosub (length c) 1) as [last|] eqn:E; [|reflexivity].
    assert (Hlast : (S last = length c)%nat).
    { unfold gosub in E. destruct (Nat.leb_spec 1 (length c)); [|discriminate]. injection E as <-. lia. }
    rewrite (H last) by lia. destruct (get c last); [|reflexivity]. destruct (GetStaticTable _ _); [|reflexivity].
    destruct (plain_sc _ _ _ _ _) as [[[[[proof qP'] qL] qR] fc]|]; [|reflexivity].
    destruct (set _ last proof); [|reflexivity]. destruct (get fc 0); [|reflexivity]. destruct (get fc 1); [|reflexivity].
    destruct (set _ last _); [|reflexivity]. destruct (set _ last _); [|reflexivity].
    rewrite (foldM_ext _ (fun st layer => plain_layer ch c (V' layer) layer st)); [reflexivity|].
    intros st x Hx. apply in_rev, in_seq in Hx. rewrite H by lia. reflexivity.
  Qed.

  Lemma assignment_tables (c : list (Layer F)) m k b inputs a l : chunked k m b inputs -> assignment_of c (2 ^ m) inputs a ->
    nth_error c (length c - 1) = Some l -> chunked k m (lBGOutputs l) (nth (length c) a []).
  Proof.
    intros [I1 I2] (A1 & A2 & A3) Hl. assert (Hc : (0 < length c)%nat) by (destruct c; [discriminate|cbn; lia]).
    destruct (A3 _ _ Hl) as [L T]. replace (S (length c - 1)) with (length c) in * by lia. split; [lia|].
    intros t Ht. destruct (In_nth _ _ [] Ht) as (i & Hi & <-). rewrite L in Hi. destruct (T i Hi) as [E _]. rewrite E. lia.
  Qed.

  Lemma glued_inj b m k (t t' : list (list F)) : chunked k m b t -> chunked k m b t' -> glued b m t = glued b m t' -> t = t'.
  Proof.
    intros [L H] [L' H'] E. apply (list_ext []); [congruence|]. intros s Hs.
    assert (Hs' : (s < length t')%nat) by congruence.
    assert (E1 : length (nth s t []) = (2 ^ (b + m))%nat) by (rewrite Nat.pow_add_r; apply H, nth_In; exact Hs).
    assert (E2 : length (nth s t' []) = (2 ^ (b + m))%nat) by (rewrite Nat.pow_add_r; apply H', nth_In; exact Hs').
    apply (list_ext 0); [congruence|]. intros u Hu.
    rewrite <- (interleave_nth (2 ^ (b + m)) t u s) by lia. rewrite <- (interleave_nth (2 ^ (b + m)) t' u s) by lia.
    replace (length t') with (length t) by congruence. unfold glued in E. rewrite E. reflexivity.
  Qed.

  Lemma glued_len b m k (t : list (list F)) : chunked k m b t -> length (glued b m t) = (2 ^ (b + (m + k)))%nat.
  Proof. intros [L _]. unfold glued. rewrite interleave_length, L, <- Nat.pow_add_r. f_equal. lia. Qed.

  (** Soundness at any point. *)
  Lemma rsound m k b (c : list (Layer F)) l inputs a pf outputs q qP :
    (forall l, In l c -> wf_layer l /\ gates_once l) -> fits b c -> nth_error c (length c - 1) = Some l ->
    chunked k m b inputs -> assignment_of c (2 ^ m) inputs a -> chunked k m (lBGOutputs l) outputs ->
    length q = lBGOutputs l -> length qP = (m + k)%nat ->
    RGkrVerify ch qP q (m + k) c pf inputs outputs = Some true ->
    mle (glued (lBGOutputs l) m outputs) (q ++ qP) = mle (glued (lBGOutputs l) m (nth (length c) a [])) (q ++ qP) \/
    exists j, collision_from ch pf c m k a q qP j.
  Proof.
    intros Hl Hf Hlast Hin Ha Hout Lq LqP HV.
    assert (Hc : c <> []) by (intros ->; discriminate).
    destruct (rverify_iff ch m k b c l pf inputs outputs q qP) as (v & Ev & Hv); auto.
    { intros l' H'. apply Hl. exact H'. }
    rewrite HV in Ev. injection Ev as <-. destruct Hv as [Hv _]. destruct (Hv eq_refl) as [_ HAcc].
    destruct (f_eq_dec (mle (glued (lBGOutputs l) m outputs) (q ++ qP)) (mle (glued (lBGOutputs l) m (nth (length c) a [])) (q ++ qP))) as [E|E]; [left; exact E|right].
    exact (gkr_sound_from ch m k b c inputs a pf Hl Hf Hin Ha l q qP _ Hc Hlast Lq LqP HAcc E).
  Qed.

  (** Wrong outputs pass at few points. *)
  Lemma rbinding m k b (c : list (Layer F)) l inputs a outputs S :
    (forall l, In l c -> wf_layer l /\ gates_once l) -> fits b c -> nth_error c (length c - 1) = Some l ->
    chunked k m b inputs -> assignment_of c (2 ^ m) inputs a -> chunked k m (lBGOutputs l) outputs ->
    outputs <> nth (length c) a [] -> NoDup S ->
    forall qs, NoDup qs ->
      (forall x, In x qs -> In x (grid S (lBGOutputs l + (m + k))) /\ exists pf,
         RGkrVerify ch (skipn (lBGOutputs l) x) (firstn (lBGOutputs l) x) (m + k) c pf inputs outputs = Some true /\
         ~ exists j, collision_from ch pf c m k a (firstn (lBGOutputs l) x) (skipn (lBGOutputs l) x) j) ->
      (length qs <= (lBGOutputs l + (m + k)) * length S ^ (lBGOutputs l + (m + k) - 1))%nat.
  Proof.
    intros Hl Hf Hlast Hin Ha Hout Hne HS qs Hnd Hq.
    pose proof (assignment_tables c m k b inputs a l Hin Ha Hlast) as Hout'.
    etransitivity; [|apply (agree_bound S (lBGOutputs l + (m + k)) (glued (lBGOutputs l) m outputs) (glued (lBGOutputs l) m (nth (length c) a [])) HS)].
    - apply NoDup_incl_length; [exact Hnd|]. intros x Hx. destruct (Hq x Hx) as (Hg & pf & HV & Hno). apply filter_In. split; [exact Hg|].
      assert (Lx : length x = (lBGOutputs l + (m + k))%nat) by (apply grid_in in Hg; apply Hg).
      destruct (rsound m k b c l inputs a pf outputs (firstn (lBGOutputs l) x) (skipn (lBGOutputs l) x) Hl Hf Hlast Hin Ha Hout ltac:(rewrite firstn_length; lia) ltac:(rewrite skipn_length; lia) HV) as [E|E]; [|contradiction].
      rewrite firstn_skipn in E. rewrite E. apply feqb_refl.
    - apply (glued_len _ _ _ _ Hout).
    - apply (glued_len _ _ _ _ Hout').
    - intros E. apply Hne. exact (glued_inj _ _ _ _ _ Hout Hout' E).
  Qed.
End L.

Section Statements.
  Variable ch : list Fr -> Fr.
  Let HD : distinct_upto (F:=Fr) 12 := Fr_distinct_le 12 ltac:(lia).

  (** Completeness, for every well-formed circuit and every wiring of gates of the library. *)
  Lemma rcomplete nCore mtProve c b m k inputs l q qP :
    (0 < nCore)%nat -> follows_machine ch nCore mtProve ->
    (forall l, In l c -> layer_ok l) -> fits b c -> chunked k m b inputs ->
    nth_error c (length c - 1) = Some l -> length q = lBGOutputs l -> length qP = (m + k)%nat ->
    exists a pf, RAssign c inputs = Some a /\ assignment_of c (2 ^ m) inputs a /\
      RGkrProve ch mtProve qP q c a nCore = Some pf /\
      RGkrVerify ch qP q (m + k) c pf inputs (nth (length c) a []) = Some true /\
      forall j, ~ collision_from ch pf c m k a q qP j.
  Proof.
    intros H1 H2 Hl Hf Hin Hlast Lq LqP.
    destruct (rassign_ok c b (2 ^ m) inputs) as (a & EA & Ha); [intros l' H'; apply (Hl l' H')|exact Hf|apply Hin|].
    destruct (rcomplete_from ch HD nCore mtProve H1 H2 m k c b inputs a Hl Hf Hin Ha l Hlast q qP Lq LqP) as (pf & EP & HS & HAcc).
    destruct (rhonest_right ch HD nCore mtProve H1 H2 m k c b inputs a Hl Hf Hin Ha l Hlast q qP Lq LqP) as (pf' & EP' & HR).
    rewrite EP in EP'. injection EP' as <-.
    exists a, pf. split; [exact EA|]. split; [exact Ha|]. split; [exact EP|]. split.
    - destruct (rverify_iff ch m k b c l pf inputs (nth (length c) a []) q qP) as (v & Ev & Hv); auto.
      { intros l' H'. apply (Hl l' H'). }
      { exact (assignment_tables c m k b inputs a l Hin Ha Hlast). }
      rewrite Ev. f_equal. apply Hv. split; assumption.
    - intros j Hj. pose proof Hj as (lj & Hlj & _).
      apply (right_no_collision ch pf c m k a q qP j); [|exact Hj]. apply HR. apply nth_error_Some. congruence.
  Qed.

  Lemma rcomplete_library nCore mtProve wiring b m k inputs l q qP :
    (0 < nCore)%nat -> follows_machine ch nCore mtProve ->
    (forall ws w, In ws wiring -> In w ws -> library_gate (wGate w)) -> fits b (RNewCircuit wiring) -> chunked k m b inputs ->
    nth_error (RNewCircuit wiring) (length wiring - 1) = Some l -> length q = lBGOutputs l -> length qP = (m + k)%nat ->
    exists a pf, RAssign (RNewCircuit wiring) inputs = Some a /\ assignment_of (RNewCircuit wiring) (2 ^ m) inputs a /\
      RGkrProve ch mtProve qP q (RNewCircuit wiring) a nCore = Some pf /\
      RGkrVerify ch qP q (m + k) (RNewCircuit wiring) pf inputs (nth (length wiring) a []) = Some true /\
      forall j, ~ collision_from ch pf (RNewCircuit wiring) m k a q qP j.
  Proof.
    intros H1 H2 Hg Hf Hin Hlast Lq LqP. assert (E : length wiring = length (RNewCircuit wiring)) by (unfold RNewCircuit; rewrite map_length; reflexivity).
    rewrite E in *. apply rcomplete with (b := b) (l := l); auto.
    intros l' Hl'. unfold RNewCircuit in Hl'. apply in_map_iff in Hl'. destruct Hl' as (ws & <- & Hws). apply RNewLayer_ok. intros w Hw. exact (Hg ws w Hws Hw).
  Qed.

  (** The verifier always answers, and turns down every proof of another shape. *)
  Lemma rtotal c b m k inputs outputs l q qP pf :
    (forall l, In l c -> wf_layer (F:=Fr) l) -> fits b c -> chunked k m b inputs ->
    nth_error c (length c - 1) = Some l -> chunked k m (lBGOutputs l) outputs -> length q = lBGOutputs l -> length qP = (m + k)%nat ->
    exists verdict, RGkrVerify ch qP q (m + k) c pf inputs outputs = Some verdict /\
      (~ exact_shape c (m + k) pf -> verdict = false).
  Proof.
    intros Hl Hf Hin Hlast Hout Lq LqP.
    destruct (rverify_iff ch m k b c l pf inputs outputs q qP Hl Hf Hlast Hin Hout Lq LqP) as (v & Ev & Hv).
    exists v. split; [exact Ev|]. intros HN. destruct v; [|reflexivity]. exfalso. apply HN. apply Hv. reflexivity.
  Qed.

  (** The accepted proof without collision is the prover's. *)
  Lemma runique nCore mtProve c b m k inputs a pf outputs l q qP :
    (0 < nCore)%nat -> follows_machine ch nCore mtProve ->
    (forall l, In l c -> layer_ok l) -> fits b c -> chunked k m b inputs -> assignment_of c (2 ^ m) inputs a ->
    nth_error c (length c - 1) = Some l -> chunked k m (lBGOutputs l) outputs -> length q = lBGOutputs l -> length qP = (m + k)%nat ->
    RGkrVerify ch qP q (m + k) c pf inputs outputs = Some true -> (forall j, ~ collision_from ch pf c m k a q qP j) ->
    RGkrProve ch mtProve qP q c a nCore = Some pf.
  Proof.
    intros H1 H2 Hl Hf Hin Ha Hlast Hout Lq LqP HV Hno.
    assert (Hc : c <> []) by (intros ->; discriminate).
    destruct (rverify_iff ch m k b c l pf inputs outputs q qP) as (v & Ev & Hv); auto.
    { intros l' H'. apply (Hl l' H'). }
    rewrite HV in Ev. injection Ev as <-. destruct Hv as [Hv _]. destruct (Hv eq_refl) as [(L1 & L2 & L3 & HL) HAcc].
    destruct (all_right ch m k b c inputs a pf) with (q := q) (qP := qP) (llast := l) (out := glued (lBGOutputs l) m outputs) as [_ HR]; auto.
    { intros l' Hl'. destruct (Hl l' Hl') as (A & B & _). auto. }
    destruct (rcomplete_from ch HD nCore mtProve H1 H2 m k c b inputs a Hl Hf Hin Ha l Hlast q qP Lq LqP) as (pf' & E & (S1 & S2 & S3 & S4) & _).
    destruct (rhonest_right ch HD nCore mtProve H1 H2 m k c b inputs a Hl Hf Hin Ha l Hlast q qP Lq LqP) as (pf2 & E2 & HR').
    rewrite E in E2. injection E2 as <-. rewrite E. f_equal. symmetry.
    apply (right_unique ch c m k a q qP 12 pf pf' HD); auto.
    - intros j Hj. destruct (nth_error c j) as [lj|] eqn:El; [|apply nth_error_None in El; lia]. rewrite (HL j lj El), (S4 j lj El). reflexivity.
    - intros j p Hj Hp. destruct (nth_error c j) as [lj|] eqn:El; [|apply nth_error_None in El; lia].
      apply (coefficients_le lj (m + k)); [exact (Hl lj (nth_error_In _ _ El))|]. rewrite <- (HL j lj El). apply in_map. exact Hp.
  Qed.

  (** The proof depends neither on the chunks nor on the cores. *)
  Lemma rsame_proof (c : list (Layer Fr)) b l q qP nCore mtProve m k inputs a nCore' mtProve' m' k' inputs' a' :
    (forall l, In l c -> layer_ok l) -> fits b c -> nth_error c (length c - 1) = Some l -> length q = lBGOutputs l ->
    (0 < nCore)%nat -> follows_machine ch nCore mtProve -> chunked k m b inputs -> assignment_of c (2 ^ m) inputs a ->
    (0 < nCore')%nat -> follows_machine ch nCore' mtProve' -> chunked k' m' b inputs' -> assignment_of c (2 ^ m') inputs' a' ->
    length qP = (m + k)%nat -> length qP = (m' + k')%nat -> glued b m inputs = glued b m' inputs' ->
    RGkrProve ch mtProve qP q c a nCore = RGkrProve ch mtProve' qP q c a' nCore'.
  Proof.
    intros Hl Hf Hlast Lq H1 H2 H3 H4 H5 H6 H7 H8 LP LP' Hg.
    rewrite (rprove_plain ch HD nCore mtProve H1 H2 m k c b inputs a Hl Hf H3 H4 l Hlast q qP Lq LP).
    rewrite (rprove_plain ch HD nCore' mtProve' H5 H6 m' k' c b inputs' a' Hl Hf H7 H8 l Hlast q qP Lq LP').
    assert (Hc : c <> []) by (intros ->; discriminate). destruct H3 as [H3 H3'], H7 as [H7 H7'].
    apply rplain_prove_ext. intros j Hj. induction j as [|j IH].
    - erewrite (tabs_0 m c b inputs a), (tabs_0 m' c b inputs' a'); eassumption.
    - specialize (IH ltac:(lia)). destruct (nth_error c j) as [lj|] eqn:Hlj; [|apply nth_error_None in Hlj; lia].
      destruct (nth_error c (S j)) as [l'|] eqn:Hlj'; [|apply nth_error_None in Hlj'; lia].
      pose proof (tabs_S nCore H1 m k c b inputs a Hl Hf H3' H3 H4 j lj l' Hlj Hlj') as T1.
      pose proof (tabs_S nCore' H5 m' k' c b inputs' a' Hl Hf H7' H7 H8 j lj l' Hlj Hlj') as T2.
      replace (m' + k')%nat with (m + k)%nat in T2 by lia. rewrite <- IH in T2. exact (layer_table_unique lj _ _ _ _ T1 T2).
  Qed.
End Statements.
