(** Consequences for the circuits of the code (lemmas for PHonest.v). *)
From Coq Require Import List Arith ZArith Lia Bool.
From Verif Require Import Field Go MCommon Spec LSpec LCommon MPoly LPoly LPoly2 LPoly3 Trans MCircuit SpecCircuit LCircuit LCircuit2
  LCircuit3 MSumcheck LSumcheck LSumcheck2 LSumcheck3 SpecSumcheck LSumcheck4 LSumcheck5 MSumPar SpecSumPar LSumPar3 LSumPar4 SpecEnds LEnds4 LEnds5 MGkr SpecGkr
  LGkr LGkr2 LGkr3 LGkr4 LRepair LForge2 SpecHonest LHonest LHonest2 LHonest3 FrPrime Fr.
Import ListNotations.

Section G.
  Context {F : Field}.
  Add Field FfieldHonest4 : (f_theory F).
  Open Scope F_scope.

  Lemma listed_once (l : Layer F) N V o h : gates_once l -> listed_value l N V o h = layer_value (Wires l) N V o h.
  Proof.
    intros [Hnd Hin]. unfold listed_value, layer_value. apply suml_ext. intros w Hw. apply filter_In in Hw. destruct Hw as [Hw _].
    unfold listed. rewrite suml_filter. exact (suml_once (lGates l) (wGate w) (fun g => geval g _ _) Hnd (Hin w Hw)).
  Qed.

  Lemma table_eq (l : Layer F) N V W : (0 < N)%nat -> layer_table l N V W ->
    (forall o h, (o < 2 ^ lBGOutputs l)%nat -> (h < N)%nat -> listed_value l N V o h = layer_value (Wires l) N V o h) -> listed_table l N V = W.
  Proof.
    intros HN [H1 H2] H. apply (list_ext 0); [rewrite listed_length; congruence|]. rewrite listed_length. intros i Hi.
    pose proof (Nat.div_mod i N ltac:(lia)) as E. assert (Hh : (i mod N < N)%nat) by (apply Nat.mod_upper_bound; lia).
    assert (Ho : (i / N < 2 ^ lBGOutputs l)%nat) by (apply Nat.div_lt_upper_bound; lia).
    rewrite E, (Nat.mul_comm N), listed_nth, H2, H by assumption. reflexivity.
  Qed.

  Lemma mle_scale (t t' : list F) s x : (forall i, (i < 2 ^ length x)%nat -> nth i t' 0 = s * nth i t 0) -> mle t' x = s * mle t x.
  Proof. intros H. rewrite (mle_linear t t t' s 0 x); [ring|]. intros i Hi. rewrite H by exact Hi. ring. Qed.

  (** In a layer built by NewLayer from gates that are determined by their IDs. *)

  Lemma suml_const {A} (l : list A) (x : F) : suml l (fun _ => x) = fnat (length l) * x.
  Proof. induction l as [|y l IH]; cbn [suml length fnat]; [ring|]. rewrite IH. ring. Qed.

  Lemma listed_new (ws : list (Wire F)) w : In w ws -> ids_ok ws -> forall f : Gate F -> F,
    suml (listed (NewLayer ws) w) f = fnat (copies ws w) * f (wGate w).
  Proof.
    intros Hw Hid f. unfold listed, copies, NewLayer. cbn [lGates]. rewrite Gates_all. rewrite suml_filter.
    assert (H : forall l, (forall w', In w' l -> In w' ws) ->
      suml (map wGate l) (fun g => if id_eqb (gid (wGate w)) (gid g) then f g else 0) =
      fnat (length (filter (fun w' => id_eqb (gid (wGate w)) (gid (wGate w'))) l)) * f (wGate w)).
    { induction l as [|w' l IH]; intros Hl; cbn [map suml filter length]; [cbn [fnat]; ring|]. rewrite IH by (intros x Hx; apply Hl; right; exact Hx).
      destruct (id_eqb (gid (wGate w)) (gid (wGate w'))) eqn:E; [|ring]. apply id_eqb_eq in E.
      rewrite <- (Hid w w' Hw (Hl w' (or_introl eq_refl)) E). cbn [length fnat]. ring. }
    apply H. auto.
  Qed.

  Lemma listed_counted (ws : list (Wire F)) N V o h : ids_ok ws -> listed_value (NewLayer ws) N V o h = counted_value ws N V o h.
  Proof.
    intros Hid. unfold listed_value, counted_value. change (Wires (NewLayer ws)) with ws. apply suml_ext. intros w Hw.
    apply filter_In in Hw. destruct Hw as [Hw _]. exact (listed_new ws w Hw Hid (fun g => geval g _ _)).
  Qed.

  Lemma counted_same (ws : list (Wire F)) g N V o h : (forall w, In w ws -> wGate w = g) ->
    counted_value ws N V o h = fnat (length ws) * layer_value ws N V o h.
  Proof.
    intros H. unfold counted_value, layer_value. rewrite <- suml_scal_l. apply suml_ext. intros w Hw. apply filter_In in Hw. destruct Hw as [Hw _].
    assert (E : copies ws w = length ws).
    { unfold copies. f_equal. rewrite (H w Hw). clear Hw. induction ws as [|w' ws IH]; [reflexivity|]. cbn [filter].
      rewrite (H w' (or_introl eq_refl)), id_eqb_refl, IH; [reflexivity|]. intros x Hx. apply H. right. exact Hx. }
    rewrite E. reflexivity.
  Qed.

  (** A true assignment of a circuit whose lists have every gate once is in line. *)
  Lemma true_in_line ch (c : list (Layer F)) b m k pf inputs a : (forall l, In l c -> wf_layer l /\ gates_once l) -> fits b c ->
    chunked k m b inputs -> assignment_of c (2 ^ m) inputs a -> all_in_line ch c m k pf a (nth (length c) a []).
  Proof.
    intros Hl Hf Hin Ha j l Hj.
    destruct (tv_layer m k b c inputs a Hl Hf Hin Ha j l Hj) as [HT _].
    assert (E : (if (S j =? length c)%nat then nth (length c) a [] else nth (S j) a []) = nth (S j) a []).
    { destruct (Nat.eqb_spec (S j) (length c)) as [->|]; reflexivity. }
    rewrite E. unfold in_line. rewrite (table_eq l (2 ^ (m + k)) _ _ (pow_pos _) HT); [reflexivity|].
    intros o h _ _. apply listed_once. apply (Hl l (nth_error_In _ _ Hj)).
  Qed.
End G.

Section R.
  Open Scope F_scope.
  Add Field FfieldHonest5 : (f_theory Fr).

  Lemma verdict_any (ch : list Fr -> Fr) nCore mtProve m k b c a outputs : (0 < nCore)%nat -> follows_machine ch nCore mtProve -> (0 < k)%nat ->
    c <> [] -> (forall l, In l c -> startable l /\ (forall g, In g (lGates l) -> gate_ok g) /\ in_range (m + k) l) -> fits b c -> shaped k m c a ->
    (forall l, nth_error c (length c - 1) = Some l -> chunked k m (lBGOutputs l) outputs) ->
    exists pf, GkrProve ch mtProve c a nCore = Some pf /\
      (GkrVerify ch (m + k) c pf (nth 0 a []) outputs = Some true <-> all_in_line ch c m k pf a outputs) /\
      (GkrVerify ch (m + k) c pf (nth 0 a []) outputs = Some false <-> ~ all_in_line ch c m k pf a outputs) /\
      GkrVerifyWith ch false (m + k) c pf (nth 0 a []) outputs = GkrVerify ch (m + k) c pf (nth 0 a []) outputs.
  Proof.
    intros Hc Hmt Hk Hne Hl Hf Hs Ho.
    destruct (any_verdict ch nCore mtProve (Fr_distinct_le 12 ltac:(lia)) Hc Hmt m k Hk c b a outputs Hl Hf Hs Hne Ho) as (pf & E & _ & HV).
    exists pf. split; [exact E|]. destruct (HV true) as [T1 T2]. destruct (HV false) as [F1 F2]. unfold GkrVerify.
    assert (D : all_in_line ch c m k pf a outputs \/ ~ all_in_line ch c m k pf a outputs).
    { clear - c. assert (H : forall n, (n <= length c)%nat -> (forall j l, (j < n)%nat -> nth_error c j = Some l ->
        in_line ch c (m + k) pf j l (glued (lBGInputs l) m (nth j a [])) (glued (lBGOutputs l) m (if (S j =? length c)%nat then outputs else nth (S j) a []))) \/
        ~ (forall j l, (j < n)%nat -> nth_error c j = Some l ->
        in_line ch c (m + k) pf j l (glued (lBGInputs l) m (nth j a [])) (glued (lBGOutputs l) m (if (S j =? length c)%nat then outputs else nth (S j) a [])))).
      { induction n as [|n IH]; intros Hn; [left; intros j l Hj; lia|]. destruct (IH ltac:(lia)) as [H|H].
        - destruct (line_dec ch m k c a outputs pf n) as [D|D].
          + left. intros j l Hj Hl. destruct (Nat.eq_dec j n) as [->|]; [exact (D l Hl)|apply H; [lia|exact Hl]].
          + right. intros H'. apply D. intros l Hl. apply H'; [lia|exact Hl].
        - right. intros H'. apply H. intros j l Hj Hl. apply H'; [lia|exact Hl]. }
      destruct (H (length c) (le_n _)) as [H1|H1].
      - left. intros j l Hl. apply H1; [apply nth_error_Some; congruence|exact Hl].
      - right. intros H2. apply H1. intros j l _ Hl. exact (H2 j l Hl). }
    destruct D as [D|D].
    - rewrite (T1 D), (F1 D). split; [tauto|]. split; [|reflexivity]. split; [discriminate|tauto].
    - rewrite (T2 D), (F2 D). split; [|split; [tauto|reflexivity]]. split; [discriminate|tauto].
  Qed.

  Lemma complete_any (ch : list Fr -> Fr) nCore mtProve m k b c inputs a : (0 < nCore)%nat -> follows_machine ch nCore mtProve -> (0 < k)%nat ->
    c <> [] -> (forall l, In l c -> startable l /\ gates_once l /\ (forall g, In g (lGates l) -> gate_ok g) /\ in_range (m + k) l) -> fits b c ->
    chunked k m b inputs -> assignment_of c (2 ^ m) inputs a ->
    exists pf, GkrProve ch mtProve c a nCore = Some pf /\ GkrVerify ch (m + k) c pf inputs (nth (length c) a []) = Some true.
  Proof.
    intros Hc Hmt Hk Hne Hl Hf Hin Ha.
    assert (Hsh : shaped k m c a).
    { intros j l Hj. destruct Hin as [I1 I2].
      destruct (a_chunks 1 Nat.lt_0_1 m k c b inputs a Hf I2 I1 Ha j l Hj) as [L1 L2]. split; [exact L1|]. intros t Ht. rewrite L2, Nat.pow_add_r by exact Ht. reflexivity. }
    pose proof Ha as (A1 & A2 & A3).
    destruct (verdict_any ch nCore mtProve m k b c a (nth (length c) a []) Hc Hmt Hk Hne) as (pf & E & HT & _); auto.
    - intros l Hi. destruct (Hl l Hi) as (X1 & X2 & X3 & X4). auto.
    - intros l Hlast. destruct (A3 _ l Hlast) as [LO SO]. destruct Hin as [I1 I2].
      replace (S (length c - 1)) with (length c) in LO, SO by (destruct c; [congruence|cbn; lia]).
      split; [congruence|]. intros t Ht. apply (In_nth _ _ []) in Ht. destruct Ht as (i & Hi & <-). apply SO. congruence.
    - exists pf. split; [exact E|]. rewrite <- A2. apply HT. apply (true_in_line ch c b m k pf inputs a); auto.
      intros l Hi. destruct (Hl l Hi) as ((X1 & _) & X2 & _). auto.
  Qed.

  (** A layer of [n] wires of one gate, on its own. *)
  Lemma one_gate (ch : list Fr -> Fr) nCore mtProve m k g (ws : list (Wire Fr)) inputs a : (0 < nCore)%nat -> follows_machine ch nCore mtProve -> (0 < k)%nat ->
    library_gate g -> (forall w, In w ws -> wGate w = g) -> (2 <= length ws)%nat -> (Z.of_nat (length ws) < frModulus)%Z ->
    chunked k m (BGInputs ws) inputs -> assignment_of [NewLayer ws] (2 ^ m) inputs a ->
    exists pf, GkrProve ch mtProve [NewLayer ws] a nCore = Some pf /\
      (GkrVerify ch (m + k) [NewLayer ws] pf inputs (nth 1 a []) = Some true <-> output_claim (m + k) m (NewLayer ws) (nth 1 a []) = 0) /\
      (GkrVerify ch (m + k) [NewLayer ws] pf inputs (nth 1 a []) = Some false <-> output_claim (m + k) m (NewLayer ws) (nth 1 a []) <> 0).
  Proof.
    intros Hc Hmt Hk Hg Hw Hn Hm Hin Ha. set (c := [NewLayer ws]) in *. set (l := NewLayer ws) in *.
    assert (Hwf : wf_layer l) by apply NewLayer_wf.
    assert (Hlg : forall g', In g' (lGates l) -> g' = g).
    { intros g' H. unfold l, NewLayer in H. cbn [lGates] in H. rewrite Gates_all in H. apply in_map_iff in H. destruct H as (w & <- & H). auto. }
    assert (Hf : fits (BGInputs ws) c) by (repeat split).
    assert (Hr : startable l /\ (forall g', In g' (lGates l) -> gate_ok g') /\ in_range (m + k) l).
    { pose proof (library_gate_ok g Hg) as Hok. pose proof (library_degs g Hg) as (D1 & D2 & D3).
      split; [split; [exact Hwf|split; [right|]]|split].
      - unfold l, NewLayer. cbn [lGates]. rewrite Gates_all. destruct ws; [cbn in Hn; lia|discriminate].
      - intros g' H. rewrite (Hlg g' H). apply Hok.
      - intros g' H. rewrite (Hlg g' H). exact Hok.
      - assert (HM : forall f : Gate Fr -> nat, (f g <= 7)%nat -> (list_max (map f (lGates l)) <= 7)%nat).
        { intros f Hfg. apply list_max_le. apply Forall_forall. intros x Hx. apply in_map_iff in Hx. destruct Hx as (g' & <- & Hx). rewrite (Hlg g' Hx). exact Hfg. }
        split; right.
        + split; [specialize (HM degHL D1)|specialize (HM degHR D2)]; unfold maxHL, maxHR; lia.
        + specialize (HM degHPrime D3). unfold maxHP. lia. }
    assert (Hsh : shaped k m c a).
    { intros j l' Hj. destruct Hin as [I1 I2].
      destruct (a_chunks 1 Nat.lt_0_1 m k c (BGInputs ws) inputs a Hf I2 I1 Ha j l' Hj) as [L1 L2]. split; [exact L1|]. intros t Ht. rewrite L2, Nat.pow_add_r by exact Ht. reflexivity. }
    pose proof Ha as (A1 & A2 & A3).
    destruct (verdict_any ch nCore mtProve m k (BGInputs ws) c a (nth 1 a []) Hc Hmt Hk ltac:(discriminate)) as (pf & E & HT & HF & _); auto.
    - intros l' [<-|[]]. exact Hr.
    - intros l' El. cbn in El. injection El as <-. destruct (A3 0%nat l eq_refl) as [LO SO]. destruct Hin as [I1 I2].
      split; [congruence|]. intros t Ht. apply (In_nth _ _ []) in Ht. destruct Ht as (i & Hi & <-). apply SO. congruence.
    - exists pf. split; [exact E|]. rewrite A2 in HT, HF.
      assert (HI : all_in_line ch c m k pf a (nth 1 a []) <-> output_claim (m + k) m l (nth 1 a []) = 0).
      { assert (HTL : layer_table l (2 ^ (m + k)) (glued (lBGInputs l) m (nth 0 a [])) (glued (lBGOutputs l) m (nth 1 a []))).
        { destruct Hin as [I1 I2]. destruct (A3 0%nat l eq_refl) as [LO SO]. unfold glued. rewrite !Nat.pow_add_r. rewrite A2 in *. rewrite <- I1.
          apply glue_layer; auto. rewrite I1. apply pow_pos. }
        set (V := glued (lBGInputs l) m (nth 0 a [])) in *. set (W := glued (lBGOutputs l) m (nth 1 a [])) in *.
        assert (EM : mle (listed_table l (2 ^ (m + k)) V) (count (lBGOutputs l) ++ count (m + k)) =
          fnat (length ws) * mle W (count (lBGOutputs l) ++ count (m + k))).
        { apply mle_scale. intros i Hi. rewrite app_length, !count_length, Nat.pow_add_r in Hi. pose proof (pow_pos (m + k)) as HN.
          pose proof (Nat.div_mod i (2 ^ (m + k)) ltac:(lia)) as Ei. assert (Hh : (i mod 2 ^ (m + k) < 2 ^ (m + k))%nat) by (apply Nat.mod_upper_bound; lia).
          assert (Ho : (i / 2 ^ (m + k) < 2 ^ lBGOutputs l)%nat) by (apply Nat.div_lt_upper_bound; lia).
          rewrite Ei, (Nat.mul_comm (2 ^ (m + k))), listed_nth by assumption. destruct HTL as [_ HTL]. rewrite HTL by assumption.
          unfold l. rewrite listed_counted; [exact (counted_same ws g _ _ _ _ Hw)|]. intros w w' H1 H2 _. rewrite (Hw w H1), (Hw w' H2). reflexivity. }
        assert (EA : all_in_line ch c m k pf a (nth 1 a []) <-> mle W (count (lBGOutputs l) ++ count (m + k)) = fnat (length ws) * mle W (count (lBGOutputs l) ++ count (m + k))).
        { rewrite <- EM. unfold all_in_line, in_line, claim_about. split.
          - intros H. exact (H 0%nat l eq_refl).
          - intros H [|[|j]] l' Hj; try discriminate Hj. cbn in Hj. injection Hj as <-. exact H. }
        rewrite EA. unfold output_claim. fold W. set (x := mle W _). destruct (length ws) as [|n] eqn:En; [lia|]. cbn [fnat]. split.
        - intros H. assert (H0 : fnat n * x = 0) by (transitivity ((fnat n + 1) * x - x); [ring|rewrite <- H; ring]).
          apply f_integral in H0. destruct H0 as [H0|H0]; [|exact H0]. exfalso. apply (fnat_nonzero n n) in H0; [exact H0|lia|lia|lia].
        - intros ->. ring. }
      rewrite <- HI. split; [exact HT|exact HF].
  Qed.
End R.

Section C.
  Context {F : Field}.
  Open Scope F_scope.

  Lemma library_ids (ws : list (Wire F)) : (forall w, In w ws -> library_gate (wGate w)) -> ids_ok ws.
  Proof. intros H w w' H1 H2 E. apply library_id; auto. Qed.

  Lemma library_ready (ws : list (Wire F)) bN : ws <> [] -> (forall w, In w ws -> library_gate (wGate w)) ->
    startable (NewLayer ws) /\ (forall g, In g (lGates (NewLayer ws)) -> gate_ok g) /\ in_range bN (NewLayer ws).
  Proof.
    intros Hne Hw. assert (Hlg : forall g, In g (lGates (NewLayer ws)) -> library_gate g).
    { intros g H. unfold NewLayer in H. cbn [lGates] in H. rewrite Gates_all in H. apply in_map_iff in H. destruct H as (w & <- & H). auto. }
    split; [split; [apply NewLayer_wf|split; [right|]]|split].
    - unfold NewLayer. cbn [lGates]. rewrite Gates_all. destruct ws; [congruence|discriminate].
    - intros g H. apply (library_gate_ok g (Hlg g H)).
    - intros g H. apply (library_gate_ok g (Hlg g H)).
    - assert (HM : forall f : Gate F -> nat, (forall g, library_gate g -> (f g <= 7)%nat) -> (list_max (map f (lGates (NewLayer ws))) <= 7)%nat).
      { intros f Hf. apply list_max_le. apply Forall_forall. intros x Hx. apply in_map_iff in Hx. destruct Hx as (g & <- & Hx). auto. }
      split; right; [split|]; [specialize (HM degHL)|specialize (HM degHR)|specialize (HM degHPrime)];
        (eapply Nat.le_trans; [apply HM; intros g Hg; apply library_degs in Hg; apply Hg|lia]).
  Qed.
End C.
