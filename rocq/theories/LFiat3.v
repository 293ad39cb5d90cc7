(** Every query has few answers that help, and the game against the random oracle. *)
From Coq Require Import List Arith Lia Bool.
From Verif Require Import Field Go MCommon Spec LSpec LCommon MPoly LPoly LPoly2 LPoly3 Trans MCircuit SpecCircuit LCircuit LCircuit2
  LCircuit3 MSumcheck LSumcheck SpecSumcheck LSumcheck4 LSumcheck5 MSumPar SpecSumPar LSumPar4 MGkr SpecGkr SpecInter LGkr LGkr2 LGkr3 LGkr4
  LGrid LSnark11 LInter LInter2 SpecProof LProof LProof2 MRepair SpecRepair LRepair LRepair2 LRepair4 MFiat SpecFiat LFiat LFiat2.
Import ListNotations.

Section L.
  Context {F : Field}.
  Add Field FfieldFiat3 : (f_theory F).
  Open Scope F_scope.

  Lemma all_eqb_spec {A} (eqb : A -> A -> bool) : (forall u v, reflect (u = v) (eqb u v)) -> forall x y, reflect (x = y) (all_eqb eqb x y).
  Proof.
    intros HE. induction x as [|u x IH]; intros [|v y]; cbn [all_eqb]; try (constructor; congruence).
    destruct (HE u v); cbn [andb]; [|constructor; congruence]. destruct (IH y); constructor; congruence.
  Qed.

  Lemma query_eqb_spec (x y : Query F) : reflect (x = y) (query_eqb x y).
  Proof.
    pose proof (all_eqb_spec _ (feqb_spec F)) as H1. pose proof (all_eqb_spec _ H1) as H2. unfold query_eqb. cbv zeta.
    destruct x as [x1 x2 x3 x4], y as [y1 y2 y3 y4]. cbn [qIn qOut qMsgs qChals].
    destruct (H2 x1 y1); cbn [andb]; [|constructor; congruence]. destruct (H2 x2 y2); cbn [andb]; [|constructor; congruence].
    destruct (H2 x3 y3); cbn [andb]; [|constructor; congruence]. destruct (H1 x4 y4); constructor; congruence.
  Qed.

  (** ** The assignment is determined by the inputs *)
  Lemma layer_table_unique (l : Layer F) N inp out out' : (0 < N)%nat -> layer_table l N inp out -> layer_table l N inp out' -> out = out'.
  Proof.
    intros HN [L1 H1] [L2 H2]. apply (list_ext 0); [congruence|]. intros i Hi.
    assert (Ho : (i / N < 2 ^ lBGOutputs l)%nat) by (apply Nat.div_lt_upper_bound; lia).
    assert (Hh : (i mod N < N)%nat) by (apply Nat.mod_upper_bound; lia).
    pose proof (Nat.div_mod i N ltac:(lia)) as E. rewrite Nat.mul_comm in E. rewrite E, (H1 _ _ Ho Hh), (H2 _ _ Ho Hh). reflexivity.
  Qed.

  Lemma assignment_unique (c : list (Layer F)) N inputs a a' : (0 < N)%nat -> assignment_of c N inputs a -> assignment_of c N inputs a' -> a = a'.
  Proof.
    intros HN (A1 & A2 & A3) (B1 & B2 & B3). apply (list_ext []); [congruence|]. intros i Hi. rewrite A1 in Hi. clear A1 B1.
    induction i as [|i IH]; [congruence|]. destruct (nth_error c i) as [l|] eqn:El; [|apply nth_error_None in El; lia].
    destruct (A3 i l El) as [L1 T1]. destruct (B3 i l El) as [L2 T2]. specialize (IH ltac:(lia)).
    apply (list_ext []); [congruence|]. intros s Hs. rewrite L1 in Hs.
    apply (layer_table_unique l N (nth s (nth i a []) [])); auto. rewrite IH. apply T2. exact Hs.
  Qed.

  (** ** The first point *)
  Definition start_hit (A B chs : list F) (r : F) : Prop :=
    foldsv A chs <> foldsv B chs /\ foldv (foldsv A chs) r = foldv (foldsv B chs) r.

  Lemma foldv_unique (A B : list F) h r r' : length A = (2 * h)%nat -> length B = (2 * h)%nat -> A <> B ->
    foldv A r = foldv B r -> foldv A r' = foldv B r' -> r = r'.
  Proof.
    intros LA LB Hne E E'. destruct (f_eq_dec r r') as [|Hr]; [assumption|]. exfalso. apply Hne.
    assert (HH : forall i, (i < h)%nat -> nth i A 0 = nth i B 0 /\ nth (h + i) A 0 = nth (h + i) B 0).
    { intros i Hi. apply (f_equal (fun l => nth i l 0)) in E. apply (f_equal (fun l => nth i l 0)) in E'.
      rewrite (foldv_nth A r h), (foldv_nth B r h) in E by assumption. rewrite (foldv_nth A r' h), (foldv_nth B r' h) in E' by assumption.
      set (a0 := nth i A 0) in *. set (a1 := nth (h + i) A 0) in *. set (b0 := nth i B 0) in *. set (b1 := nth (h + i) B 0) in *.
      assert (Hd : (r - r') * ((a1 - b1) - (a0 - b0)) = 0).
      { transitivity (((1 - r) * a0 + r * a1 - ((1 - r) * b0 + r * b1)) - ((1 - r') * a0 + r' * a1 - ((1 - r') * b0 + r' * b1))); [ring|].
        rewrite E, E'. ring. }
      apply f_integral in Hd. destruct Hd as [Hd|Hd]; [exfalso; apply Hr; apply f_sub_eq; exact Hd|].
      apply f_sub_eq in Hd.
      assert (H0 : a0 - b0 = 0).
      { transitivity ((1 - r) * (a0 - b0) + r * (a0 - b0)); [ring|]. rewrite <- Hd at 2.
        transitivity (((1 - r) * a0 + r * a1) - ((1 - r) * b0 + r * b1)); [ring|]. rewrite E. ring. }
      split; apply f_sub_eq; [exact H0|rewrite Hd; exact H0]. }
    apply (list_ext 0); [congruence|]. intros i Hi. destruct (Nat.lt_ge_cases i h) as [Hlt|Hge]; [apply HH; exact Hlt|].
    replace i with (h + (i - h))%nat by lia. apply HH. lia.
  Qed.

  Lemma start_exists (A B rs : list F) : length A = (2 ^ length rs)%nat -> length B = (2 ^ length rs)%nat -> A <> B -> mle A rs = mle B rs ->
    exists p, (p < length rs)%nat /\ start_hit A B (firstn p rs) (nth p rs 0).
  Proof.
    revert A B. induction rs as [|r rs IH]; intros A B LA LB Hne E.
    - exfalso. apply Hne. rewrite !mle_nil in E. destruct A as [|x [|? ?]]; try discriminate. destruct B as [|y [|? ?]]; try discriminate. cbn in E. congruence.
    - destruct (list_eq_dec f_eq_dec (foldv A r) (foldv B r)) as [Ef|Nf].
      + exists 0%nat. split; [cbn; lia|]. split; [exact Hne|exact Ef].
      + rewrite (mle_foldv A), (mle_foldv B) in E by assumption.
        destruct (IH (foldv A r) (foldv B r)) as (p & Hp & H1 & H2); auto.
        * rewrite foldv_length, LA. cbn [length]. apply half_pow2.
        * rewrite foldv_length, LB. cbn [length]. apply half_pow2.
        * exists (S p). split; [cbn; lia|]. split; [exact H1|exact H2].
  Qed.

  Lemma fs_length_any (H : Query F -> F) n0 inputs outputs msgs p : length (fs_challenges H n0 inputs outputs msgs p) = p.
  Proof. induction p as [|p IH]; [reflexivity|]. cbn [fs_challenges]. rewrite app_length, IH. cbn. lia. Qed.

  Section Circ.
    Variables m k b : nat.
    Variable c : list (Layer F).
    Variable l : Layer F.
    Hypothesis Hlayers : forall l, In l c -> layer_ok l.
    Hypothesis Hfits : fits b c.
    Hypothesis Hlast : nth_error c (length c - 1) = Some l.
    Variable d : nat.
    Hypothesis Hd1 : (1 <= d)%nat.
    Hypothesis Hd : forall l i, In l c -> (i < 2 * lBGInputs l + (m + k))%nat -> (layer_round_degree l i <= d)%nat.

    Local Notation bN := (m + k)%nat.
    Local Notation lay j := (nth j c (NewLayer [])).
    Local Notation n := (length c).
    Local Notation bo := (lBGOutputs l).
    Local Notation rn := (rnds m k c).
    Local Notation of := (off (rnds m k c) (length c)).
    Local Notation n0 := (bo + bN)%nat.

    Lemma start_n0 : start_count bN c = n0.
    Proof. unfold start_count. rewrite (nth_error_nth _ _ _ Hlast). reflexivity. Qed.

    (** The answer [r] to the query [t] turns something wrong into something right. *)
    Definition bad (t : Query F) (r : F) : Prop :=
      chunked k m b (qIn t) /\ chunked k m bo (qOut t) /\ exists a, assignment_of c (2 ^ m) (qIn t) a /\
      let chs := qChals t in
      let all := skipn n0 chs in
      ((length chs < n0)%nat /\ start_hit (glued bo m (qOut t)) (glued bo m (nth n a [])) chs r \/
       exists j i, (j < n)%nat /\ length chs = (n0 + (of j + i))%nat /\
         ((i < rn j)%nat /\ (exists p, nth_error (qMsgs t) (of j + i) = Some p /\ (length p <= S (layer_round_degree (lay j) i))%nat /\
             round_hit m k c a (firstn bo chs) (firstn bN (skipn bo chs)) all j i p r) \/
          i = rn j /\ (0 < j)%nat /\ exists cl cr, nth_error (qMsgs t) (of j + i) = Some [cl; cr] /\ pair_hit m k c a all j cl cr r)).

    Lemma pos_unique j i j' i' : (j < n)%nat -> (j' < n)%nat -> (i <= rn j)%nat -> (i' <= rn j')%nat -> (of j + i = of j' + i')%nat -> j = j' /\ i = i'.
    Proof.
      assert (HW : forall j i j' i', (j < j')%nat -> (j' < n)%nat -> (i' <= rn j')%nat -> (of j' + i' < of j + i)%nat).
      { intros j1 i1 j2 i2 Hlt Hn Hi2. pose proof (off_step rn n j1 ltac:(lia)) as Ho.
        pose proof (off_anti rn n j2 (S j1) ltac:(lia) Hn) as Ha. lia. }
      intros Hj Hj' Hi Hi' E. destruct (Nat.lt_trichotomy j j') as [Hlt|[->|Hlt]].
      - pose proof (HW j i j' i' Hlt Hj' Hi'). lia.
      - split; [reflexivity|]. lia.
      - pose proof (HW j' i' j i Hlt Hj Hi). lia.
    Qed.

    Lemma query_bound t xs : NoDup xs -> (forall x, In x xs -> bad t x) -> (length xs <= d)%nat.
    Proof.
      intros Hnd Hx. destruct xs as [|x0 xs]; [apply Nat.le_0_l|].
      destruct (Hx x0 (or_introl eq_refl)) as (Hin & Hout & a & Ha & H0). cbv zeta in H0.
      assert (HN : (0 < 2 ^ m)%nat) by (apply pow_pos).
      assert (Hx' : forall x, In x (x0 :: xs) -> let chs := qChals t in let all := skipn n0 chs in
        ((length chs < n0)%nat /\ start_hit (glued bo m (qOut t)) (glued bo m (nth n a [])) chs x \/
         exists j i, (j < n)%nat /\ length chs = (n0 + (of j + i))%nat /\
         ((i < rn j)%nat /\ (exists p, nth_error (qMsgs t) (of j + i) = Some p /\ (length p <= S (layer_round_degree (lay j) i))%nat /\
             round_hit m k c a (firstn bo chs) (firstn bN (skipn bo chs)) all j i p x) \/
          i = rn j /\ (0 < j)%nat /\ exists cl cr, nth_error (qMsgs t) (of j + i) = Some [cl; cr] /\ pair_hit m k c a all j cl cr x))).
      { intros x Hxin. destruct (Hx x Hxin) as (_ & _ & a' & Ha' & H'). rewrite (assignment_unique c (2 ^ m) (qIn t) a a' HN Ha Ha'). exact H'. }
      clear Hx. cbv zeta in Hx'. set (chs := qChals t) in *. set (all := skipn n0 chs) in *.
      assert (HLs : forall l, In l c -> wf_layer l /\ gates_once l) by (intros l' Hl; destruct (Hlayers l' Hl) as (X & Y & _); split; assumption).
      assert (Hone : forall P : F -> Prop, (forall x, In x (x0 :: xs) -> P x) -> (forall x y, P x -> P y -> x = y) -> (length (x0 :: xs) <= d)%nat).
      { intros P HP HU. destruct xs as [|x1 xs]; [exact Hd1|]. exfalso. inversion Hnd as [|y ys Hni _]. subst. apply Hni. left.
        apply HU; apply HP; [right; left|left]; reflexivity. }
      destruct H0 as [[Hp0 _]|(j & i & Hj & Hp & H0)].
      - apply (Hone (fun x => start_hit (glued bo m (qOut t)) (glued bo m (nth n a [])) chs x)).
        + intros x Hxin. destruct (Hx' x Hxin) as [[_ H]|(j & i & _ & Hp & _)]; [exact H|lia].
        + intros x y [Hne E] [_ E']. assert (Hn0 : n0 = (length chs + S (n0 - S (length chs)))%nat) by lia.
          apply (foldv_unique (foldsv (glued bo m (qOut t)) chs) (foldsv (glued bo m (nth n a [])) chs) (2 ^ (n0 - S (length chs)))); auto.
          * rewrite (foldsv_length _ _ (S (n0 - S (length chs)))); [apply Nat.pow_succ_r'|]. rewrite <- Hn0. apply (glued_len bo m k). exact Hout.
          * rewrite (foldsv_length _ _ (S (n0 - S (length chs)))); [apply Nat.pow_succ_r'|]. rewrite <- Hn0. apply (glued_len bo m k).
            exact (assignment_tables c m k b (qIn t) a l Hin Ha Hlast).
      - assert (Hall : length all = (of j + i)%nat) by (unfold all; rewrite skipn_length; lia).
        assert (HL : nth_error c j = Some (lay j)) by (apply nth_error_nth'; exact Hj).
        assert (Hi : (i <= rn j)%nat) by (destruct H0 as [[H0 _]|[-> _]]; lia).
        assert (Hsame : forall x, In x (x0 :: xs) ->
          ((i < rn j)%nat /\ (exists p, nth_error (qMsgs t) (of j + i) = Some p /\ (length p <= S (layer_round_degree (lay j) i))%nat /\
             round_hit m k c a (firstn bo chs) (firstn bN (skipn bo chs)) all j i p x) \/
           i = rn j /\ (0 < j)%nat /\ exists cl cr, nth_error (qMsgs t) (of j + i) = Some [cl; cr] /\ pair_hit m k c a all j cl cr x)).
        { intros x Hxin. destruct (Hx' x Hxin) as [[Hlt _]|(j' & i' & Hj' & Hp' & H)]; [lia|].
          destruct (pos_unique j i j' i' Hj Hj' Hi) as [-> ->]; [destruct H as [[H _]|[-> _]]; lia|lia|exact H]. }
        clear Hx'. destruct (tv_layer m k b c (qIn t) a HLs Hfits Hin Ha j (lay j) HL) as [_ HTV].
        destruct H0 as [[Hir (p0 & Hp0 & Hlp0 & (t0 & Ht0) & _)]|[-> [Hj0 (cl & cr & Hm & _)]]].
        + transitivity (layer_round_degree (lay j) i); [|apply Hd; [exact (nth_error_In _ _ HL)|exact Hir]].
          set (hd := firstn i (seg m k c all j)) in *.
          assert (Lhd : length hd = i).
          { unfold hd, seg. rewrite !firstn_length, skipn_length. lia. }
          assert (Hhit : forall x, In x (x0 :: xs) -> peval p0 x = cube_sum (run_of m k c a (firstn bo chs) (firstn bN (skipn bo chs)) all j) (rn j - S i) (hd ++ [x])).
          { intros x Hxin. destruct (Hsame x Hxin) as [(_ & p & Hp1 & _ & _ & HC)|[E _]]; [|lia]. rewrite Hp0 in Hp1. injection Hp1 as <-. exact HC. }
          fold hd in Ht0. unfold layer_round_degree in *. rewrite <- Lhd in Hlp0, Ht0, Hhit, Hir |- *. clearbody hd.
          pose proof (Hlayers _ (nth_error_In _ _ HL)) as Hlok.
          unfold run_of in Ht0, Hhit. destruct (Nat.eqb_spec (S j) n) as [En|En].
          * refine (layer_few_collisions bN (lay j) _ _ (glued (lBGInputs (lay j)) m (nth j a [])) hd p0 t0 (x0 :: xs) Hlok _ HTV Hir Hlp0 Ht0 Hnd Hhit).
            rewrite firstn_length, skipn_length. lia.
          * refine (layer_few_collisions bN (lay j) _ _ (glued (lBGInputs (lay j)) m (nth j a [])) hd p0 t0 (x0 :: xs) Hlok _ HTV Hir Hlp0 Ht0 Hnd Hhit).
            assert (HLS : nth_error c (S j) = Some (lay (S j))) by (apply nth_error_nth'; lia).
            pose proof (fits_next c b j (lay j) (lay (S j)) Hfits HL HLS) as Hb.
            pose proof (off_step rn n j ltac:(lia)) as Ho.
            rewrite skipn_length, firstn_length, skipn_length, Hall. assert (HrS : rn (S j) = (2 * lBGInputs (lay (S j)) + bN)%nat) by reflexivity. lia.
        + apply (Hone (fun x => pair_hit m k c a all j cl cr x)).
          * intros x Hxin. destruct (Hsame x Hxin) as [[E _]|(_ & _ & cl' & cr' & Hm' & HC)]; [lia|]. rewrite Hm in Hm'. injection Hm' as <- <-. exact HC.
          * intros x y [Hne E] [_ E']. exact (LGkr5.lambda_unique _ _ _ _ _ _ Hne E E').
    Qed.

    (** ** A false statement that is accepted *)
    Lemma fs_length H inputs outputs msgs p : length (fs_challenges (F:=F) H n0 inputs outputs msgs p) = p.
    Proof. apply fs_length_any. Qed.

    Lemma fs_prefix H inputs outputs msgs p q : (p <= q)%nat -> firstn p (fs_challenges (F:=F) H n0 inputs outputs msgs q) = fs_challenges H n0 inputs outputs msgs p.
    Proof.
      induction q as [|q IH]; intros Hp; [replace p with 0%nat by lia; reflexivity|]. destruct (Nat.eq_dec p (S q)) as [->|Hne].
      - apply firstn_all2. rewrite fs_length. lia.
      - cbn [fs_challenges]. rewrite firstn_app, fs_length, (proj2 (Nat.sub_0_le p q)) by lia. cbn [firstn]. rewrite app_nil_r. apply IH. lia.
    Qed.

    Lemma fs_nth H inputs outputs msgs p q : (p < q)%nat ->
      nth p (fs_challenges (F:=F) H n0 inputs outputs msgs q) 0 = H (fs_query n0 inputs outputs msgs (fs_challenges H n0 inputs outputs msgs p)).
    Proof.
      intros Hp. rewrite <- (nth_firstn (fs_challenges H n0 inputs outputs msgs q) (S p) p 0 ltac:(lia)), fs_prefix by lia.
      cbn [fs_challenges]. rewrite app_nth2 by (rewrite fs_length; lia). rewrite fs_length, Nat.sub_diag. reflexivity.
    Qed.

    Lemma nth_error_firstn {A} (x : list A) p i : (i < p)%nat -> nth_error (firstn p x) i = nth_error x i.
    Proof. revert x i. induction p as [|p IH]; intros x i Hi; [lia|]. destruct x as [|y x]; [destruct i; reflexivity|]. destruct i as [|i]; [reflexivity|]. cbn. apply IH. lia. Qed.

    Lemma seg_pre (all all' : list F) j p : (of j + rn j <= p)%nat -> firstn p all = firstn p all' -> seg m k c all j = seg m k c all' j.
    Proof. intros Hp E. unfold seg. apply (seg_prefix all all' (of j) (rn j) p Hp E). Qed.

    Lemma fs_bad H pf inputs outputs a : chunked k m b inputs -> chunked k m bo outputs -> assignment_of c (2 ^ m) inputs a ->
      outputs <> nth n a [] -> FSVerify H bN c pf inputs outputs = Some true ->
      exists p, (p < fs_count bN c)%nat /\
        let qu := fs_query n0 inputs outputs (messages n pf) (fs_challenges H n0 inputs outputs (messages n pf) p) in bad qu (H qu).
    Proof.
      intros Hin Hout Ha Hne HV. unfold FSVerify in HV. rewrite start_n0 in HV. set (N := fs_count bN c) in *.
      set (msgs := messages n pf) in *. set (rs := fs_challenges H n0 inputs outputs msgs N) in *.
      assert (Lrs : length rs = N) by apply fs_length.
      assert (HLs : forall l, In l c -> wf_layer l /\ gates_once l) by (intros l' Hl'; destruct (Hlayers l' Hl') as (X & Y & _); split; assumption).
      assert (Hn : (0 < n)%nat) by (destruct c; [discriminate|cbn; lia]).
      destruct (igkr_sound m k b c l rs pf inputs outputs a HLs Hfits Hlast Hin Ha Hout HV) as (HS & Hlen & HD).
      pose proof (assignment_tables c m k b inputs a l Hin Ha Hlast) as Hout'.
      assert (HNn : N = (n0 + (of 0 + rn 0))%nat) by (unfold N, fs_count; rewrite start_n0, (count_total m k c (repeat 0 bN)) by (rewrite ?repeat_length; lia); reflexivity).
      destruct HD as [E|([j i] & HH)].
      - destruct (start_exists (glued bo m outputs) (glued bo m (nth n a [])) (firstn n0 rs)) as (p & Hp & Hhit).
        + rewrite firstn_length, Nat.min_l by lia. apply (glued_len bo m k). exact Hout.
        + rewrite firstn_length, Nat.min_l by lia. apply (glued_len bo m k). exact Hout'.
        + intros E0. apply Hne. exact (glued_inj _ _ _ _ _ Hout Hout' E0).
        + exact E.
        + rewrite firstn_length, Nat.min_l in Hp by lia. exists p. split; [lia|]. cbv zeta. split; [exact Hin|]. split; [exact Hout|].
          exists a. split; [exact Ha|]. left. cbn [fs_query qChals qOut]. rewrite fs_length. split; [exact Hp|].
          rewrite firstn_firstn, Nat.min_l in Hhit by lia. rewrite nth_firstn in Hhit by exact Hp. unfold rs in Hhit. rewrite fs_prefix, fs_nth in Hhit by lia. exact Hhit.
      - cbn [hit] in HH. destruct HH as [Hj HH].
        assert (Hi : (i <= rn j)%nat) by (destruct HH as [[HH _]|[-> _]]; lia).
        assert (HpN : (n0 + (of j + i) < N)%nat).
        { rewrite HNn. pose proof (off_anti rn n j 0 ltac:(lia) Hj). destruct HH as [[HH _]|(-> & HH & _)]; [lia|].
          destruct j as [|j]; [lia|]. pose proof (off_step rn n j Hj). pose proof (off_anti rn n j 0 ltac:(lia) ltac:(lia)). lia. }
        set (p := (n0 + (of j + i))%nat) in *. exists p. split; [exact HpN|]. cbv zeta.
        set (chs := fs_challenges H n0 inputs outputs msgs p).
        assert (Lch : length chs = p) by apply fs_length.
        assert (Ech : chs = firstn p rs) by (unfold chs, rs; rewrite fs_prefix by lia; reflexivity).
        split; [exact Hin|]. split; [exact Hout|]. exists a. split; [exact Ha|]. right. exists j, i. cbn [fs_query qChals qOut qMsgs].
        split; [exact Hj|]. split; [exact Lch|]. rewrite Lch.
        assert (Hr : nth (of j + i) (skipn n0 rs) 0 = H (fs_query n0 inputs outputs msgs chs)).
        { rewrite nth_skipn. unfold rs. rewrite fs_nth by exact HpN. reflexivity. }
        assert (Efull : firstn (of j + i) (skipn n0 chs) = firstn (of j + i) (skipn n0 rs)).
        { rewrite Ech, !firstn_skipn_comm. fold p. rewrite firstn_firstn, Nat.min_id. reflexivity. }
        assert (E1 : firstn bo chs = firstn bo rs) by (rewrite Ech, firstn_firstn; f_equal; lia).
        assert (E2 : firstn bN (skipn bo chs) = firstn bN (skipn bo rs)) by (rewrite Ech, !firstn_skipn_comm, firstn_firstn; do 2 f_equal; lia).
        assert (Hmlen : forall j, (j < n)%nat -> length (nth j (SumcheckProofs pf) []) = rn j).
        { intros j' Hj'. destruct HS as (_ & _ & _ & HS4). assert (HL : nth_error c j' = Some (lay j')) by (apply nth_error_nth'; exact Hj').
          specialize (HS4 j' _ HL). apply (f_equal (@length nat)) in HS4. unfold coefficients in HS4. rewrite map_length, !app_length, !repeat_length in HS4. unfold rnds. lia. }
        destruct HH as [(Hir & q0 & Hq & HH)|(-> & Hj0 & HH)].
        + left. split; [exact Hir|]. exists q0. split.
          { rewrite nth_error_firstn by lia. apply (round_at rn n pf Hmlen (fun _ => 0) _ eq_refl j i q0 Hj Hq). }
          split.
          { destruct HS as (_ & _ & _ & HS4). assert (HL : nth_error c j = Some (lay j)) by (apply nth_error_nth'; exact Hj).
            specialize (HS4 j _ HL). apply (f_equal (fun x => nth_error x i)) in HS4. rewrite (map_nth_error _ _ _ Hq) in HS4.
            unfold coefficients, layer_round_degree, phase_deg in *. unfold rnds in Hir.
            destruct (Nat.ltb_spec i (lBGInputs (lay j))).
            - rewrite nth_error_app1, nth_error_repeat in HS4 by (rewrite ?repeat_length; lia). injection HS4 as ->. lia.
            - rewrite nth_error_app2, repeat_length in HS4 by (rewrite repeat_length; lia). destruct (Nat.ltb_spec i (lBGInputs (lay j) + lBGInputs (lay j))).
              + rewrite nth_error_app1, nth_error_repeat in HS4 by (rewrite ?repeat_length; lia). injection HS4 as ->. lia.
              + rewrite nth_error_app2, repeat_length, nth_error_repeat in HS4 by (rewrite ?repeat_length; lia). injection HS4 as ->. lia. }
          rewrite <- Hr, E1, E2. unfold round_hit in *. cbv zeta in *.
          rewrite (run_of_prefix m k c a (firstn bo rs) (firstn bN (skipn bo rs)) ltac:(rewrite firstn_length, skipn_length; lia) (skipn n0 chs) (skipn n0 rs) j (of j + i) ltac:(lia) Hj Efull).
          assert (Ehd : firstn i (seg m k c (skipn n0 chs) j) = firstn i (seg m k c (skipn n0 rs) j)).
          { unfold seg. rewrite !firstn_firstn, Nat.min_l by lia. apply (seg_prefix _ _ (of j) i _ (le_n _) Efull). }
          rewrite Ehd. exact HH.
        + right. split; [reflexivity|]. split; [exact Hj0|]. exists (nth j (ClaimsLeft pf) 0), (nth j (ClaimsRight pf) 0). split.
          { rewrite nth_error_firstn by lia. apply (lam_at rn n pf Hmlen (fun _ => 0) _ eq_refl j Hj0 Hj). }
          rewrite <- Hr. unfold pair_hit in *. cbv zeta in *. rewrite (seg_pre (skipn n0 chs) (skipn n0 rs) j (of j + rn j) (le_n _) Efull). exact HH.
    Qed.

    (** ** The game *)
    Variable A : Adversary F.
    Variable Q : nat.
    Local Notation log tape i := (game_log bN c A Q tape i).
    Local Notation M := (Q + fs_count bN c)%nat.

    Lemma log_length tape i : length (log tape i) = i.
    Proof. induction i as [|i IH]; [reflexivity|]. cbn [game_log]. rewrite app_length, IH. cbn. lia. Qed.

    Lemma fs_ext H H' inputs outputs msgs : forall p,
      (forall i, (i < p)%nat -> let qu := fs_query n0 inputs outputs msgs (fs_challenges (F:=F) H n0 inputs outputs msgs i) in H qu = H' qu) ->
      fs_challenges H n0 inputs outputs msgs p = fs_challenges H' n0 inputs outputs msgs p.
    Proof.
      induction p as [|p IH]; intros HE; [reflexivity|]. cbn [fs_challenges]. rewrite <- IH by (intros i Hi; apply HE; lia).
      f_equal. f_equal. apply (HE p). lia.
    Qed.

    Definition qry (tape : list F) (i : nat) : Query F := next_query bN c A Q tape (log tape i) i.

    Lemma log_nth tape i j : (i < j)%nat -> nth_error (log tape j) i = Some (qry tape i, nth i tape 0).
    Proof.
      induction j as [|j IH]; intros Hi; [lia|]. cbn [game_log]. destruct (Nat.eq_dec i j) as [->|Hne].
      - rewrite nth_error_app2, log_length, Nat.sub_diag by (rewrite log_length; lia). reflexivity.
      - rewrite nth_error_app1 by (rewrite log_length; lia). apply IH. lia.
    Qed.

    Lemma log_prefix tape tape' i : firstn i tape = firstn i tape' -> (Q <= i \/ i <= Q)%nat -> forall i', (i' <= i)%nat -> log tape i' = log tape' i'.
    Proof.
      intros E _. induction i' as [|i' IH]; intros Hi; [reflexivity|]. cbn [game_log]. rewrite IH by lia. f_equal. f_equal. f_equal.
      - unfold next_query. destruct (Nat.ltb_spec i' Q) as [HQ|HQ].
        + rewrite <- (Nat.min_l i' i) by lia. rewrite <- !firstn_firstn, E. reflexivity.
        + rewrite <- (Nat.min_l Q i) by lia. rewrite <- !firstn_firstn, E. reflexivity.
      - apply (nth_prefix tape tape' i' i); [lia|exact E].
    Qed.

    Lemma qry_prefix tape tape' i : firstn i tape = firstn i tape' -> qry tape i = qry tape' i.
    Proof.
      intros E. unfold qry. rewrite (log_prefix tape tape' i E ltac:(lia) i (le_n _)). unfold next_query. destruct (Nat.ltb_spec i Q) as [HQ|HQ].
      - rewrite E. reflexivity.
      - rewrite <- (Nat.min_l Q i) by lia. rewrite <- !firstn_firstn, E. reflexivity.
    Qed.

    Lemma lookup_app lg lg' t : (exists r, In (t, r) lg) -> lookup (F:=F) (lg ++ lg') t = lookup lg t.
    Proof.
      induction lg as [|[t' r'] lg IH]; intros (r & Hr); [destruct Hr|]. cbn [app lookup]. destruct (query_eqb_spec t' t) as [|Hne]; [reflexivity|].
      apply IH. destruct Hr as [Hr|Hr]; [congruence|eauto].
    Qed.

    Lemma log_app tape i j : (i <= j)%nat -> exists lg, log tape j = log tape i ++ lg.
    Proof.
      induction j as [|j IH]; intros Hi; [replace i with 0%nat by lia; exists []; reflexivity|]. destruct (Nat.eq_dec i (S j)) as [->|Hne].
      - exists []. rewrite app_nil_r. reflexivity.
      - destruct (IH ltac:(lia)) as (lg & E). cbn [game_log]. rewrite E, <- app_assoc. eauto.
    Qed.

    (** The answer of the oracle was read from the tape where the query was first asked. *)
    Lemma lookup_at tape j t : (exists i, (i < j)%nat /\ qry tape i = t) -> exists i, (i < j)%nat /\ qry tape i = t /\ lookup (log tape j) t = nth i tape 0.
    Proof.
      induction j as [|j IH]; intros (i & Hi & E); [lia|]. cbn [game_log].
      assert (HD : (exists i, (i < j)%nat /\ qry tape i = t) \/ ~ exists i, (i < j)%nat /\ qry tape i = t).
      { clear. induction j as [|j IH]; [right; intros (i & Hi & _); lia|]. destruct IH as [(i & Hi & E)|Hn]; [left; exists i; split; [lia|exact E]|].
        destruct (query_eqb_spec (qry tape j) t) as [E|Hne]; [left; exists j; split; [lia|exact E]|]. right. intros (i & Hi & E).
        destruct (Nat.eq_dec i j) as [->|]; [contradiction|]. apply Hn. exists i. split; [lia|exact E]. }
      destruct HD as [HD|Hn].
      - destruct (IH HD) as (i' & Hi' & E' & EL). exists i'. split; [lia|]. split; [exact E'|]. rewrite lookup_app; [exact EL|].
        exists (nth i' tape 0). rewrite <- E'. apply (nth_error_In _ i'). apply log_nth. exact Hi'.
      - assert (i = j) as -> by (destruct (Nat.eq_dec i j); [assumption|exfalso; apply Hn; exists i; split; [lia|exact E]]).
        exists j. split; [lia|]. split; [exact E|].
        assert (HG : forall lg, (forall r, ~ In (t, r) lg) -> lookup (lg ++ [(t, nth j tape 0)]) t = nth j tape 0).
        { induction lg as [|[t' r'] lg IHl]; intros Hno; cbn [app lookup].
          - destruct (query_eqb_spec t t); [reflexivity|congruence].
          - destruct (query_eqb_spec t' t) as [->|]; [exfalso; apply (Hno r'); left; reflexivity|]. apply IHl. intros r Hr. apply (Hno r). right. exact Hr. }
        fold (qry tape j). rewrite E. apply HG. intros r Hr. destruct (In_nth_error _ _ Hr) as (i' & Ei').
        assert (Hi' : (i' < j)%nat) by (rewrite <- (log_length tape j); apply nth_error_Some; congruence).
        rewrite log_nth in Ei' by exact Hi'. apply Hn. exists i'. split; [exact Hi'|congruence].
    Qed.

    Lemma breaks_bad tape : breaks m k b c A Q tape -> exists i, (i < M)%nat /\ bad (qry tape i) (nth i tape 0).
    Proof.
      unfold breaks. destruct (give A (firstn Q tape)) as [[inputs outputs] pf] eqn:EG. rewrite (nth_error_nth _ _ _ Hlast).
      intros (Hin & Hout & (a & Ha & Hne) & HV).
      destruct (fs_bad _ pf inputs outputs a Hin Hout Ha Hne HV) as (p & Hp & HB). cbv zeta in HB.
      set (H := lookup (log tape M)) in *. set (msgs := messages n pf) in *.
      (* the verifier's queries are asked in turn *)
      assert (HQ : forall p, (p < fs_count bN c)%nat -> qry tape (Q + p) = fs_query n0 inputs outputs msgs (fs_challenges H n0 inputs outputs msgs p)).
      { induction p0 as [p0 IHp] using lt_wf_ind. intros Hp0. unfold qry, next_query. destruct (Nat.ltb_spec (Q + p0) Q); [lia|].
        rewrite EG, start_n0. replace (Q + p0 - Q)%nat with p0 by lia. fold msgs. f_equal. symmetry. apply fs_ext. intros i Hi. cbv zeta.
        rewrite <- (IHp i Hi ltac:(lia)). unfold H. destruct (log_app tape (Q + p0) M ltac:(lia)) as (lg & EL). rewrite EL. apply lookup_app.
        exists (nth (Q + i) tape 0). apply (nth_error_In _ (Q + i)). apply log_nth. lia. }
      specialize (HQ p Hp). rewrite <- HQ in HB.
      destruct (lookup_at tape M (qry tape (Q + p))) as (i & Hi & Ei & EL); [exists (Q + p)%nat; split; [lia|reflexivity]|].
      exists i. split; [exact Hi|]. rewrite Ei. unfold H in HB. rewrite <- EL. exact HB.
    Qed.

    Lemma game_count (S0 : list F) L : NoDup L -> (forall tape, In tape L -> In tape (grid S0 M) /\ breaks m k b c A Q tape) ->
      (length L <= M * d * length S0 ^ (M - 1))%nat.
    Proof.
      intros HL HA.
      assert (ED : list_sum (map (fun _ : nat => d) (seq 0 M)) = (M * d)%nat).
      { generalize M at 1 2. intros M'. generalize 0%nat. induction M' as [|M' IH]; intros s; [reflexivity|]. cbn [seq map]. 
        change (d + list_sum (map (fun _ : nat => d) (seq (S s) M')) = S M' * d)%nat. rewrite IH. lia. }
      rewrite <- ED. apply (events_bound S0 M (seq 0 M) (fun i => i) (fun _ => d) (fun i tape => bad (qry tape i) (nth i tape 0)) L HL).
      - intros i Hi. apply in_seq in Hi. lia.
      - intros tape Ht. destruct (HA tape Ht) as [Hg HB]. split; [exact Hg|]. destruct (breaks_bad tape HB) as (i & Hi & Hb). exists i. split; [apply in_seq; lia|exact Hb].
      - intros i pre xs _ Hnd Hx. destruct xs as [|x0 xs]; [apply Nat.le_0_l|].
        destruct (Hx x0 (or_introl eq_refl)) as (tape0 & _ & E0 & _ & _). apply (query_bound (qry tape0 i) (x0 :: xs) Hnd).
        intros x Hxin. destruct (Hx x Hxin) as (tape & _ & E & En & HB). rewrite <- En, (qry_prefix tape0 tape i) by congruence. exact HB.
    Qed.
  End Circ.
End L.
