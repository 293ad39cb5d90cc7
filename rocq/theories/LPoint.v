(** The circuit of the GKR test at any initial point (lemmas for PPoint.v). *)
From Coq Require Import List Arith Lia Bool Ring Field.
From Verif Require Import Field Go Spec Trans MCommon MPoly LPoly LPoly2 LPoly3 LSpec LCommon LCircuit LCircuit2 LCircuit3 LGkr LGkr2 LGkr3 MCircuit SpecCircuit
  MSumcheck SpecSumcheck LSumcheck LSumcheck4 MSumPar SpecSumPar MGkr SpecGkr MHash SpecHash LHash LHash3 LHash4 LGkr4
  MSnark SpecSnark LSnark LSnark2 LSnark3 LSnark4 LSnark5 LSnark6 LSnark7 LSnark8 LSnark9 LSnark10 LSnark11 LUnique6 MRepair SpecRepair LRepair LRepair2 LRepair3.
Import ListNotations.

Section L.
  Context {F : Field}.
  Add Field FfieldPoint : (f_theory F).
  Open Scope F_scope.

  (** ** Zeros of multilinear polynomials *)

  Lemma mle_halves (t t0 t1 : list F) x y :
    (forall i, (i < 2 ^ length y)%nat -> nth i t0 0 = nth i t 0 /\ nth i t1 0 = nth (2 ^ length y + i) t 0) ->
    mle t (x :: y) = (1 - x) * mle t0 y + x * mle t1 y.
  Proof.
    intros H. rewrite mle_cons. unfold mle. rewrite <- !suml_scal_l, <- suml_add. apply suml_ext.
    intros b Hb. apply in_cube in Hb. destruct (H (bits_val b)) as [H0 H1]; [rewrite <- Hb; apply bits_val_lt|].
    rewrite H0, H1. ring.
  Qed.

  (** Is some entry below [n] not zero? *)
  Lemma find_nonzero (f : nat -> F) n : (exists i, (i < n)%nat /\ f i <> 0) \/ (forall i, (i < n)%nat -> f i = 0).
  Proof.
    induction n as [|n IH]; [right; intros i Hi; lia|]. destruct IH as [(i & Hi & H)|H]; [left; exists i; auto with arith|].
    destruct (f_eq_dec (f n) 0) as [E|E]; [|left; exists n; auto]. right. intros i Hi.
    destruct (Nat.eq_dec i n) as [->|Hne]; [exact E|apply H; lia].
  Qed.

  Lemma zero_or_constant n : forall D : list F,
    (exists q, length q = n /\ mle D q = 0) \/ (exists d, d <> 0 /\ forall i, (i < 2 ^ n)%nat -> nth i D 0 = d).
  Proof.
    induction n as [|n IH]; intros D.
    - destruct (f_eq_dec (nth 0 D 0) 0) as [E|E].
      + left. exists []. rewrite mle_nil. auto.
      + right. exists (nth 0 D 0). split; [exact E|]. intros i Hi. cbn in Hi. assert (i = 0%nat) by lia. subst i. reflexivity.
    - destruct (find_nonzero (fun i => nth (2 ^ n + i) D 0 - nth i D 0) (2 ^ n)) as [(i & Hi & Hd)|Hsame].
      + left. set (b := to_bits n i). set (x := - (nth i D 0 * finv (nth (2 ^ n + i) D 0 - nth i D 0))).
        assert (Lb : length b = n) by apply to_bits_length.
        exists (x :: bpoint b). split; [cbn [length]; rewrite bpoint_length, Lb; reflexivity|].
        rewrite (mle_halves D D (skipn (2 ^ n) D)).
        2: { intros j _. rewrite bpoint_length, Lb, nth_skipn. auto. }
        rewrite !mle_bpoint, nth_skipn. unfold b. rewrite bits_val_to_bits by exact Hi. unfold x. field. exact Hd.
      + destruct (IH D) as [(q & Lq & Hq)|(d & Hd & Hc)].
        * left. exists (0 :: q). split; [cbn; congruence|].
          rewrite (mle_halves D D (skipn (2 ^ n) D)) by (intros j _; rewrite Lq, nth_skipn; auto).
          rewrite Hq. ring.
        * right. exists d. split; [exact Hd|]. intros i Hi. rewrite Nat.pow_succ_r' in Hi. destruct (Nat.lt_ge_cases i (2 ^ n)) as [H|H]; [auto|].
          assert (E : nth (2 ^ n + (i - 2 ^ n)) D 0 - nth (i - 2 ^ n) D 0 = 0).
          { apply (Hsame (i - 2 ^ n)%nat). lia. }
          replace (2 ^ n + (i - 2 ^ n))%nat with i in E by lia. rewrite (Hc (i - 2 ^ n)%nat) in E by lia.
          replace (nth i D 0) with (nth i D 0 - d + d) by ring. rewrite E. ring.
  Qed.

  (** Two tables agree somewhere, unless they differ by the same constant everywhere. *)
  Lemma agree_somewhere n (A B : list F) :
    (exists q, length q = n /\ mle A q = mle B q) <-> ~ exists d, d <> 0 /\ forall i, (i < 2 ^ n)%nat -> nth i A 0 = nth i B 0 + d.
  Proof.
    set (D := map (fun i => nth i A 0 - nth i B 0) (seq 0 (2 ^ n))).
    assert (ND : forall i, (i < 2 ^ n)%nat -> nth i D 0 = nth i A 0 - nth i B 0) by (intros i Hi; unfold D; rewrite nth_map_seq by exact Hi; reflexivity).
    assert (ED : forall q, length q = n -> mle D q = mle A q - mle B q).
    { intros q Hq. rewrite (mle_linear A B D 1 (- (1)) q) by (rewrite Hq; intros i Hi; rewrite ND by exact Hi; ring). ring. }
    split.
    - intros (q & Lq & Hq) (d & Hd & Hc). apply Hd.
      assert (E : mle D q = d).
      { rewrite (mle_linear (repeat 1 (2 ^ n)) (repeat 1 (2 ^ n)) D d 0 q).
        - assert (E1 : mle (repeat 1 (2 ^ n)) q = 1).
          { unfold mle. etransitivity; [|apply (chi_sum q)]. apply suml_ext. intros b Hb. apply in_cube in Hb.
            rewrite nth_repeat_lt by (rewrite <- Lq, <- Hb; apply bits_val_lt). ring. }
          rewrite E1. ring.
        - rewrite Lq. intros i Hi. rewrite ND, Hc, nth_repeat_lt by exact Hi. ring. }
      rewrite <- E, ED, Hq by exact Lq. ring.
    - intros H. destruct (zero_or_constant n D) as [(q & Lq & Hq)|(d & Hd & Hc)].
      + exists q. split; [exact Lq|]. rewrite ED in Hq by exact Lq.
        replace (mle A q) with (mle A q - mle B q + mle B q) by ring. rewrite Hq. ring.
      + exfalso. apply H. exists d. split; [exact Hd|]. intros i Hi. rewrite <- (Hc i Hi), ND by exact Hi. ring.
  Qed.

  (** ** The honest proof at any initial point *)
  Lemma honest_at (ch : list F -> F) m k (c : list (Layer F)) b inputs a l q qP : distinct_upto (F:=F) 12 ->
    (forall l, In l c -> layer_ok l) -> fits b c -> chunked k m b inputs -> assignment_of c (2 ^ m) inputs a ->
    nth_error c (length c - 1) = Some l -> length q = lBGOutputs l -> length qP = (m + k)%nat ->
    exists pf, plen c pf /\ pshape m k c 0 pf /\
      accepted ch false c (m + k) pf q qP (glued (lBGOutputs l) m (nth (length c) a [])) (glued b m inputs) /\
      forall j, ~ collision_from ch pf c m k a q qP j.
  Proof.
    intros HD Hl Hf Hin Ha Hlast Lq LqP.
    destruct (rcomplete_from ch HD 1 (mtWhole ch) (le_n 1) (mtWhole_follows ch 1) m k c b inputs a Hl Hf Hin Ha l Hlast q qP Lq LqP)
      as (pf & EP & (S1 & S2 & S3 & S4) & HAcc).
    destruct (rhonest_right ch HD 1 (mtWhole ch) (le_n 1) (mtWhole_follows ch 1) m k c b inputs a Hl Hf Hin Ha l Hlast q qP Lq LqP) as (pf' & EP' & HR).
    rewrite EP in EP'. injection EP' as <-.
    exists pf. split; [repeat split; assumption|]. split; [intros i li _ Hi; exact (S4 i li Hi)|]. split; [exact HAcc|].
    intros j Hj. pose proof Hj as (lj & Hlj & _).
    apply (right_no_collision ch pf c m k a q qP j); [|exact Hj]. apply HR. apply nth_error_Some. congruence.
  Qed.

  (** Only the value of the outputs at the point matters. *)
  Lemma accepted_out (ch : list F -> F) mm c bN pf q qP out out' inp : mle out (q ++ qP) = mle out' (q ++ qP) ->
    accepted ch mm c bN pf q qP out inp -> accepted ch mm c bN pf q qP out' inp.
  Proof. intros E. unfold accepted. rewrite E. auto. Qed.

  Local Lemma some_eq {A} (x y : A) : Some x = Some y -> x = y.
  Proof. congruence. Qed.

  (** ** The compiled test circuit *)
  Lemma test_circuit_at (arks : list F) bN vi : (91 <= length arks)%nat -> distinct_upto (F:=F) 12 -> length vi = (2 * 2 ^ bN)%nat ->
    exists c sc a, CreateMimcCircuit arks = Some c /\ SCreateMimcCircuit arks = Some sc /\ Assign c [vi] = Some a /\
      length (nth 0 (nth 91 a []) []) = (2 ^ bN)%nat /\
      forall cs p qP vIn vOut, AllocateGKRMimcTestCircuit bN sc = (cs, (p, qP, vIn, vOut)) ->
      exists cs', SGkrAssertValid arks p sc [] qP vIn vOut cs = Some (tt, cs') /\
      forall q vo, length q = bN -> length vo = (2 ^ bN)%nat -> mle vo q = mle (nth 0 (nth 91 a []) []) q ->
      exists w, satisfied w cs' /\ map w qP = q /\ map w vIn = vi /\ map w vOut = vo /\
        forall j, ~ collision_from (challenge arks) (read_proof w p) c bN 0 a [] (map w qP) j.
  Proof.
    intros HA Hdist Li.
    assert (Hch : chunked 0 bN 1 [vi]) by (split; [reflexivity|intros t [<-|[]]; rewrite Li; reflexivity]).
    destruct (mimc_assign arks HA bN [vi] 0 bN ltac:(lia) Hch) as (a & EA & Ha & [O1 O2]).
    eexists _, _, a. split; [apply CreateMimcCircuit_ok; exact HA|]. split; [apply SCreateMimcCircuit_ok; exact HA|]. split; [exact EA|].
    destruct (nth 91 a []) as [|out [|? ?]] eqn:Eout; try discriminate O1. cbn [nth].
    assert (Lo : length out = (2 ^ bN)%nat) by (rewrite (O2 out (or_introl eq_refl)); cbn; lia).
    split; [exact Lo|]. intros cs p qP vIn vOut EAl.
    pose proof (test_circuit_ok _ _ _ _ _ _ _ EAl) as (HO & HP & HV & L1 & L2 & L3).
    set (sc := smimc (firstn 90 arks) (nth 90 arks 0)) in *.
    assert (LS : length sc = 91%nat). { unfold sc. rewrite (Forall2_len _ _ _ (smimc_describes _ _)). apply mimc_len. exact HA. }
    destruct (mimc_gadget arks HA bN p cs qP vIn vOut HO HP HV L1 L2 L3) as (cs' & E & HO' & HG & HI).
    exists cs'. split; [exact E|]. intros q vo Hq Hvo Hm0.
    destruct (honest_at (challenge arks) bN 0 _ 1 [vi] a _ [] q Hdist (mimc_layer_ok _ _) (mimc_fits _ _) Hch Ha (mimc_last_nth' arks HA) eq_refl)
      as (pf & P1 & P2 & P3 & P4); [lia|].
    rewrite (mimc_len arks HA), Eout in P3. change (lBGOutputs (mimc_last (nth 90 arks 0))) with 0%nat in P3.
    assert (Gi : glued 1 bN [vi] = vi) by (unfold glued; apply LPoly3.interleave_one; exact Li).
    assert (Go : glued 0 bN [out] = out) by (unfold glued; apply LPoly3.interleave_one; exact Lo).
    rewrite Gi, Go in P3.
    apply (accepted_out _ _ _ _ _ _ _ _ vo) in P3; [|symmetry; exact Hm0].
    pose proof (mimc_shape arks HA bN 0 pf P1 ltac:(exact P2)) as HS. fold sc in HS. rewrite Nat.add_0_r in HS, P3.
    pose proof P1 as (_ & Q2 & Q3). rewrite (mimc_len arks HA) in Q2, Q3.
    destruct (test_circuit_witness bN sc cs p qP vIn vOut pf q vi vo EAl HS) as (w & Hw & W1 & W2 & W3 & W4);
      try (rewrite ?LS; assumption); [rewrite Li, Nat.add_1_r; reflexivity|].
    destruct Hw as [Hg Has]. pose proof HG as (_ & _ & _ & HX & _). destruct (HX w Hg) as (w' & Hag & Hg').
    assert (Hm : forall l, vars cs l -> map w' l = map w l).
    { intros l Hl. apply map_ext_in. intros v Hv. symmetry. apply Hag, Hl, Hv. }
    rewrite !vars_app in HV. destruct HV as (V1 & V2 & V3).
    assert (Er' : read_proof w' p = pf).
    { rewrite <- W1. unfold read_proof. destruct HP as (HV & _). rewrite !vars_app in HV. destruct HV as (X1 & X2 & X3). rewrite (Hm _ X2), (Hm _ X3).
      f_equal. apply map_ext_in. intros x Hx. apply map_ext_in. intros y Hy. apply Hm. intros v Hv. apply X1.
      apply in_concat. exists y. split; [apply in_concat; exists x; auto|exact Hv]. }
    exists w'. rewrite Er', !Hm, W2 by assumption. split; [|auto].
    split; [exact Hg'|]. apply (HI w' Hg'). split; [apply (asserts_ext cs w w' HO Hag); exact Has|].
    rewrite Er', !Hm, W2, W3, W4 by assumption. exact P3.
  Qed.

  (** The statements with a witness in which no challenge collides. *)
  Lemma test_circuit_exact (arks : list F) bN vi : (91 <= length arks)%nat -> distinct_upto (F:=F) 12 -> length vi = (2 * 2 ^ bN)%nat ->
    exists c sc a, CreateMimcCircuit arks = Some c /\ SCreateMimcCircuit arks = Some sc /\ Assign c [vi] = Some a /\
      forall cs p qP vIn vOut, AllocateGKRMimcTestCircuit bN sc = (cs, (p, qP, vIn, vOut)) ->
      exists cs', SGkrAssertValid arks p sc [] qP vIn vOut cs = Some (tt, cs') /\
      forall vo, length vo = (2 ^ bN)%nat ->
        ((exists w, satisfied w cs' /\ map w vIn = vi /\ map w vOut = vo /\
            forall j, ~ collision_from (challenge arks) (read_proof w p) c bN 0 a [] (map w qP) j) <->
         ~ exists d, d <> 0 /\ forall h, (h < 2 ^ bN)%nat -> nth h vo 0 = nth h (nth 0 (nth 91 a []) []) 0 + d).
  Proof.
    intros HA HD Li. destruct (test_circuit_at arks bN vi HA HD Li) as (c & sc & a & EC & ES & EA & Lo & H).
    exists c, sc, a. do 3 (split; [assumption|]). intros cs p qP vIn vOut EAl. destruct (H cs p qP vIn vOut EAl) as (cs' & E & Hw).
    exists cs'. split; [exact E|]. intros vo Lvo. rewrite <- agree_somewhere. split.
    - intros (w & Hs & W1 & W2 & Hno). exists (map w qP). pose proof (test_circuit_ok _ _ _ _ _ _ _ EAl) as (_ & _ & _ & L1 & _).
      split; [rewrite map_length; exact L1|].
      destruct (test_circuit_sound arks bN HA) as (c' & sc' & E1 & E2 & HT). rewrite EC in E1. rewrite ES in E2. apply some_eq in E1. apply some_eq in E2. subst c' sc'.
      destruct (HT cs p qP vIn vOut EAl) as (cs2 & EG2 & Hsat). rewrite E in EG2. injection EG2 as <-.
      destruct (Hsat w Hs) as (a2 & EA2 & _ & _ & HC). rewrite W1, EA in EA2. injection EA2 as <-. rewrite W2 in HC.
      destruct HC as [HC|[j Hj]]; [exact HC|destruct (Hno j Hj)].
    - intros (q & Lq & Hq). destruct (Hw q vo Lq Lvo Hq) as (w & Hs & W1 & W2 & W3 & W4). exists w. auto.
  Qed.

  (** One right output is enough. *)
  Lemma test_circuit_one (arks : list F) bN vi : (91 <= length arks)%nat -> distinct_upto (F:=F) 12 -> length vi = (2 * 2 ^ bN)%nat ->
    exists c sc a, CreateMimcCircuit arks = Some c /\ SCreateMimcCircuit arks = Some sc /\ Assign c [vi] = Some a /\
      forall cs p qP vIn vOut, AllocateGKRMimcTestCircuit bN sc = (cs, (p, qP, vIn, vOut)) ->
      exists cs', SGkrAssertValid arks p sc [] qP vIn vOut cs = Some (tt, cs') /\
      forall vo h, length vo = (2 ^ bN)%nat -> (h < 2 ^ bN)%nat -> nth h vo 0 = nth h (nth 0 (nth 91 a []) []) 0 ->
        exists w, satisfied w cs' /\ map w qP = bpoint (to_bits bN h) /\ map w vIn = vi /\ map w vOut = vo.
  Proof.
    intros HA HD Li. destruct (test_circuit_at arks bN vi HA HD Li) as (c & sc & a & EC & ES & EA & Lo & H).
    exists c, sc, a. do 3 (split; [assumption|]). intros cs p qP vIn vOut EAl. destruct (H cs p qP vIn vOut EAl) as (cs' & E & Hw).
    exists cs'. split; [exact E|]. intros vo h Lvo Hh Eh.
    destruct (Hw (bpoint (to_bits bN h)) vo) as (w & Hs & W1 & W2 & W3 & _); [rewrite bpoint_length; apply to_bits_length|exact Lvo| |exists w; auto].
    rewrite !mle_bpoint, !bits_val_to_bits by exact Hh. exact Eh.
  Qed.

  (** With two instances or more the circuit has witnesses for wrong outputs; with one instance it has none. *)
  Lemma test_circuit_wrong (arks : list F) bN vi : (91 <= length arks)%nat -> distinct_upto (F:=F) 12 -> length vi = (2 * 2 ^ bN)%nat ->
    exists c sc a, CreateMimcCircuit arks = Some c /\ SCreateMimcCircuit arks = Some sc /\ Assign c [vi] = Some a /\
      forall cs p qP vIn vOut, AllocateGKRMimcTestCircuit bN sc = (cs, (p, qP, vIn, vOut)) ->
      exists cs', SGkrAssertValid arks p sc [] qP vIn vOut cs = Some (tt, cs') /\
      ((exists w, satisfied w cs' /\ map w vIn = vi /\ map w vOut <> nth 0 (nth 91 a []) [] /\
          forall j, ~ collision_from (challenge arks) (read_proof w p) c bN 0 a [] (map w qP) j) <-> (0 < bN)%nat).
  Proof.
    intros HA HD Li. destruct (test_circuit_at arks bN vi HA HD Li) as (c0 & sc0 & a0 & EC0 & ES0 & EA0 & Lo & _).
    destruct (test_circuit_exact arks bN vi HA HD Li) as (c & sc & a & EC & ES & EA & H).
    rewrite EC in EC0. apply some_eq in EC0. subst c0. rewrite EA in EA0. injection EA0 as <-.
    exists c, sc, a. do 3 (split; [assumption|]). intros cs p qP vIn vOut EAl. destruct (H cs p qP vIn vOut EAl) as (cs' & E & Hw).
    pose proof (test_circuit_ok _ _ _ _ _ _ _ EAl) as (_ & _ & _ & _ & _ & L3).
    exists cs'. split; [exact E|]. set (outs := nth 0 (nth 91 a []) []) in *. split.
    - intros (w & Hs & W1 & W2 & W3). destruct bN as [|bN]; [|lia]. exfalso.
      assert (Lw : length (map w vOut) = (2 ^ 0)%nat) by (rewrite map_length; exact L3).
      apply (proj1 (Hw (map w vOut) Lw)); [exists w; auto|].
      destruct (f_eq_dec (nth 0 (map w vOut) 0 - nth 0 outs 0) 0) as [E0|E0].
      + exfalso. apply W2. apply (list_ext 0); [congruence|]. intros i Hi. rewrite Lw in Hi. cbn in Hi. assert (i = 0%nat) by lia. subst i.
        replace (nth 0 (map w vOut) 0) with (nth 0 (map w vOut) 0 - nth 0 outs 0 + nth 0 outs 0) by ring. rewrite E0. ring.
      + exists (nth 0 (map w vOut) 0 - nth 0 outs 0). split; [exact E0|]. intros h Hh. cbn in Hh. assert (h = 0%nat) by lia. subst h. ring.
    - intros Hb. assert (H2 : (1 < 2 ^ bN)%nat) by (destruct bN as [|n]; [lia|]; rewrite Nat.pow_succ_r'; pose proof (pow_pos n); lia).
      set (vo := upd outs 1 (nth 1 outs 0 + 1)).
      assert (Lvo : length vo = (2 ^ bN)%nat) by (unfold vo; rewrite upd_length; exact Lo).
      assert (H01 : (1 : F) <> 0) by (apply (F_1_neq_0 (f_theory F))).
      destruct (proj2 (Hw vo Lvo)) as (w & Hs & W1 & W2 & W3).
      { intros (d & Hd & Hc). apply Hd. pose proof (Hc 0%nat ltac:(lia)) as H0. unfold vo in H0. rewrite nth_upd in H0 by lia. cbn [Nat.eqb] in H0.
        replace d with (nth 0 outs 0 + d - nth 0 outs 0) by ring. rewrite <- H0. ring. }
      exists w. split; [exact Hs|]. split; [exact W1|]. split; [|exact W3]. rewrite W2. intros Eq.
      pose proof (f_equal (fun l => nth 1 l 0) Eq) as E1. cbv beta in E1. unfold vo in E1. rewrite nth_upd in E1 by lia. cbn [Nat.eqb] in E1.
      apply H01. replace (1 : F) with (nth 1 outs 0 + 1 - nth 1 outs 0) by ring. rewrite E1. ring.
  Qed.
End L.
