(** The round evaluations of the sum-check prover. *)
From Coq Require Import List Arith ZArith Lia Bool Ring Field.
From Verif Require Import Field Go MCommon Spec MPoly LSpec LCommon LPoly LEffect LPoly2 MCircuit SpecCircuit LCircuit LCircuit2 MSumcheck LSumcheck.
Import ListNotations.

Section S.
  Context {F : Field}.
  Add Field FfieldLSumcheck2 : (f_theory F).
  Open Scope F_scope.

  Definition foldHL (p : Prover F) (r : F) : Prover F :=
    MkProver (foldv (sVL p) r) (sVR p) (sEq p) (sGates p) (map (fun t => foldv t r) (sStatic p)) (dHL p) (dHR p) (dHPrime p).
  Definition foldHR (p : Prover F) (r : F) : Prover F :=
    MkProver (sVL p) (foldv (sVR p) r) (sEq p) (sGates p) (map (fun t => foldv t r) (sStatic p)) (dHL p) (dHR p) (dHPrime p).
  Definition foldHP (p : Prover F) (r : F) : Prover F :=
    MkProver (foldv (sVL p) r) (foldv (sVR p) r) (foldv (sEq p) r) (sGates p) (sStatic p) (dHL p) (dHR p) (dHPrime p).

  Lemma FoldHL_eq p r : FoldHL p r = Some (foldHL p r).
  Proof.
    unfold FoldHL. rewrite (mapM_some _ (fun t => foldv t r)) by (intros; apply Fold_foldv).
    rewrite Fold_foldv. reflexivity.
  Qed.
  Lemma FoldHR_eq p r : FoldHR p r = Some (foldHR p r).
  Proof.
    unfold FoldHR. rewrite (mapM_some _ (fun t => foldv t r)) by (intros; apply Fold_foldv).
    rewrite Fold_foldv. reflexivity.
  Qed.
  Lemma FoldHP_eq p r : FoldHPrime p r = Some (foldHP p r).
  Proof. unfold FoldHPrime. rewrite !Fold_foldv. reflexivity. Qed.

  Lemma wf3_zeros nG H nE : wf3 (F:=F) nG H nE (repeat (repeat (repeat 0 nE) H) nG).
  Proof.
    split; [apply repeat_length|]. intros i Hi. rewrite nth_repeat_lt by assumption. apply wf2_zeros.
  Qed.
  Lemma rd3_zeros nG H nE k : rd3 (repeat (repeat (repeat (0 : F) nE) H) nG) k = 0.
  Proof.
    destruct k as [[a b] c]. unfold rd3. cbn [fst snd]. destruct (Nat.lt_ge_cases a nG).
    - rewrite nth_repeat_lt by assumption. apply rd2_zeros.
    - rewrite (nth_overflow (repeat _ nG)) by (rewrite repeat_length; assumption).
      unfold rd2. cbn [fst snd]. destruct b; cbn [nth]; destruct c; reflexivity.
  Qed.

  Lemma wf3_map {A} nG H nE (f : A -> list (list F)) l : length l = nG ->
    (forall a, In a l -> wf2 H nE (f a)) -> wf3 nG H nE (map f l).
  Proof.
    intros HL Hf. split; [rewrite map_length; exact HL|]. intros i Hi.
    destruct l as [|a0 l0]; [simpl in *; lia|].
    rewrite (nth_map_lt f (a0 :: l0) i [] a0) by lia. apply Hf. apply nth_In. lia.
  Qed.

  Lemma evv_wf nE size (tab : list F) : wf2 size nE (evv nE size tab).
  Proof.
    unfold evv. split; [rewrite map_length, seq_length; reflexivity|]. intros h Hh.
    rewrite nth_map_seq by exact Hh. rewrite map_length, seq_length. reflexivity.
  Qed.

  Lemma rd3_evv nE size (st : list (list F)) i h t : (i < length st)%nat -> (h < size)%nat -> (t < nE)%nat ->
    rd3 (map (evv nE size) st) (i, h, t) = nth h (foldv (nth i st []) (fnat t)) 0.
  Proof.
    intros Hi Hh Ht. unfold rd3, rd2. cbn [fst snd]. rewrite (nth_map_lt _ st i [] []) by exact Hi.
    unfold evv. rewrite nth_map_seq by exact Hh. rewrite nth_map_seq by exact Ht. reflexivity.
  Qed.

  Lemma half_double m : (2 * m / 2 = m)%nat.
  Proof. rewrite Nat.mul_comm. apply Nat.div_mul. lia. Qed.

  Lemma nz_lengths size (st : list (list F)) i : (i < length st)%nat ->
    length (nth i (map (nzv size) st) []) = size.
  Proof.
    intros Hi. rewrite (nth_map_lt _ st i [] []) by exact Hi. unfold nzv. rewrite map_length, seq_length. reflexivity.
  Qed.

  (** ** HL rounds *)
  Lemma GetEvalsOnHL_spec n m g (p : Prover F) :
    (0 < g)%nat -> sGates p <> [] -> manys p -> shape n (2 * m) g p ->
    GetEvalsOnHL p = Some (map (fun t => psum n m g (foldHL p (fnat t))) (seq 0 (dHL p + 1))).
  Proof.
    intros Hg Hne Hmany [Hn Heq HvL HvR Hst Htab].
    assert (HG : (0 < length (sGates p))%nat) by (destruct (sGates p); [congruence|simpl; lia]).
    assert (Hmid : (length (sVL p) / 2 = m * n)%nat) by (rewrite HvL, <- Nat.mul_assoc; apply half_double).
    assert (Ht2 : forall tab, In tab (sStatic p) -> (length tab / 2 = m * g)%nat)
      by (intros tab Hin; rewrite (Htab tab Hin), <- Nat.mul_assoc; apply half_double).
    unfold GetEvalsOnHL, accumulateEvalsOnHL. rewrite Heq, HvR, godiv_some, Nat.div_mul by lia.
    rewrite (get_nth (sStatic p) 0 []) by lia. rewrite (Htab _ (nth_In (sStatic p) [] (n:=0) ltac:(lia))).
    rewrite godiv_some, Nat.div_mul by lia.
    replace (2 * m * g / 2)%nat with (m * g)%nat by (rewrite <- Nat.mul_assoc; symmetry; apply half_double).
    rewrite half_double, Hmid. set (nE := (dHL p + 1)%nat). assert (HnE : (0 < nE)%nat) by (unfold nE; lia).
    rewrite (mapM_some _ (fun tab => (nzv (m * g) tab, evv nE (m * g) tab))).
    2:{ intros tab Hin. apply evalStatic_spec; [exact HnE|rewrite Ht2; [lia|exact Hin]]. }
    rewrite !map_map. cbn [fst snd]. rewrite Hst.
    set (nG := length (sGates p)) in *.
    match goal with |- context [forN n ?body ?init] =>
      assert (Heff : has_effect (wfT nG (m * g) nE) rdT (fun s => forN n body s)
        (fun k => sumn n (fun hP => sumn m (fun l => sumn g (fun r =>
          if (fst (fst k) <? nG)%nat && (snd (fst k) =? l * g + r)%nat && (snd k <? nE)%nat
             && nth (l * g + r) (nth (fst (fst k)) (map (nzv (m * g)) (sStatic p)) []) false
          then geval (nth (fst (fst k)) (sGates p) agate) (nth (l * n + hP) (foldv (sVL p) (fnat (snd k))) 0) (nth (r * n + hP) (sVR p) 0)
                 * nth hP (sEq p) 0 else 0))))) end.
    { apply eff_forN. intros hP HhP. rewrite (get_nth (sEq p) hP 0) by lia.
      apply eff_forN. intros l Hl.
      assert (Hb : (l * n + hP < m * n)%nat) by nia.
      set (b0 := map (fun k => nth (l * n + hP) (foldv (sVL p) (fnat k)) 0) (seq 0 nE)).
      eapply eff_ext; [|eapply (eff_fun_ext _ _ (fun s => s1 <- (Some (fst (fst s), b0, snd s)) ;; _));
        [|apply (eff_before (wfT nG (m * g) nE) (wfB nG (m * g) nE b0) rdT
            (fun s => Some (fst (fst s), b0, snd s)) (fun s => forN g (fun '(sp, evaledVLs, vS) hR =>
          let h := (l * g + hR)%nat in
          evaledVR <- get (sVR p) (hR * n + hP) ;;
          foldM (fun '(sp, evaledVLs, vS) ig =>
            row <- get (map (nzv (m * g)) (sStatic p)) (fst ig) ;;
            b <- get row h ;;
            if (b : bool) then
              vS <- gmanyVL (snd ig) vS evaledVLs evaledVR ;;
              sp <- addScaled sp (fst ig) h vS (nth hP (sEq p) 0) ;;
              Some (sp, evaledVLs, vS)
            else Some (sp, evaledVLs, vS))
            (combine (seq 0 (length (sGates p))) (sGates p)) (sp, evaledVLs, vS)) s) _)]].
      - intros k. reflexivity.
      - intros [[sp b] vS] (W1 & W2 & W3). cbn [fst snd] in *.
        rewrite (get_nth (sVL p) _ 0) by nia. rewrite (get_nth (sVL p) _ 0) by nia.
        rewrite (Nat.add_comm (l * n + hP) (m * n)). rewrite <- Hmid.
        rewrite fillLine_foldv; [reflexivity|exact W2|exact HnE|rewrite Hmid; exact Hb].
      - intros [[sp b] vS] (W1 & W2 & W3). cbn [fst snd] in *. eexists. split; [reflexivity|].
        split; [split; [exact W1|split; [reflexivity|exact W3]]|reflexivity].
      - intros [[sp b] vS] (W1 & W2 & W3). cbn [fst snd] in *. subst b.
        split; [exact W1|]. split; [|exact W3]. cbn [fst snd]. unfold b0. rewrite map_length, seq_length. reflexivity.
      - apply (eff_forN _ _ _ _ (fun r k =>
          if (fst (fst k) <? nG)%nat && (snd (fst k) =? l * g + r)%nat && (snd k <? nE)%nat
             && nth (l * g + r) (nth (fst (fst k)) (map (nzv (m * g)) (sStatic p)) []) false
          then geval (nth (fst (fst k)) (sGates p) agate) (nth (l * n + hP) (foldv (sVL p) (fnat (snd k))) 0) (nth (r * n + hP) (sVR p) 0)
                 * nth hP (sEq p) 0 else 0)). intros r Hr.
        eapply eff_ext; [|eapply eff_fun_ext; [|apply (gates_eff gmanyVL (fun g x y => geval g x y) (sGates p) (many_VL p Hmany)
          (m * g) nE (map (nzv (m * g)) (sStatic p)) (l * g + r) b0 (nth (r * n + hP) (sVR p) 0) (nth hP (sEq p) 0))]].
        + intros [[i h] t]. cbn [fst snd]. fold nG. destruct (Nat.ltb_spec t nE); rewrite ?andb_false_r; [|reflexivity].
          unfold b0. rewrite nth_map_seq by assumption. reflexivity.
        + intros [[sp b] vS] _. rewrite (get_nth (sVR p) _ 0) by nia. reflexivity.
        + rewrite map_length. exact Hst.
        + intros i Hi. apply nz_lengths. lia.
        + nia.
        + unfold b0. rewrite map_length, seq_length. reflexivity. }
    match type of Heff with has_effect _ _ _ ?E =>
      destruct (Heff (repeat (repeat (repeat 0 nE) (m * g)) nG, repeat 0 nE, repeat 0 nE)) as ([[sp b] vS] & E1 & (W1 & _) & R1) end.
    { split; [apply wf3_zeros|]. cbn [fst snd]. rewrite repeat_length. auto. }
    rewrite E1. cbn [fst] in W1.
    rewrite (combineSplit_spec nG (m * g) nE); [|exact W1|apply wf3_map; [exact Hst|intros; apply evv_wf]].
    f_equal. apply map_ext_in. intros t Hin. apply in_seq in Hin.
    unfold psum, ssum, foldHL. cbn [sGates sStatic sEq sVL sVR]. fold nG. apply sumn_ext. intros i Hi.
    rewrite sumn_mul. apply sumn_ext. intros l Hl. apply sumn_ext. intros r Hr.
    rewrite rd3_evv by (try nia; lia).
    rewrite (nth_map_lt _ (sStatic p) i [] []) by lia.
    specialize (R1 (i, (l * g + r)%nat, t)). unfold rdT in R1. cbn [fst snd] in R1. rewrite R1, rd3_zeros.
    set (s0 := nth (l * g + r) (foldv (nth i (sStatic p) []) (fnat t)) 0).
    rewrite (nth_map_lt _ (sStatic p) i [] []) by lia.
    destruct (Nat.ltb_spec i nG); [|lia]. destruct (Nat.ltb_spec t nE); [|lia]. cbn [andb].
    transitivity (sumn n (fun hP => geval (nth i (sGates p) agate) (nth (l * n + hP) (foldv (sVL p) (fnat t)) 0) (nth (r * n + hP) (sVR p) 0)
                 * nth hP (sEq p) 0) * s0).
    - destruct (nth (l * g + r) (nzv (m * g) (nth i (sStatic p) [])) false) eqn:Enz.
      + f_equal. rewrite (sumn_ext n _ (fun hP => geval (nth i (sGates p) agate) (nth (l * n + hP) (foldv (sVL p) (fnat t)) 0) (nth (r * n + hP) (sVR p) 0)
                 * nth hP (sEq p) 0)); [ring|].
        intros hP HhP. rewrite <- (sumn_delta2 m g l r (fun l r => geval (nth i (sGates p) agate) (nth (l * n + hP) (foldv (sVL p) (fnat t)) 0) (nth (r * n + hP) (sVR p) 0)
                 * nth hP (sEq p) 0)) by assumption.
        apply sumn_ext. intros a Ha. apply sumn_ext. intros c Hc.
        destruct (Nat.eqb_spec (l * g + r) (a * g + c)) as [He|]; [|reflexivity].
        rewrite <- He, Enz. reflexivity.
      + assert (Hs0 : s0 = 0).
        { apply (nzv_false (m * g)); [rewrite Ht2; [lia|apply nth_In; lia]|nia|exact Enz]. }
        rewrite Hs0. ring.
    - rewrite <- sumn_scal_r. apply sumn_ext. intros hP HhP. fold s0. ring.
  Qed.

  (** ** HR rounds *)
  Lemma GetEvalsOnHR_spec n m (p : Prover F) :
    manys p -> shape n 1 (2 * m) p ->
    GetEvalsOnHR p = Some (map (fun t => psum n 1 m (foldHR p (fnat t))) (seq 0 (dHR p + 1))).
  Proof.
    intros Hmany [Hn Heq HvL HvR Hst Htab].
    assert (Hmid : (length (sVR p) / 2 = m * n)%nat) by (rewrite HvR, <- Nat.mul_assoc; apply half_double).
    assert (Ht2 : forall tab, In tab (sStatic p) -> (length tab / 2 = m)%nat)
      by (intros tab Hin; rewrite (Htab tab Hin), Nat.mul_1_l; apply half_double).
    unfold GetEvalsOnHR, accumulateEvalsOnHR. rewrite Heq, HvR, godiv_some, Nat.div_mul by lia.
    rewrite <- HvR. rewrite half_double, Hmid. set (nE := (dHR p + 1)%nat). assert (HnE : (0 < nE)%nat) by (unfold nE; lia).
    rewrite (mapM_some _ (fun tab => (nzv m tab, evv nE m tab))).
    2:{ intros tab Hin. apply evalStatic_spec; [exact HnE|rewrite Ht2; [lia|exact Hin]]. }
    rewrite !map_map. cbn [fst snd]. rewrite Hst.
    set (nG := length (sGates p)) in *.
    match goal with |- context [forN n ?body ?init] =>
      assert (Heff : has_effect (wfT nG m nE) rdT (fun s => forN n body s)
        (fun k => sumn n (fun hP => sumn m (fun r =>
          if (fst (fst k) <? nG)%nat && (snd (fst k) =? r)%nat && (snd k <? nE)%nat
             && nth r (nth (fst (fst k)) (map (nzv m) (sStatic p)) []) false
          then geval (nth (fst (fst k)) (sGates p) agate) (nth hP (sVL p) 0) (nth (r * n + hP) (foldv (sVR p) (fnat (snd k))) 0)
                 * nth hP (sEq p) 0 else 0)))) end.
    { apply eff_forN. intros hP HhP. rewrite (get_nth (sEq p) hP 0) by lia. rewrite (get_nth (sVL p) hP 0) by lia.
      apply eff_forN. intros l Hl.
      assert (Hb : (l * n + hP < m * n)%nat) by nia.
      set (b0 := map (fun k => nth (l * n + hP) (foldv (sVR p) (fnat k)) 0) (seq 0 nE)).
      eapply eff_ext; [|eapply (eff_fun_ext _ _ (fun s => s1 <- (Some (fst (fst s), b0, snd s)) ;; _));
        [|apply (eff_before (wfT nG m nE) (wfB nG m nE b0) rdT
            (fun s => Some (fst (fst s), b0, snd s)) (fun s =>
          foldM (fun '(sp, evaledVRs, vS) ig =>
            row <- get (map (nzv m) (sStatic p)) (fst ig) ;;
            b <- get row l ;;
            if (b : bool) then
              vS <- gmanyVR (snd ig) vS (nth hP (sVL p) 0) evaledVRs ;;
              sp <- addScaled sp (fst ig) l vS (nth hP (sEq p) 0) ;;
              Some (sp, evaledVRs, vS)
            else Some (sp, evaledVRs, vS))
            (combine (seq 0 (length (sGates p))) (sGates p)) s) _)]].
      - intros k. reflexivity.
      - intros [[sp b] vS] (W1 & W2 & W3). cbn [fst snd] in *.
        rewrite (get_nth (sVR p) _ 0) by nia. rewrite (get_nth (sVR p) _ 0) by nia.
        rewrite (Nat.add_comm (l * n + hP) (m * n)). rewrite <- Hmid.
        rewrite fillLine_foldv; [reflexivity|exact W2|exact HnE|rewrite Hmid; exact Hb].
      - intros [[sp b] vS] (W1 & W2 & W3). cbn [fst snd] in *. eexists. split; [reflexivity|].
        split; [split; [exact W1|split; [reflexivity|exact W3]]|reflexivity].
      - intros [[sp b] vS] (W1 & W2 & W3). cbn [fst snd] in *. subst b.
        split; [exact W1|]. split; [|exact W3]. cbn [fst snd]. unfold b0. rewrite map_length, seq_length. reflexivity.
      - eapply eff_ext; [|apply (gates_eff (fun g v b y => gmanyVR g v y b) (fun g x y => geval g y x) (sGates p) (many_VR p Hmany)
          m nE (map (nzv m) (sStatic p)) l b0 (nth hP (sVL p) 0) (nth hP (sEq p) 0))].
        + intros [[i h] t]. cbn [fst snd]. fold nG. destruct (Nat.ltb_spec t nE); rewrite ?andb_false_r; [|reflexivity].
          unfold b0. rewrite nth_map_seq by assumption. reflexivity.
        + rewrite map_length. exact Hst.
        + intros i Hi. apply nz_lengths. lia.
        + exact Hl.
        + unfold b0. rewrite map_length, seq_length. reflexivity. }
    destruct (Heff (repeat (repeat (repeat 0 nE) m) nG, repeat 0 nE, repeat 0 nE)) as ([[sp b] vS] & E1 & (W1 & _) & R1).
    { split; [apply wf3_zeros|]. cbn [fst snd]. rewrite repeat_length. auto. }
    rewrite E1. cbn [fst] in W1.
    rewrite (combineSplit_spec nG m nE); [|exact W1|apply wf3_map; [exact Hst|intros; apply evv_wf]].
    f_equal. apply map_ext_in. intros t Hin. apply in_seq in Hin.
    unfold psum, ssum, foldHR. cbn [sGates sStatic sEq sVL sVR]. fold nG. apply sumn_ext. intros i Hi.
    rewrite sumn_1. apply sumn_ext. intros r Hr. cbn [Nat.mul Nat.add].
    rewrite rd3_evv by lia.
    rewrite (nth_map_lt _ (sStatic p) i [] []) by lia.
    specialize (R1 (i, r, t)). unfold rdT in R1. cbn [fst snd] in R1. rewrite R1, rd3_zeros.
    set (s0 := nth r (foldv (nth i (sStatic p) []) (fnat t)) 0).
    rewrite (nth_map_lt _ (sStatic p) i [] []) by lia.
    destruct (Nat.ltb_spec i nG); [|lia]. destruct (Nat.ltb_spec t nE); [|lia]. cbn [andb].
    transitivity (sumn n (fun hP => geval (nth i (sGates p) agate) (nth hP (sVL p) 0) (nth (r * n + hP) (foldv (sVR p) (fnat t)) 0)
                 * nth hP (sEq p) 0) * s0).
    - destruct (nth r (nzv m (nth i (sStatic p) [])) false) eqn:Enz.
      + f_equal. rewrite (sumn_ext n _ (fun hP => geval (nth i (sGates p) agate) (nth hP (sVL p) 0) (nth (r * n + hP) (foldv (sVR p) (fnat t)) 0)
                 * nth hP (sEq p) 0)); [ring|].
        intros hP HhP. rewrite <- (sumn_delta m r (fun r => geval (nth i (sGates p) agate) (nth hP (sVL p) 0) (nth (r * n + hP) (foldv (sVR p) (fnat t)) 0)
                 * nth hP (sEq p) 0)) by assumption.
        apply sumn_ext. intros a Ha. rewrite Nat.eqb_sym.
        destruct (Nat.eqb_spec a r) as [He|]; [|reflexivity].
        rewrite He, Enz. reflexivity.
      + assert (Hs0 : s0 = 0).
        { apply (nzv_false m); [rewrite Ht2; [lia|apply nth_In; lia]|lia|exact Enz]. }
        rewrite Hs0. ring.
    - rewrite <- sumn_scal_r. apply sumn_ext. intros hP HhP. fold s0. ring.
  Qed.

  (** ** HPrime rounds *)
  Definition St4 := (list (list F) * list F * list F * list F)%type.
  Definition wf4 nG nE (s : St4) : Prop :=
    wf2 nG nE (fst (fst (fst s))) /\ length (snd (fst (fst s))) = nE /\ length (snd (fst s)) = nE /\ length (snd s) = nE.
  Definition rd4 (s : St4) := rd2 (fst (fst (fst s))).

  Lemma GetEvalsOnHPrime_spec n m (p : Prover F) :
    (n / 2 = m)%nat -> shape n 1 1 p ->
    GetEvalsOnHPrime p = Some (map (fun t => psum m 1 1 (foldHP p (fnat t))) (seq 0 (dHPrime p + 1))).
  Proof.
    intros Hm [Hn Heq HvL HvR Hst Htab]. rewrite Nat.mul_1_l in *.
    pose proof (half_le n) as Hh. rewrite Hm in Hh.
    unfold GetEvalsOnHPrime.
    rewrite (mapM_some _ (fun tab => nth 0 tab 0)).
    2:{ intros tab Hin. apply get_nth. rewrite (Htab tab Hin). lia. }
    unfold accumulateEvalsOnHPrime. rewrite Heq, Hst, Hm.
    set (nE := (dHPrime p + 1)%nat). assert (HnE : (0 < nE)%nat) by (unfold nE; lia).
    set (nG := length (sGates p)) in *.
    match goal with |- context [forN m ?body ?init] =>
      assert (Heff : has_effect (wf4 nG nE) rd4 (fun s => forN m body s)
        (fun k => sumn m (fun hP => sumn nG (fun i => sumn nE (fun t =>
          if (fst k =? i)%nat && (snd k =? t)%nat then
          geval (nth i (sGates p) agate) (nth hP (foldv (sVL p) (fnat t)) 0) (nth hP (foldv (sVR p) (fnat t)) 0)
                 * nth hP (foldv (sEq p) (fnat t)) 0 else 0))))) end.
    { apply eff_forN. intros hP HhP. intros [[[sp bL] bR] bE] (W1 & W2 & W3 & W4). cbn [fst snd] in *.
      rewrite (get_nth (sVL p) hP 0), (get_nth (sVR p) hP 0), (get_nth (sEq p) hP 0) by lia.
      rewrite (get_nth (sVL p) _ 0), (get_nth (sVR p) _ 0), (get_nth (sEq p) _ 0) by lia.
      rewrite (Nat.add_comm hP m).
      replace (nth (m + hP) (sVL p) 0) with (nth (length (sVL p) / 2 + hP) (sVL p) 0) by (rewrite HvL, Hm; reflexivity).
      replace (nth (m + hP) (sVR p) 0) with (nth (length (sVR p) / 2 + hP) (sVR p) 0) by (rewrite HvR, Hm; reflexivity).
      replace (nth (m + hP) (sEq p) 0) with (nth (length (sEq p) / 2 + hP) (sEq p) 0) by (rewrite Heq, Hm; reflexivity).
      rewrite (fillLine_foldv nE bL) by (rewrite ?HvL, ?Hm; assumption).
      rewrite (fillLine_foldv nE bR) by (rewrite ?HvR, ?Hm; assumption).
      rewrite (fillLine_foldv nE bE) by (rewrite ?Heq, ?Hm; assumption).
      match goal with |- context [foldM ?body ?l sp] =>
        assert (Hin : has_effect (wf2 nG nE) rd2 (fun s => foldM body l s)
          (fun k => sumn nG (fun i => sumn nE (fun t =>
          if (fst k =? i)%nat && (snd k =? t)%nat then
          geval (nth i (sGates p) agate) (nth hP (foldv (sVL p) (fnat t)) 0) (nth hP (foldv (sVR p) (fnat t)) 0)
                 * nth hP (foldv (sEq p) (fnat t)) 0 else 0)))) end.
      { apply (eff_range _ _ _ (fun i k => sumn nE (fun t =>
          if (fst k =? i)%nat && (snd k =? t)%nat then
          geval (nth i (sGates p) agate) (nth hP (foldv (sVL p) (fnat t)) 0) (nth hP (foldv (sVR p) (fnat t)) 0)
                 * nth hP (foldv (sEq p) (fnat t)) 0 else 0)) (sGates p) agate).
        intros i Hi. cbn [fst snd]. apply eff_forN. intros t Ht.
        rewrite !(get_nth (map _ _) t 0) by (rewrite map_length, seq_length; exact Ht).
        rewrite !nth_map_seq by exact Ht. cbn zeta. unfold addTo2. apply eff_add2; assumption. }
      destruct (Hin sp W1) as (sp' & E' & W' & R'). rewrite E'. eexists. split; [reflexivity|].
      split; [|exact R']. split; [exact W'|]. cbn [fst snd]. rewrite !map_length, seq_length. auto. }
    destruct (Heff (repeat (repeat 0 nE) nG, repeat 0 nE, repeat 0 nE, repeat 0 nE)) as ([[[sp bL] bR] bE] & E1 & (W1 & _) & R1).
    { split; [apply wf2_zeros|]. cbn [fst snd]. rewrite repeat_length. auto. }
    rewrite E1. cbn [fst] in W1. destruct W1 as [W1 W2].
    match goal with |- foldM ?body ?l (repeat 0 nE) = _ =>
      destruct (eff1_run nE (fun s => foldM body l s) (fun t => sumn (length sp) (fun i => sumn nE (fun t' =>
        if (t =? t')%nat then rd2 sp (i, t') * nth 0 (nth i (sStatic p) []) 0 else 0)))) as (res & E2 & L2 & R2) end.
    { apply (eff_range _ _ _ (fun i t => sumn nE (fun t' =>
        if (t =? t')%nat then rd2 sp (i, t') * nth 0 (nth i (sStatic p) []) 0 else 0)) sp []).
      intros i Hi. cbn [fst snd]. rewrite W1 in Hi.
      apply (eff_ext _ _ _ (fun t => sumn (length (nth i sp [])) (fun t' =>
        if (t =? t')%nat then rd2 sp (i, t') * nth 0 (nth i (sStatic p) []) 0 else 0)));
        [intros; rewrite (W2 i Hi); reflexivity|].
      apply (eff_range _ _ _ (fun t' t =>
        if (t =? t')%nat then rd2 sp (i, t') * nth 0 (nth i (sStatic p) []) 0 else 0) (nth i sp []) 0).
      intros t Ht. cbn [fst snd]. rewrite (W2 i Hi) in Ht.
      rewrite (get_nth _ i 0) by (rewrite map_length; lia).
      rewrite (nth_map_lt _ (sStatic p) i 0 []) by lia. cbn zeta. apply eff_add1. exact Ht. }
    rewrite E2. f_equal. apply (map_seq_ext 0); [exact L2|]. intros t Ht. rewrite R2, W1.
    unfold psum, ssum, foldHP. cbn [sGates sStatic sEq sVL sVR]. fold nG. apply sumn_ext. intros i Hi.
    rewrite !sumn_1. cbn [Nat.mul Nat.add].
    rewrite (sumn_ext _ _ (fun t' => if (t' =? t)%nat then rd2 sp (i, t') * nth 0 (nth i (sStatic p) []) 0 else 0))
      by (intros t' _; rewrite Nat.eqb_sym; reflexivity).
    rewrite (sumn_delta nE t (fun t' => rd2 sp (i, t') * nth 0 (nth i (sStatic p) []) 0)) by exact Ht.
    specialize (R1 (i, t)). unfold rd4 in R1. cbn [fst snd] in R1. rewrite R1, rd2_zeros.
    transitivity (sumn m (fun hP => geval (nth i (sGates p) agate) (nth hP (foldv (sVL p) (fnat t)) 0) (nth hP (foldv (sVR p) (fnat t)) 0)
                 * nth hP (foldv (sEq p) (fnat t)) 0) * nth 0 (nth i (sStatic p) []) 0).
    - f_equal. rewrite (sumn_ext m _ (fun hP => geval (nth i (sGates p) agate) (nth hP (foldv (sVL p) (fnat t)) 0) (nth hP (foldv (sVR p) (fnat t)) 0)
                 * nth hP (foldv (sEq p) (fnat t)) 0)); [ring|].
      intros hP HhP.
      rewrite (sumn_ext nG _ (fun j => if (j =? i)%nat then geval (nth j (sGates p) agate) (nth hP (foldv (sVL p) (fnat t)) 0) (nth hP (foldv (sVR p) (fnat t)) 0)
                 * nth hP (foldv (sEq p) (fnat t)) 0 else 0)).
      + apply (sumn_delta nG i (fun j => geval (nth j (sGates p) agate) (nth hP (foldv (sVL p) (fnat t)) 0) (nth hP (foldv (sVR p) (fnat t)) 0)
                 * nth hP (foldv (sEq p) (fnat t)) 0)). exact Hi.
      + intros j Hj. rewrite (Nat.eqb_sym j i). destruct (Nat.eqb_spec i j); cbn [andb].
        * rewrite (sumn_ext nE _ (fun t' => if (t' =? t)%nat then geval (nth j (sGates p) agate) (nth hP (foldv (sVL p) (fnat t')) 0) (nth hP (foldv (sVR p) (fnat t')) 0)
                 * nth hP (foldv (sEq p) (fnat t')) 0 else 0)) by (intros t' _; rewrite Nat.eqb_sym; reflexivity).
          apply (sumn_delta nE t (fun t' => geval (nth j (sGates p) agate) (nth hP (foldv (sVL p) (fnat t')) 0) (nth hP (foldv (sVR p) (fnat t')) 0)
                 * nth hP (foldv (sEq p) (fnat t')) 0)). exact Ht.
        * apply sumn_zero. reflexivity.
    - rewrite <- sumn_scal_r. apply sumn_ext. intros hP HhP. ring.
  Qed.
End S.
