(** Sum-check: link with the summed function, the verifier, soundness. *)
From Coq Require Import List Arith ZArith Lia Bool Ring Field.
From Verif Require Import Field Go MCommon Spec MPoly LSpec LCommon LPoly LEffect LPoly2 MCircuit SpecCircuit LCircuit LCircuit2 MSumcheck SpecSumcheck LSumcheck LSumcheck2 LSumcheck3.
Import ListNotations.

Lemma firstn_len_app {A} (a b : list A) n : length a = n -> firstn n (a ++ b) = a.
Proof. intros <-. rewrite firstn_app, Nat.sub_diag, firstn_all, firstn_O, app_nil_r. reflexivity. Qed.
Lemma skipn_len_app {A} (a b : list A) n : length a = n -> skipn n (a ++ b) = b.
Proof. intros <-. rewrite skipn_app, Nat.sub_diag, skipn_all, skipn_O. reflexivity. Qed.
Lemma skipn_add {A} (l : list A) n m : skipn n (skipn m l) = skipn (m + n) l.
Proof. revert l; induction m as [|m IH]; intros [|x l]; cbn [skipn Nat.add]; auto. destruct n; reflexivity. Qed.

Section S.
  Context {F : Field}.
  Add Field FfieldLSumcheck4 : (f_theory F).
  Open Scope F_scope.

  (** ** The constructor *)
  Lemma degs_fold (gates : list (Gate F)) : forall a b c,
    fold_left (fun '(a, b, c) g => (Nat.max a (degHL g), Nat.max b (degHR g), Nat.max c (degHPrime g))) gates (a, b, c)
    = (Nat.max a (maxHL gates), Nat.max b (maxHR gates), Nat.max c (maxHP gates)).
  Proof.
    unfold maxHL, maxHR, maxHP. induction gates as [|g gates IH]; intros a b c; cbn [fold_left map list_max fold_right].
    - rewrite !Nat.max_0_r. reflexivity.
    - rewrite IH. rewrite !Nat.max_assoc. reflexivity.
  Qed.

  Lemma New_eq vL vR eq (gates : list (Gate F)) st : NewSingleThreadedProver vL vR eq gates st =
    MkProver vL vR eq gates st (maxHL gates + 1) (maxHR gates + 1) (maxHP gates + 1).
  Proof. unfold NewSingleThreadedProver. rewrite degs_fold, !Nat.max_0_l. reflexivity. Qed.

  Lemma list_max_In {A} (f : A -> nat) l a : In a l -> (f a <= list_max (map f l))%nat.
  Proof.
    intros H. pose proof (list_max_le (map f l) (list_max (map f l))) as [H1 _].
    specialize (H1 (le_n _)). rewrite Forall_forall in H1. apply H1. apply in_map. exact H.
  Qed.

  Lemma New_degs vL vR eq (gates : list (Gate F)) st : (forall g, In g gates -> degs_ok g) ->
    degs_bound (NewSingleThreadedProver vL vR eq gates st).
  Proof.
    intros H g Hg. rewrite New_eq in *. cbn [sGates dHL dHR dHPrime] in *. unfold maxHL, maxHR, maxHP.
    pose proof (list_max_In degHL gates g Hg). pose proof (list_max_In degHR gates g Hg).
    pose proof (list_max_In degHPrime gates g Hg). split; [lia|split; [lia|split; [lia|apply (H g Hg)]]].
  Qed.

  Lemma pow_pos k : (0 < 2 ^ k)%nat.
  Proof. assert (2 ^ k <> 0)%nat by (apply Nat.pow_nonzero; lia). lia. Qed.

  Lemma tables_shape kL kR kN gates st eq vL (vR : list F) : tables_ok kL kR kN gates st eq vL vR ->
    shape (2 ^ kN) (2 ^ kL) (2 ^ kR) (NewSingleThreadedProver vL vR eq gates st).
  Proof.
    intros (H1 & H2 & H3 & H4 & H5). rewrite New_eq.
    constructor; cbn [sEq sVL sVR sStatic sGates]; rewrite <- ?Nat.pow_add_r; auto. apply pow_pos.
  Qed.

  Lemma suml_combine {A B} (f : A * B -> F) (l : list A) (m : list B) a b : length m = length l ->
    suml (combine l m) f = sumn (length l) (fun i => f (nth i l a, nth i m b)).
  Proof.
    intros H. rewrite (suml_nth _ (a, b)), combine_length, H, Nat.min_id.
    apply sumn_ext. intros i Hi. rewrite combine_nth by (symmetry; exact H). reflexivity.
  Qed.

  Lemma psum_table_sum n g vL vR eq (gates : list (Gate F)) st : length st = length gates ->
    psum n g g (NewSingleThreadedProver vL vR eq gates st) = table_sum n g gates st eq vL vR.
  Proof.
    intros H. rewrite New_eq. unfold psum, ssum, table_sum. cbn [sEq sVL sVR sStatic sGates].
    rewrite (sumn_ext (length gates) _ (fun i => sumn n (fun h => sumn g (fun l => sumn g (fun r =>
      nth h eq 0 * nth (l * g + r) (nth i st []) 0 *
      geval (nth i gates agate) (nth (l * n + h) vL 0) (nth (r * n + h) vR 0)))))).
    - rewrite sumn_swap. apply sumn_ext. intros h Hh. rewrite sumn_swap. apply sumn_ext. intros l Hl.
      rewrite sumn_swap. apply sumn_ext. intros r Hr.
      rewrite (suml_combine _ gates st agate []) by exact H. rewrite <- sumn_scal_l.
      apply sumn_ext. intros i Hi. cbn [fst snd]. ring.
    - intros i Hi. rewrite (sumn_ext g _ (fun l => sumn n (fun h => sumn g (fun r =>
        nth h eq 0 * nth (l * g + r) (nth i st []) 0 *
        geval (nth i gates agate) (nth (l * n + h) vL 0) (nth (r * n + h) vR 0)))))
        by (intros; apply sumn_swap). apply sumn_swap.
  Qed.

  (** ** The summed function *)
  Definition comb kL kR (p : Prover F) : list F -> F := combinator kL kR (sGates p) (sStatic p) (sEq p) (sVL p) (sVR p).

  Lemma bpoint_app b c : bpoint (F:=F) (b ++ c) = bpoint b ++ bpoint c.
  Proof. unfold bpoint. apply map_app. Qed.

  Lemma comb_parts kL kR p (xL xR x : list F) : length xL = kL -> length xR = kR ->
    comb kL kR p (xL ++ xR ++ x) =
    mle (sEq p) x * suml (combine (sGates p) (sStatic p)) (fun gs =>
      mle (snd gs) (xL ++ xR) * geval (fst gs) (mle (sVL p) (xL ++ x)) (mle (sVR p) (xR ++ x))).
  Proof.
    intros HL HR. unfold comb, combinator.
    rewrite (firstn_len_app xL _ kL), (skipn_len_app xL _ kL), (firstn_len_app xR _ kR) by assumption.
    rewrite app_assoc, (skipn_len_app (xL ++ xR)) by (rewrite app_length; lia). reflexivity.
  Qed.

  Lemma psum_cube kL kR kN (p : Prover F) : shape (2 ^ kN) (2 ^ kL) (2 ^ kR) p ->
    psum (2 ^ kN) (2 ^ kL) (2 ^ kR) p = cube_sum (comb kL kR p) (kL + kR + kN) [].
  Proof.
    intros [Hn Heq HvL HvR Hst Htab]. unfold cube_sum. cbn [app].
    rewrite <- Nat.add_assoc, sum_cube_app.
    rewrite (suml_ext _ _ (fun a => sumn (2 ^ kR) (fun r => sumn (2 ^ kN) (fun h => sumn (length (sGates p)) (fun i =>
      nth h (sEq p) 0 * nth (bits_val a * 2 ^ kR + r) (nth i (sStatic p) []) 0 *
      geval (nth i (sGates p) agate) (nth (bits_val a * 2 ^ kN + h) (sVL p) 0) (nth (r * 2 ^ kN + h) (sVR p) 0)))))).
    - rewrite (sum_cube_val kL (fun l => sumn (2 ^ kR) (fun r => sumn (2 ^ kN) (fun h => sumn (length (sGates p)) (fun i =>
      nth h (sEq p) 0 * nth (l * 2 ^ kR + r) (nth i (sStatic p) []) 0 *
      geval (nth i (sGates p) agate) (nth (l * 2 ^ kN + h) (sVL p) 0) (nth (r * 2 ^ kN + h) (sVR p) 0)))))).
      unfold psum, ssum. rewrite sumn_swap. apply sumn_ext. intros l Hl. rewrite sumn_swap. apply sumn_ext. intros r Hr.
      apply sumn_swap.
    - intros a Ha. apply in_cube in Ha. rewrite sum_cube_app.
      rewrite (suml_ext _ _ (fun b => sumn (2 ^ kN) (fun h => sumn (length (sGates p)) (fun i =>
        nth h (sEq p) 0 * nth (bits_val a * 2 ^ kR + bits_val b) (nth i (sStatic p) []) 0 *
        geval (nth i (sGates p) agate) (nth (bits_val a * 2 ^ kN + h) (sVL p) 0) (nth (bits_val b * 2 ^ kN + h) (sVR p) 0))))).
      + apply (sum_cube_val kR (fun r => sumn (2 ^ kN) (fun h => sumn (length (sGates p)) (fun i =>
        nth h (sEq p) 0 * nth (bits_val a * 2 ^ kR + r) (nth i (sStatic p) []) 0 *
        geval (nth i (sGates p) agate) (nth (bits_val a * 2 ^ kN + h) (sVL p) 0) (nth (r * 2 ^ kN + h) (sVR p) 0))))).
      + intros b Hb. apply in_cube in Hb.
        rewrite (suml_ext _ _ (fun c => sumn (length (sGates p)) (fun i =>
          nth (bits_val c) (sEq p) 0 * nth (bits_val a * 2 ^ kR + bits_val b) (nth i (sStatic p) []) 0 *
          geval (nth i (sGates p) agate) (nth (bits_val a * 2 ^ kN + bits_val c) (sVL p) 0) (nth (bits_val b * 2 ^ kN + bits_val c) (sVR p) 0)))).
        * apply (sum_cube_val kN (fun h => sumn (length (sGates p)) (fun i =>
            nth h (sEq p) 0 * nth (bits_val a * 2 ^ kR + bits_val b) (nth i (sStatic p) []) 0 *
            geval (nth i (sGates p) agate) (nth (bits_val a * 2 ^ kN + h) (sVL p) 0) (nth (bits_val b * 2 ^ kN + h) (sVR p) 0)))).
        * intros c Hc. apply in_cube in Hc. rewrite !bpoint_app.
          rewrite comb_parts by (rewrite bpoint_length; assumption).
          rewrite <- !bpoint_app, !mle_bpoint, !bits_val_app, Hc.
          rewrite (suml_combine _ _ _ agate []) by exact Hst. rewrite <- sumn_scal_l. apply sumn_ext. intros i Hi.
          cbn [fst snd]. rewrite mle_bpoint, bits_val_app, Hb. ring.
  Qed.

  Lemma split_list {A} (y : list A) a b : length y = (a + b)%nat -> exists y1 y2, y = y1 ++ y2 /\ length y1 = a /\ length y2 = b.
  Proof.
    intros H. exists (firstn a y), (skipn a y). rewrite firstn_skipn, firstn_length, skipn_length. split; [reflexivity|lia].
  Qed.

  Lemma comb_HL kL kR kN n (p : Prover F) t y : n = (2 ^ kN)%nat -> shape n (2 ^ S kL) (2 ^ kR) p ->
    length y = (kL + kR + kN)%nat ->
    comb (S kL) kR p (t :: y) = comb kL kR (foldHL p t) y.
  Proof.
    intros -> [Hn Heq HvL HvR Hst Htab] Hy.
    destruct (split_list y kL (kR + kN)) as (xL & z & -> & LL & Lz); [lia|].
    destruct (split_list z kR kN) as (xR & x & -> & LR & Lx); [lia|].
    rewrite app_comm_cons, !comb_parts by (cbn [length]; lia). cbn [foldHL sEq sVL sVR sStatic sGates].
    rewrite (suml_combine _ _ (sStatic p) agate []) by exact Hst.
    rewrite (suml_combine _ _ _ agate []) by (rewrite map_length; exact Hst).
    f_equal. apply sumn_ext. intros i Hi. cbn [fst snd].
    rewrite (nth_map_lt _ (sStatic p) i [] []) by lia.
    cbn [app]. rewrite (mle_foldv (nth i (sStatic p) [])), (mle_foldv (sVL p)); [reflexivity| |].
    - rewrite HvL, app_length, LL, Lx, <- Nat.pow_add_r. f_equal.
    - rewrite (Htab (nth i (sStatic p) [])) by (apply nth_In; lia). rewrite app_length, LL, LR, <- Nat.pow_add_r. f_equal.
  Qed.

  Lemma comb_HR kR kN n (p : Prover F) t y : n = (2 ^ kN)%nat -> shape n 1 (2 ^ S kR) p ->
    length y = (kR + kN)%nat ->
    comb 0 (S kR) p (t :: y) = comb 0 kR (foldHR p t) y.
  Proof.
    intros -> [Hn Heq HvL HvR Hst Htab] Hy.
    destruct (split_list y kR kN) as (xR & x & -> & LR & Lx); [lia|].
    change (t :: xR ++ x) with ([] ++ (t :: xR) ++ x). change (xR ++ x) with ([] ++ xR ++ x) at 1.
    rewrite !comb_parts by (cbn [length]; lia). cbn [foldHR sEq sVL sVR sStatic sGates].
    rewrite (suml_combine _ _ (sStatic p) agate []) by exact Hst.
    rewrite (suml_combine _ _ _ agate []) by (rewrite map_length; exact Hst).
    f_equal. apply sumn_ext. intros i Hi. cbn [fst snd].
    rewrite (nth_map_lt _ (sStatic p) i [] []) by lia.
    cbn [app]. rewrite (mle_foldv (nth i (sStatic p) [])), (mle_foldv (sVR p)); [reflexivity| |].
    - rewrite HvR, app_length, LR, Lx, <- Nat.pow_add_r. f_equal.
    - rewrite (Htab (nth i (sStatic p) [])) by (apply nth_In; lia). rewrite LR. lia.
  Qed.

  Lemma comb_HP kN (p : Prover F) t y : shape (2 ^ S kN) 1 1 p -> length y = kN ->
    comb 0 0 p (t :: y) = comb 0 0 (foldHP p t) y.
  Proof.
    intros [Hn Heq HvL HvR Hst Htab] Hy.
    change (t :: y) with ([] ++ [] ++ (t :: y)). change y with ([] ++ [] ++ y) at 2.
    rewrite !comb_parts by reflexivity. cbn [foldHP sEq sVL sVR sStatic sGates app].
    rewrite (mle_foldv (sEq p)), (mle_foldv (sVL p)), (mle_foldv (sVR p)) by (rewrite Hy; lia). reflexivity.
  Qed.

  Lemma cube_sum_cons f k t (x : list F) : cube_sum f k (t :: x) = cube_sum (fun y => f (t :: y)) k x.
  Proof. reflexivity. Qed.

  Lemma cube_sum_ext (f g : list F -> F) k x n : (forall y, length y = n -> f y = g y) -> (length x + k)%nat = n ->
    cube_sum f k x = cube_sum g k x.
  Proof.
    intros H Hn. unfold cube_sum. apply suml_ext. intros b Hb. apply in_cube in Hb. apply H.
    rewrite app_length, bpoint_length. lia.
  Qed.

  Lemma cube_HL kL kR kN (p : Prover F) t : shape (2 ^ kN) (2 ^ S kL) (2 ^ kR) p ->
    cube_sum (comb (S kL) kR p) (kL + kR + kN) [t] = psum (2 ^ kN) (2 ^ kL) (2 ^ kR) (foldHL p t).
  Proof.
    intros HS. rewrite cube_sum_cons.
    rewrite (cube_sum_ext _ (comb kL kR (foldHL p t)) _ _ (kL + kR + kN)); [|intros; apply (comb_HL kL kR kN _ p t y eq_refl HS); assumption|reflexivity].
    symmetry. apply psum_cube. apply shape_HL. exact HS.
  Qed.
  Lemma cube_HR kR kN (p : Prover F) t : shape (2 ^ kN) 1 (2 ^ S kR) p ->
    cube_sum (comb 0 (S kR) p) (kR + kN) [t] = psum (2 ^ kN) 1 (2 ^ kR) (foldHR p t).
  Proof.
    intros HS. rewrite cube_sum_cons.
    rewrite (cube_sum_ext _ (comb 0 kR (foldHR p t)) _ _ (kR + kN)); [|intros; apply (comb_HR kR kN _ p t y eq_refl HS); assumption|reflexivity].
    symmetry. apply (psum_cube 0 kR kN). apply shape_HR. exact HS.
  Qed.
  Lemma cube_HP kN (p : Prover F) t : shape (2 ^ S kN) 1 1 p ->
    cube_sum (comb 0 0 p) kN [t] = psum (2 ^ kN) 1 1 (foldHP p t).
  Proof.
    intros HS. rewrite cube_sum_cons.
    rewrite (cube_sum_ext _ (comb 0 0 (foldHP p t)) _ _ kN); [|intros; apply (comb_HP kN p t y HS); assumption|reflexivity].
    symmetry. apply (psum_cube 0 0 kN). apply shape_HP. exact HS.
  Qed.

  (** ** Degrees of the true round polynomials *)
  Lemma round_deg : forall rs kL kR kN (p : Prover F) k,
    shape (2 ^ kN) (2 ^ kL) (2 ^ kR) p -> degs_bound p ->
    (length rs + 1 + k = kL + kR + kN)%nat ->
    poly_deg_le (phase_deg kL kR (dHL p) (dHR p) (dHPrime p) (length rs)) (fun t => cube_sum (comb kL kR p) k (rs ++ [t])).
  Proof.
    induction rs as [|r rs IH]; intros kL kR kN p k HS HD Hk.
    - cbn [app length] in *. destruct kL as [|kL]; [destruct kR as [|kR]; [destruct kN as [|kN]; [lia|]|]|].
      + cbn. replace k with kN by lia. eapply pdl_ext; [intros t; symmetry; apply cube_HP; exact HS|].
        apply deg_HP; [exact HS|exact HD].
      + cbn. replace k with (kR + kN)%nat by lia. eapply pdl_ext; [intros t; symmetry; apply cube_HR; exact HS|].
        apply deg_HR; [exact HS|exact HD].
      + cbn. replace k with (kL + kR + kN)%nat by lia. eapply pdl_ext; [intros t; symmetry; apply cube_HL; exact HS|].
        apply deg_HL; [exact HS|exact HD].
    - cbn [app length] in *. destruct kL as [|kL]; [destruct kR as [|kR]; [destruct kN as [|kN]; [lia|]|]|].
      + eapply pdl_ext; [|apply (IH 0%nat 0%nat kN (foldHP p r) k); [apply shape_HP; exact HS|exact HD|lia]].
        intros t. symmetry. rewrite cube_sum_cons. apply (cube_sum_ext _ _ _ _ kN).
        * intros y Hy. apply (comb_HP kN); assumption.
        * rewrite app_length. cbn [length]. lia.
      + eapply pdl_ext; [|apply (IH 0%nat kR kN (foldHR p r) k); [apply shape_HR; exact HS|exact HD|lia]].
        intros t. symmetry. rewrite cube_sum_cons. apply (cube_sum_ext _ _ _ _ (kR + kN)).
        * intros y Hy. apply (comb_HR kR kN _ p r y eq_refl HS). assumption.
        * rewrite app_length. cbn [length]. lia.
      + eapply pdl_ext; [|apply (IH kL kR kN (foldHL p r) k); [apply shape_HL; exact HS|exact HD|lia]].
        intros t. symmetry. rewrite cube_sum_cons. apply (cube_sum_ext _ _ _ _ (kL + kR + kN)).
        * intros y Hy. apply (comb_HL kL kR kN _ p r y eq_refl HS). assumption.
        * rewrite app_length. cbn [length]. lia.
  Qed.

  (** Two polynomials of degree at most [d] that differ agree on at most [d] points. *)
  Lemma few_collisions d (f : F -> F) c t (xs : list F) :
    poly_deg_le d f -> (length c <= S d)%nat -> peval c t <> f t -> NoDup xs ->
    (forall x, In x xs -> peval c x = f x) -> (length xs <= d)%nat.
  Proof.
    intros Hf Hc Ht Hnd Hx. destruct (Nat.lt_ge_cases d (length xs)) as [Hlt|]; [|assumption].
    exfalso. apply Ht. apply (pdl_unique d (peval c) f xs); auto. apply pdl_of_list. exact Hc.
  Qed.

  (** ** The verifier *)
  Variable ch : list F -> F.

  Lemma verify_loop_accept cs : forall v acc qs fin,
    verify_loop ch v cs acc = Some (Some (qs, fin)) <-> answers ch v cs fin /\ qs = acc ++ map ch cs.
  Proof.
    induction cs as [|c cs IH]; intros v acc qs fin; cbn [verify_loop answers map].
    - rewrite app_nil_r. split; [intros H; injection H as <- <-; auto|intros [-> ->]; reflexivity].
    - destruct c as [|c0 c']; [split; [discriminate|intros ((H & _) & _); congruence]|].
      set (c := c0 :: c') in *. rewrite !(EvaluatePolynomial_spec c) by discriminate.
      destruct (feqb_spec F v (peval c 0 + peval c 1)) as [E|E].
      + rewrite IH, <- app_assoc. split; [intros [H1 H2]|intros ((_ & _ & H1) & H2)]; auto.
        split; [|exact H2]. split; [discriminate|auto].
      + split; [discriminate|]. intros ((_ & H & _) & _). congruence.
  Qed.

  Lemma verify_loop_reject cs : forall v acc,
    verify_loop ch v cs acc = Some None <->
    exists pre c post e, cs = pre ++ c :: post /\ answers ch v pre e /\ c <> [] /\ e <> peval c 0 + peval c 1.
  Proof.
    induction cs as [|c cs IH]; intros v acc; cbn [verify_loop].
    - split; [discriminate|]. intros (pre & c & post & e & H & _). destruct pre; discriminate.
    - destruct c as [|c0 c'].
      + split; [discriminate|]. intros (pre & c & post & e & H & HA & Hc & _). destruct pre as [|x pre].
        * injection H as <- _. congruence.
        * injection H as <- _. cbn [answers] in HA. destruct HA as (HA & _). congruence.
      + set (c := c0 :: c') in *. rewrite !(EvaluatePolynomial_spec c) by discriminate.
        destruct (feqb_spec F v (peval c 0 + peval c 1)) as [E|E].
        * rewrite IH. split.
          -- intros (pre & c1 & post & e & -> & HA & Hc & He). exists (c :: pre), c1, post, e.
             split; [reflexivity|]. split; [cbn [answers]; split; [discriminate|auto]|auto].
          -- intros (pre & c1 & post & e & H & HA & Hc & He). destruct pre as [|x pre].
             ++ injection H as <- <-. cbn [answers] in HA. subst e. congruence.
             ++ injection H as <- ->. cbn [answers] in HA. destruct HA as (_ & _ & HA).
                exists pre, c1, post, e. auto.
        * split; [|reflexivity]. intros _. exists [], c, cs, v. split; [reflexivity|].
          split; [reflexivity|]. split; [discriminate|exact E].
  Qed.

  Lemma verify_loop_panic cs : forall v acc,
    verify_loop ch v cs acc = None <-> exists pre post e, cs = pre ++ [] :: post /\ answers ch v pre e.
  Proof.
    induction cs as [|c cs IH]; intros v acc; cbn [verify_loop].
    - split; [discriminate|]. intros (pre & post & e & H & _). destruct pre; discriminate.
    - destruct c as [|c0 c'].
      + split; [|reflexivity]. intros _. exists [], cs, v. split; reflexivity.
      + set (c := c0 :: c') in *. rewrite !(EvaluatePolynomial_spec c) by discriminate.
        destruct (feqb_spec F v (peval c 0 + peval c 1)) as [E|E].
        * rewrite IH. split.
          -- intros (pre & post & e & -> & HA). exists (c :: pre), post, e.
             split; [reflexivity|]. cbn [answers]. split; [discriminate|auto].
          -- intros (pre & post & e & H & HA). destruct pre as [|x pre]; [discriminate|].
             injection H as <- ->. cbn [answers] in HA. destruct HA as (_ & _ & HA). exists pre, post, e. auto.
        * split; [discriminate|]. intros (pre & post & e & H & HA). destruct pre as [|x pre]; [discriminate|].
          injection H as <- ->. cbn [answers] in HA. destruct HA as (_ & HA & _). congruence.
  Qed.

  Lemma Verify_accept claim cs bN bG qP qL qR fin :
    Verify ch claim cs bN bG = Some (Accept qP qL qR fin) <->
    answers ch claim cs fin /\ length qL = bG /\ length qR = bG /\ map ch cs = qL ++ qR ++ qP.
  Proof.
    unfold Verify. split.
    - destruct (verify_loop ch claim cs []) as [[[qs e]|]|] eqn:E; [|discriminate|discriminate].
      apply verify_loop_accept in E. destruct E as [HA ->]. cbn [app].
      unfold slice. destruct (Nat.leb_spec 0 bG); [|lia]. destruct (Nat.leb_spec bG (length (map ch cs))) as [H1|]; [|discriminate].
      destruct (Nat.leb_spec bG (2 * bG)); [|lia]. destruct (Nat.leb_spec (2 * bG) (length (map ch cs))) as [H2|]; [|discriminate].
      rewrite Nat.leb_refl. cbn [andb]. intros H3. injection H3 as <- <- <- <-.
      split; [exact HA|]. rewrite Nat.sub_0_r.
      split; [rewrite firstn_length; lia|]. split; [rewrite firstn_length, skipn_length; lia|].
      replace (2 * bG - bG)%nat with bG by lia. rewrite (firstn_all2 (skipn (2 * bG) (map ch cs))) by (rewrite skipn_length; lia).
      replace (2 * bG)%nat with (bG + bG)%nat by lia. rewrite <- skipn_add.
      replace (bG + (bG + 0) - bG)%nat with bG by lia. rewrite (firstn_skipn bG (skipn bG (map ch cs))), firstn_skipn. reflexivity.
    - intros (HA & L1 & L2 & E).
      assert (EL : verify_loop ch claim cs [] = Some (Some (map ch cs, fin))) by (apply verify_loop_accept; auto).
      rewrite EL, E.
      rewrite !slice_some by (rewrite ?app_length; lia).
      rewrite Nat.sub_0_r, skipn_O. replace (2 * bG - bG)%nat with bG by lia.
      rewrite (firstn_len_app qL _ bG), (skipn_len_app qL _ bG), (firstn_len_app qR _ bG) by assumption.
      rewrite (app_assoc qL qR qP), (skipn_len_app (qL ++ qR)) by (rewrite app_length; lia).
      rewrite firstn_all2 by (rewrite ?app_length; lia). reflexivity.
  Qed.

  Lemma Verify_reject claim cs bN bG :
    Verify ch claim cs bN bG = Some Reject <->
    exists pre c post e, cs = pre ++ c :: post /\ answers ch claim pre e /\ c <> [] /\ e <> peval c 0 + peval c 1.
  Proof.
    rewrite <- (verify_loop_reject cs claim []). unfold Verify.
    destruct (verify_loop ch claim cs []) as [[[qs e]|]|]; split; try discriminate; try reflexivity.
    destruct (slice qs 0 bG); [|discriminate]. destruct (slice qs bG (2 * bG)); [|discriminate].
    destruct (slice qs (2 * bG) (length qs)); discriminate.
  Qed.

  Lemma Verify_panic claim cs bN bG :
    Verify ch claim cs bN bG = None <->
    (exists pre post e, cs = pre ++ [] :: post /\ answers ch claim pre e) \/
    ((length cs < 2 * bG)%nat /\ exists fin, answers ch claim cs fin).
  Proof.
    rewrite <- (verify_loop_panic cs claim []). unfold Verify.
    destruct (verify_loop ch claim cs []) as [[[qs e]|]|] eqn:E.
    - apply verify_loop_accept in E. destruct E as [HA ->]. cbn [app]. split.
      + intros H. right. split; [|exists e; exact HA].
        destruct (Nat.lt_ge_cases (length cs) (2 * bG)) as [|Hge]; [assumption|].
        rewrite !slice_some in H by (rewrite ?map_length; lia). discriminate.
      + intros [H|[H _]]; [discriminate|].
        unfold slice. rewrite map_length. destruct (Nat.leb_spec (2 * bG) (length cs)); [lia|].
        rewrite !andb_false_r. destruct (_ && _); reflexivity.
    - split; [discriminate|]. intros [H|[_ [fin H]]]; [discriminate|].
      assert (HA : verify_loop ch claim cs [] = Some (Some (map ch cs, fin))) by (apply verify_loop_accept; auto).
      congruence.
    - split; auto.
  Qed.

  (** ** Soundness *)
  Lemma cube_sum_S (f : list F -> F) k x :
    cube_sum f (S k) x = cube_sum f k (x ++ [0]) + cube_sum f k (x ++ [1]).
  Proof.
    unfold cube_sum. cbn [cube]. rewrite suml_app, !suml_map. f_equal; apply suml_ext; intros b _; cbn [bpoint map]; rewrite <- app_assoc; reflexivity.
  Qed.

  Lemma sound (f : list F -> F) cs : forall x v fin, answers ch v cs fin -> fin = f (x ++ map ch cs) ->
    v <> cube_sum f (length cs) x ->
    exists i c, nth_error cs i = Some c /\
      (exists t, peval c t <> cube_sum f (length cs - S i) (x ++ map ch (firstn i cs) ++ [t])) /\
      peval c (ch c) = cube_sum f (length cs - S i) (x ++ map ch (firstn i cs) ++ [ch c]).
  Proof.
    induction cs as [|c cs IH]; intros x v fin HA Hf Hv.
    - cbn [answers map length] in *. exfalso. apply Hv. unfold cube_sum. cbn [cube suml bpoint map].
      rewrite <- HA, Hf. ring.
    - cbn [answers map length] in *. destruct HA as (_ & Hsum & HA).
      assert (Hdiff : exists t, peval c t <> cube_sum f (length cs) (x ++ [t])).
      { destruct (f_eq_dec (peval c 0) (cube_sum f (length cs) (x ++ [0]))) as [E0|]; [|eauto].
        destruct (f_eq_dec (peval c 1) (cube_sum f (length cs) (x ++ [1]))) as [E1|]; [|eauto].
        exfalso. apply Hv. rewrite Hsum, E0, E1, cube_sum_S. reflexivity. }
      destruct (f_eq_dec (peval c (ch c)) (cube_sum f (length cs) (x ++ [ch c]))) as [E|E].
      + exists 0%nat, c. cbn [nth_error firstn map app]. rewrite Nat.sub_succ, Nat.sub_0_r. auto.
      + destruct (IH (x ++ [ch c]) (peval c (ch c)) fin HA) as (i & c' & H1 & H2 & H3); [|exact E|].
        * rewrite <- app_assoc. exact Hf.
        * exists (S i), c'. cbn [nth_error firstn map app]. rewrite Nat.sub_succ.
          split; [exact H1|]. split.
          -- destruct H2 as (t & H2). exists t. rewrite <- app_assoc in H2. exact H2.
          -- rewrite <- app_assoc in H3. exact H3.
  Qed.
End S.
