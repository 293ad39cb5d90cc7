(** Proofs about the 64-bit model of MInt2.v. *)
From Coq Require Import List Arith ZArith Lia Bool.
From Verif Require Import Field Go MInt LInt SpecInt MSumcheck MGkr MSnark MInt2 SpecInt2 LSnark7.
Import ListNotations.
Local Open Scope Z_scope.

Ltac wr := unfold add64, sub64, mul64 in *; repeat rewrite wrap_id in * by lia.

Section Common.
  Context {A : Type}.

  Lemma forZ_empty {S} a b (f : S -> Z -> option S) s : b <= a -> forZ a b f s = Some s.
  Proof. intros H. unfold forZ. replace (Z.to_nat (b - a)) with O by lia. reflexivity. Qed.

  Lemma forN_S {S} n (f : S -> nat -> option S) s : forN (Datatypes.S n) f s = (s' <- forN n f s ;; f s' n).
  Proof. unfold forN. rewrite seq_S, foldM_app. simpl. destruct (foldM f (seq 0 n) s); [|reflexivity]. destruct (f s0 n); reflexivity. Qed.

  Definition fillf (u : option A) := (fun (l : list A) (i : Z) => v <- u ;; zset l i v).

  Lemma zset_len (l l' : list A) i v : zset l i v = Some l' -> length l' = length l /\ 0 <= i < len l.
  Proof.
    unfold zset, len. destruct (Z.ltb_spec i 0); [discriminate|]. unfold set. destruct (Nat.ltb_spec (Z.to_nat i) (length l)); [|discriminate].
    intros E. injection E as <-. rewrite upd_length. lia.
  Qed.

  Lemma fill_len u a n (l l' : list A) : forN n (fun s k => fillf u s (a + Z.of_nat k)) l = Some l' ->
    length l' = length l /\ ((0 < n)%nat -> 0 <= a /\ a + Z.of_nat n <= len l).
  Proof.
    revert l'. induction n as [|n IH]; intros l' E.
    { cbv in E. injection E as <-. split; [reflexivity|lia]. }
    rewrite forN_S in E. destruct (forN n _ l) as [l1|] eqn:E1; [|discriminate]. destruct (IH _ eq_refl) as [H1 H2].
    unfold fillf in E. destruct u as [v|]; [|discriminate]. apply zset_len in E. unfold len in *. rewrite H1 in E. split; [lia|].
    intros _. destruct n as [|n]; [lia|]. assert (0 < S n)%nat by lia. lia.
  Qed.

  Lemma fill_bad u a b (l : list A) : a < b -> a < 0 \/ len l < b -> forZ a b (fillf u) l = None.
  Proof.
    intros H1 H2. unfold forZ. destruct (forN _ _ l) as [l'|] eqn:E; [|reflexivity]. apply fill_len in E. destruct E as [_ E].
    rewrite Z2Nat.id in E by lia. assert (0 < Z.to_nat (b - a))%nat by lia. lia.
  Qed.

  Lemma fill_none a b (l : list A) : a < b -> forZ a b (fillf None) l = None.
  Proof.
    intros H. unfold forZ. destruct (Z.to_nat (b - a)) as [|n] eqn:E; [lia|]. reflexivity.
  Qed.

  Lemma fill_some v a n (l1 l2 l3 : list A) : a = len l1 -> length l2 = n ->
    forN n (fun s k => fillf (Some v) s (a + Z.of_nat k)) (l1 ++ l2 ++ l3) = Some (l1 ++ repeat v n ++ l3).
  Proof.
    intros -> . revert l3 l2. induction n as [|n IH]; intros l3 l2 H.
    { destruct l2; [reflexivity|discriminate]. }
    rewrite forN_S. destruct (exists_last (l := l2)) as (l2' & y & ->). { intros ->. discriminate. }
    rewrite app_length in H. simpl in H. rewrite <- (app_assoc l2'), IH by lia. unfold fillf.
    replace (len l1 + Z.of_nat n) with (Z.of_nat (length l1 + n)) by (unfold len; lia). rewrite zset_of_nat.
    rewrite set_some. 2:{ rewrite !app_length, repeat_length. simpl. lia. }
    f_equal. clear. replace (length l1 + n)%nat with (length (l1 ++ repeat v n)) by (rewrite app_length, repeat_length; reflexivity).
    change ([y] ++ l3) with (y :: l3). rewrite (app_assoc l1). 
    assert (U : forall (p : list A) x q, upd (p ++ x :: q) (length p) v = p ++ v :: q) by (induction p; intros; simpl; [|rewrite IHp]; reflexivity).
    rewrite U. rewrite <- app_assoc. f_equal. clear. induction n as [|n IH]; [reflexivity|]. simpl. rewrite IH. reflexivity.
  Qed.

  Lemma slice_nat (l : list A) a b : zslice l (Z.of_nat a) (Z.of_nat b) = slice l a b.
  Proof.
    unfold zslice, slice, len. rewrite !Nat2Z.id.
    destruct (Z.leb_spec 0 (Z.of_nat a)); [|lia]. destruct (Z.leb_spec (Z.of_nat a) (Z.of_nat b)), (Z.leb_spec (Z.of_nat b) (Z.of_nat (length l))); cbn [andb].
    - reflexivity.
    - destruct (Nat.leb_spec a b), (Nat.leb_spec b (length l)); try lia; reflexivity.
    - destruct (Nat.leb_spec a b), (Nat.leb_spec b (length l)); try lia; reflexivity.
    - destruct (Nat.leb_spec a b), (Nat.leb_spec b (length l)); try lia; reflexivity.
  Qed.

  Lemma slice_big (l : list A) a b : (length l < b)%nat -> slice l a b = None.
  Proof. intros H. unfold slice. destruct (Nat.leb_spec b (length l)); [lia|]. rewrite andb_false_r. reflexivity. Qed.

  (** The three pieces *)
  Lemma cut64_spec maxLen (hs : list A) bG : maxLen <= 2 ^ 62 -> len hs <= maxLen -> isInt bG ->
    cut64 hs bG = if 0 <=? bG then
      (hL <- slice hs 0 (Z.to_nat bG) ;; hR <- slice hs (Z.to_nat bG) (2 * Z.to_nat bG) ;; hP <- slice hs (2 * Z.to_nat bG) (length hs) ;; Some (hL, hR, hP))
      else None.
  Proof.
    intros H1 H2 HB. unfold cut64, isInt in *. destruct (Z.leb_spec 0 bG) as [H0|H0].
    2:{ unfold zslice at 1. destruct (Z.leb_spec 0 0); [|lia]. destruct (Z.leb_spec 0 bG); [lia|]. reflexivity. }
    set (n := Z.to_nat bG). assert (En : bG = Z.of_nat n) by (unfold n; lia). rewrite En. change 0 with (Z.of_nat 0). rewrite !slice_nat.
    destruct (slice hs 0 n) as [hL|] eqn:E; [|reflexivity].
    assert (n <= length hs)%nat. { destruct (le_lt_dec n (length hs)); [assumption|]. rewrite slice_big in E by assumption. discriminate. }
    destruct (Z.ltb_spec bG (2 ^ 62)).
    - assert (E2 : mul64 2 (Z.of_nat n) = Z.of_nat (2 * n)) by (unfold mul64; rewrite wrap_id; lia). rewrite E2. unfold len. rewrite !slice_nat. reflexivity.
    - unfold len in H2. assert (bG = 2 ^ 62) by lia. replace (mul64 2 (Z.of_nat n)) with (- 2 ^ 63) by (rewrite <- En, H4; reflexivity).
      rewrite (slice_big hs n) by lia. unfold zslice at 1. destruct (Z.leb_spec (Z.of_nat n) (- 2 ^ 63)); [lia|]. rewrite andb_false_r. reflexivity.
  Qed.
End Common.

Section L.
  Context {F : Field}.
  Variable maxLen : Z.
  Hypothesis HM : 1 <= maxLen <= 2 ^ 62.

  Lemma univariate_64 degree : isInt degree ->
    AllocateUnivariate64 (F:=F) maxLen degree = if allocatable maxLen degree then Some (repeat None (Z.to_nat (degree + 1))) else None.
  Proof.
    unfold isInt, AllocateUnivariate64, allocatable, make64, add64. intros H.
    destruct (Z.ltb_spec degree (2 ^ 63 - 1)).
    - rewrite wrap_id by lia. destruct (Z.leb_spec 0 (degree + 1)), (Z.leb_spec (-1) degree); try lia; reflexivity.
    - assert (degree = 2 ^ 63 - 1) by lia. subst. change (wrap (2 ^ 63 - 1 + 1)) with (- 2 ^ 63). 
      destruct (Z.leb_spec (2 ^ 63 - 1 + 1) maxLen); [lia|]. rewrite !andb_false_r. reflexivity.
  Qed.

  Lemma multilinear_64 nVars : isInt nVars ->
    AllocateMultilinear64 (F:=F) maxLen nVars =
      if (0 <=? nVars) && (2 ^ nVars <=? maxLen) then Some (SAllocateMultilinear (Z.to_nat nVars))
      else if 64 <=? nVars then Some [] else None.
  Proof.
    unfold isInt, AllocateMultilinear64. intros H. destruct (Z.leb_spec 0 nVars) as [H0|H0]; cbn [andb].
    2:{ unfold shl64. destruct (Z.ltb_spec nVars 0); [|lia]. destruct (Z.leb_spec 64 nVars); [lia|reflexivity]. }
    destruct (Z.leb_spec 64 nVars).
    { rewrite shl_big by lia. unfold make64. cbn [andb Z.leb]. destruct (Z.leb_spec 0 maxLen); [|lia].
      destruct (Z.leb_spec (2 ^ nVars) maxLen); [|reflexivity]. pose proof (Z.pow_le_mono_r 2 64 nVars). lia. }
    destruct (Z.eqb_spec nVars 63) as [->|].
    { rewrite shl_63. rewrite make64_neg by lia. destruct (Z.leb_spec (2 ^ 63) maxLen); [lia|reflexivity]. }
    rewrite shl_pow by lia. unfold make64. pose proof (Z.pow_pos_nonneg 2 nVars). destruct (Z.leb_spec 0 (2 ^ nVars)); [|lia]. cbn [andb].
    destruct (2 ^ nVars <=? maxLen); [|reflexivity]. unfold SAllocateMultilinear. do 2 f_equal.
    apply Nat2Z.inj. rewrite Nat2Z.inj_pow, !Z2Nat.id by lia. reflexivity.
  Qed.

  Lemma multilinear_nothing : exists nVars, isInt nVars /\ 0 <= nVars /\ AllocateMultilinear64 (F:=F) maxLen nVars = Some [] /\ AllocateMultilinear64 (F:=F) maxLen nVars <> Some (SAllocateMultilinear (Z.to_nat nVars)).
  Proof.
    exists 64. unfold isInt. split; [lia|]. split; [lia|].
    assert (E : AllocateMultilinear64 (F:=F) maxLen 64 = Some []).
    { rewrite multilinear_64 by (unfold isInt; lia). destruct (Z.leb_spec (2 ^ 64) maxLen); [lia|]. reflexivity. }
    split; [exact E|]. rewrite E. clear E. generalize (Z.to_nat 64). intros k H. injection H as H. apply (f_equal (@length _)) in H.
    unfold SAllocateMultilinear in H. rewrite repeat_length in H. symmetry in H. revert H. apply Nat.pow_nonzero. discriminate.
  Qed.

  Lemma sumcheck_64 bN bG dL dR dP : isInt bN -> isInt bG -> isInt dL -> isInt dR -> isInt dP ->
    AllocateSumcheck64 (F:=F) maxLen bN bG dL dR dP = if sumcheck_allocatable maxLen bN bG dL dR dP then
      Some (repeat (repeat None (Z.to_nat (dL + 1))) (Z.to_nat bG) ++ repeat (repeat None (Z.to_nat (dR + 1))) (Z.to_nat bG) ++ repeat (repeat None (Z.to_nat (dP + 1))) (Z.to_nat bN))
      else None.
  Proof.
    intros HN HG HL HR HP. unfold AllocateSumcheck64.
    change (fun (hPolys : list (list (option F))) (i : Z) => u <- AllocateUnivariate64 maxLen dL ;; zset hPolys i u) with (fillf (AllocateUnivariate64 (F:=F) maxLen dL)).
    change (fun (hPolys : list (list (option F))) (i : Z) => u <- AllocateUnivariate64 maxLen dR ;; zset hPolys i u) with (fillf (AllocateUnivariate64 (F:=F) maxLen dR)).
    change (fun (hPolys : list (list (option F))) (i : Z) => u <- AllocateUnivariate64 maxLen dP ;; zset hPolys i u) with (fillf (AllocateUnivariate64 (F:=F) maxLen dP)).
    rewrite !univariate_64 by assumption. unfold sumcheck_allocatable. unfold isInt in *.
    set (uL := if allocatable maxLen dL then _ else _). set (uR := if allocatable maxLen dR then _ else _). set (uP := if allocatable maxLen dP then _ else _).
    assert (GOOD : forall T : Prop, (0 <= bN -> 0 <= bG -> bN + 2 * bG <= maxLen -> T) -> (bN < 0 \/ bG < 0 \/ maxLen < bN + 2 * bG -> T) -> T).
    { intros T H1 H2. destruct (Z.ltb_spec bN 0); [auto|]. destruct (Z.ltb_spec bG 0); [auto|]. destruct (Z.ltb_spec maxLen (bN + 2 * bG)); [auto|]. apply H1; assumption. }
    apply GOOD; clear GOOD.
    - intros H1 H2 H3. destruct (Z.leb_spec 0 bN); [|lia]. destruct (Z.leb_spec 0 bG); [|lia]. destruct (Z.leb_spec (bN + 2 * bG) maxLen); [|lia]. cbn [andb].
      assert (E2 : mul64 2 bG = 2 * bG) by (unfold mul64; apply wrap_id; lia). rewrite E2.
      assert (E3 : add64 bN (2 * bG) = bN + 2 * bG) by (unfold add64; apply wrap_id; lia). rewrite E3.
      assert (E4 : add64 (2 * bG) bN = 2 * bG + bN) by (unfold add64; apply wrap_id; lia). rewrite E4.
      unfold make64. destruct (Z.leb_spec 0 (bN + 2 * bG)); [|lia]. destruct (Z.leb_spec (bN + 2 * bG) maxLen); [|lia]. cbn [andb].
      replace (Z.to_nat (bN + 2 * bG)) with (Z.to_nat bG + (Z.to_nat bG + Z.to_nat bN))%nat by lia. rewrite !repeat_app.
      set (z := @nil (option F)). 
      assert (LG : forall x : list (option F), len (repeat x (Z.to_nat bG)) = bG) by (intros; unfold len; rewrite repeat_length; lia).
      (* first loop *)
      destruct (Z.eqb_spec bG 0) as [G0|G0].
      { rewrite forZ_empty by lia. rewrite forZ_empty by lia. subst bG. cbn [Z.to_nat repeat app orb].
        destruct (Z.eqb_spec bN 0) as [N0|N0]. { rewrite forZ_empty by lia. subst bN. reflexivity. }
        cbn [orb]. unfold uP. destruct (allocatable maxLen dP); [|apply fill_none; lia].
        unfold forZ. replace (2 * 0 + bN - 2 * 0) with bN by lia.
        pose proof (fill_some (repeat None (Z.to_nat (dP + 1))) (2 * 0) (Z.to_nat bN) (@nil (list (option F))) (repeat z (Z.to_nat bN)) []) as P.
        rewrite !app_nil_r in P. apply P; [reflexivity|apply repeat_length]. }
      cbn [orb]. unfold uL at 1. destruct (allocatable maxLen dL) eqn:AL. 2:{ rewrite fill_none by lia. reflexivity. }
      set (xL := repeat None (Z.to_nat (dL + 1))). unfold forZ at 1. replace (bG - 0) with bG by lia.
      pose proof (fill_some xL 0 (Z.to_nat bG) [] (repeat z (Z.to_nat bG)) (repeat z (Z.to_nat bG) ++ repeat z (Z.to_nat bN)) eq_refl (repeat_length _ _)) as P1.
      cbn [app] in P1. rewrite P1. clear P1. cbn [andb].
      unfold uR. destruct (allocatable maxLen dR) eqn:AR. 2:{ rewrite fill_none by lia. reflexivity. }
      set (xR := repeat None (Z.to_nat (dR + 1))). unfold forZ at 1. replace (2 * bG - bG) with bG by lia.
      rewrite (fill_some xR bG (Z.to_nat bG) (repeat xL (Z.to_nat bG)) (repeat z (Z.to_nat bG))); [|rewrite LG; reflexivity|apply repeat_length]. cbn [andb].
      destruct (Z.eqb_spec bN 0) as [N0|N0]. { rewrite forZ_empty by lia. subst bN. reflexivity. }
      cbn [orb]. unfold uP. destruct (allocatable maxLen dP) eqn:AP. 2:{ rewrite fill_none by lia. reflexivity. }
      set (xP := repeat None (Z.to_nat (dP + 1))). unfold forZ at 1. replace (2 * bG + bN - 2 * bG) with bN by lia.
      pose proof (fill_some xP (2 * bG) (Z.to_nat bN) (repeat xL (Z.to_nat bG) ++ repeat xR (Z.to_nat bG)) (repeat z (Z.to_nat bN)) []) as P.
      rewrite !app_nil_r, <- !app_assoc in P. apply P; [|apply repeat_length]. unfold len. rewrite app_length, !repeat_length. lia.
    - intros BAD. replace ((0 <=? bN) && (0 <=? bG) && (bN + 2 * bG <=? maxLen)) with false.
      2:{ symmetry. destruct (Z.leb_spec 0 bN), (Z.leb_spec 0 bG), (Z.leb_spec (bN + 2 * bG) maxLen); try reflexivity; lia. }
      cbn [andb]. unfold make64. set (d := mul64 2 bG). set (n := add64 bN d).
      destruct (Z.leb_spec 0 n) as [Hn|Hn]; [|reflexivity]. destruct (Z.leb_spec n maxLen) as [Hm|Hm]; [|reflexivity]. cbn [andb].
      assert (En : add64 d bN = n) by (unfold n, add64; f_equal; lia). rewrite En.
      set (l0 := repeat [] (Z.to_nat n)). assert (L0 : len l0 = n) by (unfold l0, len; rewrite repeat_length; lia).
      assert (KEEP : forall u a b (l l' : list (list (option F))), forZ a b (fillf u) l = Some l' -> len l' = len l).
      { intros u a b l l' E. unfold forZ in E. apply fill_len in E. unfold len. lia. }
      pose proof (wrap_range (2 * bG)) as WR. fold (mul64 2 bG) in WR. fold d in WR.
      destruct (Z.ltb_spec bG 0) as [G|G].
      + rewrite (forZ_empty 0 bG) by lia. destruct (Z.ltb_spec bG d).
        * rewrite fill_bad by lia. reflexivity.
        * rewrite (forZ_empty bG d) by lia. apply fill_bad; lia.
      + destruct (forZ 0 bG (fillf uL) l0) as [l1|] eqn:E1; [|reflexivity]. apply KEEP in E1.
        destruct (Z.ltb_spec bG (2 ^ 62)) as [G2|G2].
        * assert (Ed : d = 2 * bG) by (unfold d, mul64; apply wrap_id; lia).
          destruct (Z.eqb_spec bG 0).
          { exfalso. unfold n in Hn, Hm. rewrite Ed in Hn, Hm. unfold add64 in Hn, Hm. rewrite wrap_id in Hn, Hm by lia. lia. }
          destruct (Z.ltb_spec bN 0).
          { rewrite fill_bad; [reflexivity|lia|]. right. rewrite E1, L0. unfold n. rewrite Ed. unfold add64. rewrite wrap_id by lia. lia. }
          exfalso. unfold n, add64 in Hn, Hm. rewrite Ed in Hn, Hm. destruct (Z.ltb_spec (bN + 2 * bG) (2 ^ 63)).
          { rewrite wrap_id in Hn, Hm by lia. lia. }
          replace (bN + 2 * bG) with (bN + 2 * bG - 2 ^ 64 + 1 * 2 ^ 64) in Hn by lia. rewrite wrap_mult, wrap_id in Hn by lia. lia.
        * assert (Ed : d = 2 * bG - 2 ^ 64).
          { unfold d, mul64. replace (2 * bG) with (2 * bG - 2 ^ 64 + 1 * 2 ^ 64) at 1 by lia. rewrite wrap_mult. apply wrap_id. lia. }
          rewrite (forZ_empty bG d) by lia. apply fill_bad; lia.
  Qed.

  Lemma proof_64 bN layers : isInt bN -> (forall bG dL dR dP, In (bG, dL, dR, dP) layers -> isInt bG /\ isInt dL /\ isInt dR /\ isInt dP) ->
    len layers <= maxLen ->
    (forall p, AllocateProof64 (F:=F) maxLen bN layers = Some p <->
      (forall bG dL dR dP, In (bG, dL, dR, dP) layers -> sumcheck_allocatable maxLen bN bG dL dR dP = true) /\
      p = MkSProof (map (fun '(bG, dL, dR, dP) =>
          repeat (repeat None (Z.to_nat (dL + 1))) (Z.to_nat bG) ++ repeat (repeat None (Z.to_nat (dR + 1))) (Z.to_nat bG) ++
          repeat (repeat None (Z.to_nat (dP + 1))) (Z.to_nat bN)) layers)
        (repeat None (length layers)) (repeat None (length layers))).
  Proof.
    intros HN HI HL. unfold AllocateProof64, len in *. rewrite !make64_of_nat. destruct (Z.leb_spec (Z.of_nat (length layers)) maxLen); [|lia].
    rewrite repeat_length.
    set (g := fun '(bG, dL, dR, dP) => repeat (repeat (@None F) (Z.to_nat (dL + 1))) (Z.to_nat bG) ++ repeat (repeat None (Z.to_nat (dR + 1))) (Z.to_nat bG) ++
          repeat (repeat None (Z.to_nat (dP + 1))) (Z.to_nat bN)).
    set (ok := fun '(bG, dL, dR, dP) => sumcheck_allocatable maxLen bN bG dL dR dP).
    set (body := fun SumcheckProofs (i : nat) => _).
    assert (B : forall s i, body s i = (x <- get layers i ;; if ok x then set s i (g x) else None)).
    { intros s i. unfold body. destruct (get layers i) as [[[[bG dL] dR] dP]|] eqn:E; [|reflexivity]. apply nth_error_In in E. apply HI in E.
      rewrite sumcheck_64 by tauto. unfold ok, g. destruct (sumcheck_allocatable _ _ _ _ _ _); reflexivity. }
    assert (R : forall n, (n <= length layers)%nat -> forN n body (repeat [] (length layers)) =
      if forallb ok (firstn n layers) then Some (map g (firstn n layers) ++ repeat [] (length layers - n)) else None).
    { induction n as [|n IH]; intros Hn. { simpl. rewrite Nat.sub_0_r. reflexivity. }
      rewrite forN_S, IH by lia. destruct (nth_error layers n) as [x|] eqn:Ex. 2:{ apply nth_error_None in Ex. lia. }
      assert (FS : firstn (S n) layers = firstn n layers ++ [x]).
      { clear - Ex. revert layers Ex. induction n as [|n IH]; intros [|y l] E; try discriminate; simpl in *.
        - injection E as ->. reflexivity.
        - f_equal. apply IH. assumption. }
      rewrite FS, forallb_app, map_app. cbn [forallb map]. rewrite andb_true_r. destruct (forallb ok (firstn n layers)); [|reflexivity]. cbn [andb].
      rewrite B. unfold get. rewrite Ex. destruct (ok x); [|reflexivity].
      rewrite set_some. 2:{ rewrite app_length, map_length, firstn_length, repeat_length. lia. }
      f_equal. replace (length layers - n)%nat with (S (length layers - S n)) by lia. cbn [repeat].
      assert (U : forall (p : list (list (list (option F)))) y q v k, length p = k -> upd (p ++ y :: q) k v = p ++ v :: q).
      { intros p y q v k <-. induction p; simpl; [|rewrite IHp]; reflexivity. }
      rewrite U. 2:{ rewrite map_length, firstn_length. lia. } rewrite <- app_assoc. reflexivity. }
    rewrite R by lia. rewrite firstn_all, Nat.sub_diag, app_nil_r. intros p.
    split.
    - destruct (forallb ok layers) eqn:E; [|discriminate]. intros HH. injection HH as <-. split; [|reflexivity].
      intros. rewrite forallb_forall in E. apply (E (bG, dL, dR, dP)). assumption.
    - intros [H1 ->]. replace (forallb ok layers) with true; [reflexivity|]. symmetry. apply forallb_forall.
      intros [[[bG dL] dR] dP] HIn. apply H1. assumption.
  Qed.

  Lemma assign_chunked_64 (table : list (option F)) values : len table <= maxLen -> len values <= maxLen ->
    AssignFromChunkedBKT64 table values = SAssignFromChunkedBKT table values.
  Proof.
    intros HT HV. unfold AssignFromChunkedBKT64, SAssignFromChunkedBKT.
    set (n := length values).
    assert (INV : forall k (t : list (option F)) (f g : list (option F) -> nat -> option (list (option F))),
      len t <= maxLen -> (forall s i, (i < k)%nat -> len s <= maxLen -> f s i = g s i) ->
      (forall s i s', (i < k)%nat -> g s i = Some s' -> len s' = len s) ->
      forN k f t = forN k g t /\ (forall t', forN k g t = Some t' -> len t' = len t)).
    { induction k as [|k IH]; intros t f g H1 H2 H3. { split; [reflexivity|]. intros t' E. cbv in E. injection E as <-. reflexivity. }
      destruct (IH t f g) as [I1 I2]; [assumption|intros; apply H2; [lia|assumption]|intros s i s' Hi; apply H3; lia|]. rewrite !forN_S, I1.
      destruct (forN k g t) as [t1|] eqn:E1; [|split; [reflexivity|discriminate]]. specialize (I2 _ eq_refl). split.
      - apply H2; lia.
      - intros t' E. apply H3 in E; [|lia]. congruence. }
    apply INV; [assumption| |].
    - intros s b Hb Hs. destruct (get values b) as [vb|] eqn:Evb; [|reflexivity].
      (* the indices grow: the loop stops at the first one out of range *)
      assert (IN : forall k (t : list (option F)), (k <= length vb)%nat -> length t = length s ->
        forN k (fun table i => x <- get vb i ;; (let k0 := add64 (Z.of_nat b) (mul64 (Z.of_nat i) (len values)) in v <- zget table k0 ;; v <- assignVar v x ;; zset table k0 v)) t =
        forN k (fun table i => x <- get vb i ;; v <- get table (b + i * n) ;; v <- assignVar v x ;; set table (b + i * n) v) t /\
        (forall t', forN k (fun table i => x <- get vb i ;; v <- get table (b + i * n) ;; v <- assignVar v x ;; set table (b + i * n) v) t = Some t' ->
          length t' = length s /\ ((0 < k)%nat -> (b + (k - 1) * n < length s)%nat))).
      { induction k as [|k IH]; intros t Hk Ht. { split; [reflexivity|]. intros t' E. cbv in E. injection E as <-. split; [assumption|lia]. }
        destruct (IH t) as [I1 I2]; [lia|assumption|]. rewrite !forN_S, I1. clear I1. destruct (forN k _ t) as [t1|]; [|split; [reflexivity|discriminate]].
        destruct (I2 _ eq_refl) as [I3 I4]. clear I2.
        assert (IDX : add64 (Z.of_nat b) (mul64 (Z.of_nat k) (len values)) = Z.of_nat (b + k * n)).
        { unfold add64, mul64, len in *. fold n in HV |- *. assert (Z.of_nat (b + k * n) < 2 ^ 63).
          { destruct k as [|k]; [lia|]. assert (b + (S k - 1) * n < length s)%nat by (apply I4; lia). 
            assert (b < n)%nat by assumption. replace (b + S k * n)%nat with (b + (S k - 1) * n + n)%nat by (replace (S k - 1)%nat with k by lia; lia).
            lia. }
          rewrite (wrap_id (Z.of_nat k * Z.of_nat n)) by lia. rewrite wrap_id; lia. }
        rewrite IDX. cbv zeta. rewrite zget_of_nat. destruct (get vb k) as [x|]; [|split; [reflexivity|discriminate]].
        destruct (get t1 (b + k * n)) as [v|] eqn:Ev; [|split; [reflexivity|discriminate]]. apply get_some_lt in Ev.
        destruct (assignVar v x) as [w|]; [|split; [reflexivity|discriminate]]. rewrite zset_of_nat. split; [reflexivity|].
        intros t' E. rewrite set_some in E by assumption. injection E as <-. rewrite upd_length. split; [assumption|]. intros _. replace (S k - 1)%nat with k by lia. lia. }
      apply IN; lia.
    - intros s b s' Hb E. destruct (get values b) as [vb|]; [|discriminate]. unfold len. f_equal.
      revert s' E. generalize (length vb). intros k. revert s. induction k as [|k IH]; intros s s' E. { cbv in E. injection E as <-. reflexivity. }
      rewrite forN_S in E. destruct (forN k _ s) as [s1|] eqn:E1; [|discriminate]. apply IH in E1.
      destruct (get vb k); [|discriminate]. destruct (get s1 (b + k * n)) eqn:Eg; [|discriminate]. apply get_some_lt in Eg. destruct (assignVar _ _); [|discriminate].
      rewrite set_some in E by assumption. injection E as <-. rewrite upd_length. assumption.
  Qed.

  Lemma SEval_nil xs cs : SEval (F:=F) [] xs cs = None.
  Proof.
    unfold SEval, mbind. assert (E : forall cs, mfold (SFold (F:=F)) xs [] cs = Some ([], cs)).
    { induction xs as [|x xs IH]; intros c; [reflexivity|]. cbn [mfold]. unfold mbind. change (SFold [] x c) with (Some (@nil nat, c)). apply IH. }
    rewrite E. reflexivity.
  Qed.

  Lemma mmap_ext {A B} (f g : A -> M (F:=F) B) l : (forall a cs, In a l -> f a cs = g a cs) -> forall cs, mmap f l cs = mmap g l cs.
  Proof.
    induction l as [|a l IH]; intros H cs; [reflexivity|]. cbn [mmap]. unfold mbind. rewrite H by (left; reflexivity).
    destruct (g a cs) as [[b cs']|]; [|reflexivity]. rewrite IH; [reflexivity|]. intros. apply H. right. assumption.
  Qed.

  Lemma eval_mixed_64 table qL qR qPrime cs : len table <= maxLen -> len qL < 2 ^ 63 ->
    EvalMixed64 (F:=F) maxLen table qL qR qPrime cs = SEvalMixed table qL qR qPrime cs.
  Proof.
    intros HT HQ. unfold EvalMixed64, SEvalMixed.
    assert (NZ : (2 ^ length qL <> 0)%nat) by (apply Nat.pow_nonzero; discriminate).
    assert (PW : Z.of_nat (2 ^ length qL) = 2 ^ len qL) by (rewrite Nat2Z.inj_pow; reflexivity).
    unfold mbind at 1. unfold mbind at 7. rewrite godiv_some by lia. unfold lift at 2. cbv beta iota.
    destruct (Z.leb_spec (2 ^ len qL) maxLen) as [HL|HL].
    - assert (0 <= len qL <= 62).
      { split; [unfold len; lia|]. destruct (Z.leb_spec (len qL) 62); [assumption|]. pose proof (Z.pow_le_mono_r 2 63 (len qL)). lia. }
      rewrite shl_pow by assumption. unfold lift at 1. cbv beta iota. unfold mbind at 1.
      assert (QU : quot64 (len table) (2 ^ len qL) = Some (Z.of_nat (length table / 2 ^ length qL))).
      { unfold quot64. rewrite <- PW. destruct (Z.eqb_spec (Z.of_nat (2 ^ length qL)) 0); [lia|]. unfold len in *. rewrite Z.quot_div_nonneg by lia. rewrite <- Nat2Z.inj_div.
        rewrite wrap_id; [reflexivity|]. pose proof (Nat.div_le_upper_bound (length table) (2 ^ length qL) (length table) NZ). 
        assert (length table / 2 ^ length qL <= length table)%nat by (apply H0; nia). lia. }
      rewrite QU. unfold lift at 1. cbv beta iota. unfold mbind at 1. rewrite <- PW, make64_of_nat, PW. destruct (Z.leb_spec (2 ^ len qL) maxLen); [|lia].
      unfold lift at 1. cbv beta iota. rewrite repeat_length. unfold mbind at 1. unfold mbind at 4.
      set (cz := (length table / 2 ^ length qL)%nat).
      assert (CZ : (2 ^ length qL * cz <= length table)%nat) by (apply Nat.mul_div_le; assumption).
      rewrite (mmap_ext _ (fun i => mbind (lift (slice table (i * cz) ((i + 1) * cz))) (fun t => SEval t qPrime)) (seq 0 (2 ^ length qL))).
      + reflexivity.
      + intros i c Hi. apply in_seq in Hi. unfold mbind. do 2 f_equal.
        assert ((i + 1) * cz <= length table)%nat by nia. unfold len in *.
        assert (B1 : add64 (Z.of_nat i) 1 = Z.of_nat (i + 1)) by (unfold add64; rewrite wrap_id; lia). rewrite B1.
        assert (B2 : mul64 (Z.of_nat (i + 1)) (Z.of_nat cz) = Z.of_nat ((i + 1) * cz)) by (unfold mul64; rewrite wrap_id; lia). rewrite B2.
        assert (B3 : mul64 (Z.of_nat i) (Z.of_nat cz) = Z.of_nat (i * cz)) by (unfold mul64; rewrite wrap_id; nia). rewrite B3.
        rewrite slice_nat. reflexivity.
    - (* fewer entries than pieces *)
      assert (CZ : (length table / 2 ^ length qL = 0)%nat) by (apply Nat.div_small; unfold len in *; lia).
      transitivity (@None (nat * nat * CS F)).
      + destruct (Z.leb_spec 64 (len qL)). { rewrite shl_big by assumption. reflexivity. }
        assert (C : exists p, shl64 1 (len qL) = Some p /\ (p < 0 \/ maxLen < p)).
        { destruct (Z.eqb_spec (len qL) 63) as [->|]. { exists (- 2 ^ 63). split; [reflexivity|lia]. }
          exists (2 ^ len qL). split; [apply shl_pow; unfold len in *; lia|lia]. }
        destruct C as (p & -> & Hp). unfold lift at 1. cbv beta iota. unfold mbind at 1. destruct (quot64 (len table) p); [|reflexivity].
        unfold lift at 1. cbv beta iota. unfold mbind at 1. unfold make64. destruct (Z.leb_spec 0 p), (Z.leb_spec p maxLen); try lia; reflexivity.
      + symmetry. rewrite CZ. destruct (2 ^ length qL)%nat as [|n]; [congruence|]. cbn [seq]. 
        assert (E : forall (f : nat -> M (F:=F) nat) l c, f O c = None -> mmap f (O :: l) c = None) by (intros f l c E; cbn [mmap]; unfold mbind at 1; rewrite E; reflexivity).
        unfold lift at 1. cbv beta iota. unfold mbind at 1. rewrite E; [reflexivity|]. unfold mbind. cbn [Nat.mul Nat.add]. rewrite slice_some by lia. cbn [Nat.sub firstn]. apply SEval_nil.
  Qed.

  Lemma verify_64 GetChallenge (claim : F) proof bN bG : len proof <= maxLen -> isInt bG ->
    Verify64 GetChallenge claim proof bN bG =
      if 0 <=? bG then Verify GetChallenge claim proof (Z.to_nat bN) (Z.to_nat bG)
      else match verify_loop GetChallenge claim proof [] with Some None => Some Reject | _ => None end.
  Proof.
    intros HP HB. unfold Verify64, Verify.
    assert (L : forall proof claim acc r e, verify_loop GetChallenge claim proof acc = Some (Some (r, e)) -> length r = (length acc + length proof)%nat).
    { clear. induction proof as [|c proof IH]; intros claim acc r e E; cbn [verify_loop] in E. { injection E as <- <-. simpl. lia. }
      destruct (MPoly.EvaluatePolynomial c 0%F); [|discriminate]. destruct (MPoly.EvaluatePolynomial c 1%F); [|discriminate].
      destruct (feqb _ _); [|discriminate]. destruct (MPoly.EvaluatePolynomial c _); [|discriminate]. apply IH in E. rewrite app_length in E. simpl in *. lia. }
    destruct (verify_loop GetChallenge claim proof []) as [[[r e]|]|] eqn:E.
    2,3: destruct (0 <=? bG); reflexivity.
    apply L in E. rewrite (cut64_spec maxLen) by (unfold len in *; simpl in E; lia || assumption).
    destruct (0 <=? bG); [|reflexivity].
    destruct (slice r 0 (Z.to_nat bG)); [|reflexivity]. destruct (slice r (Z.to_nat bG) _); [|reflexivity]. destruct (slice r _ (length r)); reflexivity.
  Qed.

  Lemma assert_64 Arks HPolys claim bG cs : len HPolys <= maxLen -> isInt bG ->
    SumcheckAssertValid64 (F:=F) Arks HPolys claim bG cs =
      if 0 <=? bG then SSumcheckAssertValid Arks HPolys claim (Z.to_nat bG) cs else None.
  Proof.
    intros HP HB. unfold SumcheckAssertValid64, SSumcheckAssertValid. unfold mbind at 1. unfold mbind at 6.
    set (body := fun '(hs, claimCurr) (poly : list nat) => _).
    assert (L : forall ps st cs hs' c' cs', mfold body ps st cs = Some ((hs', c'), cs') -> length hs' = (length (fst st) + length ps)%nat).
    { clear. induction ps as [|p ps IH]; intros [hs c] cs hs' c' cs' E; cbn [mfold] in E. { unfold ret in E. injection E as <- <- <-. simpl. lia. }
      unfold mbind at 1 in E. destruct (body (hs, c) p cs) as [[[h1 c1] cs1]|] eqn:E1; [|discriminate]. apply IH in E. rewrite E. clear - E1.
      unfold body, mbind, ret in E1. destruct (SZeroAndOne p cs) as [[]|]; [|discriminate]. destruct (cAssertIsEqual _ _ _) as [[]|]; [|discriminate].
      destruct (SMimcHash _ _ _) as [[]|]; [|discriminate]. destruct (SUniEval _ _ _) as [[]|]; [|discriminate]. injection E1 as <- <- <-. cbn [fst]. rewrite app_length. simpl. lia. }
    destruct (mfold body HPolys ([], claim) cs) as [[[hs c] cs']|] eqn:E. 2:{ destruct (0 <=? bG); reflexivity. }
    apply L in E. cbn [fst length Nat.add] in E. unfold mbind at 1. rewrite (cut64_spec maxLen) by (unfold len in *; lia || assumption).
    destruct (0 <=? bG); [|reflexivity]. unfold mbind, lift.
    destruct (slice hs 0 (Z.to_nat bG)); [|reflexivity]. destruct (slice hs (Z.to_nat bG) _); [|reflexivity]. destruct (slice hs _ (length hs)); reflexivity.
  Qed.

  Lemma initial_64 bN bG : GetInitialQPrimeAndQ64 (F:=F) maxLen bN bG =
    if (0 <=? bG) && (bG <=? maxLen) && (0 <=? bN) && (bN <=? maxLen) then Some (GetInitialQPrimeAndQ (Z.to_nat bN) (Z.to_nat bG)) else None.
  Proof.
    unfold GetInitialQPrimeAndQ64, make64. destruct (Z.leb_spec 0 bG), (Z.leb_spec bG maxLen); cbn [andb]; try reflexivity.
    destruct (Z.leb_spec 0 bN), (Z.leb_spec bN maxLen); cbn [andb]; try reflexivity. rewrite !repeat_length.
    assert (R : forall n k, (k <= n)%nat -> Z.of_nat n <= maxLen -> forN k (fun q i => zset q (Z.of_nat i) (fnat (Z.to_nat (add64 (Z.of_nat i) 1)))) (repeat (fzero (f:=F)) n)
      = Some (map (fun i => fnat (i + 1)) (seq 0 k) ++ repeat fzero (n - k))).
    { intros n. induction k as [|k IH]; intros Hk HN. { simpl. rewrite Nat.sub_0_r. reflexivity. }
      rewrite forN_S, IH by lia. rewrite zset_of_nat. rewrite set_some. 2:{ rewrite app_length, map_length, seq_length, repeat_length. lia. }
      f_equal. replace (n - k)%nat with (S (n - S k)) by lia. cbn [repeat].
      assert (U : forall (p : list F) y q v k, length p = k -> upd (p ++ y :: q) k v = p ++ v :: q).
      { intros p y q v k0 <-. induction p; simpl; [|rewrite IHp]; reflexivity. }
      rewrite U. 2:{ rewrite map_length, seq_length. reflexivity. }
      rewrite seq_S, map_app, <- app_assoc. cbn [map app Nat.add]. do 3 f_equal. unfold add64. rewrite wrap_id by lia. lia. }
    rewrite R by lia. rewrite R by lia. rewrite !Nat.sub_diag, !app_nil_r. reflexivity.
  Qed.
End L.
