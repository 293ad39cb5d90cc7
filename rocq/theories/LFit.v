(** The gadgets under snark/ on all sizes (lemmas for PFit.v). *)
From Coq Require Import List Arith Lia Bool Ring Field.
From Verif Require Import Field Go MCommon Spec LSpec LCommon MPoly LPoly LPoly2 LPoly3 SpecDomain LDomain MHash SpecHash LHash
  MCircuit SpecCircuit LCircuit LCircuit2 LCircuit3 MSumcheck LSumcheck SpecSumcheck LSumcheck4 MSumPar MGkr SpecGkr LGkr LGkr2 LGkr3 LHash3
  MSnark SpecSnark SpecFit LSnark LSnark2 LSnark3 LSnark4 LSnark5 LSnark6 LSnark7 LSnark8.
Import ListNotations.

(** ** Loops that fail, whatever the constraint system *)
Section Fail.
  Context {F : Field}.

  Lemma mbind_inv {A B} (m : @M F A) (k : A -> M B) cs r : mbind m k cs = Some r -> exists a cs1, m cs = Some (a, cs1) /\ k a cs1 = Some r.
  Proof. unfold mbind. destruct (m cs) as [[a cs1]|]; [eauto|discriminate]. Qed.
  Lemma lift_inv {A} (o : option A) (cs : CS F) a cs1 : lift o cs = Some (a, cs1) -> o = Some a /\ cs1 = cs.
  Proof. unfold lift. destruct o; [|discriminate]. intros E. injection E as -> ->. auto. Qed.

  Lemma mfold_fails {S A} (f : S -> A -> @M F S) a l : In a l -> (forall x cs, f x a cs = None) -> forall x cs, mfold f l x cs = None.
  Proof.
    intros Hin Hf. induction l as [|b l IH]; [destruct Hin|]. intros x cs. cbn [mfold]. unfold mbind.
    destruct (f x b cs) as [[x1 cs1]|] eqn:E; [|reflexivity].
    destruct Hin as [->|Hin]; [rewrite Hf in E; discriminate|]. apply IH. exact Hin.
  Qed.
  Lemma mmap_fails {A B} (f : A -> @M F B) a l : In a l -> (forall cs, f a cs = None) -> forall cs, mmap f l cs = None.
  Proof.
    intros Hin Hf. induction l as [|b l IH]; [destruct Hin|]. intros cs. cbn [mmap]. unfold mbind.
    destruct (f b cs) as [[x1 cs1]|] eqn:E; [|reflexivity].
    destruct Hin as [->|Hin]; [rewrite Hf in E; discriminate|]. rewrite (IH Hin). reflexivity.
  Qed.
  Lemma mmap_length {A B} (f : A -> @M F B) l : forall cs r cs', mmap f l cs = Some (r, cs') -> length r = length l.
  Proof.
    induction l as [|a l IH]; intros cs r cs' E; cbn [mmap] in E.
    - injection E as <- <-. reflexivity.
    - apply mbind_inv in E. destruct E as (b & c1 & _ & E). apply mbind_inv in E. destruct E as (bs & c2 & E2 & E).
      injection E as <- <-. cbn [length]. f_equal. exact (IH _ _ _ E2).
  Qed.

  Lemma SEval_fails (t xs : list nat) (cs : CS F) : (length t < 2 ^ length xs)%nat -> SEval t xs cs = None.
  Proof.
    intros H. unfold SEval, mbind. destruct (mfold SFold xs t cs) as [[f s]|] eqn:E; [|reflexivity].
    apply SFolds_length in E. rewrite Nat.div_small in E by exact H. destruct f; [reflexivity|discriminate].
  Qed.

  Lemma SEqEval_fails (q h : list nat) (cs : CS F) : (length h < length q)%nat -> SEqEval q h cs = None.
  Proof.
    intros H. unfold SEqEval, mbind at 1. cbn [cConstant newWire].
    apply (mfold_fails _ (length h)); [apply in_seq; lia|]. intros x c. unfold mbind, lift.
    destruct (get q (length h)); [|reflexivity]. rewrite get_none by lia. reflexivity.
  Qed.

  Lemma SEvalMixed_fails (t qL qR qP : list nat) (cs : CS F) :
    (length qL < length qR)%nat \/ (length t / 2 ^ length qL < 2 ^ length qP)%nat -> SEvalMixed t qL qR qP cs = None.
  Proof.
    intros H. unfold SEvalMixed. assert (HP : (2 ^ length qL <> 0)%nat) by (apply Nat.pow_nonzero; lia).
    rewrite (bind_lift _ _ _ _ (godiv_some (length t) (2 ^ length qL) ltac:(lia))). set (k := (length t / 2 ^ length qL)%nat) in *.
    destruct H as [H|H].
    - unfold mbind at 1. destruct (mmap _ _ cs) as [[r c1]|] eqn:E; [|reflexivity]. apply mmap_length in E. rewrite seq_length in E.
      unfold mbind at 1. destruct (SEval r qL c1) as [[vL c2]|]; [|reflexivity].
      apply bind_none. apply SEval_fails. rewrite E. apply Nat.pow_lt_mono_r; lia.
    - apply bind_none. apply (mmap_fails _ 0%nat); [apply in_seq; lia|]. intros c. unfold mbind, lift.
      destruct (slice t (0 * k) ((0 + 1) * k)) as [t0|] eqn:E; [|reflexivity]. apply SEval_fails.
      assert (Hk : (k <= length t)%nat) by (apply Nat.div_le_upper_bound; nia).
      cbn [Nat.mul] in E. rewrite slice_some in E by lia. injection E as <-. rewrite firstn_length. lia.
  Qed.
End Fail.

Section L.
  Context {F : Field}.
  Add Field FfieldFit : (f_theory F).
  Open Scope F_scope.

  (** ** EvalMixed *)
  Lemma foldsv_folded (t x : list F) : (2 ^ length x <= length t)%nat -> nth 0 (foldsv t x) 0 = folded t x.
  Proof.
    intros H. pose proof (Evaluate_exact t x) as E. rewrite Evaluate_first in E.
    destruct (Nat.leb_spec (2 ^ length x) (length t)); [|lia]. apply get_some_nth. exact E.
  Qed.

  (** The evaluations of the pieces of [k] entries. *)
  Definition pieces (n k : nat) (t qP : list F) : list F :=
    map (fun i => folded (firstn k (skipn (i * k) t)) qP) (seq 0 n).

  Lemma SEvalMixed_all (cs : CS F) t qL qR qP ft fL fR fP : cs_ok cs -> vals cs t ft -> vals cs qL fL -> vals cs qR fR -> vals cs qP fP ->
    (length qR <= length qL)%nat -> (2 ^ length qP <= length t / 2 ^ length qL)%nat ->
    exists vL vR cs', SEvalMixed t qL qR qP cs = Some ((vL, vR), cs') /\ computes cs cs' /\
      val1 cs' vL (fun w => folded (pieces (2 ^ length qL) (length t / 2 ^ length qL) (ft w) (fP w)) (fL w)) /\
      val1 cs' vR (fun w => folded (pieces (2 ^ length qL) (length t / 2 ^ length qL) (ft w) (fP w)) (fR w)).
  Proof.
    intros HO Vt VL VR VP HLR HT. pose proof (computes_refl _ HO) as HC. unfold SEvalMixed.
    assert (HP : (2 ^ length qL <> 0)%nat) by (apply Nat.pow_nonzero; lia).
    rewrite (bind_lift _ _ _ _ (godiv_some (length t) (2 ^ length qL) ltac:(lia))).
    set (k := (length t / 2 ^ length qL)%nat) in *. set (n := (2 ^ length qL)%nat) in *.
    assert (Hnk : (k * n <= length t)%nat) by (unfold k; rewrite Nat.mul_comm; apply Nat.mul_div_le; exact HP).
    destruct (mmap_ok (fun i => mbind (lift (slice t (i * k) ((i + 1) * k))) (fun t => SEval t qP))
      (seq 0 n) 0%nat (fun i w => folded (firstn k (skipn (i * k) (ft w))) (fP w)) cs HO) as (rs & s & E & C & HL & V).
    { intros i cs1 Hi C1. rewrite seq_length in Hi. rewrite seq_nth by exact Hi. cbn [Nat.add]. adv C1.
      assert (HB : ((i + 1) * k <= length t)%nat) by nia.
      rewrite (bind_lift _ _ _ (firstn k (skipn (i * k) t))).
      2:{ rewrite slice_some by lia. f_equal. f_equal. lia. }
      assert (LP : length (firstn k (skipn (i * k) t)) = k) by (rewrite firstn_length, skipn_length; lia).
      destruct (SEval_ok cs1 (firstn k (skipn (i * k) t)) qP (fun w => firstn k (skipn (i * k) (ft w))) fP HO) as (r & s2 & E2 & C2 & V2);
        [apply vals_sub; exact Vt|exact VP|rewrite LP; exact HT|].
      exists r, s2. split; [exact E2|]. split; [exact C2|]. apply (val1_iff _ _ _ _ V2). intros w Hw. apply foldsv_folded.
      adv C2. rewrite firstn_length, skipn_length, (vals_length _ _ _ _ Vt Hw), (vals_length _ _ _ _ VP Hw). lia. }
    rewrite (bind_eq _ _ _ _ _ E). adv C. rewrite seq_length in HL.
    step (SEval_ok _ _ _ _ _ HO V VL ltac:(rewrite HL; apply Nat.le_refl)) as vL V1.
    assert (HR : (2 ^ length qR <= length rs)%nat) by (rewrite HL; apply Nat.pow_le_mono_r; lia).
    step (SEval_ok _ _ _ _ _ HO V VR HR) as vR V2.
    exists vL, vR, s1. split; [reflexivity|]. split; [exact HC|].
    split; [apply (val1_iff _ _ _ _ V1)|apply (val1_iff _ _ _ _ V2)]; intros w Hw; rewrite seq_length; apply foldsv_folded;
      unfold pieces; rewrite map_length, seq_length.
    - rewrite (vals_length _ _ _ _ VL Hw). apply Nat.le_refl.
    - rewrite (vals_length _ _ _ _ VR Hw). lia.
  Qed.

  Lemma SEvalMixed_exact (cs : CS F) t qL qR qP : cs_ok cs -> vars cs t -> vars cs qL -> vars cs qR -> vars cs qP ->
    let n := (2 ^ length qL)%nat in let k := (length t / n)%nat in
    (((length qL < length qR)%nat \/ (k < 2 ^ length qP)%nat) /\ SEvalMixed t qL qR qP cs = None) \/
    ((length qR <= length qL)%nat /\ (2 ^ length qP <= k)%nat /\
     exists vL vR cs', SEvalMixed t qL qR qP cs = Some ((vL, vR), cs') /\ computes cs cs' /\ vars cs' [vL; vR] /\
       forall w, gates_ok w cs' ->
         let m := map (fun i => folded (map w (firstn k (skipn (i * k) t))) (map w qP)) (seq 0 n) in
         w vL = folded m (map w qL) /\ w vR = folded m (map w qR)).
  Proof.
    intros HO Wt WL WR WP n k.
    destruct (Nat.lt_ge_cases (length qL) (length qR)) as [H1|H1]; [left; split; [auto|apply SEvalMixed_fails; auto]|].
    destruct (Nat.lt_ge_cases k (2 ^ length qP)) as [H2|H2]; [left; split; [auto|apply SEvalMixed_fails; auto]|].
    right. split; [exact H1|]. split; [exact H2|].
    destruct (SEvalMixed_all cs t qL qR qP _ _ _ _ HO (vals_map _ _ Wt) (vals_map _ _ WL) (vals_map _ _ WR) (vals_map _ _ WP) H1 H2)
      as (vL & vR & cs' & E & HC & [B1 V1] & [B2 V2]).
    exists vL, vR, cs'. split; [exact E|]. split; [exact HC|]. split; [intros v [<-|[<-|[]]]; assumption|].
    intros w Hw m. rewrite (V1 w Hw), (V2 w Hw). fold n. fold k. unfold pieces.
    assert (Em : map (fun i => folded (firstn k (skipn (i * k) (map w t))) (map w qP)) (seq 0 n) = m).
    { apply map_ext. intros i. rewrite skipn_map, firstn_map. reflexivity. }
    rewrite Em. auto.
  Qed.

  (** A table of a power of two entries, as many right as left coordinates: the native function. *)
  Lemma pieces_native (t qL qR qP : list F) s : length qR = length qL -> length t = (2 ^ (length qL + length qP + s))%nat ->
    EvaluateLeftAndRight t qP qL qR =
    Some (folded (pieces (2 ^ length qL) (length t / 2 ^ length qL) t qP) qL, folded (pieces (2 ^ length qL) (length t / 2 ^ length qL) t qP) qR).
  Proof.
    intros HR HT. rewrite EvaluateLeftAndRight_exact, HR, Nat.max_id.
    assert (HP : (2 ^ length qL <> 0)%nat) by (apply Nat.pow_nonzero; lia).
    assert (H1 : (2 ^ (length qL + length qP) <= length t)%nat) by (rewrite HT; apply Nat.pow_le_mono_r; lia).
    destruct (Nat.leb_spec (2 ^ (length qL + length qP)) (length t)); [|lia].
    assert (HD : (length t / 2 ^ length qL)%nat = (2 ^ (length qP + s))%nat).
    { rewrite HT, <- Nat.add_assoc, Nat.pow_add_r, Nat.mul_comm. apply Nat.div_mul. exact HP. }
    rewrite HD.
    assert (HE : forall q, length q = length qL -> folded t (q ++ qP) = folded (pieces (2 ^ length qL) (2 ^ (length qP + s)) t qP) q).
    { intros q Hq. rewrite (folded_mle t (q ++ qP) s) by (rewrite app_length, Hq; exact HT).
      rewrite (folded_mle (pieces _ _ _ _) q 0) by (unfold pieces; rewrite map_length, seq_length, Hq, Nat.add_0_r; reflexivity).
      cbn [repeat]. rewrite app_nil_r, <- app_assoc, <- mle_pieces. rewrite app_length, repeat_length, Hq. f_equal. apply map_ext_in.
      intros i Hi. apply in_seq in Hi. symmetry. apply folded_mle. rewrite firstn_length, skipn_length, HT.
      replace (length qL + length qP + s)%nat with (length qL + (length qP + s))%nat by lia. rewrite (Nat.pow_add_r 2 (length qL)). nia. }
    rewrite (HE qL eq_refl), (HE qR HR). reflexivity.
  Qed.

  (** ** AssignFromChunkedBKT *)
  Lemma cell_eq n u v u' v' : (v < n)%nat -> (v' < n)%nat -> (v + u * n = v' + u' * n)%nat -> u = u' /\ v = v'.
  Proof.
    intros H1 H2 E. assert (u = u') by (apply (f_equal (fun x => x / n)%nat) in E; rewrite !Nat.div_add, !Nat.div_small in E by lia; lia).
    subst. split; [reflexivity|lia].
  Qed.

  Lemma SAssignFromChunked_some T values r : SAssignFromChunkedBKT (F:=F) (repeat None T) values = Some r -> fits_table T values.
  Proof.
    intros E. unfold SAssignFromChunkedBKT in E.
    apply (foldM_done _ (fun b t => length t = T) (fun b => forall i, (i < length (nth b values []))%nat -> (b + i * length values < T)%nat)) in E.
    - destruct E as [_ E]. intros b i Hb. apply E. exact Hb.
    - apply repeat_length.
    - intros b t t' Hb HL Eb. rewrite (get_nth values b []) in Eb by exact Hb.
      apply (foldM_done _ (fun i t => length t = T) (fun i => (b + i * length values < T)%nat)) in Eb; [|exact HL|].
      + exact Eb.
      + intros i t1 t2 Hi HL1 Ei. rewrite (get_nth _ i 0) in Ei by exact Hi.
        destruct (get t1 (b + i * length values)) as [v|] eqn:G; [|discriminate]. apply get_some_lt in G.
        destruct (assignVar v _) as [v'|]; [|discriminate]. rewrite set_some in Ei by exact G. injection Ei as <-.
        rewrite upd_length. split; [exact HL1|lia].
  Qed.

  Lemma SAssignFromChunked_all T values : fits_table T values ->
    SAssignFromChunkedBKT (F:=F) (repeat None T) values =
    Some (map (fun j => nth_error (nth (j mod length values) values []) (j / length values)) (seq 0 T)).
  Proof.
    intros HF. unfold SAssignFromChunkedBKT. set (n := length values).
    destruct (forN_inv (fun b t => length t = T /\ forall u v, (v < n)%nat -> (v + u * n < T)%nat ->
        nth (v + u * n) t None = if (v <? b)%nat then nth_error (nth v values []) u else None)
      (fun table b => vb <- get values b ;; forN (length vb) (fun table i => x <- get vb i ;; v <- get table (b + i * n) ;;
        v <- assignVar v x ;; set table (b + i * n) v) table) n (repeat None T)) as (t & E & HL & HT).
    - split; [apply repeat_length|]. intros u v Hv Hu. apply nth_repeat_lt. exact Hu.
    - intros b t Hb [HL HT]. rewrite (get_nth values b []) by exact Hb. set (vb := nth b values []).
      destruct (forN_inv (fun i t => length t = T /\ forall u v, (v < n)%nat -> (v + u * n < T)%nat ->
          nth (v + u * n) t None = if (v <? b)%nat || ((v =? b)%nat && (u <? i)%nat) then nth_error (nth v values []) u else None)
        (fun table i => x <- get vb i ;; v <- get table (b + i * n) ;; v <- assignVar v x ;; set table (b + i * n) v) (length vb) t) as (t' & E & HL' & HT').
      + split; [exact HL|]. intros u v Hv Hu. rewrite (HT u v Hv Hu). destruct (Nat.ltb_spec u 0); [lia|]. rewrite andb_false_r, orb_false_r. reflexivity.
      + intros i t1 Hi [HL1 HT1]. rewrite (get_nth vb i 0) by lia. pose proof (HF b i Hb Hi) as HI. fold n in HI.
        rewrite (get_nth t1 (b + i * n) None) by lia. rewrite (HT1 i b Hb HI), Nat.ltb_irrefl, Nat.ltb_irrefl, andb_false_r. cbn [orb assignVar].
        rewrite set_some by lia. eexists. split; [reflexivity|]. split; [rewrite upd_length; exact HL1|].
        intros u v Hv Hu. destruct (Nat.eq_dec (v + u * n) (b + i * n)) as [Ec|Nc].
        * rewrite Ec, nth_upd_same by lia. destruct (cell_eq _ _ _ _ _ Hv Hb Ec) as [-> ->]. rewrite Nat.eqb_refl.
          destruct (Nat.ltb_spec i (S i)); [|lia]. rewrite orb_true_r. symmetry. apply nth_error_nth'. exact Hi.
        * rewrite nth_upd_other by lia. rewrite (HT1 u v Hv Hu). destruct (Nat.eqb_spec v b) as [->|]; [|reflexivity].
          destruct (Nat.ltb_spec u i), (Nat.ltb_spec u (S i)); try reflexivity; try lia. assert (u = i) by lia. subst. lia.
      + rewrite E. eexists. split; [reflexivity|]. split; [exact HL'|]. intros u v Hv Hu. rewrite (HT' u v Hv Hu).
        destruct (Nat.ltb_spec v b), (Nat.eqb_spec v b), (Nat.ltb_spec v (S b)); try reflexivity; try lia.
        subst v. cbn [orb andb]. destruct (Nat.ltb_spec u (length vb)); [reflexivity|]. symmetry. apply nth_error_None. assumption.
    - rewrite E. f_equal. apply (list_ext None); [rewrite map_length, seq_length; exact HL|].
      intros j Hj. rewrite HL in Hj. rewrite nth_map_seq by exact Hj.
      destruct (Nat.eq_dec n 0) as [Hn|Hn].
      + rewrite Hn in E. cbn in E. injection E as <-. rewrite nth_repeat_lt by exact Hj.
        destruct values; [|discriminate]. destruct (j mod n)%nat; destruct (j / n)%nat; reflexivity.
      + pose proof (Nat.div_mod j n Hn) as Ei. pose proof (Nat.mod_upper_bound j n Hn) as Hm.
        assert (Ej : j = (j mod n + (j / n) * n)%nat) by lia.
        rewrite Ej at 1. rewrite (HT (j / n)%nat (j mod n)%nat Hm) by lia. destruct (Nat.ltb_spec (j mod n) n); [reflexivity|lia].
  Qed.

  Lemma SAssignFromChunked_exact T values :
    (fits_table T values /\ SAssignFromChunkedBKT (F:=F) (repeat None T) values =
       Some (map (fun j => nth_error (nth (j mod length values) values []) (j / length values)) (seq 0 T))) \/
    (~ fits_table T values /\ SAssignFromChunkedBKT (F:=F) (repeat None T) values = None).
  Proof.
    destruct (SAssignFromChunkedBKT (repeat None T) values) as [r|] eqn:E.
    - left. apply SAssignFromChunked_some in E as HF. split; [exact HF|]. rewrite <- E. apply SAssignFromChunked_all. exact HF.
    - right. split; [|reflexivity]. intros HF. rewrite SAssignFromChunked_all in E by exact HF. discriminate.
  Qed.

  (** Chunks for a table of [s] entries per chunk: every entry has a value exactly when every chunk has [s]. *)
  Lemma assigned_complete s values r : SAssignFromChunkedBKT (F:=F) (repeat None (s * length values)) values = Some r ->
    (forall v, In v r -> v <> None) <-> (forall c, In c values -> length c = s).
  Proof.
    intros E. pose proof (SAssignFromChunked_some _ _ _ E) as HF. rewrite SAssignFromChunked_all in E by exact HF. injection E as <-.
    set (n := length values) in *. split.
    - intros H c Hc. apply (In_nth _ _ []) in Hc. destruct Hc as (b & Hb & <-). fold n in Hb.
      assert (H1 : (length (nth b values []) <= s)%nat).
      { destruct (Nat.le_gt_cases (length (nth b values [])) s); [assumption|exfalso].
        specialize (HF b s Hb ltac:(lia)). fold n in HF. lia. }
      destruct (Nat.eq_dec (length (nth b values [])) s) as [|Hne]; [assumption|exfalso].
      set (u := length (nth b values [])) in *.
      assert (Hj : (b + u * n < s * n)%nat) by nia.
      apply (H (nth_error (nth b values []) u)); [|apply nth_error_None; apply Nat.le_refl].
      apply in_map_iff. exists (b + u * n)%nat. split; [|apply in_seq; lia].
      rewrite Nat.mod_add, Nat.mod_small, Nat.div_add, Nat.div_small by lia. reflexivity.
    - intros H v Hv. apply in_map_iff in Hv. destruct Hv as (j & <- & Hj). apply in_seq in Hj.
      assert (Hn : n <> 0%nat) by nia.
      apply nth_error_Some. rewrite (H (nth (j mod n) values [])) by (apply nth_In, Nat.mod_upper_bound; exact Hn).
      apply Nat.div_lt_upper_bound; lia.
  Qed.

  (** ** Proof.Assign *)
  Definition fits_alloc (bN : nat) (sc : list (SLayer F)) (pf : Proof F) : Prop :=
    map (map (@length F)) (firstn (length sc) (SumcheckProofs pf)) = map (map (@length _)) (sSumchecks (SAllocateProof (F:=F) bN sc)) /\
    (length sc <= length (ClaimsLeft pf))%nat /\ (length sc <= length (ClaimsRight pf))%nat.

  Lemma get_firstn {A} (l : list A) n i : (i < n)%nat -> get (firstn n l) i = get l i.
  Proof.
    unfold get. revert l i. induction n as [|n IH]; intros l i H; [lia|].
    destruct l as [|a l], i as [|i]; cbn [firstn nth_error]; try reflexivity. apply IH. lia.
  Qed.

  Lemma SAssign_cut bN sc (pf : Proof F) : SAssign (SAllocateProof bN sc) (cut (length sc) pf) = SAssign (SAllocateProof bN sc) pf.
  Proof.
    unfold SAssign, forN. apply foldM_ext. intros q k Hk. apply in_seq in Hk.
    assert (P1 : length (sSumchecks (SAllocateProof (F:=F) bN sc)) = length sc) by (unfold SAllocateProof; cbn [sSumchecks]; apply map_length).
    rewrite P1 in Hk. unfold cut. cbn [SumcheckProofs ClaimsLeft ClaimsRight]. rewrite !get_firstn by lia. reflexivity.
  Qed.

  Lemma SAssign_exact bN sc (pf : Proof F) :
    (fits_alloc bN sc pf /\ SAssign (SAllocateProof bN sc) pf = Some (filled (cut (length sc) pf))) \/
    (~ fits_alloc bN sc pf /\ SAssign (SAllocateProof bN sc) pf = None).
  Proof.
    destruct (SAssign (SAllocateProof bN sc) pf) as [r|] eqn:E.
    - left. apply SAssign_inv in E as H. destruct H as (H1 & H2 & H3 & H4). split; [split; [exact H1|auto]|].
      rewrite <- SAssign_cut in E. rewrite <- E. apply SAssign_ok; cbn [cut SumcheckProofs ClaimsLeft ClaimsRight]; [exact H1| |];
        rewrite firstn_length; lia.
    - right. split; [|reflexivity]. intros (H1 & H2 & H3). rewrite <- SAssign_cut, SAssign_ok in E; [discriminate| | |];
        cbn [cut SumcheckProofs ClaimsLeft ClaimsRight]; [exact H1| |]; rewrite firstn_length; lia.
  Qed.

  (** A proof is assigned once. *)
  Lemma SAssign_once bN sc (pf pf' : Proof F) r : sc <> [] -> SAssign (SAllocateProof bN sc) pf = Some r -> SAssign r pf' = None.
  Proof.
    intros Hsc E. destruct (SAssign_exact bN sc pf) as [[H E']|[_ E']]; rewrite E in E'; [|discriminate]. injection E' as ->.
    destruct H as (H1 & H2 & H3). destruct sc as [|l sc]; [congruence|].
    assert (HS : exists sp sps, SumcheckProofs pf = sp :: sps).
    { apply (f_equal (@length _)) in H1. unfold SAllocateProof in H1. cbn [sSumchecks] in H1. rewrite !map_length, firstn_length in H1.
      destruct (SumcheckProofs pf); [cbn in H1; lia|eauto]. }
    destruct HS as (sp & sps & HS). destruct (ClaimsLeft pf) as [|x xs] eqn:EL; [cbn in H2; lia|].
    unfold SAssign, filled, cut, forN. rewrite HS, EL. cbn [SumcheckProofs ClaimsLeft ClaimsRight length firstn map sSumchecks seq foldM sLeft get nth_error].
    destruct (SumcheckProofs pf') as [|nsp nsps]; [reflexivity|].
    destruct (SSumcheckAssign (map (map Some) sp) nsp) as [z|]; [|reflexivity].
    rewrite set_some by (cbn [length]; lia). destruct (ClaimsLeft pf'); reflexivity.
  Qed.
End L.

(** ** When the verifier of the MiMC circuit can be built *)
Section Build.
  Context {F : Field}.
  Open Scope F_scope.
  Variable arks : list F.
  Hypothesis Ha : (91 <= length arks)%nat.

  Lemma sumcheck_hs polys : forall (cs : CS F) hs claim hs' claim' cs', mfold (fun '(hs, claimCurr) poly =>
      mbind (SZeroAndOne poly) (fun z => mbind (cAssertIsEqual z claimCurr) (fun _ => mbind (SMimcHash arks poly) (fun h =>
      mbind (SUniEval poly h) (fun claimCurr => ret (hs ++ [h], claimCurr)))))) polys (hs, claim) cs = Some ((hs', claim'), cs') ->
    length hs' = (length hs + length polys)%nat.
  Proof.
    induction polys as [|c polys IH]; intros cs hs claim hs' claim' cs' E; cbn [mfold] in E.
    - injection E as <- _ _. cbn [length]. lia.
    - apply mbind_inv in E. destruct E as ([hs1 c1] & s1 & E1 & E2).
      apply mbind_inv in E1. destruct E1 as (z & s2 & _ & E1). apply mbind_inv in E1. destruct E1 as (u & s3 & _ & E1).
      apply mbind_inv in E1. destruct E1 as (h & s4 & _ & E1). apply mbind_inv in E1. destruct E1 as (d & s5 & _ & E1).
      injection E1 as <- <- <-. apply IH in E2. rewrite E2, app_length. cbn [length]. lia.
  Qed.

  Lemma SSumcheck_fails polys claim bG (cs : CS F) : In [] polys \/ (length polys < 2 * bG)%nat -> SSumcheckAssertValid arks polys claim bG cs = None.
  Proof.
    intros H. unfold SSumcheckAssertValid. destruct H as [H|H].
    - apply bind_none. apply (mfold_fails _ [] polys H). intros [hs c] s. reflexivity.
    - unfold mbind at 1. destruct (mfold _ polys ([], claim) cs) as [[[hs c] s]|] eqn:E; [|reflexivity].
      apply sumcheck_hs in E. cbn [length Nat.add] in E. unfold mbind at 1.
      destruct (lift (slice hs 0 bG) s) as [[hL s1]|] eqn:E1; [|reflexivity]. apply bind_lift_none.
      unfold slice. destruct (_ && _) eqn:B; [|reflexivity]. apply andb_true_iff in B. destruct B as [_ B]. apply Nat.leb_le in B. lia.
  Qed.

  Lemma SCombine_fails (l : SLayer F) q qP hL hR hP vL vR cs : (length hP < length qP)%nat -> SCombine l q qP hL hR hP vL vR cs = None.
  Proof.
    intros H. unfold SCombine. cbv zeta. unfold mbind at 1. cbn [cConstant newWire]. unfold mbind at 1.
    destruct (mfold _ _ _ _) as [[r s]|]; [|reflexivity]. apply bind_none. apply SEqEval_fails. exact H.
  Qed.
  Lemma SCombineLC_fails (l : SLayer F) qL qR qP hL hR hP a b vL vR cs : (length hP < length qP)%nat ->
    SCombineWithLinearComb l qL qR qP hL hR hP a b vL vR cs = None.
  Proof.
    intros H. unfold SCombineWithLinearComb. cbv zeta. unfold mbind at 1. cbn [cConstant newWire]. unfold mbind at 1.
    destruct (mfold _ _ _ _) as [[r s]|]; [|reflexivity]. apply bind_none. apply SEqEval_fails. exact H.
  Qed.

  (** The final table ignores the point. *)
  Lemma SCombine_last a q qP hL hR hP vL vR : SCombine (F:=F) (slast a) q qP hL hR hP vL vR = SCombine (slast a) [] qP hL hR hP vL vR.
  Proof. reflexivity. Qed.

  Section Proof.
    Variable p : SProof nat.
    Notation sp j := (nth j (sSumchecks p) []).
    Notation sc := (smimc (firstn 90 arks) (nth 90 arks 0)).

    (** What layer [j] needs, when [m] coordinates come from above. *)
    Definition layer_fits (j m : nat) : Prop :=
      (j < length (sSumchecks p))%nat /\ (j < length (sLeft p))%nat /\ (j < length (sRight p))%nat /\
      ~ In [] (sp j) /\ (m + 2 <= length (sp j))%nat.

    Lemma sc_nth j : (j < 90)%nat -> nth_error sc j = Some (smid (nth j arks 0)).
    Proof.
      intros Hj. unfold smimc. rewrite nth_error_app1 by (rewrite map_length, firstn_length; lia).
      erewrite map_nth_error; [reflexivity|]. rewrite (nth_error_nth' _ 0) by (rewrite firstn_length; lia). f_equal. apply nth_firstn. exact Hj.
    Qed.
    Lemma sc_last : nth_error sc 90 = Some (slast (nth 90 arks 0)).
    Proof.
      unfold smimc. assert (H : length (map smid (firstn 90 arks)) = 90%nat) by (rewrite map_length, firstn_length; lia).
      rewrite nth_error_app2 by lia. rewrite H. reflexivity.
    Qed.

    Lemma SAssertLayer_fails j hL hR hP (cs : CS F) : (j < 90)%nat -> ~ layer_fits j (length hP) ->
      SAssertLayer arks sc p (hL, hR, hP) j cs = None.
    Proof.
      intros Hj HN. destruct (SAssertLayer arks sc p (hL, hR, hP) j cs) as [r|] eqn:E; [exfalso; apply HN|reflexivity].
      unfold SAssertLayer in E.
      apply mbind_inv in E. destruct E as (lamL & s1 & _ & E). apply mbind_inv in E. destruct E as (cl & s2 & E1 & E).
      apply mbind_inv in E. destruct E as (cr & s3 & E2 & E). apply mbind_inv in E. destruct E as (lamR & s4 & _ & E).
      apply mbind_inv in E. destruct E as (t & s5 & _ & E). apply mbind_inv in E. destruct E as (claim & s6 & _ & E).
      apply mbind_inv in E. destruct E as (pj & s7 & E3 & E). apply mbind_inv in E. destruct E as (l & s8 & E4 & E).
      apply mbind_inv in E. destruct E as ([[[hL' hR'] hP'] last] & s9 & E5 & E).
      apply mbind_inv in E. destruct E as (vl & s10 & E6 & E). apply mbind_inv in E. destruct E as (vr & s11 & E7 & E).
      apply mbind_inv in E. destruct E as (act & s12 & E8 & _).
      apply lift_inv in E3, E4, E6, E7. destruct E3 as [E3 _], E4 as [E4 _], E6 as [E6 _], E7 as [E7 _].
      unfold get in E4. rewrite sc_nth in E4 by exact Hj. injection E4 as <-.
      assert (Esp : sp j = pj) by (apply get_some_nth; exact E3).
      split; [exact (get_some_lt _ _ _ E3)|]. split; [exact (get_some_lt _ _ _ E6)|]. split; [exact (get_some_lt _ _ _ E7)|].
      rewrite Esp. cbn [sBG smid] in E5.
      destruct (In_dec (list_eq_dec Nat.eq_dec) [] pj) as [Hin|Hin]; [rewrite SSumcheck_fails in E5 by auto; discriminate|].
      split; [exact Hin|].
      destruct (Nat.lt_ge_cases (length pj) (2 * 1)) as [Hs|Hs]; [rewrite SSumcheck_fails in E5 by auto; discriminate|].
      assert (HP' : length hP' = (length pj - 2)%nat).
      { unfold SSumcheckAssertValid in E5. apply mbind_inv in E5. destruct E5 as ([hs c] & z1 & F1 & E5). apply sumcheck_hs in F1. cbn [length Nat.add] in F1.
        apply mbind_inv in E5. destruct E5 as (a1 & z2 & _ & E5). apply mbind_inv in E5. destruct E5 as (a2 & z3 & _ & E5).
        apply mbind_inv in E5. destruct E5 as (a3 & z4 & F2 & E5). injection E5 as _ _ <- _ _. apply lift_inv in F2. destruct F2 as [F2 _].
        assert (E2' : (2 * 1 = 2)%nat) by reflexivity. remember (2 * 1)%nat as k. rewrite slice_some in F2 by lia. injection F2 as <-. rewrite firstn_length, skipn_length. lia. }
      destruct (Nat.lt_ge_cases (length hP') (length hP)) as [Hp|Hp]; [rewrite SCombineLC_fails in E8 by exact Hp; discriminate|]. lia.
    Qed.

    Definition proof_ok (cs : CS F) : Prop := vars cs (sLeft p) /\ vars cs (sRight p) /\ forall s, In s (sSumchecks p) -> Forall (vars cs) s.

    Lemma proof_ok_grows (cs cs' : CS F) : grows cs cs' -> proof_ok cs -> proof_ok cs'.
    Proof.
      intros HG (H1 & H2 & H3). split; [|split]; try (intros v Hv; destruct HG as (HG & _); first [specialize (H1 v Hv)|specialize (H2 v Hv)]; lia).
      intros s Hs. eapply Forall_impl; [|exact (H3 s Hs)]. intros l Hl v Hv. destruct HG as (HG & _). specialize (Hl v Hv). lia.
    Qed.

    Lemma SAssertLayer_builds j hL hR hP fL fR fP (cs : CS F) : (j < 90)%nat -> layer_fits j (length hP) ->
      (S j < length (sLeft p))%nat -> (S j < length (sRight p))%nat -> cs_ok cs -> proof_ok cs ->
      vals cs hL fL -> vals cs hR fR -> vals cs hP fP -> length hL = 1%nat -> length hR = 1%nat ->
      exists hL' hR' hP' gL gR gP cs' P, SAssertLayer arks sc p (hL, hR, hP) j cs = Some ((hL', hR', hP'), cs') /\ imposes cs cs' P /\
        vals cs' hL' gL /\ vals cs' hR' gR /\ vals cs' hP' gP /\ length hL' = 1%nat /\ length hR' = 1%nat /\ length hP' = (length (sp j) - 2)%nat.
    Proof.
      intros Hj (Q1 & Q2 & Q3 & Nsp & Lsp) HL1 HR1 HO HV VL VR VP LL LR.
      pose proof (sc_nth j Hj) as Esl. set (sl := smid (nth j arks 0)) in *. set (l' := mimc_mid (nth j arks 0)).
      pose proof (smid_describes (nth j arks 0)) as Hd. fold sl l' in Hd. assert (B1 : lBGOutputs l' = 1%nat) by reflexivity. assert (B2 : lBGInputs l' = 1%nat) by reflexivity.
      pose proof HV as (W1 & W2 & W3).
      pose proof (vals_nth _ _ _ (S j) (vals_map _ _ W1) ltac:(lia)) as Vcl.
      pose proof (vals_nth _ _ _ (S j) (vals_map _ _ W2) ltac:(lia)) as Vcr.
      pose proof (vals_nth _ _ _ j (vals_map _ _ W1) ltac:(lia)) as Vvl.
      pose proof (vals_nth _ _ _ j (vals_map _ _ W2) ltac:(lia)) as Vvr.
      assert (Esp : nth_error (sSumchecks p) j = Some (sp j)) by (apply nth_error_nth'; exact Q1).
      pose proof (computes_refl _ HO) as HC.
      destruct (cConstant_ok cs 1 HO) as (lamL & s1 & X1 & C1 & VlamL). adv C1.
      destruct (SMimcHash_ok arks Ha _ _ _ HO (vals_cons _ _ _ _ _ Vcl (vals_cons _ _ _ _ _ Vcr (vals_nil _)))) as (lamR & s2 & X2 & C2 & VlamR). adv C2.
      destruct (cMul_ok _ _ _ _ _ HO VlamR Vcr) as (t & s3 & X3 & C3 & Vt). adv C3.
      destruct (cAdd2_ok _ _ _ _ _ HO Vcl Vt) as (claim & s4 & X4 & C4 & Vclaim). adv C4.
      destruct (SSumcheck_ok arks Ha s4 (sp j) claim 1 _ HO Vclaim) as (hL' & hR' & hP' & last & s5 & X5 & I5 & (L1 & L2 & L3) & VL' & VR' & VP' & Vlast).
      { destruct (proof_ok_grows cs s4 (computes_grows _ _ HC) HV) as (_ & _ & W3'). apply W3'. exact (nth_error_In _ _ Esp). }
      { exact Nsp. } { lia. }
      advI I5.
      destruct (SCombineLC_ok sl l' Hd s5 hL hR hP hL' hR' hP' lamL lamR (nth j (sLeft p) 0%nat) (nth j (sRight p) 0%nat) _ _ _ _ _ _ _ _ _ _ HO
        VL VR VP VL' VR' VP' VlamL VlamR Vvl Vvr) as (act & s6 & X6 & C6 & Vact); try lia. adv C6.
      destruct (cAssert_ok _ _ _ _ _ HO Vlast Vact) as (s7 & X7 & I7). advI I7.
      eexists hL', hR', hP', _, _, _, s7, _. split.
      { unfold SAssertLayer. rewrite (bind_eq _ _ _ _ _ X1). rewrite Nat.add_1_r.
        rewrite (bind_lift _ _ _ _ (nth_error_nth' (sLeft p) 0%nat HL1)), (bind_lift _ _ _ _ (nth_error_nth' (sRight p) 0%nat HR1)).
        rewrite (bind_eq _ _ _ _ _ X2), (bind_eq _ _ _ _ _ X3), (bind_eq _ _ _ _ _ X4).
        rewrite (bind_lift _ _ _ _ Esp), (bind_lift _ _ _ _ Esl), (bind_eq _ _ _ _ _ X5).
        rewrite (bind_lift _ _ _ _ (nth_error_nth' (sLeft p) 0%nat Q2)), (bind_lift _ _ _ _ (nth_error_nth' (sRight p) 0%nat Q3)).
        rewrite (bind_eq _ _ _ _ _ X6), (bind_eq _ _ _ _ _ X7). reflexivity. }
      split; [exact HC|]. split; [exact VL'|]. split; [exact VR'|]. split; [exact VP'|]. split; [exact L1|]. split; [exact L2|]. lia.
    Qed.

    (** The layers below [todo]. *)
    Definition below_fits (todo m : nat) : Prop :=
      forall j, (j < todo)%nat -> layer_fits j (if (S j =? todo)%nat then m else length (sp (S j)) - 2).

    Lemma below_S todo m : below_fits (S todo) m <-> layer_fits todo m /\ below_fits todo (length (sp todo) - 2).
    Proof.
      unfold below_fits. split.
      - intros H. split; [specialize (H todo ltac:(lia)); rewrite Nat.eqb_refl in H; exact H|].
        intros j Hj. specialize (H j ltac:(lia)). destruct (Nat.eqb_spec (S j) (S todo)); [lia|].
        destruct (Nat.eqb_spec (S j) todo) as [<-|]; exact H.
      - intros [H1 H2] j Hj. destruct (Nat.eqb_spec (S j) (S todo)) as [E|E]; [injection E as ->; exact H1|].
        specialize (H2 j ltac:(lia)). destruct (Nat.eqb_spec (S j) todo) as [<-|]; exact H2.
    Qed.

    Lemma layers_build todo : (todo <= 90)%nat -> (todo < length (sLeft p))%nat -> (todo < length (sRight p))%nat ->
      forall (cs : CS F) hL hR hP fL fR fP, cs_ok cs -> proof_ok cs ->
      vals cs hL fL -> vals cs hR fR -> vals cs hP fP -> length hL = 1%nat -> length hR = 1%nat ->
      (~ below_fits todo (length hP) /\ mfold (SAssertLayer arks sc p) (rev (seq 0 todo)) (hL, hR, hP) cs = None) \/
      (below_fits todo (length hP) /\ exists hL' hR' hP' gL gR gP cs' P, mfold (SAssertLayer arks sc p) (rev (seq 0 todo)) (hL, hR, hP) cs = Some ((hL', hR', hP'), cs') /\
        imposes cs cs' P /\ vals cs' hL' gL /\ vals cs' hR' gR /\ vals cs' hP' gP /\ length hL' = 1%nat /\ length hR' = 1%nat /\
        length hP' = if (todo =? 0)%nat then length hP else (length (sp 0) - 2)%nat).
    Proof.
      induction todo as [|j IH]; intros H90 HLl HRl cs hL hR hP fL fR fP HO HV VL VR VP LL LR.
      - right. split; [intros j Hj; lia|]. eexists hL, hR, hP, _, _, _, cs, _. split; [reflexivity|].
        split; [exact (computes_imposes _ _ (computes_refl _ HO))|]. split; [exact VL|]. split; [exact VR|]. split; [exact VP|]. auto.
      - rewrite seq_S, rev_app_distr. cbn [rev app Nat.add mfold].
        assert (Hdec : layer_fits j (length hP) \/ ~ layer_fits j (length hP)).
        { unfold layer_fits. destruct (In_dec (list_eq_dec Nat.eq_dec) [] (sp j)); [tauto|].
          destruct (Nat.lt_ge_cases j (length (sSumchecks p))); [|lia]. destruct (Nat.lt_ge_cases j (length (sLeft p))); [|lia].
          destruct (Nat.lt_ge_cases j (length (sRight p))); [|lia]. destruct (Nat.le_gt_cases (length hP + 2) (length (sp j))); [tauto|lia]. }
        destruct Hdec as [HF|HF].
        + destruct (SAssertLayer_builds j hL hR hP fL fR fP cs ltac:(lia) HF HLl HRl HO HV VL VR VP LL LR)
            as (hL' & hR' & hP' & gL & gR & gP & s1 & P & E & I1 & VL' & VR' & VP' & L1 & L2 & L3).
          rewrite (bind_eq _ _ _ _ _ E).
          assert (HO1 : cs_ok s1) by apply I1.
          destruct (IH ltac:(lia) ltac:(lia) ltac:(lia) s1 hL' hR' hP' gL gR gP HO1 (proof_ok_grows _ _ (imposes_grows _ _ _ I1) HV) VL' VR' VP' L1 L2)
            as [[N E2]|(Y & zL & zR & zP & kL & kR & kP & s2 & P2 & E2 & I2 & VzL & VzR & VzP & M1 & M2 & M3)]; rewrite L3 in *.
          * left. split; [rewrite below_S; tauto|exact E2].
          * right. split; [rewrite below_S; tauto|]. eexists zL, zR, zP, _, _, _, s2, _. split; [exact E2|].
            split; [exact (imposes_trans _ _ _ _ _ I1 I2)|]. split; [exact VzL|]. split; [exact VzR|]. split; [exact VzP|].
            split; [exact M1|]. split; [exact M2|]. rewrite M3. cbn [Nat.eqb]. destruct (Nat.eqb_spec j 0) as [E0|]; [rewrite E0|]; reflexivity.
        + left. split; [rewrite below_S; tauto|]. apply bind_none. apply SAssertLayer_fails; [lia|exact HF].
    Qed.

    Lemma buildable_iff nI nP nIn nOut : buildable p nI nP nIn nOut <->
      (2 ^ (nI + nP) <= nOut)%nat /\ layer_fits 90 nP /\ below_fits 90 (length (sp 90) - 2) /\ (2 ^ (length (sp 0) - 2) <= nIn / 2)%nat.
    Proof.
      assert (HD : (2 <= length (sp 0))%nat -> (2 ^ (length (sp 0) - 1) <= nIn <-> 2 ^ (length (sp 0) - 2) <= nIn / 2)%nat).
      { intros H2. replace (length (sp 0) - 1)%nat with (S (length (sp 0) - 2)) by lia. rewrite Nat.pow_succ_r'.
        pose proof (Nat.div_mod nIn 2 ltac:(lia)). pose proof (Nat.mod_upper_bound nIn 2 ltac:(lia)). lia. }
      split.
      - intros (H1 & H2 & H3 & H4 & H5 & H6 & H7 & H8). cbv zeta beta in *.
        assert (Hge : forall i, (i <= 90)%nat -> (2 <= length (sp (90 - i)))%nat).
        { intros i. induction i as [|i IH]; intros Hi; [rewrite Nat.sub_0_r; lia|].
          specialize (IH ltac:(lia)). specialize (H6 (90 - S i)%nat ltac:(lia)). replace (S (90 - S i)) with (90 - i)%nat in H6 by lia. lia. }
        split; [exact H7|]. split; [repeat split; try lia; apply H4; lia|]. split.
        + intros j Hj. assert (Hg : (2 <= length (sp (S j)))%nat) by (specialize (Hge (90 - S j)%nat ltac:(lia)); replace (90 - (90 - S j))%nat with (S j) in Hge by lia; exact Hge).
          specialize (H6 j Hj). repeat split; try lia; [apply H4; lia|].
          destruct (Nat.eqb_spec (S j) 90) as [E|E]; [rewrite <- E|]; lia.
        + apply HD; [|exact H8]. apply (Hge 90%nat). lia.
      - intros (H1 & (A1 & A2 & A3 & A4 & A5) & H3 & H4).
        assert (H0 : layer_fits 0 (length (sp 1) - 2)) by exact (H3 0%nat ltac:(lia)). destruct H0 as (_ & _ & _ & _ & B5).
        unfold buildable. cbv zeta. split; [lia|]. split; [lia|]. split; [lia|]. split.
        { intros j Hj. destruct (Nat.eq_dec j 90) as [->|]; [exact A4|]. apply (H3 j). lia. }
        split; [exact A5|]. split; [|split; [exact H1|apply HD; [lia|exact H4]]].
        intros j Hj. pose proof (H3 j Hj) as (_ & _ & _ & _ & C5).
        destruct (Nat.eqb_spec (S j) 90) as [E|E]; [rewrite E; lia|].
        lia.
    Qed.

    Lemma SGkr_build (cs : CS F) qI qPI vIn vOut : cs_ok cs -> proof_ok cs ->
      vars cs qI -> vars cs qPI -> vars cs vIn -> vars cs vOut ->
      (~ buildable p (length qI) (length qPI) (length vIn) (length vOut) /\ SGkrAssertValid arks p sc qI qPI vIn vOut cs = None) \/
      (buildable p (length qI) (length qPI) (length vIn) (length vOut) /\ SGkrAssertValid arks p sc qI qPI vIn vOut cs <> None).
    Proof.
      intros HO HV HqI HqPI HvI HvO. rewrite buildable_iff.
      unfold SGkrAssertValid. change (MimcRounds - 1)%nat with 90%nat. cbv zeta.
      apply vals_map in HqI. apply vals_map in HqPI. apply vals_map in HvI. apply vals_map in HvO.
      destruct (Nat.lt_ge_cases (length vOut) (2 ^ (length qI + length qPI))) as [N1|Y1].
      { left. split; [intros (H & _); lia|]. apply bind_none. apply SEval_fails. rewrite app_length. exact N1. }
      pose proof HV as (W1 & W2 & W3).
      pose proof (computes_refl _ HO) as HC.
      destruct (SEval_ok cs vOut (qI ++ qPI) _ _ HO HvO (vals_app _ _ _ _ _ HqI HqPI)) as (claim & s1 & X1 & C1 & Vclaim).
      { rewrite app_length. exact Y1. }
      adv C1. rewrite (bind_eq _ _ _ _ _ X1).
      destruct (Nat.lt_ge_cases 90 (length (sSumchecks p))) as [Y2|N2].
      2:{ left. split; [intros (_ & (H & _) & _); lia|]. apply bind_lift_none. apply get_none. exact N2. }
      assert (Esp : nth_error (sSumchecks p) 90 = Some (sp 90)) by (apply nth_error_nth'; exact Y2).
      rewrite (bind_lift _ _ _ _ Esp), (bind_lift _ _ _ _ sc_last). cbn [sBG slast].
      destruct (In_dec (list_eq_dec Nat.eq_dec) [] (sp 90)) as [N3|Y3].
      { left. split; [intros (_ & (_ & _ & _ & H & _) & _); tauto|]. apply bind_none. apply SSumcheck_fails. auto. }
      destruct (Nat.lt_ge_cases (length (sp 90)) 2) as [N4|Y4].
      { left. split; [intros (_ & (_ & _ & _ & _ & H) & _); lia|]. apply bind_none. apply SSumcheck_fails. lia. }
      destruct (SSumcheck_ok arks Ha s1 (sp 90) claim 1 _ HO Vclaim) as (hL' & hR' & hP' & last & s5 & X5 & I5 & (L1 & L2 & L3) & VL' & VR' & VP' & Vlast).
      { destruct (proof_ok_grows cs s1 (computes_grows _ _ HC) HV) as (_ & _ & W3'). apply W3'. exact (nth_error_In _ _ Esp). }
      { exact Y3. } { lia. }
      rewrite (bind_eq _ _ _ _ _ X5).
      destruct (Nat.lt_ge_cases 90 (length (sLeft p))) as [Y5|N5].
      2:{ left. split; [intros (_ & (_ & H & _) & _); lia|]. apply bind_lift_none. apply get_none. exact N5. }
      rewrite (bind_lift _ _ _ _ (nth_error_nth' (sLeft p) 0%nat Y5)).
      destruct (Nat.lt_ge_cases 90 (length (sRight p))) as [Y6|N6].
      2:{ left. split; [intros (_ & (_ & _ & H & _) & _); lia|]. apply bind_lift_none. apply get_none. exact N6. }
      rewrite (bind_lift _ _ _ _ (nth_error_nth' (sRight p) 0%nat Y6)).
      pose proof (vals_nth _ _ _ 90 (vals_map _ _ W1) ltac:(lia)) as Vvl.
      pose proof (vals_nth _ _ _ 90 (vals_map _ _ W2) ltac:(lia)) as Vvr.
      pose proof (vals_nth _ _ _ 0 (vals_map _ _ W1) ltac:(lia)) as Vvl0.
      pose proof (vals_nth _ _ _ 0 (vals_map _ _ W2) ltac:(lia)) as Vvr0.
      pose proof (computes_grows _ _ HC) as G1. 
      apply (val1_grows _ _ _ _ G1) in Vvl. apply (val1_grows _ _ _ _ G1) in Vvr. apply (val1_grows _ _ _ _ G1) in Vvl0. apply (val1_grows _ _ _ _ G1) in Vvr0.
      advI I5.
      destruct (Nat.lt_ge_cases (length hP') (length qPI)) as [N7|Y7].
      { left. split; [intros (_ & (_ & _ & _ & _ & H) & _); lia|]. apply bind_none. apply SCombine_fails. exact N7. }
      destruct (SCombine_ok (slast (nth 90 arks 0)) (mimc_last (nth 90 arks 0)) (slast_describes _) s5 [] qPI hL' hR' hP' (nth 90 (sLeft p) 0%nat) (nth 90 (sRight p) 0%nat)
        (fun _ => []) _ _ _ _ _ _ HO (vals_nil _) HqPI VL' VR' VP' Vvl Vvr) as (act & s6 & X6 & C6 & Vact); try exact L1; try exact L2; try exact Y7; try reflexivity.
      rewrite SCombine_last, (bind_eq _ _ _ _ _ X6). adv C6.
      destruct (cAssert_ok _ _ _ _ _ HO Vlast Vact) as (s7 & X7 & I7). advI I7. rewrite (bind_eq _ _ _ _ _ X7).
      assert (HF90 : layer_fits 90 (length qPI)) by (repeat split; try assumption; lia).
      destruct (layers_build 90 ltac:(lia) Y5 Y6 s7 hL' hR' hP' _ _ _ HO (proof_ok_grows cs s7 (imposes_grows _ _ _ HC) HV) VL' VR' VP' ltac:(lia) ltac:(lia))
        as [[N E2]|(Y & zL & zR & zP & kL & kR & kP & s8 & P8 & X8 & I8 & VzL & VzR & VzP & M1 & M2 & M3)].
      { left. replace (length hP') with (length (sp 90) - 2)%nat in N by lia. split; [tauto|]. apply bind_none. exact E2. }
      replace (length hP') with (length (sp 90) - 2)%nat in Y by lia. cbn [Nat.eqb] in M3.
      rewrite (bind_eq _ _ _ _ _ X8). advI I8.
      rewrite (bind_lift _ _ _ _ (nth_error_nth' (sLeft p) 0%nat (ltac:(lia) : (0 < length (sLeft p))%nat))).
      rewrite (bind_lift _ _ _ _ (nth_error_nth' (sRight p) 0%nat (ltac:(lia) : (0 < length (sRight p))%nat))).
      destruct (Nat.lt_ge_cases (length vIn / 2) (2 ^ (length (sp 0) - 2))) as [N9|Y9].
      { left. split; [intros (_ & _ & _ & H); lia|]. apply bind_none. apply SEvalMixed_fails. right. rewrite M1, M3. exact N9. }
      destruct (SEvalMixed_all s8 vIn zL zR zP _ _ _ _ HO HvI VzL VzR VzP) as (eL & eR & s9 & X9 & C9 & VeL & VeR); [lia|rewrite M1, M3; exact Y9|].
      rewrite (bind_eq _ _ _ _ _ X9). adv C9.
      destruct (cAssert_ok _ _ _ _ _ HO VeL Vvl0) as (s10 & X10 & I10). advI I10. rewrite (bind_eq _ _ _ _ _ X10).
      destruct (cAssert_ok _ _ _ _ _ HO VeR Vvr0) as (s11 & X11 & I11). rewrite X11.
      right. split; [|discriminate]. tauto.
    Qed.
  End Proof.
End Build.

Section Final.
  Context {F : Field}.

  Lemma SGkr_builds (arks : list F) : 91 <= length arks -> forall (p : SProof nat) (cs : CS F) sc qI qPI vIn vOut,
    SCreateMimcCircuit arks = Some sc -> cs_ok cs ->
    vars cs (concat (concat (sSumchecks p)) ++ sLeft p ++ sRight p ++ qI ++ qPI ++ vIn ++ vOut) ->
    (SGkrAssertValid arks p sc qI qPI vIn vOut cs <> None <-> buildable p (length qI) (length qPI) (length vIn) (length vOut)).
  Proof.
    intros Ha p cs sc qI qPI vIn vOut Esc HO HV. rewrite (SCreateMimcCircuit_ok arks Ha) in Esc. injection Esc as <-.
    rewrite !vars_app in HV. destruct HV as (V1 & V2 & V3 & V4 & V5 & V6 & V7).
    apply vars_concat in V1. rewrite Forall_concat in V1.
    assert (HP : proof_ok p cs).
    { split; [exact V2|]. split; [exact V3|]. intros s Hs. rewrite Forall_forall in V1. apply V1. exact Hs. }
    destruct (SGkr_build arks Ha p cs qI qPI vIn vOut HO HP V4 V5 V6 V7) as [[N E]|[Y E]]; split; intros H; tauto.
  Qed.
End Final.
