(** Assigning native values to the variables of a circuit. *)
From Coq Require Import List Arith Lia Bool Ring Field.
From Verif Require Import Field Go MCommon Spec LSpec LCommon MPoly LPoly LPoly2 LPoly3 MHash SpecHash LHash MCircuit SpecCircuit LCircuit
  MGkr SpecGkr MSnark SpecSnark.
Import ListNotations.

(** What a successful loop has done. *)
Lemma foldM_done {S} (f : S -> nat -> option S) (P : nat -> S -> Prop) (Q : nat -> Prop) n : forall s r,
  P 0 s -> (forall k s s', k < n -> P k s -> f s k = Some s' -> P (Datatypes.S k) s' /\ Q k) ->
  forN n f s = Some r -> P n r /\ forall k, k < n -> Q k.
Proof.
  unfold forN. induction n as [|n IH]; intros s r H0 Hs E.
  - cbn in E. injection E as <-. split; [exact H0|]. intros k Hk. lia.
  - rewrite seq_S, foldM_app in E. cbn [Nat.add] in E. destruct (foldM f (seq 0 n) s) as [s1|] eqn:E1; [|discriminate]. cbn [foldM] in E.
    destruct (IH s s1 H0) as [IH1 IH2]; auto.
    { intros k s2 s3 Hk. apply Hs. lia. }
    destruct (f s1 n) as [s2|] eqn:E2; [|discriminate]. cbn [foldM] in E. injection E as <-.
    destruct (Hs n s1 s2 ltac:(lia) IH1 E2) as [H1 H2]. split; [exact H1|].
    intros k Hk. destruct (Nat.eq_dec k n) as [->|]; [exact H2|]. apply IH2. lia.
Qed.

Section L.
  Context {F : Field}.
  Open Scope F_scope.

  Lemma fill_ok (coeffs : list F) : 
    forN (length coeffs) (fun u i => c <- get coeffs i ;; v <- get u i ;; v <- assignVar v c ;; set u i v) (repeat None (length coeffs)) = Some (map Some coeffs).
  Proof.
    unfold forN. rewrite (foldM_write None (fun i => Some (nth i coeffs 0))).
    - f_equal. apply (list_ext None); [rewrite !map_length, seq_length; reflexivity|]. intros i Hi. rewrite map_length, seq_length in Hi.
      rewrite nth_map_seq by exact Hi. rewrite (nth_map_lt _ _ _ _ 0) by exact Hi. reflexivity.
    - apply repeat_length.
    - intros t i Hi HL Hr. rewrite (get_nth coeffs i 0) by exact Hi. rewrite (get_nth t i None) by lia.
      rewrite (Hr i) by lia. rewrite nth_repeat_lt by exact Hi. cbn [assignVar]. rewrite set_some by lia. reflexivity.
  Qed.

  (** univariate.go Assign *)
  Lemma SUniAssign_ok n (coeffs : list F) : SUniAssign (repeat None n) coeffs = if (length coeffs =? n)%nat then Some (map Some coeffs) else None.
  Proof.
    unfold SUniAssign. rewrite repeat_length. destruct (Nat.eqb_spec (length coeffs) n) as [<-|]; [|reflexivity]. apply fill_ok.
  Qed.
  Lemma SMultiAssign_ok nVars (values : list F) :
    SMultiAssign (SAllocateMultilinear nVars) values = if (length values =? 2 ^ nVars)%nat then Some (map Some values) else None.
  Proof.
    unfold SMultiAssign, SAllocateMultilinear. rewrite repeat_length. destruct (Nat.eqb_spec (length values) (2 ^ nVars)) as [<-|]; [|reflexivity]. apply fill_ok.
  Qed.

  (** All the coefficients are fresh. *)
  Definition fresh (p : list (list (option F))) : Prop := forall u, In u p -> exists n, u = repeat None n.

  Lemma SSumcheckAssign_ok p (proof : list (list F)) : fresh p -> map (@length _) proof = map (@length _) p ->
    SSumcheckAssign p proof = Some (map (map Some) proof).
  Proof.
    intros HF HS. unfold SSumcheckAssign. pose proof (f_equal (@length _) HS) as HL. rewrite !map_length in HL. rewrite HL, Nat.eqb_refl.
    unfold forN. rewrite (foldM_write [] (fun i => map Some (nth i proof []))).
    - f_equal. apply (list_ext []); [rewrite !map_length, seq_length; congruence|]. intros i Hi. rewrite map_length, seq_length in Hi.
      rewrite nth_map_seq by exact Hi. rewrite (nth_map_lt _ _ _ _ []) by lia. reflexivity.
    - reflexivity.
    - intros t i Hi Ht Hr. rewrite (get_nth proof i []) by lia. rewrite (get_nth t i []) by lia. rewrite (Hr i) by lia.
      destruct (HF (nth i p []) (nth_In _ _ Hi)) as [n En]. rewrite En, SUniAssign_ok.
      assert (E : length (nth i proof []) = n).
      { apply (f_equal (fun l => nth i l 0%nat)) in HS. rewrite (nth_map_lt _ _ _ _ []), (nth_map_lt _ _ _ _ []) in HS by lia.
        rewrite HS, En. apply repeat_length. }
      rewrite E, Nat.eqb_refl, set_some by lia. reflexivity.
  Qed.

  Lemma SSumcheckAssign_inv p (proof : list (list F)) r : fresh p -> SSumcheckAssign p proof = Some r ->
    map (@length _) proof = map (@length _) p /\ r = map (map Some) proof.
  Proof.
    intros HF E. assert (HS : map (@length _) proof = map (@length _) p); [|split; [exact HS|]; rewrite (SSumcheckAssign_ok p proof HF HS) in E; congruence].
    unfold SSumcheckAssign in E. destruct (Nat.eqb_spec (length proof) (length p)) as [HL|]; [|discriminate].
    apply (foldM_done _ (fun k t => length t = length p /\ forall j, (k <= j < length p)%nat -> nth j t [] = nth j p [])
      (fun k => length (nth k proof []) = length (nth k p []))) in E.
    - destruct E as [_ E]. apply (list_ext 0%nat); [rewrite !map_length; exact HL|]. intros i Hi. rewrite map_length in Hi.
      rewrite (nth_map_lt _ _ _ _ []), (nth_map_lt _ _ _ _ []) by lia. apply E. exact Hi.
    - split; [reflexivity|auto].
    - intros k s s' Hk [H1 H2] E'. rewrite (get_nth proof k []) in E' by lia. rewrite (get_nth s k []) in E' by lia. rewrite (H2 k) in E' by lia.
      destruct (HF (nth k p []) (nth_In p [] (ltac:(lia) : (k < length p)%nat))) as [n En]. rewrite En, SUniAssign_ok in E'.
      destruct (Nat.eqb_spec (length (nth k proof [])) n) as [EL|]; [|discriminate]. rewrite set_some in E' by lia. injection E' as <-.
      split; [|rewrite En, repeat_length; exact EL]. split; [rewrite upd_length; exact H1|]. intros j Hj. rewrite nth_upd_other by lia. apply H2. lia.
  Qed.

  Lemma alloc_fresh bN (sl : SLayer F) : fresh (SAllocateSumcheck bN (sBG sl) (sDegHL sl) (sDegHR sl) (sDegHPrime sl)).
  Proof.
    intros u Hu. unfold SAllocateSumcheck in Hu. rewrite !in_app_iff in Hu.
    destruct Hu as [H|[H|H]]; apply repeat_spec in H; eauto.
  Qed.

  (** The shape of the polynomials of a proof. *)
  Definition same_lengths {A B} (p : list (list (list A))) (q : list (list (list B))) : Prop := map (map (@length _)) p = map (map (@length _)) q.

  Definition filled (pf : Proof F) : SProof (option F) :=
    MkSProof (map (map (map Some)) (SumcheckProofs pf)) (map Some (ClaimsLeft pf)) (map Some (ClaimsRight pf)).

  (** proof.go Assign: succeeds exactly on proofs of the allocated shape; longer lists of polynomials or
      claims are cut. *)
  Lemma nth_same {A B} (p : list (list (list A))) (q : list (list (list B))) i : same_lengths p q -> map (@length _) (nth i p []) = map (@length _) (nth i q []).
  Proof.
    intros H. apply (f_equal (fun l => nth i l (map (@length A) []))) in H. rewrite map_nth in H.
    change (map (@length A) []) with (map (@length B) []) in H at 1. rewrite map_nth in H. exact H.
  Qed.

  Lemma SAssign_ok bN sc (pf : Proof F) : same_lengths (SumcheckProofs pf) (sSumchecks (SAllocateProof (F:=F) bN sc)) ->
    length (ClaimsLeft pf) = length sc -> length (ClaimsRight pf) = length sc ->
    SAssign (SAllocateProof bN sc) pf = Some (filled pf).
  Proof.
    intros HS HL HR. unfold SAssign.
    set (p := SAllocateProof bN sc) in *.
    assert (P1 : length (sSumchecks p) = length sc) by (unfold p, SAllocateProof; cbn [sSumchecks]; apply map_length).
    assert (P2 : forall i, (i < length sc)%nat -> fresh (nth i (sSumchecks p) [])).
    { intros i Hi. unfold p, SAllocateProof. cbn [sSumchecks].
      destruct (nth_error sc i) as [sl|] eqn:E; [|apply nth_error_None in E; lia].
      rewrite (nth_error_nth (map _ sc) i [] (map_nth_error _ _ _ E)). apply alloc_fresh. }
    assert (P3 : length (SumcheckProofs pf) = length sc) by (apply (f_equal (@length _)) in HS; rewrite !map_length in HS; congruence).
    destruct (forN_inv (fun k (q : SProof (option F)) =>
      (length (sSumchecks q) = length sc /\ length (sLeft q) = length sc /\ length (sRight q) = length sc) /\
      (forall j, (j < k)%nat -> nth j (sSumchecks q) [] = map (map Some) (nth j (SumcheckProofs pf) []) /\
         nth j (sLeft q) None = Some (nth j (ClaimsLeft pf) 0) /\ nth j (sRight q) None = Some (nth j (ClaimsRight pf) 0)) /\
      (forall j, (k <= j)%nat -> nth j (sSumchecks q) [] = nth j (sSumchecks p) [] /\
         nth j (sLeft q) None = None /\ nth j (sRight q) None = None))
      (fun p k => sp <- get (sSumchecks p) k ;; nsp <- get (SumcheckProofs pf) k ;; sp <- SSumcheckAssign sp nsp ;;
        sps <- set (sSumchecks p) k sp ;; l <- get (sLeft p) k ;; nl <- get (ClaimsLeft pf) k ;; l <- assignVar l nl ;;
        ls <- set (sLeft p) k l ;; r <- get (sRight p) k ;; nr <- get (ClaimsRight pf) k ;; r <- assignVar r nr ;;
        rs <- set (sRight p) k r ;; Some (MkSProof sps ls rs)) (length (sSumchecks p)) p) as (q & Eq & (L1 & L2 & L3) & H1 & _).
    - assert (HN : forall j n, nth j (repeat (@None F) n) None = None).
      { intros j n. destruct (Nat.lt_ge_cases j n); [apply nth_repeat_lt; assumption|apply nth_overflow; rewrite repeat_length; assumption]. }
      split; [split; [exact P1|split; apply repeat_length]|]. split; [intros; lia|]. intros j _. split; [reflexivity|].
      split; apply HN.
    - intros k q Hk ((L1 & L2 & L3) & H1 & H2). rewrite P1 in Hk. destruct (H2 k (Nat.le_refl k)) as (N1 & N2 & N3).
      rewrite (get_nth (sSumchecks q) k []), N1, (get_nth (SumcheckProofs pf) k []) by lia.
      rewrite (SSumcheckAssign_ok _ _ (P2 k Hk) (nth_same _ _ k HS)), set_some by lia.
      rewrite (get_nth (sLeft q) k None), N2, (get_nth (ClaimsLeft pf) k 0) by lia. cbn [assignVar]. rewrite set_some by lia.
      rewrite (get_nth (sRight q) k None), N3, (get_nth (ClaimsRight pf) k 0) by lia. cbn [assignVar]. rewrite set_some by lia.
      eexists. split; [reflexivity|]. cbn [sSumchecks sLeft sRight]. rewrite !upd_length. split; [auto|]. split.
      + intros j Hj. destruct (Nat.eq_dec j k) as [->|]; [rewrite !nth_upd_same by lia; auto|]. rewrite !nth_upd_other by lia. apply H1. lia.
      + intros j Hj. rewrite !nth_upd_other by lia. apply H2. lia.
    - rewrite Eq. f_equal. destruct q as [qs ql qr]. cbn [sSumchecks sLeft sRight] in *. unfold filled. rewrite P1 in H1. f_equal.
      + apply (list_ext []); [rewrite map_length; lia|]. intros i Hi. rewrite (nth_map_lt _ _ _ _ []) by lia. apply H1. lia.
      + apply (list_ext None); [rewrite map_length; lia|]. intros i Hi. rewrite (nth_map_lt _ _ _ _ 0) by lia. apply H1. lia.
      + apply (list_ext None); [rewrite map_length; lia|]. intros i Hi. rewrite (nth_map_lt _ _ _ _ 0) by lia. apply H1. lia.
  Qed.

  (** What a successful Assign says about the proof. *)
  Lemma SAssign_inv bN sc (pf : Proof F) r : SAssign (SAllocateProof bN sc) pf = Some r ->
    same_lengths (firstn (length sc) (SumcheckProofs pf)) (sSumchecks (SAllocateProof (F:=F) bN sc)) /\
    (length sc <= length (SumcheckProofs pf))%nat /\ (length sc <= length (ClaimsLeft pf))%nat /\ (length sc <= length (ClaimsRight pf))%nat.
  Proof.
    unfold SAssign. set (p := SAllocateProof bN sc) in *.
    assert (P1 : length (sSumchecks p) = length sc) by (unfold p, SAllocateProof; cbn [sSumchecks]; apply map_length).
    assert (P2 : forall i, (i < length sc)%nat -> fresh (nth i (sSumchecks p) [])).
    { intros i Hi. unfold p, SAllocateProof. cbn [sSumchecks].
      destruct (nth_error sc i) as [sl|] eqn:E; [|apply nth_error_None in E; lia].
      rewrite (nth_error_nth (map _ sc) i [] (map_nth_error _ _ _ E)). apply alloc_fresh. }
    intros E.
    apply (foldM_done _ (fun k (q : SProof (option F)) => length (sSumchecks q) = length sc /\
        forall j, (k <= j)%nat -> nth j (sSumchecks q) [] = nth j (sSumchecks p) [])
      (fun k => (k < length (SumcheckProofs pf))%nat /\ (k < length (ClaimsLeft pf))%nat /\ (k < length (ClaimsRight pf))%nat /\
        map (@length _) (nth k (SumcheckProofs pf) []) = map (@length _) (nth k (sSumchecks p) []))) in E.
    - destruct E as [_ E]. rewrite P1 in E.
      assert (EL : forall n, (forall k, (k < length sc)%nat -> (k < n)%nat) -> (length sc <= n)%nat).
      { intros n H. destruct (length sc) as [|s]; [lia|]. specialize (H s). lia. }
      assert (L1 : (length sc <= length (SumcheckProofs pf))%nat) by (apply EL; intros k Hk; apply E; exact Hk).
      split; [|split; [exact L1|split; apply EL; intros k Hk; apply E; exact Hk]].
      unfold same_lengths. apply (list_ext []); [rewrite !map_length, firstn_length; lia|]. intros i Hi. rewrite map_length, firstn_length in Hi.
      rewrite (nth_map_lt _ _ _ _ []), (nth_map_lt _ _ _ _ []) by (rewrite ?firstn_length; lia). rewrite nth_firstn by lia. apply E. lia.
    - split; [exact P1|auto].
    - intros k q q' Hk [H1 H2] E'. rewrite P1 in Hk.
      rewrite (get_nth (sSumchecks q) k []), (H2 k) in E' by lia.
      destruct (get (SumcheckProofs pf) k) as [nsp|] eqn:G1; [|discriminate].
      destruct (SSumcheckAssign (nth k (sSumchecks p) []) nsp) as [sp|] eqn:A1; [|discriminate].
      destruct (SSumcheckAssign_inv _ _ _ (P2 k Hk) A1) as [S1 _].
      rewrite set_some in E' by lia.
      destruct (get (sLeft q) k) as [lq|]; [|discriminate]. destruct (get (ClaimsLeft pf) k) as [nl|] eqn:G2; [|discriminate].
      destruct (assignVar lq nl) as [lv|]; [|discriminate]. destruct (set (sLeft q) k lv) as [ls|]; [|discriminate].
      destruct (get (sRight q) k) as [rq|]; [|discriminate]. destruct (get (ClaimsRight pf) k) as [nr|] eqn:G3; [|discriminate].
      destruct (assignVar rq nr) as [rv|]; [|discriminate]. destruct (set (sRight q) k rv) as [rs|]; [|discriminate].
      injection E' as <-. cbn [sSumchecks]. rewrite upd_length. split.
      + split; [exact H1|]. intros j Hj. rewrite nth_upd_other by lia. apply H2. lia.
      + apply get_some_lt in G2 as L2. apply get_some_lt in G3 as L3. apply get_some_lt in G1 as L1.
        split; [exact L1|]. split; [exact L2|]. split; [exact L3|]. rewrite <- S1. f_equal. apply get_some_nth. exact G1.
  Qed.

  (** multilinear.go AssignFromChunkedBKT *)
  Lemma SAssignFromChunked_ok nVars s (values : list (list F)) : (s * length values)%nat = (2 ^ nVars)%nat ->
    (forall v, In v values -> length v = s) ->
    SAssignFromChunkedBKT (SAllocateMultilinear nVars) values = Some (map Some (interleave s values)).
  Proof.
    intros HN HV. unfold SAssignFromChunkedBKT, SAllocateMultilinear. rewrite <- HN. set (n := length values) in *.
    assert (Hcell : forall u v u' v', (v < n)%nat -> (v' < n)%nat -> (u * n + v = u' * n + v')%nat -> u = u' /\ v = v').
    { intros u v u' v' H1 H2 E. assert (u = u') by (apply (f_equal (fun x => x / n)%nat) in E; rewrite !Nat.div_add_l, !Nat.div_small in E by lia; lia). subst. split; [reflexivity|lia]. }
    destruct (forN_inv (fun b t => length t = (s * n)%nat /\ forall u v, (u < s)%nat -> (v < n)%nat ->
        nth (u * n + v) t None = if (v <? b)%nat then Some (nth u (nth v values []) 0) else None)
      (fun table b => vb <- get values b ;; forN (length vb) (fun table i => x <- get vb i ;; v <- get table (b + i * n) ;;
        v <- assignVar v x ;; set table (b + i * n) v) table) n (repeat None (s * n))) as (t & E & HL & HT).
    - split; [apply repeat_length|]. intros u v Hu Hv. rewrite nth_repeat_lt by nia. reflexivity.
    - intros b t Hb [HL HT]. rewrite (get_nth values b []) by exact Hb. set (vb := nth b values []).
      assert (Lb : length vb = s) by (apply HV, nth_In; exact Hb). rewrite Lb.
      destruct (forN_inv (fun i t => length t = (s * n)%nat /\ forall u v, (u < s)%nat -> (v < n)%nat ->
          nth (u * n + v) t None = if (v <? b)%nat || ((v =? b)%nat && (u <? i)%nat) then Some (nth u (nth v values []) 0) else None)
        (fun table i => x <- get vb i ;; v <- get table (b + i * n) ;; v <- assignVar v x ;; set table (b + i * n) v) s t) as (t' & E & HL' & HT').
      + split; [exact HL|]. intros u v Hu Hv. rewrite (HT u v Hu Hv). destruct (Nat.ltb_spec u 0); [lia|]. rewrite andb_false_r, orb_false_r. reflexivity.
      + intros i t1 Hi [HL1 HT1]. rewrite (get_nth vb i 0) by lia. replace (b + i * n)%nat with (i * n + b)%nat by lia.
        rewrite (get_nth t1 (i * n + b) None) by nia. rewrite (HT1 i b Hi Hb), Nat.ltb_irrefl, Nat.ltb_irrefl, andb_false_r. cbn [orb assignVar].
        rewrite set_some by nia. eexists. split; [reflexivity|]. split; [rewrite upd_length; exact HL1|].
        intros u v Hu Hv. destruct (Nat.eq_dec (u * n + v) (i * n + b)) as [Ec|Nc].
        * rewrite Ec, nth_upd_same by nia. destruct (Hcell _ _ _ _ Hv Hb Ec) as [-> ->]. rewrite Nat.eqb_refl.
          destruct (Nat.ltb_spec i (S i)); [|lia]. rewrite orb_true_r. reflexivity.
        * rewrite nth_upd_other by lia. rewrite (HT1 u v Hu Hv). destruct (Nat.eqb_spec v b) as [->|]; [|reflexivity].
          destruct (Nat.ltb_spec u i), (Nat.ltb_spec u (S i)); try reflexivity; try lia. assert (u = i) by lia. subst. lia.
      + rewrite E. eexists. split; [reflexivity|]. split; [exact HL'|]. intros u v Hu Hv. rewrite (HT' u v Hu Hv).
        destruct (Nat.ltb_spec u s); [|lia]. rewrite andb_true_r.
        destruct (Nat.ltb_spec v b), (Nat.eqb_spec v b), (Nat.ltb_spec v (S b)); try reflexivity; lia.
    - rewrite E. f_equal. apply (list_ext None); [rewrite map_length, interleave_length; fold n; lia|].
      intros i Hi. rewrite HL in Hi. assert (Hn : n <> 0%nat) by nia.
      rewrite (nth_map_lt _ _ _ _ 0) by (rewrite interleave_length; fold n; lia).
      pose proof (Nat.div_mod i n Hn) as Ei. pose proof (Nat.mod_upper_bound i n Hn) as Hm.
      assert (Hd : (i / n < s)%nat) by (apply Nat.div_lt_upper_bound; lia).
      rewrite Ei, (Nat.mul_comm n). rewrite (HT _ _ Hd Hm). destruct (Nat.ltb_spec (i mod n) n); [|lia].
      unfold n. rewrite interleave_nth; auto.
  Qed.
End L.
