(** The memory-level verifier of MVerHeap.v gives the answer of the one of MGkr.v and leaves the caller's memory alone. *)
From Coq Require Import List Arith ZArith Lia Bool.
From Verif Require Import Field Go MCommon MPoly MCircuit MSumcheck MGkr MHeap SpecHeap LHeap LHeap2 MSumHeap LSumHeap2 LSumHeap3 MGkrHeap LGkrHeap MVerHeap SpecVerHeap.
Import ListNotations.

Section S.
  Context {F : Field}.
  Open Scope F_scope.
  Variable ch : list F -> F.
  Variable grow : nat -> nat -> nat.
  Implicit Types (m : list F) (s t : Slice).

  Definition capcell s (a : nat) : Prop := (base s <= a < base s + scap s)%nat.
  Definition spare s (a : nat) : Prop := (base s + slen s <= a < base s + scap s)%nat.
  Definition newer m s : Prop := forall a, capcell s a -> (length m <= a)%nat.
  Definition keep s m m' : Prop :=
    (length m <= length m')%nat /\ forall a, (a < length m)%nat -> ~ spare s a -> nth a m' 0 = nth a m 0.
  Definition off s t : Prop := forall a, cell t a -> ~ spare s a.

  Lemma keep_refl s m : keep s m m.
  Proof. split; auto. Qed.
  Lemma keep_trans s m m1 m2 : keep s m m1 -> keep s m1 m2 -> keep s m m2.
  Proof. intros [A B] [C D]. split; [lia|]. intros a Ha Hn. rewrite D by (assumption || lia). apply B; assumption. Qed.
  Lemma ext_keep s m m' : ext m m' -> keep s m m'.
  Proof. intros [A B]. split; [exact A|]. intros a Ha _. apply B. exact Ha. Qed.
  Lemma keep_swf s m m' t : keep s m m' -> swf m t -> swf m' t.
  Proof. intros [A _] [B C]. split; [exact B|lia]. Qed.
  Lemma keep_tab s m m' t : keep s m m' -> swf m t -> off s t -> tab m' t = tab m t.
  Proof.
    intros [A B] [C D] E. apply tab_same. intros a Ha. apply B; [unfold cell in Ha; lia|apply E; exact Ha].
  Qed.
  Lemma keep_ext s m0 m m' : ext m0 m -> newer m0 s -> keep s m m' -> ext m0 m'.
  Proof.
    intros [A B] N [C D]. split; [lia|]. intros a Ha. rewrite D; [apply B; exact Ha|lia|].
    intros H. assert (capcell s a) as Hc by (unfold capcell, spare in *; lia). specialize (N a Hc). lia.
  Qed.
  Lemma off_self s : off s s.
  Proof. intros a H1 H2. unfold cell, spare in *. lia. Qed.

  Lemma hwrite_ok (vs : list F) : forall m a, (a + length vs <= length m)%nat ->
    exists m', hwrite m a vs = Some m' /\ length m' = length m /\
      forall b, nth b m' 0 = if ((a <=? b) && (b <? a + length vs))%nat then nth (b - a) vs 0 else nth b m 0.
  Proof.
    induction vs as [|v vs IH]; intros m a H; cbn [hwrite length] in *.
    - exists m. split; [reflexivity|]. split; [reflexivity|]. intros b. destruct (Nat.leb_spec a b), (Nat.ltb_spec b (a + 0)); try reflexivity. lia.
    - unfold set. destruct (Nat.ltb_spec a (length m)) as [Ha|]; [|lia].
      destruct (IH (upd m a v) (S a)) as (m' & E & L & N); [rewrite upd_length; lia|].
      exists m'. split; [exact E|]. split; [rewrite L, upd_length; reflexivity|]. intros b. rewrite N.
      destruct (Nat.eq_dec b a) as [->|Hb].
      + rewrite nth_upd_same by exact Ha. rewrite (proj2 (Nat.leb_gt (S a) a)) by lia. rewrite Nat.leb_refl, (proj2 (Nat.ltb_lt a (a + S (length vs)))) by lia.
        cbn [andb]. rewrite Nat.sub_diag. reflexivity.
      + rewrite nth_upd_other by congruence.
        destruct (Nat.leb_spec (S a) b) as [H1|H1], (Nat.leb_spec a b) as [H2|H2], (Nat.ltb_spec b (S a + length vs)) as [H3|H3],
          (Nat.ltb_spec b (a + S (length vs))) as [H4|H4]; cbn [andb]; try lia; try reflexivity.
        replace (b - a)%nat with (S (b - S a)) by lia. reflexivity.
  Qed.

  Lemma happend_ok m s src : swf m s -> swf m src ->
    exists m' s', happend grow m s src = Some (m', s') /\ keep s m m' /\ swf m' s' /\ tab m' s' = tab m s ++ tab m src /\
      (forall a, capcell s' a -> capcell s a \/ (length m <= a)%nat).
  Proof.
    intros [W1 W2] [V1 V2]. unfold happend. destruct (Nat.leb_spec (slen s + slen src) (scap s)) as [H|H].
    - destruct (hwrite_ok (tab m src) m (base s + slen s)) as (m' & E & L & N); [rewrite tab_length; lia|].
      rewrite E. rewrite tab_length in N. do 2 eexists. split; [reflexivity|]. split.
      { split; [lia|]. intros a Ha Hn. rewrite N. destruct (Nat.leb_spec (base s + slen s) a), (Nat.ltb_spec a (base s + slen s + slen src)); cbn [andb]; try reflexivity.
        exfalso. apply Hn. unfold spare. lia. }
      split; [split; cbn; lia|]. split.
      { apply (list_ext 0); [rewrite app_length, !tab_length; reflexivity|]. rewrite tab_length. cbn [slen]. intros i Hi.
        rewrite tab_nth by exact Hi. unfold rd. cbn [base]. rewrite N.
        destruct (Nat.lt_ge_cases i (slen s)) as [Hs|Hs].
        - rewrite app_nth1 by (rewrite tab_length; exact Hs). rewrite (tab_nth m s) by exact Hs. unfold rd.
          rewrite (proj2 (Nat.leb_gt (base s + slen s) _)) by lia. reflexivity.
        - rewrite app_nth2 by (rewrite tab_length; exact Hs). rewrite tab_length.
          rewrite (proj2 (Nat.leb_le (base s + slen s) _)), (proj2 (Nat.ltb_lt _ (base s + slen s + slen src))) by lia. cbn [andb]. f_equal. lia. }
      intros a Ha. left. exact Ha.
    - do 2 eexists. split; [reflexivity|]. set (cap := Nat.max (slen s + slen src) (grow (scap s) (slen s + slen src))).
      assert (Hc : (slen s + slen src <= cap)%nat) by (unfold cap; lia).
      split; [apply ext_keep, ext_app|]. split.
      { split; cbn [slen scap base]; [exact Hc|]. rewrite !app_length, repeat_length, !tab_length. lia. }
      split.
      { apply (list_ext 0); [rewrite app_length, !tab_length; reflexivity|]. rewrite tab_length. cbn [slen]. intros i Hi.
        rewrite tab_nth by exact Hi. unfold rd. cbn [base]. rewrite app_nth2 by lia.
        rewrite app_nth1 by (rewrite app_length, !tab_length; lia). f_equal. lia. }
      intros a Ha. right. unfold capcell in Ha. cbn in Ha. lia.
  Qed.

  Lemma happend_new m src : swf m src ->
    exists m' s', happend grow m nilSlice src = Some (m', s') /\ ext m m' /\ swf m' s' /\ tab m' s' = tab m src /\ newer m s'.
  Proof.
    intros W. destruct (happend_ok m nilSlice src (swf_nil m) W) as (m' & s' & E & K & W' & T & N).
    exists m', s'. split; [exact E|]. split.
    { split; [apply K|]. intros a Ha. apply K; [exact Ha|]. unfold spare. cbn. lia. }
    split; [exact W'|]. split; [exact T|]. intros a Ha. destruct (N a Ha) as [H|H]; [unfold capcell in H; cbn in H; lia|exact H].
  Qed.

  (** the sum-check verifier *)
  Definition vres m (r : HVerifyResult F) : VerifyResult F :=
    match r with HReject => Reject | HAccept qP qL qR v => Accept (tab m qP) (tab m qL) (tab m qR) v end.

  Definition good_res m0 m (r : HVerifyResult F) : Prop :=
    match r with
    | HReject => True
    | HAccept qP qL qR _ => (swf m qP /\ swf m qL /\ swf m qR) /\ (newer m0 qP /\ newer m0 qL /\ newer m0 qR) /\
        (forall a, capcell qL a -> ~ capcell qP a /\ ~ capcell qR a)
    end.

  Lemma hverify_loop_ok m0 cs proof : forall m v i rs, ext m0 m -> (forall c, In c proof -> swf m0 c) -> swf m cs ->
    (length m0 <= base cs)%nat -> scap cs = slen cs -> (i + length proof = slen cs)%nat -> firstn i (tab m cs) = rs -> 
    match hverify_loop ch m v proof cs i with
    | Some (m', None) => ext m0 m' /\ verify_loop ch v (map (tab m0) proof) rs = Some None
    | Some (m', Some e) => ext m0 m' /\ swf m' cs /\ verify_loop ch v (map (tab m0) proof) rs = Some (Some (tab m' cs, e))
    | None => verify_loop ch v (map (tab m0) proof) rs = None
    end.
  Proof.
    induction proof as [|c proof IH]; intros m v i rs X Wp Wc Hb Hcap Hi Hr; cbn [hverify_loop map verify_loop]; cbn [length] in Hi.
    - split; [exact X|]. split; [exact Wc|]. subst rs. rewrite firstn_all2; [reflexivity|]. rewrite tab_length. lia.
    - assert (Tc : tab m c = tab m0 c) by (apply ext_tab; [exact X|apply Wp; left; reflexivity]). rewrite !Tc.
      destruct (EvaluatePolynomial (tab m0 c) 0) as [a|]; [|reflexivity].
      destruct (EvaluatePolynomial (tab m0 c) 1) as [b|]; [|reflexivity].
      destruct (v =? a + b) eqn:Ev; [|split; [exact X|reflexivity]].
      rewrite (hset_upd m cs i) by (assumption || lia).
      set (r := ch (tab m0 c)). set (m1 := upd m (base cs + i) r).
      assert (X1 : ext m0 m1).
      { destruct X as [X1 X2]. split; [unfold m1; rewrite upd_length; exact X1|]. intros x Hx. unfold m1.
        rewrite nth_upd_other by lia. apply X2. exact Hx. }
      assert (Tc1 : tab m1 c = tab m0 c) by (apply ext_tab; [exact X1|apply Wp; left; reflexivity]). rewrite Tc1.
      destruct (EvaluatePolynomial (tab m0 c) r) as [e|]; [|reflexivity].
      apply IH; auto.
      + intros d Hd. apply Wp. right. exact Hd.
      + apply (swf_len m); [apply upd_length|exact Wc].
      + lia.
      + assert (Wc1 : swf m1 cs) by (apply (swf_len m); [apply upd_length|exact Wc]).
        apply (list_ext 0).
        * rewrite app_length, firstn_length, <- Hr, firstn_length, !tab_length. cbn [length]. lia.
        * rewrite firstn_length, tab_length. intros j Hj. rewrite nth_firstn by lia. rewrite tab_nth by lia. unfold rd, m1.
          subst rs. destruct (Nat.eq_dec j i) as [->|Hji].
          -- rewrite nth_upd_same by (destruct Wc; lia). rewrite app_nth2 by (rewrite firstn_length, tab_length; lia).
             rewrite firstn_length, tab_length. replace (i - _)%nat with 0%nat by lia. reflexivity.
          -- rewrite nth_upd_other by lia. rewrite app_nth1 by (rewrite firstn_length, tab_length; lia).
             rewrite nth_firstn by lia. rewrite tab_nth by lia. reflexivity.
  Qed.

  Lemma hslice_ok m s a b : swf m s -> scap s = slen s ->
    match hslice s a b with
    | Some s' => swf m s' /\ slice (tab m s) a b = Some (tab m s')
    | None => slice (tab m s) a b = None
    end.
  Proof.
    intros [W1 W2] Hc. unfold hslice, slice. rewrite tab_length, Hc.
    destruct (Nat.leb_spec a b) as [H1|H1], (Nat.leb_spec b (slen s)) as [H2|H2]; cbn [andb]; try reflexivity.
    split; [split; cbn [slen scap base]; lia|]. f_equal. apply (list_ext 0).
    - rewrite firstn_length, skipn_length, !tab_length. cbn [slen]. lia.
    - rewrite firstn_length, skipn_length, tab_length. intros i Hi. rewrite nth_firstn by lia. rewrite nth_skipn.
      rewrite !tab_nth by (cbn [slen]; lia). unfold rd. cbn [base]. f_equal. lia.
  Qed.

  Lemma capcell_lt m s a : swf m s -> capcell s a -> (a < length m)%nat.
  Proof. intros [_ W] H. unfold capcell in H. lia. Qed.

  Lemma newer_le m m1 s : (length m <= length m1)%nat -> newer m1 s -> newer m s.
  Proof. intros H N a Ha. specialize (N a Ha). lia. Qed.

  Lemma HSumVerify_ok m claim proof bN bG : (forall c, In c proof -> swf m c) ->
    match HSumVerify ch grow m claim proof bG with
    | Some (m', r) => ext m m' /\ good_res m m' r /\ Verify ch claim (map (tab m) proof) bN bG = Some (vres m' r)
    | None => Verify ch claim (map (tab m) proof) bN bG = None
    end.
  Proof.
    intros Wp. unfold HSumVerify, Verify, halloc. set (cs := MkSlice (length m) (length proof) (length proof)).
    set (m1 := m ++ repeat 0 (length proof)).
    assert (X1 : ext m m1) by apply ext_app.
    assert (W1 : swf m1 cs) by (split; cbn; unfold m1; rewrite ?app_length, ?repeat_length; lia).
    pose proof (hverify_loop_ok m cs proof m1 claim 0 [] X1 Wp W1 (le_n _) eq_refl eq_refl eq_refl) as L.
    destruct (hverify_loop ch m1 claim proof cs 0) as [[m2 [e|]]|].
    2:{ destruct L as [X2 E]. rewrite E. split; [exact X2|]. split; [exact I|reflexivity]. }
    2:{ rewrite L. reflexivity. }
    destruct L as (X2 & W2 & E). rewrite E. clear E.
    pose proof (hslice_ok m2 cs 0 bG W2 eq_refl) as S1. destruct (hslice cs 0 bG) as [cL|]; [|rewrite S1; reflexivity].
    destruct S1 as [WL E1]. rewrite E1.
    destruct (happend_new m2 cL WL) as (m3 & qL & EL & X3 & WqL & TL & NL). rewrite EL.
    pose proof (ext_swf _ _ _ X3 W2) as W3.
    pose proof (hslice_ok m2 cs bG (2 * bG) W2 eq_refl) as S2. destruct (hslice cs bG (2 * bG)) as [cR|]; [|rewrite S2; reflexivity].
    destruct S2 as [WR E2]. rewrite E2.
    destruct (happend_new m3 cR (ext_swf _ _ _ X3 WR)) as (m4 & qR & ER & X4 & WqR & TR & NR). rewrite ER.
    pose proof (hslice_ok m2 cs (2 * bG) (length proof) W2 eq_refl) as S3. cbn [slen cs].
    change (length (tab m2 cs)) with (length (tab m2 cs)). rewrite tab_length. cbn [slen cs].
    destruct (hslice cs (2 * bG) (length proof)) as [cP|]; [|rewrite S3; reflexivity].
    destruct S3 as [WP E3]. rewrite E3.
    pose proof (ext_trans _ _ _ X3 X4) as X34.
    destruct (happend_new m4 cP (ext_swf _ _ _ X34 WP)) as (m5 & qP & EP & X5 & WqP & TP & NP). rewrite EP.
    pose proof (ext_trans _ _ _ X4 X5) as X45.
    split; [eapply ext_trans; [exact X2|]; eapply ext_trans; eauto|].
    assert (L2 : (length m <= length m2)%nat) by apply X2. assert (L3 : (length m2 <= length m3)%nat) by apply X3.
    assert (L4 : (length m3 <= length m4)%nat) by apply X4.
    split.
    { split; [split; [exact WqP|]; split; [exact (ext_swf _ _ _ X45 WqL)|exact (ext_swf _ _ _ X5 WqR)]|].
      split; [split; [|split]; [apply (newer_le m m4)|apply (newer_le m m2)|apply (newer_le m m3)]; try assumption; lia|].
      intros a Ha. pose proof (capcell_lt _ _ _ WqL Ha). split; intros H'; [specialize (NP _ H')|specialize (NR _ H')]; lia. }
    cbn [vres]. rewrite TP, (ext_tab m4 m5 qR X5 WqR), TR, (ext_tab m3 m5 qL X45 WqL), TL.
    rewrite (ext_tab m2 m3 cR X3 WR), (ext_tab m2 m4 cP X34 WP). reflexivity.
  Qed.

  (** evaluating a table at [nextQL ++ nextQR] *)
  Lemma HEvaluateAt_ok m t nL nR : swf m t -> swf m nL -> swf m nR -> off nL t -> off nL nR ->
    match HEvaluateAt grow m t nL nR with
    | Some (m', v) => keep nL m m' /\ Evaluate (tab m t) (tab m nL ++ tab m nR) = Some v
    | None => Evaluate (tab m t) (tab m nL ++ tab m nR) = None
    end.
  Proof.
    intros Wt WL WR Ot OR. unfold HEvaluateAt.
    destruct (happend_ok m nL nR WL WR) as (m1 & co & E & K & W1 & T & _). rewrite E, T.
    pose proof (HEvaluate_ok m1 t (tab m nL ++ tab m nR) (keep_swf _ _ _ _ K Wt)) as H.
    rewrite (keep_tab _ _ _ _ K Wt Ot) in H.
    destruct (HEvaluate m1 t (tab m nL ++ tab m nR)) as [[m2 v]|]; [|exact H].
    destruct H as [X H]. split; [|exact H]. eapply keep_trans; [exact K|apply ext_keep; exact X].
  Qed.

  Section Loops.
    Variables (m0 : list F) (nL nR : Slice).
    Hypotheses (WL : swf m0 nL) (WR : swf m0 nR) (OR : off nL nR).

    Lemma at_later m t : keep nL m0 m -> swf m0 t -> off nL t ->
      match HEvaluateAt grow m t nL nR with
      | Some (m', v) => keep nL m0 m' /\ Evaluate (tab m0 t) (tab m0 nL ++ tab m0 nR) = Some v
      | None => Evaluate (tab m0 t) (tab m0 nL ++ tab m0 nR) = None
      end.
    Proof.
      intros K Wt Ot.
      pose proof (HEvaluateAt_ok m t nL nR (keep_swf _ _ _ _ K Wt) (keep_swf _ _ _ _ K WL) (keep_swf _ _ _ _ K WR) Ot OR) as H.
      rewrite (keep_tab _ _ _ _ K Wt Ot), (keep_tab _ _ _ _ K WL (off_self nL)), (keep_tab _ _ _ _ K WR OR) in H.
      destruct (HEvaluateAt grow m t nL nR) as [[m' v]|]; [|exact H]. destruct H as [K' H]. split; [|exact H].
      eapply keep_trans; eauto.
    Qed.

    Lemma static_loop ts : forall m acc, keep nL m0 m -> (forall t, In t ts -> swf m0 t /\ off nL t) ->
      match foldM (fun '(m, evals) t => '(m, v) <- HEvaluateAt grow m t nL nR ;; Some (m, evals ++ [v])) ts (m, acc) with
      | Some (m', evals) => keep nL m0 m' /\
          exists vs, evals = acc ++ vs /\ mapM (fun x => Evaluate x (tab m0 nL ++ tab m0 nR)) (map (tab m0) ts) = Some vs
      | None => mapM (fun x => Evaluate x (tab m0 nL ++ tab m0 nR)) (map (tab m0) ts) = None
      end.
    Proof.
      induction ts as [|t ts IH]; intros m acc K Wt; cbn [foldM map mapM].
      - split; [exact K|]. exists []. rewrite app_nil_r. split; reflexivity.
      - destruct (Wt t (or_introl eq_refl)) as [W O]. pose proof (at_later m t K W O) as H.
        destruct (HEvaluateAt grow m t nL nR) as [[m1 v]|]; [|rewrite H; reflexivity]. destruct H as [K1 H]. rewrite H.
        specialize (IH m1 (acc ++ [v]) K1 (fun t' Ht => Wt t' (or_intror Ht))).
        destruct (foldM _ ts (m1, acc ++ [v])) as [[m2 evals]|].
        + destruct IH as [K2 (vs & E & HM)]. rewrite HM. split; [exact K2|]. exists (v :: vs). split; [|reflexivity].
          rewrite E, <- app_assoc. reflexivity.
        + rewrite IH. reflexivity.
    Qed.

    Lemma comb_loop tL tR lL lR is : forall m acc, keep nL m0 m -> (forall t, In t tL \/ In t tR -> swf m0 t /\ off nL t) ->
      let f i := (a <- get (map (tab m0) tL) i ;;
        lv <- Evaluate a (tab m0 nL ++ tab m0 nR) ;;
        b <- get (map (tab m0) tR) i ;;
        rv <- Evaluate b (tab m0 nL ++ tab m0 nR) ;;
        let rv := rv * lR in
        let lv := lv * lL in
        Some (lv + rv)) in
      match foldM (fun '(m, evals) i =>
        a <- get tL i ;;
        '(m, lv) <- HEvaluateAt grow m a nL nR ;;
        b <- get tR i ;;
        '(m, rv) <- HEvaluateAt grow m b nL nR ;;
        let rv := rv * lR in
        let lv := lv * lL in
        Some (m, evals ++ [lv + rv])) is (m, acc) with
      | Some (m', evals) => keep nL m0 m' /\ exists vs, evals = acc ++ vs /\ mapM f is = Some vs
      | None => mapM f is = None
      end.
    Proof.
      cbv zeta. induction is as [|i is IH]; intros m acc K Wt; cbn [foldM mapM].
      - split; [exact K|]. exists []. rewrite app_nil_r. split; reflexivity.
      - rewrite !get_map. destruct (get tL i) as [a|] eqn:Ea; [|reflexivity]. cbn [option_map].
        destruct (Wt a) as [W O]; [left; exact (nth_error_In _ _ Ea)|].
        pose proof (at_later m a K W O) as H.
        destruct (HEvaluateAt grow m a nL nR) as [[m1 lv]|]; [|rewrite H; reflexivity]. destruct H as [K1 H]. rewrite H. clear H.
        destruct (get tR i) as [b|] eqn:Eb; [|reflexivity]. cbn [option_map].
        destruct (Wt b) as [W' O']; [right; exact (nth_error_In _ _ Eb)|].
        pose proof (at_later m1 b K1 W' O') as H.
        destruct (HEvaluateAt grow m1 b nL nR) as [[m2 rv]|]; [|rewrite H; reflexivity]. destruct H as [K2 H]. rewrite H. clear H.
        specialize (IH m2 (acc ++ [lv * lL + rv * lR]) K2 Wt).
        destruct (foldM _ is (m2, acc ++ [lv * lL + rv * lR])) as [[m3 evals]|].
        + destruct IH as [K3 (vs & E & HM)]. rewrite HM. split; [exact K3|]. eexists. split; [|reflexivity].
          rewrite E, <- app_assoc. reflexivity.
        + rewrite IH. reflexivity.
    Qed.
  End Loops.

  Lemma made_off m m' ds nL : swf m nL -> made m m' ds -> forall d, In d ds -> off nL d.
  Proof.
    intros [W1 W2] [H _] d Hd a Ha Hs. destruct (H d Hd) as [_ HB]. unfold cell, spare in *. lia.
  Qed.

  Lemma static_ok m l q nL nR : swf m q -> swf m nL -> swf m nR -> off nL nR ->
    match hevaluateStaticTables grow m l q nL nR with
    | Some (m', sts) => keep nL m m' /\ evaluateStaticTables l (tab m q) (tab m nL) (tab m nR) = Some sts
    | None => evaluateStaticTables l (tab m q) (tab m nL) (tab m nR) = None
    end.
  Proof.
    intros Wq WL WR OR. unfold hevaluateStaticTables, evaluateStaticTables.
    destruct (GetStaticTable l (tab m q)) as [ts|]; [|reflexivity].
    destruct (hmake_ok ts m) as (m1 & ds & E & X & Md & T). rewrite E.
    pose proof (static_loop m1 nL nR (ext_swf _ _ _ X WL) (ext_swf _ _ _ X WR) OR ds m1 [] (keep_refl _ _)) as H.
    rewrite T, (ext_tab _ _ _ X WL), (ext_tab _ _ _ X WR) in H.
    specialize (H (fun t Ht => conj (proj1 (proj1 Md t Ht)) (made_off m m1 ds nL WL Md t Ht))).
    destruct (foldM _ ds (m1, [])) as [[m2 evals]|]; [|exact H].
    destruct H as [K (vs & -> & HM)]. split; [|exact HM]. eapply keep_trans; [apply ext_keep; exact X|exact K].
  Qed.

  Lemma combs_ok m l qL qR nL nR lL lR : swf m qL -> swf m qR -> swf m nL -> swf m nR -> off nL nR ->
    match hevaluateStaticTablesLinCombs grow m l qL qR nL nR lL lR with
    | Some (m', sts) => keep nL m m' /\ evaluateStaticTablesLinCombs l (tab m qL) (tab m qR) (tab m nL) (tab m nR) lL lR = Some sts
    | None => evaluateStaticTablesLinCombs l (tab m qL) (tab m qR) (tab m nL) (tab m nR) lL lR = None
    end.
  Proof.
    intros WqL WqR WL WR OR. unfold hevaluateStaticTablesLinCombs, evaluateStaticTablesLinCombs.
    destruct (GetStaticTable l (tab m qL)) as [tsL|]; [|reflexivity].
    destruct (hmake_ok tsL m) as (m1 & dL & E & X & MdL & TL). rewrite E.
    rewrite (ext_tab _ _ _ X WqR).
    destruct (GetStaticTable l (tab m qR)) as [tsR|]; [|reflexivity].
    destruct (hmake_ok tsR m1) as (m2 & dR & E2 & X2 & MdR & TR). rewrite E2.
    pose proof (ext_trans _ _ _ X X2) as X12.
    pose proof (comb_loop m2 nL nR (ext_swf _ _ _ X12 WL) (ext_swf _ _ _ X12 WR) OR dL dR lL lR (seq 0 (length dL)) m2 [] (keep_refl _ _)) as H.
    cbv zeta in H. rewrite TR, (tabs_ext _ _ _ _ MdL X2), TL, (ext_tab _ _ _ X12 WL), (ext_tab _ _ _ X12 WR) in H.
    replace (length tsL) with (length dL) by (rewrite <- TL, map_length; reflexivity).
    match type of H with ?A -> _ => assert (HA : A) end.
    { intros t [Ht|Ht].
      - split; [exact (ext_swf _ _ _ X2 (proj1 (proj1 MdL t Ht)))|exact (made_off m m1 dL nL WL MdL t Ht)].
      - split; [exact (proj1 (proj1 MdR t Ht))|exact (made_off m1 m2 dR nL (ext_swf _ _ _ X WL) MdR t Ht)]. }
    specialize (H HA).
    destruct (foldM _ (seq 0 (length dL)) (m2, [])) as [[m3 evals]|]; [|exact H].
    destruct H as [K (vs & -> & HM)]. split; [|exact HM]. eapply keep_trans; [apply ext_keep; exact X12|exact K].
  Qed.

  Definition trip m0 m (nP nL nR : Slice) : Prop := (swf m nP /\ swf m nL /\ swf m nR) /\ (newer m0 nP /\ newer m0 nL /\ newer m0 nR).

  Definition vstate m (r : bool + Slice * Slice * Slice) : bool + list F * list F * list F :=
    match r with inl b => inl b | inr (nP, nL, nR) => inr (tab m nP, tab m nL, tab m nR) end.

  Lemma hget_later m0 m s i : ext m0 m -> swf m0 s -> hget m s i = get (tab m0 s) i.
  Proof. intros X W. rewrite <- (ext_tab _ _ _ X W). symmetry. apply get_tab. exact (ext_swf _ _ _ X W). Qed.

  Lemma off_cap nL s : (forall a, capcell nL a -> ~ capcell s a) -> (slen s <= scap s)%nat -> off nL s.
  Proof.
    intros H W a Ha Hs. apply (H a); unfold capcell, spare, cell in *; lia.
  Qed.

  Lemma off_newer m nL s : newer m nL -> swf m s -> off nL s.
  Proof.
    intros N [W1 W2] a Ha Hs. assert (H : capcell nL a) by (unfold capcell, spare in *; lia). specialize (N a H). unfold cell in Ha. lia.
  Qed.

  Lemma map_map_tab m0 m pf layer : ext m0 m -> pfwf m0 pf ->
    get (map (map (tab m0)) (hSumcheckProofs pf)) layer = option_map (map (tab m)) (get (hSumcheckProofs pf) layer).
  Proof.
    intros X (W & _). rewrite get_map. destruct (get (hSumcheckProofs pf) layer) as [sp|] eqn:E; [|reflexivity].
    cbn. f_equal. apply map_ext_in. intros c Hc. symmetry. apply ext_tab; [exact X|]. apply (W sp); [exact (nth_error_In _ _ E)|exact Hc].
  Qed.

  Lemma layers_ok m0 c bN pf : pfwf m0 pf -> forall todo m nP nL nR, ext m0 m -> trip m0 m nP nL nR ->
    match hverifyLayers ch grow m c pf todo nP nL nR with
    | Some (m', r) => ext m0 m' /\
        match r with inl _ => True | inr (a, b, d) => trip m0 m' a b d end /\
        verifyLayers ch true c bN (viewProof m0 pf) todo (tab m nP) (tab m nL) (tab m nR) = Some (vstate m' r)
    | None => verifyLayers ch true c bN (viewProof m0 pf) todo (tab m nP) (tab m nL) (tab m nR) = None
    end.
  Proof.
    intros Wpf. pose proof Wpf as (Wsp & WcL & WcR).
    induction todo as [|layer IH]; intros m nP nL nR X ((WP & WL & WR) & (NP & NL & NR)); cbn [hverifyLayers verifyLayers].
    - split; [exact X|]. split; [split; [auto|auto]|reflexivity].
    - cbn [viewProof ClaimsLeft ClaimsRight SumcheckProofs].
      rewrite !(hget_later m0 m) by assumption.
      destruct (get (tab m0 (hClaimsLeft pf)) (layer + 1)) as [cl|]; [|reflexivity].
      destruct (get (tab m0 (hClaimsRight pf)) (layer + 1)) as [cr|]; [|reflexivity].
      cbv zeta. rewrite (map_map_tab m0 m pf layer X Wpf).
      destruct (get (hSumcheckProofs pf) layer) as [sp|] eqn:Esp; [|reflexivity]. cbn [option_map].
      destruct (get c layer) as [l|]; [|reflexivity].
      assert (Wc : forall d, In d sp -> swf m d).
      { intros d Hd. apply (ext_swf m0); [exact X|]. exact (Wsp sp d (nth_error_In _ _ Esp) Hd). }
      pose proof (HSumVerify_ok m (cr * ch [cl; cr] + cl) sp bN (lBGInputs l) Wc) as HV.
      destruct (HSumVerify ch grow m (cr * ch [cl; cr] + cl) sp (lBGInputs l)) as [[m1 r]|]; [|rewrite HV; reflexivity].
      destruct HV as (X1 & G & E). rewrite E. pose proof (ext_trans _ _ _ X X1) as X01.
      destruct r as [|nP1 nL1 nR1 tot]; cbn [vres].
      { split; [exact X01|]. split; [exact I|reflexivity]. }
      destruct G as ((WP1 & WL1 & WR1) & (NP1 & NL1 & NR1) & D).
      rewrite (ext_tab _ _ _ X1 WP).
      destruct (EvalEq (tab m nP) (tab m1 nP1)) as [e|]; [|reflexivity].
      rewrite !(hget_later m0 m1) by assumption.
      destruct (get (tab m0 (hClaimsLeft pf)) layer) as [vl|]; [|reflexivity].
      destruct (get (tab m0 (hClaimsRight pf)) layer) as [vr|]; [|reflexivity].
      assert (OR1 : off nL1 nR1) by (apply off_cap; [intros a Ha; apply D; exact Ha|apply WR1]).
      assert (OP1 : off nL1 nP1) by (apply off_cap; [intros a Ha; apply D; exact Ha|apply WP1]).
      pose proof (combs_ok m1 l nL nR nL1 nR1 1 (ch [cl; cr]) (ext_swf _ _ _ X1 WL) (ext_swf _ _ _ X1 WR) WL1 WR1 OR1) as HC.
      rewrite (ext_tab _ _ _ X1 WL), (ext_tab _ _ _ X1 WR) in HC.
      destruct (hevaluateStaticTablesLinCombs grow m1 l nL nR nL1 nR1 1 (ch [cl; cr])) as [[m2 sts]|]; [|rewrite HC; reflexivity].
      destruct HC as [K HC]. rewrite HC.
      assert (X02 : ext m0 m2) by (apply (keep_ext nL1 m0 m1); [exact X01|apply (newer_le m0 m); [apply X|exact NL1]|exact K]).
      destruct (EvaluateCombinator vl vr e (lGates l) sts) as [ev|]; [|reflexivity].
      destruct (tot =? ev).
      + specialize (IH m2 nP1 nL1 nR1 X02).
        rewrite (keep_tab _ _ _ _ K WP1 OP1), (keep_tab _ _ _ _ K WL1 (off_self _)), (keep_tab _ _ _ _ K WR1 OR1) in IH.
        apply IH. split; [split; [|split]; eapply keep_swf; eauto|].
        split; [|split]; apply (newer_le m0 m); auto; apply X.
      + split; [exact X02|]. split; [exact I|reflexivity].
  Qed.

  Lemma gkr_verify_memory m bN c pf inputs outputs : pfwf m pf ->
    (forall s, In s inputs -> swf m s) -> (forall s, In s outputs -> swf m s) ->
    match HGkrVerify ch grow m bN c pf inputs outputs with
    | Some (m', b) => ext m m' /\ GkrVerify ch bN c (viewProof m pf) (map (tab m) inputs) (map (tab m) outputs) = Some b
    | None => GkrVerify ch bN c (viewProof m pf) (map (tab m) inputs) (map (tab m) outputs) = None
    end.
  Proof.
    intros Wpf Wi Wo. pose proof Wpf as (Wsp & WcL & WcR). unfold HGkrVerify, GkrVerify, GkrVerifyWith.
    destruct (gosub (length c) 1) as [last|]; [|reflexivity].
    destruct (get c last) as [l|]; [|reflexivity].
    destruct (GetInitialQPrimeAndQ bN (lBGOutputs l)) as [qP q].
    destruct (hmake_ok [qP; q] m) as (m1 & qs & E1 & X1 & Md & T1). rewrite E1.
    destruct qs as [|sP [|sq [|]]]; try discriminate T1. cbn [map] in T1. injection T1 as TP Tq. change (get [sP; sq] 0) with (Some sP). change (get [sP; sq] 1) with (Some sq). cbv iota.
    assert (WsP : swf m1 sP) by (apply Md; left; reflexivity).
    assert (Wsq : swf m1 sq) by (apply Md; right; left; reflexivity).
    destruct (happend_new m1 sq Wsq) as (m2 & co & E2 & X2 & Wco & Tco & Nco). rewrite E2.
    pose proof (ext_swf _ _ _ X2 WsP) as WsP2.
    destruct (happend_ok m2 co sP Wco WsP2) as (m3 & co' & E3 & K3 & Wco' & Tco' & _). rewrite E3.
    assert (X13 : ext m1 m3) by (apply (keep_ext co m1 m2); assumption).
    pose proof (ext_trans _ _ _ X1 X13) as X3.
    rewrite Tco', Tco, (ext_tab _ _ _ X2 WsP), TP, Tq.
    pose proof (HEvaluateChunked_ok m3 outputs (q ++ qP) (fun s Hs => ext_swf _ _ _ X3 (Wo s Hs))) as HE.
    rewrite (ext_tabs m m3 outputs X3 Wo) in HE.
    destruct (HEvaluateChunked m3 outputs (q ++ qP)) as [[m4 claim]|]; [|rewrite HE; reflexivity].
    destruct HE as [X4 HE]. rewrite HE. pose proof (ext_trans _ _ _ X3 X4) as X04.
    change (SumcheckProofs (viewProof m pf)) with (map (map (tab m)) (hSumcheckProofs pf)).
    rewrite (map_map_tab m m4 pf last X04 Wpf).
    destruct (get (hSumcheckProofs pf) last) as [sp|] eqn:Esp; [|reflexivity]. cbn [option_map].
    assert (Wc : forall d, In d sp -> swf m4 d).
    { intros d Hd. apply (ext_swf m); [exact X04|]. exact (Wsp sp d (nth_error_In _ _ Esp) Hd). }
    pose proof (HSumVerify_ok m4 claim sp bN (lBGInputs l) Wc) as HV.
    destruct (HSumVerify ch grow m4 claim sp (lBGInputs l)) as [[m5 r]|]; [|rewrite HV; reflexivity].
    destruct HV as (X5 & G & E). rewrite E. pose proof (ext_trans _ _ _ X04 X5) as X05.
    destruct r as [|nP nL nR tot]; cbn [vres].
    { split; [exact X05|reflexivity]. }
    destruct G as ((WP & WL & WR) & (NP & NL & NR) & D).
    pose proof (ext_trans _ _ _ X13 (ext_trans _ _ _ X4 X5)) as X15.
    rewrite (ext_tab _ _ _ X15 WsP), TP.
    destruct (EvalEq qP (tab m5 nP)) as [e|]; [|reflexivity].
    rewrite !(hget_later m m5) by assumption. cbn [viewProof ClaimsLeft ClaimsRight].
    destruct (get (tab m (hClaimsLeft pf)) last) as [vl|]; [|reflexivity].
    destruct (get (tab m (hClaimsRight pf)) last) as [vr|]; [|reflexivity].
    assert (OR1 : off nL nR) by (apply off_cap; [intros a Ha; apply D; exact Ha|apply WR]).
    assert (OP1 : off nL nP) by (apply off_cap; [intros a Ha; apply D; exact Ha|apply WP]).
    pose proof (static_ok m5 l sq nL nR (ext_swf _ _ _ X15 Wsq) WL WR OR1) as HC.
    rewrite (ext_tab _ _ _ X15 Wsq), Tq in HC.
    destruct (hevaluateStaticTables grow m5 l sq nL nR) as [[m6 sts]|]; [|rewrite HC; reflexivity].
    destruct HC as [K HC]. rewrite HC.
    assert (L04 : (length m <= length m4)%nat) by apply X04.
    assert (X06 : ext m m6) by (apply (keep_ext nL m m5); [exact X05|apply (newer_le m m4); [exact L04|exact NL]|exact K]).
    destruct (EvaluateCombinator vl vr e (lGates l) sts) as [ev|]; [|reflexivity].
    destruct (tot =? ev); [|split; [exact X06|reflexivity]].
    pose proof (layers_ok m c bN pf Wpf last m6 nP nL nR X06) as HL.
    rewrite (keep_tab _ _ _ _ K WP OP1), (keep_tab _ _ _ _ K WL (off_self _)), (keep_tab _ _ _ _ K WR OR1) in HL.
    assert (HT : trip m m6 nP nL nR).
    { split; [split; [|split]; eapply keep_swf; eauto|]. split; [|split]; apply (newer_le m m4); auto. }
    specialize (HL HT). cbn [viewProof] in HL |- *.
    destruct (hverifyLayers ch grow m6 c pf last nP nL nR) as [[m7 r]|]; [|rewrite HL; reflexivity].
    destruct HL as (X7 & HT7 & HL). rewrite HL.
    destruct r as [b|[[nP7 nL7] nR7]]; cbn [vstate]; [split; [exact X7|reflexivity]|].
    pose proof (HEvaluateMixedChunked_ok m7 inputs (tab m7 nP7) (tab m7 nL7) (tab m7 nR7) (fun s Hs => ext_swf _ _ _ X7 (Wi s Hs))) as HE2.
    rewrite (ext_tabs m m7 inputs X7 Wi) in HE2.
    destruct (HEvaluateMixedChunked m7 inputs (tab m7 nP7) (tab m7 nL7) (tab m7 nR7)) as [[m8 [aL aR]]|]; [|rewrite HE2; reflexivity].
    destruct HE2 as [X8 HE2]. rewrite HE2. pose proof (ext_trans _ _ _ X7 X8) as X08.
    rewrite !(hget_later m m8) by assumption.
    destruct (get (tab m (hClaimsLeft pf)) 0) as [vl0|]; [|reflexivity].
    destruct (get (tab m (hClaimsRight pf)) 0) as [vr0|]; [|reflexivity].
    split; [exact X08|reflexivity].
  Qed.

  (** Any proof, inputs and outputs can be laid out in memory. *)
  Lemma proof_store pf inputs outputs : exists m hpf ins outs, pfwf m hpf /\ (forall s, In s ins -> swf m s) /\ (forall s, In s outs -> swf m s) /\
    viewProof m hpf = pf /\ map (tab m) ins = inputs /\ map (tab m) outs = outputs.
  Proof.
    destruct (store_ok (SumcheckProofs pf) []) as (m1 & sps & _ & W1 & V1).
    destruct (hmake_ok [ClaimsLeft pf; ClaimsRight pf] m1) as (m2 & cs & _ & X2 & Md2 & T2).
    destruct (hmake_ok inputs m2) as (m3 & ins & _ & X3 & Md3 & T3).
    destruct (hmake_ok outputs m3) as (m4 & outs & _ & X4 & Md4 & T4).
    destruct cs as [|cl [|cr [|]]]; try discriminate T2. cbn [map] in T2. injection T2 as TL TR.
    pose proof (ext_trans _ _ _ X3 X4) as X24. pose proof (ext_trans _ _ _ X2 X24) as X14.
    assert (WL : swf m2 cl) by (apply Md2; left; reflexivity). assert (WR : swf m2 cr) by (apply Md2; right; left; reflexivity).
    exists m4, (MkHProof sps cl cr), ins, outs. split; [|split; [|split; [|split; [|split]]]].
    - split; [|split; [exact (ext_swf _ _ _ X24 WL)|exact (ext_swf _ _ _ X24 WR)]].
      intros ss s Hss Hs. exact (ext_swf _ _ _ X14 (W1 ss s Hss Hs)).
    - intros s Hs. apply (ext_swf _ _ _ X4). apply Md3, Hs.
    - intros s Hs. apply Md4, Hs.
    - unfold viewProof. cbn [hSumcheckProofs hClaimsLeft hClaimsRight].
      rewrite (ext_tab _ _ _ X24 WL), (ext_tab _ _ _ X24 WR), TL, TR. destruct pf as [sp l r]. cbn [SumcheckProofs ClaimsLeft ClaimsRight] in *.
      f_equal. rewrite <- V1. apply map_ext_in. intros ss Hss. apply map_ext_in. intros s Hs. exact (ext_tab _ _ _ X14 (W1 ss s Hss Hs)).
    - rewrite <- T3. apply ext_tabs; [exact X4|]. intros s Hs. apply Md3, Hs.
    - exact T4.
  Qed.

  Lemma sum_verify_memory m claim proof bN bG : (forall c, In c proof -> swf m c) ->
    match HSumVerify ch grow m claim proof bG with
    | Some (m', HReject) => ext m m' /\ Verify ch claim (map (tab m) proof) bN bG = Some Reject
    | Some (m', HAccept qPrime qL qR fin) => ext m m' /\
        Verify ch claim (map (tab m) proof) bN bG = Some (Accept (tab m' qPrime) (tab m' qL) (tab m' qR) fin) /\
        (forall a, (base qPrime <= a < base qPrime + scap qPrime \/ base qL <= a < base qL + scap qL \/ base qR <= a < base qR + scap qR -> length m <= a)%nat) /\
        (forall a, (base qL <= a < base qL + scap qL -> ~ base qPrime <= a < base qPrime + scap qPrime /\ ~ base qR <= a < base qR + scap qR)%nat)
    | None => Verify ch claim (map (tab m) proof) bN bG = None
    end.
  Proof.
    intros Wp. pose proof (HSumVerify_ok m claim proof bN bG Wp) as H.
    destruct (HSumVerify ch grow m claim proof bG) as [[m' [|qP qL qR fin]]|]; [| |exact H].
    - destruct H as (X & _ & E). split; assumption.
    - destruct H as (X & (_ & (NP & NL & NR) & D) & E). split; [exact X|]. split; [exact E|]. split; [|exact D].
      intros a [H|[H|H]]; [apply NP|apply NL|apply NR]; exact H.
  Qed.
End S.
