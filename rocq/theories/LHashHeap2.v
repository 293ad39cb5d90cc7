(** Package hash in memory, continued: matrices, Poseidon, the blocks of a message, the hashes. *)
From Coq Require Import List Arith Lia Bool.
From Verif Require Import Field Go MHeap SpecHeap MHash MHashHeap LHash LHashHeap.
Import ListNotations.

Lemma rel_fold {A P S} (R : P -> S -> Prop) (f : P -> A -> option P) (fh : S -> A -> option S) :
  (forall i p st, R p st -> match f p i with Some p' => exists st', fh st i = Some st' /\ R p' st' | None => fh st i = None end) ->
  forall is p st, R p st -> match foldM f is p with Some p' => exists st', foldM fh is st = Some st' /\ R p' st' | None => foldM fh is st = None end.
Proof.
  intros H. induction is as [|i is IH]; intros p st HR; simpl; [now exists st|].
  specialize (H i p st HR). destruct (f p i) as [p'|].
  - destruct H as (st' & -> & HR'). exact (IH p' st' HR').
  - now rewrite H.
Qed.

Lemma Forall2_len {A B} (R : A -> B -> Prop) l1 l2 : Forall2 R l1 l2 -> length l1 = length l2.
Proof. induction 1; simpl; congruence. Qed.
Lemma Forall2_imp {A B} (R S : A -> B -> Prop) l1 l2 : (forall a b, R a b -> S a b) -> Forall2 R l1 l2 -> Forall2 S l1 l2.
Proof. intros H. induction 1; constructor; auto. Qed.
Lemma Forall2_nth {A B} (R : A -> B -> Prop) l1 l2 : Forall2 R l1 l2 -> forall i a, nth_error l1 i = Some a -> exists b, nth_error l2 i = Some b /\ R a b.
Proof.
  induction 1 as [|x y l1 l2 Hxy _ IH]; intros [|i] a Hi; simpl in *; try discriminate.
  - injection Hi as <-. now exists y.
  - exact (IH i a Hi).
Qed.

Lemma upd_snoc {A} (r q : list A) x k v : length r = k -> upd (r ++ x :: q) k v = r ++ v :: q.
Proof. intros <-. induction r as [|a r IH]; simpl; [reflexivity|]. now rewrite IH. Qed.

Section L.
  Context {F : Field}.
  Open Scope F_scope.
  Variable writable : nat -> bool.
  Notation Mem := (list F).
  Notation above := (above writable).
  Notation wr := (wr writable).

  Lemma matmul_ok (X : Mem) mat rows vec vs : Forall2 (holds X) mat rows -> holds X vec vs -> above (length X) ->
    HMatrixMultiplication writable X mat vec
    = (r <- MatrixMultiplication rows vs ;; Some (X ++ r, MkSlice (length X) (length mat) (length mat))).
  Proof.
    intros HM Hv Ha. unfold HMatrixMultiplication, halloc. set (res := MkSlice _ _ _).
    assert (Hlen : length rows = length mat) by (symmetry; exact (Forall2_len _ _ _ HM)).
    assert (H : forall k, (k <= length mat)%nat ->
      foldM (fun m i => col <- get mat i ;; forN (slen col) (fun m j => el <- hget m col j ;; tmp <- hget m vec j ;; let tmp := tmp * el in
        r <- hget m res i ;; wset writable m res i (r + tmp)) m) (seq 0 k) (X ++ repeat 0 (length mat))
      = (r <- mapM (rowdot vs) (firstn k rows) ;; Some (X ++ r ++ repeat 0 (length mat - k)))).
    { induction k as [|k IH]; intros Hk; [simpl; now rewrite Nat.sub_0_r|].
      rewrite seq_S, foldM_app, IH by lia. cbn [foldM]. rewrite Nat.add_0_l.
      destruct (nth_error mat k) as [col|] eqn:Ec; [|apply nth_error_None in Ec; lia].
      destruct (Forall2_nth _ _ _ HM k col Ec) as (row & Er & Hrow).
      rewrite (firstn_snoc rows k row Er), mapM_app.
      destruct (mapM (rowdot vs) (firstn k rows)) as [r|] eqn:Em; [|reflexivity].
      assert (Hr : length r = k) by (rewrite (mapM_len _ _ _ Em), firstn_length; lia).
      change (get mat k) with (nth_error mat k). rewrite Ec.
      rewrite (dot_loop writable _ X (r ++ repeat 0 (length mat - k)) [] col row vec vs res k); try assumption; try reflexivity.
      - cbn [mapM]. destruct (rowdot vs row) as [d|]; [|reflexivity].
        replace (upd (r ++ repeat 0 (length mat - k)) k d) with ((r ++ [d]) ++ repeat 0 (length mat - S k)).
        { now rewrite app_nil_r. }
        replace (length mat - k)%nat with (S (length mat - S k)) by lia. cbn [repeat].
        rewrite upd_snoc by exact Hr. now rewrite <- app_assoc.
      - now rewrite app_nil_r.
      - simpl. rewrite app_length, repeat_length. lia.
      - now apply (above_wr writable (length X)).
      - rewrite app_length, repeat_length. lia.
      - rewrite app_nth2 by lia. rewrite Hr, Nat.sub_diag. replace (length mat - k)%nat with (S (length mat - S k)) by lia. reflexivity. }
    unfold forN. rewrite H by lia. rewrite <- Hlen, firstn_all. unfold MatrixMultiplication.
    change (mapM (rowdot vs) rows) with (mapM (fun row => foldM (fun res (je : nat * F) => let '(j, el) := je in v <- get vs j ;; Some (res + v * el))
      (combine (seq 0 (length row)) row) 0) rows).
    destruct (mapM _ rows) as [r|]; [|reflexivity]. rewrite Nat.sub_diag. simpl. now rewrite app_nil_r.
  Qed.

  Lemma Forall2_sees X Y n mat rows l : Forall2 (sees (F:=F) X Y n) mat rows -> length l = n -> Forall2 (holds (X ++ l ++ Y)) mat rows.
  Proof. intros H Hl. eapply Forall2_imp; [|exact H]. intros k ks Hk. now apply Hk. Qed.
  Lemma Forall2_holds_app (M E : Mem) mat rows : Forall2 (holds M) mat rows -> Forall2 (holds (M ++ E)) mat rows.
  Proof. intros H. eapply Forall2_imp; [|exact H]. intros k ks. apply holds_app. Qed.

  Section Poseidon.
    Variables (X Y : Mem) (n : nat) (s0 arks block : Slice) (As ks : list F) (mat : list Slice) (rows : list (list F)).
    Hypotheses (Hb : base s0 = length X) (Hs : slen s0 = n) (Hw : wr X n) (Ha : above (length X + n + length Y))
      (HA : sees X Y n arks As) (Hk : sees X Y n block ks) (HM : Forall2 (sees X Y n) mat rows).

    Definition prep (P : PState) (st : Mem * Slice) : Prop :=
      length (caller P) = n /\ exists G, match local P with
        | None => fst st = X ++ caller P ++ Y ++ G /\ snd st = s0
        | Some l => fst st = X ++ caller P ++ Y ++ G ++ l /\ base (snd st) = length (X ++ caller P ++ Y ++ G) /\ slen (snd st) = length l
        end.

    Lemma round_ok full i P st : prep P st -> match poseidonRound As rows ks full i P with
      | Some P' => exists st', HPoseidonRound writable arks block mat full st i = Some st' /\ prep P' st'
      | None => HPoseidonRound writable arks block mat full st i = None end.
    Proof.
      destruct P as [c [l|]], st as [M s]; unfold prep at 1; cbn [caller local fst snd]; intros (Hc & G & H).
      - destruct H as (-> & Hbs & Hls).
        set (X' := X ++ c ++ Y ++ G). replace (X ++ c ++ Y ++ G ++ l) with (X' ++ l ++ []) by (unfold X'; rewrite app_nil_r, <- !app_assoc; reflexivity).
        assert (HX : forall k kv, sees X Y n k kv -> holds X' k kv).
        { intros k kv H. unfold X'. rewrite !app_assoc. apply holds_app. rewrite <- app_assoc. now apply H. }
        assert (Hw' : wr X' (length l)) by (apply (above_wr writable _ _ _ Ha); unfold X'; rewrite !app_length; lia).
        unfold poseidonRound, HPoseidonRound. cbn [current local].
        rewrite (proj2 (holds_app X' (l ++ []) arks As (HX _ _ HA))). destruct (get As i) as [ark|]; [|reflexivity].
        destruct (sim_addark writable X' [] (length l) s Hbs Hls Hw' block ks ark (sees_after X' [] _ _ _ (HX _ _ Hk)) l eq_refl) as [-> HL1].
        destruct (AddArkAndKeys l ks ark) as [l1|]; [|reflexivity]. specialize (HL1 _ eq_refl). cbn [write current local caller].
        assert (Hsb : sim X' [] (length l) (fun m => if full then HFullRound writable m s else HPartialRound writable m s)
          (fun l => if full then FullRound l else PartialRound l)).
        { destruct full; [now apply sim_full|now apply sim_partial]. }
        destruct (Hsb l1 HL1) as [-> HL2]. destruct (if full then FullRound l1 else PartialRound l1) as [l2|]; [|reflexivity].
        specialize (HL2 _ eq_refl). cbn [write current local caller].
        rewrite (matmul_ok (X' ++ l2 ++ []) mat rows s l2).
        + destruct (MatrixMultiplication rows l2) as [r|] eqn:Er; [|reflexivity]. eexists. split; [reflexivity|].
          split; [exact Hc|]. cbn [local fst snd caller]. exists (G ++ l2). unfold X'. rewrite app_nil_r, <- !app_assoc. split; [reflexivity|]. split.
          * cbn [base]. f_equal. 
          * cbn [slen]. rewrite (mapM_len _ _ _ Er). exact (Forall2_len _ _ _ HM).
        + apply Forall2_holds_app. eapply Forall2_imp; [|exact HM]. exact HX.
        + apply holds_win; [exact Hbs|congruence].
        + intros a Hge. apply Ha. unfold X' in Hge. rewrite !app_length in Hge. lia.
      - destruct H as (-> & ->).
        unfold poseidonRound, HPoseidonRound. cbn [current local].
        assert (HA' := sees_more X Y G _ _ _ HA). assert (Hk' := sees_more X Y G _ _ _ Hk).
        rewrite (proj2 (HA' c Hc)). cbn [caller]. destruct (get As i) as [ark|]; [|reflexivity].
        destruct (sim_addark writable X (Y ++ G) n s0 Hb Hs Hw block ks ark Hk' c Hc) as [-> HL1].
        destruct (AddArkAndKeys c ks ark) as [l1|]; [|reflexivity]. specialize (HL1 _ eq_refl). cbn [write current local caller].
        assert (Hsb : sim X (Y ++ G) n (fun m => if full then HFullRound writable m s0 else HPartialRound writable m s0)
          (fun l => if full then FullRound l else PartialRound l)).
        { destruct full; [now apply sim_full|now apply sim_partial]. }
        destruct (Hsb l1 HL1) as [-> HL2]. destruct (if full then FullRound l1 else PartialRound l1) as [l2|]; [|reflexivity].
        specialize (HL2 _ eq_refl). cbn [write current local caller].
        rewrite (matmul_ok (X ++ l2 ++ Y ++ G) mat rows s0 l2).
        + destruct (MatrixMultiplication rows l2) as [r|] eqn:Er; [|reflexivity]. eexists. split; [reflexivity|].
          split; [exact HL2|]. cbn [local fst snd caller]. exists G. rewrite <- !app_assoc. split; [reflexivity|]. split; [reflexivity|].
          cbn [slen]. rewrite (mapM_len _ _ _ Er). exact (Forall2_len _ _ _ HM).
        + replace (X ++ l2 ++ Y ++ G) with ((X ++ l2 ++ Y) ++ G) by (now rewrite <- !app_assoc).
          apply Forall2_holds_app. now apply (Forall2_sees X Y n).
        + apply holds_win; congruence.
        + intros a Hge. apply Ha. rewrite !app_length in Hge. lia.
    Qed.
  End Poseidon.

  (** Update of Poseidon *)
  Lemma poseidon_update_ok (X Y l : Mem) s arks As mat rows nF nP k ks : base s = length X -> slen s = length l -> wr X (length l) ->
    above (length X + length l + length Y) -> sees X Y (length l) arks As -> sees X Y (length l) k ks -> Forall2 (sees X Y (length l)) mat rows ->
    match PoseidonUpdate As rows nF nP l ks with
    | Some l' => length l' = length l /\ exists G, HPoseidonUpdate writable (X ++ l ++ Y) arks mat nF nP s k = Some (X ++ l' ++ Y ++ G)
    | None => HPoseidonUpdate writable (X ++ l ++ Y) arks mat nF nP s k = None end.
  Proof.
    intros Hb Hs Hw Ha HA Hk HM. unfold HPoseidonUpdate, PoseidonUpdate.
    rewrite (HAppendNew_ok writable _ s l (holds_win X l Y s Hb Hs)) by (intros a Hge; apply Ha; rewrite !app_length in Hge; lia).
    rewrite <- !app_assoc. set (o := MkSlice _ _ _). set (Y1 := Y ++ l).
    assert (Ho : sees X Y1 (length l) o l).
    { intros l0 Hl0. unfold Y1. replace (X ++ l0 ++ Y ++ l) with ((X ++ l0 ++ Y) ++ l ++ []) by (now rewrite app_nil_r, <- !app_assoc).
      apply holds_win; [|exact Hs]. simpl. rewrite !app_length. lia. }
    assert (HA' := sees_more X Y l _ _ _ HA). assert (Hk' := sees_more X Y l _ _ _ Hk). fold Y1 in HA', Hk'.
    assert (HM' : Forall2 (sees X Y1 (length l)) mat rows) by (eapply Forall2_imp; [|exact HM]; intros; now apply sees_more).
    assert (Ha' : above (length X + length l + length Y1)) by (intros a Hge; apply Ha; unfold Y1 in Hge; rewrite app_length in Hge; lia).
    assert (R := fun full => rel_fold (prep X Y1 (length l) s) (fun p i => poseidonRound As rows ks full i p) (HPoseidonRound writable arks k mat full)
      (fun i p st => round_ok X Y1 (length l) s arks k As ks mat rows Hb Hs Hw Ha' HA' Hk' HM' full i p st)).
    assert (P0 : prep X Y1 (length l) s (MkP l None) (X ++ l ++ Y1, s)).
    { split; [reflexivity|]. exists []. cbn [local fst snd caller]. now rewrite !app_nil_r. }
    unfold forRange.
    pose proof (R true (seq 0 (nF - 0)) _ _ P0) as E1.
    destruct (foldM (fun p i => poseidonRound As rows ks true i p) (seq 0 (nF - 0)) (MkP l None)) as [p1|]; [|now rewrite E1].
    destruct E1 as (st1 & -> & P1). pose proof (R false (seq nF (nF + nP - nF)) _ _ P1) as E2.
    destruct (foldM (fun p i => poseidonRound As rows ks false i p) (seq nF (nF + nP - nF)) p1) as [p2|]; [|now rewrite E2].
    destruct E2 as (st2 & -> & P2). pose proof (R true (seq (nF + nP) (2 * nF + nP - (nF + nP))) _ _ P2) as E3.
    destruct (foldM (fun p i => poseidonRound As rows ks true i p) (seq (nF + nP) (2 * nF + nP - (nF + nP))) p2) as [p3|]; [|now rewrite E3].
    destruct E3 as ([M3 s3] & -> & P3). destruct p3 as [c [lo|]]; destruct P3 as (Hc & G & H); cbn [current local caller fst snd write] in *.
    - destruct H as (-> & Hb3 & Hs3). set (X' := X ++ c ++ Y1 ++ G) in *.
      replace (X ++ c ++ Y1 ++ G ++ lo) with (X' ++ lo ++ []) by (unfold X'; rewrite app_nil_r, <- !app_assoc; reflexivity).
      assert (HX : forall kk kv, sees X Y1 (length l) kk kv -> holds X' kk kv).
      { intros kk kv H. unfold X'. rewrite !app_assoc. apply holds_app. rewrite <- app_assoc. now apply H. }
      assert (Hw' : wr X' (length lo)) by (apply (above_wr writable _ _ _ Ha'); unfold X'; rewrite !app_length; lia).
      destruct (sim_recombine writable X' [] (length lo) s3 Hb3 Hs3 Hw' o l k ks (sees_after X' [] _ _ _ (HX _ _ Ho)) (sees_after X' [] _ _ _ (HX _ _ Hk')) lo eq_refl)
        as [-> _].
      destruct (recombine lo l ks) as [r|]; [|reflexivity]. split; [exact Hc|]. exists (l ++ G ++ r). unfold X', Y1. rewrite app_nil_r, <- !app_assoc. reflexivity.
    - destruct H as (-> & ->).
      destruct (sim_recombine writable X (Y1 ++ G) (length l) s Hb Hs Hw o l k ks (sees_more _ _ _ _ _ _ Ho) (sees_more _ _ _ _ _ _ Hk') c Hc) as [-> HL].
      destruct (recombine c l ks) as [r|]; [|reflexivity]. split; [now apply HL|]. exists (l ++ G). unfold Y1. now rewrite <- !app_assoc.
  Qed.

  (** GenerateMDSMatrix *)
  Lemma mds_row (X : Mem) row t xs Xs ys Ys i : base row = length X -> slen row = t -> wr X t -> holds X xs Xs -> holds X ys Ys ->
    forN t (fun m j => x <- hget m xs i ;; m <- wset writable m row j x ;; y <- hget m ys j ;; r <- hget m row j ;; m <- wset writable m row j (r + y) ;;
      r <- hget m row j ;; wset writable m row j (finv r)) (X ++ repeat 0 t)
    = (r <- mapM (fun j => x <- get Xs i ;; y <- get Ys j ;; Some (finv (x + y))) (seq 0 t) ;; Some (X ++ r)).
  Proof.
    intros Hb Hs Hw Hx Hy.
    assert (H : forall k, (k <= t)%nat ->
      foldM (fun m j => x <- hget m xs i ;; m <- wset writable m row j x ;; y <- hget m ys j ;; r <- hget m row j ;; m <- wset writable m row j (r + y) ;;
        r <- hget m row j ;; wset writable m row j (finv r)) (seq 0 k) (X ++ repeat 0 t ++ [])
      = (r <- mapM (fun j => x <- get Xs i ;; y <- get Ys j ;; Some (finv (x + y))) (seq 0 k) ;; Some (X ++ (r ++ repeat 0 (t - k)) ++ []))).
    { induction k as [|k IH]; intros Hk; [simpl; now rewrite Nat.sub_0_r|].
      rewrite seq_S, foldM_app, IH, mapM_app by lia. cbn [foldM]. rewrite Nat.add_0_l.
      destruct (mapM _ (seq 0 k)) as [r|] eqn:Em; [|reflexivity]. apply mapM_len in Em. rewrite seq_length in Em. cbn [mapM].
      set (l := r ++ repeat 0 (t - k)). assert (Hl : length l = t) by (unfold l; rewrite app_length, repeat_length; lia).
      rewrite (proj2 (holds_app X (l ++ []) xs Xs Hx)). destruct (get Xs i) as [x|]; [|reflexivity].
      rewrite (wset_win writable X l []) by (congruence || now rewrite Hl). rewrite set_some by lia.
      rewrite (proj2 (holds_app X (upd l k x ++ []) ys Ys Hy)). destruct (get Ys k) as [y|]; [|reflexivity].
      rewrite (hget_win X _ []) by (rewrite ?upd_length; congruence). rewrite get_upd_same by lia.
      rewrite (wset_win writable X _ []) by (rewrite ?upd_length; congruence || now rewrite Hl). rewrite set_some by (rewrite upd_length; lia). rewrite upd_upd.
      rewrite (hget_win X _ []) by (rewrite ?upd_length; congruence). rewrite get_upd_same by lia.
      rewrite (wset_win writable X _ []) by (rewrite ?upd_length; congruence || now rewrite Hl). rewrite set_some by (rewrite upd_length; lia). rewrite upd_upd.
      f_equal. f_equal. f_equal. unfold l. replace (t - k)%nat with (S (t - S k)) by lia. cbn [repeat].
      rewrite upd_snoc by exact Em. now rewrite <- app_assoc. }
    unfold forN. rewrite <- (app_nil_r (repeat 0 t)). rewrite H by lia.
    destruct (mapM _ (seq 0 t)) as [r|]; [|reflexivity]. rewrite Nat.sub_diag. simpl. now rewrite !app_nil_r.
  Qed.

  Lemma mds_ok (M : Mem) xs Xs ys Ys t : holds M xs Xs -> holds M ys Ys -> above (length M) ->
    match GenerateMDSMatrix Xs Ys t with
    | Some rows => exists mat, HGenerateMDSMatrix writable M xs ys t = Some (M ++ concat rows, mat) /\ Forall2 (holds (M ++ concat rows)) mat rows
        /\ (forall r, In r mat -> (length M <= base r /\ base r + slen r <= length (M ++ concat rows))%nat)
    | None => HGenerateMDSMatrix writable M xs ys t = None end.
  Proof.
    intros Hx Hy Ha. unfold HGenerateMDSMatrix, GenerateMDSMatrix.
    set (f := fun i => mapM (fun j => x <- get Xs i ;; y <- get Ys j ;; Some (finv (x + y))) (seq 0 t)).
    change (mapM _ (seq 0 t)) with (mapM f (seq 0 t)).
    assert (H : forall is done mat, Forall2 (holds (M ++ concat done)) mat done -> (forall r, In r mat -> (length M <= base r /\ base r + slen r <= length (M ++ concat done))%nat) ->
      match mapM f is with
      | Some rows => exists mat', foldM (fun '(m, result) i =>
          let '(m0, row) := halloc m t in
          m1 <- forN t (fun m1 j => x <- hget m1 xs i ;; m2 <- wset writable m1 row j x ;; y <- hget m2 ys j ;; r <- hget m2 row j ;; m3 <- wset writable m2 row j (r + y) ;;
            r0 <- hget m3 row j ;; wset writable m3 row j (finv r0)) m0 ;; Some (m1, result ++ [row])) is (M ++ concat done, mat) = Some (M ++ concat (done ++ rows), mat')
          /\ Forall2 (holds (M ++ concat (done ++ rows))) mat' (done ++ rows) /\ (forall r, In r mat' -> (length M <= base r /\ base r + slen r <= length (M ++ concat (done ++ rows)))%nat)
      | None => foldM (fun '(m, result) i =>
          let '(m0, row) := halloc m t in
          m1 <- forN t (fun m1 j => x <- hget m1 xs i ;; m2 <- wset writable m1 row j x ;; y <- hget m2 ys j ;; r <- hget m2 row j ;; m3 <- wset writable m2 row j (r + y) ;;
            r0 <- hget m3 row j ;; wset writable m3 row j (finv r0)) m0 ;; Some (m1, result ++ [row])) is (M ++ concat done, mat) = None end).
    { induction is as [|i is IH]; intros done mat HD HB.
      - cbn [mapM foldM]. exists mat. now rewrite app_nil_r.
      - cbn [mapM foldM]. unfold halloc at 1 3. set (row := MkSlice (length (M ++ concat done)) t t).
        rewrite (mds_row (M ++ concat done) row t xs Xs ys Ys i eq_refl eq_refl);
          [|apply (above_wr writable (length M) _ _ Ha); rewrite app_length; lia|now apply holds_app|now apply holds_app].
        fold (f i). destruct (f i) as [r|] eqn:Er; [|reflexivity].
        assert (Hr : length r = t) by (unfold f in Er; rewrite (mapM_len _ _ _ Er); apply seq_length).
        rewrite <- app_assoc. replace (concat done ++ r) with (concat (done ++ [r])) by (rewrite concat_app; simpl; now rewrite app_nil_r).
        assert (HD' : Forall2 (holds (M ++ concat (done ++ [r]))) (mat ++ [row]) (done ++ [r])).
        { rewrite concat_app. simpl. rewrite app_nil_r, app_assoc. apply Forall2_app; [now apply Forall2_holds_app|]. constructor; [|constructor].
          rewrite <- (app_nil_r r) at 1. apply holds_win; [reflexivity|]. simpl. congruence. }
        assert (HB' : forall r0, In r0 (mat ++ [row]) -> (length M <= base r0 /\ base r0 + slen r0 <= length (M ++ concat (done ++ [r])))%nat).
        { intros r0 Hr0. apply in_app_iff in Hr0. rewrite concat_app, !app_length. simpl. rewrite app_nil_r.
          destruct Hr0 as [Hr0|[<-|[]]]; [specialize (HB r0 Hr0); rewrite app_length in HB; lia|]. unfold row. simpl. rewrite app_length. lia. }
        specialize (IH (done ++ [r]) (mat ++ [row]) HD' HB'). destruct (mapM f is) as [rows|].
        + destruct IH as (mat' & E & H). exists mat'. rewrite <- app_assoc in E, H. now split.
        + exact IH. }
    specialize (H (seq 0 t) [] [] (Forall2_nil _) (fun r (h : In r []) => match h with end)). cbn [concat] in H. rewrite app_nil_r in H.
    destruct (mapM f (seq 0 t)) as [rows|]; [|exact H]. destruct H as (mat' & E & H). exists mat'. now split.
  Qed.

  (** ** The block and the loop of Hash *)
  Lemma holds_slice (M : Mem) s l a b : holds M s l -> (slen s <= scap s)%nat -> (b <= slen s)%nat ->
    match slice l a b with
    | Some l' => exists s', hslice s a b = Some s' /\ holds M s' l'
    | None => hslice s a b = None end.
  Proof.
    intros [Hl Hh] Hc Hb. unfold slice, hslice. destruct (Nat.leb_spec a b) as [Hab|]; [|reflexivity].
    replace (b <=? length l)%nat with true by (symmetry; apply Nat.leb_le; lia). replace (b <=? scap s)%nat with true by (symmetry; apply Nat.leb_le; lia).
    cbn [andb]. eexists. split; [reflexivity|]. split; [simpl; rewrite firstn_length, skipn_length; lia|].
    intros i. unfold hget. simpl. destruct (Nat.ltb_spec i (b - a)).
    - specialize (Hh (a + i)%nat). unfold hget in Hh. replace (a + i <? slen s)%nat with true in Hh by (symmetry; apply Nat.ltb_lt; lia).
      rewrite <- Nat.add_assoc, Hh. rewrite (get_nth _ _ 0) by lia. rewrite (get_nth _ i 0) by (rewrite firstn_length, skipn_length; lia).
      f_equal. rewrite nth_firstn by lia. now rewrite nth_skipn.
    - symmetry. apply get_none. rewrite firstn_length. lia.
  Qed.

  Lemma block_ok (M : Mem) t msg ms i : holds M msg ms -> (slen msg <= scap msg)%nat -> above (length M) ->
    HBlockAt writable M t msg i = (b <- blockAt t ms i ;; Some (M ++ b, MkSlice (length M) t t)) /\
    (forall b, blockAt t ms i = Some b -> length b = t).
  Proof.
    intros Hm Hc Ha. unfold HBlockAt, blockAt, halloc. set (blk := MkSlice (length M) t t). rewrite (proj1 Hm).
    assert (H : forall e, (e <= slen msg)%nat ->
      (ws <- hslice msg i e ;; m <- forN (slen ws) (fun m j => w <- hget m ws j ;; wset writable m blk j w) (M ++ repeat 0 t) ;; Some (m, blk))
      = (b <- (ws <- slice ms i e ;; forN (length ws) (fun block j => w <- get ws j ;; set block j w) (repeat 0 t)) ;; Some (M ++ b, blk)) /\
      (forall b, (ws <- slice ms i e ;; forN (length ws) (fun block j => w <- get ws j ;; set block j w) (repeat 0 t)) = Some b -> length b = t)).
    { intros e He. pose proof (holds_slice M msg ms i e Hm Hc He) as Hsl. destruct (slice ms i e) as [l'|]; [|rewrite Hsl; split; [reflexivity|discriminate]].
      destruct Hsl as (s' & -> & Hs').
      assert (Hsim : sim M [] t (fun m => foldM (fun m j => w <- hget m s' j ;; wset writable m blk j w) (seq 0 (slen s')) m)
        (fun l => foldM (fun l j => w <- get l' j ;; set l j w) (seq 0 (slen s')) l)).
      { apply sim_fold. intros j _. apply (sim_read M [] t s' l' j (fun w m => wset writable m blk j w) (fun w l => set l j w)); [now apply sees_after|].
        intros w. apply sim_set; [reflexivity|reflexivity|]. now apply (above_wr writable (length M)). }
      destruct (Hsim (repeat 0 t) (repeat_length _ _)) as [E HL]. unfold forN. rewrite app_nil_r in E. rewrite E. rewrite (proj1 Hs').
      split; [|exact HL]. destruct (foldM _ _ (repeat 0 t)) as [b|]; [|reflexivity]. now rewrite app_nil_r. }
    destruct (Nat.leb_spec (slen msg) (i + t)); apply H; lia.
  Qed.

  (** what the loop needs of the update function, for states at the end of [M] *)
  Definition update_ok (M : Mem) (t : nat) (uh : Mem -> Slice -> Slice -> option Mem) (u : list F -> list F -> option (list F)) : Prop :=
    forall Y l s blk bs, length l = t -> base s = length M -> slen s = t -> sees M Y t blk bs ->
      match u l bs with
      | Some l' => length l' = t /\ exists G, uh (M ++ l ++ Y) s blk = Some (M ++ l' ++ Y ++ G)
      | None => uh (M ++ l ++ Y) s blk = None end.

  Lemma loop_ok (M : Mem) t uh u msg ms : update_ok M t uh u -> holds M msg ms -> (slen msg <= scap msg)%nat -> above (length M) ->
    forall fuel i l Y, length l = t ->
      match hashLoop u t ms fuel i l with
      | Some l' => length l' = t /\ exists G, HHashLoop writable uh t msg (MkSlice (length M) t t) fuel i (M ++ l ++ Y) = Some (M ++ l' ++ Y ++ G)
      | None => HHashLoop writable uh t msg (MkSlice (length M) t t) fuel i (M ++ l ++ Y) = None end.
  Proof.
    intros Hu Hm Hc Ha. induction fuel as [|fuel IH]; intros i l Y Hl; cbn [hashLoop HHashLoop].
    - split; [exact Hl|]. exists []. now rewrite app_nil_r.
    - rewrite (proj1 Hm). destruct (i <? slen msg)%nat; [|split; [exact Hl|]; exists []; now rewrite app_nil_r].
      assert (Ha' : above (length (M ++ l ++ Y))) by (intros a Hge; apply Ha; rewrite !app_length in Hge; lia).
      destruct (block_ok (M ++ l ++ Y) t msg ms i (holds_app M (l ++ Y) msg ms Hm) Hc Ha') as [-> HB].
      destruct (blockAt t ms i) as [b|]; [|reflexivity]. specialize (HB _ eq_refl).
      assert (Hsees : sees M (Y ++ b) t (MkSlice (length (M ++ l ++ Y)) t t) b).
      { intros l0 Hl0. replace (M ++ l0 ++ Y ++ b) with ((M ++ l0 ++ Y) ++ b ++ []) by (now rewrite app_nil_r, <- !app_assoc).
        apply holds_win; [|simpl; congruence]. simpl. rewrite !app_length. lia. }
      specialize (Hu (Y ++ b) l (MkSlice (length M) t t) _ b Hl eq_refl eq_refl Hsees).
      replace ((M ++ l ++ Y) ++ b) with (M ++ l ++ Y ++ b) by (now rewrite <- !app_assoc).
      destruct (u l b) as [l1|]; [|now rewrite Hu]. destruct Hu as (Hl1 & G & ->).
      specialize (IH (i + t)%nat l1 ((Y ++ b) ++ G) Hl1). destruct (hashLoop u t ms fuel (i + t) l1) as [l2|]; [|exact IH].
      destruct IH as (Hl2 & G' & ->). split; [exact Hl2|]. exists (b ++ G ++ G'). now rewrite <- !app_assoc.
  Qed.

  Lemma hash_ok (M : Mem) t uh u msg ms : update_ok M t uh u -> holds M msg ms -> (slen msg <= scap msg)%nat -> above (length M) ->
    match hashWith u t ms with
    | Some v => exists G, HHashWith writable uh M t msg = Some (M ++ G, v)
    | None => HHashWith writable uh M t msg = None end.
  Proof.
    intros Hu Hm Hc Ha. unfold hashWith, HHashWith, halloc. rewrite (proj1 Hm).
    pose proof (loop_ok M t uh u msg ms Hu Hm Hc Ha (slen msg) 0 (repeat 0 t) [] (repeat_length _ _)) as H.
    rewrite app_nil_r in H. destruct (hashLoop u t ms (slen msg) 0 (repeat 0 t)) as [l|]; [|now rewrite H].
    destruct H as (Hl & G & ->). cbn [app]. rewrite hget_win by (simpl; congruence).
    destruct (get l 0) as [v|]; [|reflexivity]. now exists (l ++ G).
  Qed.

  Lemma gmimc_hash_ok (M : Mem) arks As t nR msg ms : holds M arks As -> holds M msg ms -> (slen msg <= scap msg)%nat -> above (length M) ->
    match GMimcHash As t nR ms with
    | Some v => exists G, HGMimcHash writable M arks t nR msg = Some (M ++ G, v)
    | None => HGMimcHash writable M arks t nR msg = None end.
  Proof.
    intros HA Hm Hc Ha. unfold GMimcHash, HGMimcHash. apply hash_ok; try assumption. intros Y l s blk bs Hl Hb Hs Hk. subst t.
    destruct (gmimc_update_ok writable M Y l s arks As nR blk bs) as [E HL]; try assumption.
    - now apply (above_wr writable (length M)).
    - intros a Hge. apply Ha. rewrite !app_length in Hge. lia.
    - now apply sees_after.
    - rewrite E. destruct (GMimcUpdate As nR l bs) as [l'|]; [|reflexivity]. split; [now apply HL|]. now exists l.
  Qed.

  Lemma poseidon_hash_ok (M : Mem) arks As mat rows t nF nP msg ms : holds M arks As -> Forall2 (holds M) mat rows -> holds M msg ms ->
    (slen msg <= scap msg)%nat -> above (length M) ->
    match hashWith (PoseidonUpdate As rows nF nP) t ms with
    | Some v => exists G, HPoseidonHash writable M arks mat t nF nP msg = Some (M ++ G, v)
    | None => HPoseidonHash writable M arks mat t nF nP msg = None end.
  Proof.
    intros HA HM Hm Hc Ha. unfold HPoseidonHash. apply hash_ok; try assumption. intros Y l s blk bs Hl Hb Hs Hk. subst t.
    apply poseidon_update_ok; try assumption.
    - now apply (above_wr writable (length M)).
    - intros a Hge. apply Ha. lia.
    - now apply sees_after.
    - eapply Forall2_imp; [|exact HM]. intros k ks Hk'. now apply sees_after.
  Qed.

  (** ** MiMC *)
  Lemma cell_get (X Y : Mem) v : pget (X ++ v :: Y) (length X) = Some v.
  Proof. unfold pget, get. rewrite nth_error_app2 by lia. now rewrite Nat.sub_diag. Qed.
  Lemma cell_set (X Y : Mem) v w : writable (length X) = true -> pset writable (X ++ v :: Y) (length X) w = Some (X ++ w :: Y).
  Proof.
    intros H. unfold pset. rewrite H. rewrite set_some by (rewrite app_length; simpl; lia).
    replace (length X) with (length X + 0)%nat by lia. now rewrite upd_app_r.
  Qed.

  Section Cell.
    Variables (X Y : Mem) (arks : Slice) (As : list F).
    Hypotheses (Hw : writable (length X) = true) (HA : forall v, holds (X ++ v :: Y) arks As).

    Lemma mimc_perm_ok v block : HMimcPermutation writable (X ++ v :: Y) arks (length X) block = (v' <- MimcPermutation As v block ;; Some (X ++ v' :: Y)).
    Proof.
      unfold HMimcPermutation, MimcPermutation, forN. generalize (seq 0 MimcRounds) as is. intros is. revert v.
      induction is as [|i is IH]; intros v; cbn [foldM]; [reflexivity|]. cbv zeta.
      rewrite cell_get, cell_set by exact Hw. rewrite (proj2 (HA _)). destruct (get As i) as [ark|]; [|reflexivity].
      rewrite cell_get, cell_set by exact Hw. unfold HSBox.
      repeat (rewrite cell_get; rewrite ?cell_set by exact Hw). apply IH.
    Qed.
    Lemma mimc_update_ok v block : HMimcUpdate writable (X ++ v :: Y) arks (length X) block = (v' <- MimcUpdate As v block ;; Some (X ++ v' :: Y)).
    Proof.
      unfold HMimcUpdate, MimcUpdate. rewrite cell_get, mimc_perm_ok. destruct (MimcPermutation As v block) as [w|]; [|reflexivity].
      cbv zeta. repeat (rewrite cell_get; rewrite cell_set by exact Hw). reflexivity.
    Qed.
  End Cell.

  Lemma mimc_hash_ok (M : Mem) arks As input ms : holds M arks As -> holds M input ms -> above (length M) ->
    HMimcHash writable M arks input = (v <- MimcHash As ms ;; Some (M ++ [v], v)).
  Proof.
    intros HA Hm Ha. unfold HMimcHash, MimcHash, halloc. cbn [addr slen base repeat]. unfold addr. cbn [slen base Nat.ltb Nat.leb]. rewrite Nat.add_0_r.
    assert (H : forall k, (k <= slen input)%nat ->
      foldM (fun m i => x <- hget m input i ;; HMimcUpdate writable m arks (length M) x) (seq 0 k) (M ++ [0])
      = (v <- foldM (fun state x => MimcUpdate As state x) (firstn k ms) 0 ;; Some (M ++ [v]))).
    { induction k as [|k IH]; intros Hk; [reflexivity|]. rewrite seq_S, foldM_app, IH by lia. cbn [foldM]. rewrite Nat.add_0_l.
      assert (E : nth_error ms k = Some (nth k ms 0)) by (apply nth_error_nth'; rewrite (proj1 Hm); lia).
      rewrite (firstn_snoc ms k _ E), foldM_app. destruct (foldM _ (firstn k ms) 0) as [v|]; [|reflexivity]. cbn [foldM].
      rewrite (proj2 (holds_app M [v] input ms Hm)). unfold get. rewrite E.
      rewrite (mimc_update_ok M [] arks As); [destruct (MimcUpdate As v _); reflexivity|apply Ha; lia|].
      intros w. now apply holds_app. }
    unfold forN. rewrite H by lia. rewrite <- (proj1 Hm), firstn_all.
    destruct (foldM _ ms 0) as [v|]; [|reflexivity]. now rewrite cell_get.
  Qed.
End L.
