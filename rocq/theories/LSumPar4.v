(** GetClaim of the multi-threaded prover: the same claim under every schedule. *)
From Coq Require Import List Arith ZArith Lia Bool Ring Field Permutation.
From Verif Require Import Field Go Trans MCommon Spec MPoly LSpec LCommon LForkJoin MCircuit SpecCircuit
  MSumcheck SpecSumcheck LSumcheck LSumcheck4 MSumPar SpecSumPar LSumPar LSumPar2 LSumPar3.
Import ListNotations.

Section S.
  Context {F : Field}.
  Add Field FfieldLSumPar4 : (f_theory F).
  Open Scope F_scope.
  Variable p : MTProver F.
  Variable nCore : nat.
  Notation n := (length (tEq p)).
  Variable cl : nat -> F.
  Hypothesis Hcl : forall x, (x < n)%nat -> chunkClaim p x = Some (cl x).
  Hypothesis HnCore : (0 < nCore)%nat.

  Notation step := (claim_step p nCore).

  Definition holdsC (c : cpc (F:=F)) : nat := match c with CRun | CSend _ | CRel => 1 | _ => 0 end.
  Definition sentC (c : cpc (F:=F)) : Prop := match c with CRel | CEnd => True | _ => False end.
  Definition spawnedC (m : cmain (F:=F)) : nat := match m with CSpawn i => i | _ => n end.
  Definition mainC (m : cmain (F:=F)) (rc : list nat) : Prop :=
    match m with
    | CSpawn i => rc = [] /\ (i <= n)%nat
    | CSum m res => length rc = m /\ (m <= n)%nat /\ res = suml rc cl
    | CRet res => length rc = n /\ res = suml rc cl
    end.

  Record JC (s : cst (F:=F)) : Prop := {
    c_len : length (cws s) = n;
    c_open : cclosed (cch s) = false;
    c_tok : (ctok s + cnt holdsC (cws s) = nCore)%nat;
    c_thr : forall x t, nth_error (cws s) x = Some t ->
      (t = CIdle <-> (spawnedC (cmn s) <= x)%nat) /\ (forall v, t = CSend v -> v = cl x);
    c_q : exists rc q, cbuf (cch s) = map cl q /\ NoDup (rc ++ q) /\
      (forall x, In x (rc ++ q) <-> exists t, nth_error (cws s) x = Some t /\ sentC t) /\
      mainC (cmn s) rc }.

  Definition wtC (c : cpc (F:=F)) : nat :=
    match c with CIdle => 5 | CStart => 4 | CRun => 3 | CSend _ => 2 | CRel => 1 | CEnd => 0 end.
  Definition mwtC (m : cmain (F:=F)) : nat :=
    match m with CSpawn i => (n - i) + n + 2 | CSum m _ => (n - m) + 1 | CRet _ => 0 end.
  Definition measureC (s : cst (F:=F)) : nat := (mwtC (cmn s) + cnt wtC (cws s))%nat.

  Lemma JC_init : JC (claim_init p nCore).
  Proof.
    assert (Hr : forall x t, nth_error (repeat (@CIdle F) n) x = Some t -> t = CIdle).
    { intros x t H. apply nth_error_In in H. eapply repeat_spec. exact H. }
    unfold claim_init. constructor; cbn [cmn cch cws ctok emptyChan cbuf cclosed].
    - apply repeat_length.
    - reflexivity.
    - rewrite cnt_repeat. cbn. lia.
    - intros x t H. apply Hr in H. subst t. cbn. split; [split; [lia|reflexivity]|discriminate].
    - exists [], []. split; [reflexivity|]. split; [constructor|]. split; [|cbn; split; [reflexivity|lia]].
      intros x. split; [intros []|]. intros (t & H & H'). apply Hr in H. subst t. destruct H'.
  Qed.

  Lemma lt_of s x t : JC s -> nth_error (cws s) x = Some t -> (x < n)%nat.
  Proof. intros H E. rewrite <- (c_len s H). apply nth_error_Some. congruence. Qed.

  (** A worker step that changes only its own state and the tokens and does not send. *)
  Lemma JC_local pc c t k x a b k1 : JC (MkC pc c t k) -> nth_error t x = Some a -> a <> CIdle -> b <> CIdle ->
    (sentC a <-> sentC b) -> (forall v, b = CSend v -> v = cl x) -> (k1 + holdsC b = k + holdsC a)%nat -> (wtC b < wtC a)%nat ->
    JC (MkC pc c (upd t x b) k1) /\ (measureC (MkC pc c (upd t x b) k1) < measureC (MkC pc c t k))%nat.
  Proof.
    intros [J1 J2 J3 J4 J5] Ha Hai Hbi Hs Hv Hk Hw. cbn [cmn cch cws ctok] in *.
    pose proof (cnt_upd holdsC t x a b Ha) as C1. pose proof (cnt_upd wtC t x a b Ha) as C2. split.
    - constructor; cbn [cmn cch cws ctok]; [rewrite upd_length; exact J1|exact J2|lia| |].
      + intros y u Hu. destruct (Nat.eq_dec x y) as [<-|Hxy].
        * rewrite (upd_same_nth t x a b Ha) in Hu. injection Hu as <-. destruct (J4 x a Ha) as [A1 A2].
          split; [|exact Hv]. split; [intros; contradiction|]. intros Hle. apply A1 in Hle. contradiction.
        * rewrite upd_other_nth in Hu by exact Hxy. apply J4. exact Hu.
      + destruct J5 as (rc & q & E1 & E2 & E3 & E4). exists rc, q. split; [exact E1|]. split; [exact E2|]. split; [|exact E4].
        intros y. rewrite E3. destruct (Nat.eq_dec x y) as [<-|Hxy].
        * rewrite (upd_same_nth t x a b Ha), Ha. split; intros (u & Hu & Hsu); injection Hu as <-; eexists; (split; [reflexivity|tauto]).
        * rewrite upd_other_nth by exact Hxy. tauto.
    - unfold measureC. cbn [cmn cws]. lia.
  Qed.

  Definition good (r : act (cst (F:=F))) (s : cst (F:=F)) : Prop :=
    match r with Blocks => True | Panics => False | Gives s' => JC s' /\ (measureC s' < measureC s)%nat end.

  Lemma room s x v : JC s -> nth_error (cws s) x = Some (CSend v) -> (length (cbuf (cch s)) < n)%nat.
  Proof.
    intros Js Hu. destruct (c_q s Js) as (rc & q & E1 & E2 & E3 & E4).
    assert (Hnot : ~ In x q).
    { intros Hin. destruct (proj1 (E3 x)) as (u & Hu' & Hs); [apply in_app_iff; auto|]. rewrite Hu in Hu'. injection Hu' as <-. destruct Hs. }
    rewrite E1, map_length.
    assert (L : (length (q ++ [x]) <= n)%nat); [|rewrite app_length in L; simpl in L; lia].
    apply nodup_lt_length; [apply nodup_snoc; [apply nodup_app_r in E2; exact E2|exact Hnot]|].
    intros y Hy. apply in_app_iff in Hy. destruct Hy as [Hy|[<-|[]]].
    - destruct (proj1 (E3 y)) as (u & Hu' & _); [apply in_app_iff; auto|]. exact (lt_of s y u Js Hu').
    - exact (lt_of s x _ Js Hu).
  Qed.

  Lemma worker_stepC s x : JC s -> good (claim_worker p nCore x s) s.
  Proof.
    intros Js. pose proof (lt_of s x) as Hlt. pose proof (room s x) as HR. destruct s as [pc c t k]. cbn [cws cch] in *.
    unfold claim_worker. destruct (nth_error t x) as [u|] eqn:Hu; [|exact I].
    specialize (fun u => Hlt u Js). assert (Hx : (x < n)%nat) by (eapply Hlt; reflexivity).
    destruct u as [| | |v| |]; try exact I.
    - destruct k as [|k]; [exact I|]. apply (JC_local pc c t (S k) x CStart CRun k Js Hu); try discriminate; cbn; try tauto; lia.
    - rewrite (Hcl x Hx). apply (JC_local pc c t k x CRun (CSend (cl x)) k Js Hu); try discriminate; cbn; try tauto; [|lia].
      intros v Hv. congruence.
    - specialize (HR v Js eq_refl). destruct (c_thr _ Js x _ Hu) as [_ Hv]. specialize (Hv v eq_refl). subst v.
      pose proof Js as [J1 J2 J3 J4 J5]. cbn [cmn cch cws ctok] in *. unfold csend. rewrite J2.
      destruct (Nat.ltb_spec (length (cbuf c)) n); [|lia].
      pose proof (cnt_upd holdsC t x (CSend (cl x)) CRel Hu) as C1. pose proof (cnt_upd wtC t x (CSend (cl x)) CRel Hu) as C2. cbn [holdsC wtC] in *.
      split; [|unfold measureC; cbn [cmn cws]; lia].
      constructor; cbn [cmn cch cws ctok cbuf cclosed]; [rewrite upd_length; exact J1|reflexivity|lia| |].
      + intros y u Hu'. destruct (Nat.eq_dec x y) as [<-|Hxy].
        * rewrite (upd_same_nth t x _ CRel Hu) in Hu'. injection Hu' as <-. destruct (J4 x _ Hu) as [A1 A2].
          split; [|discriminate]. split; [discriminate|]. intros Hle. apply A1 in Hle. discriminate.
        * rewrite upd_other_nth in Hu' by exact Hxy. apply J4. exact Hu'.
      + destruct J5 as (rc & q & E1 & E2 & E3 & E4). exists rc, (q ++ [x]).
        split; [rewrite E1, map_app; reflexivity|].
        assert (Hnot : ~ In x (rc ++ q)).
        { intros Hin. apply E3 in Hin. destruct Hin as (u & Hu' & Hs). rewrite Hu in Hu'. injection Hu' as <-. destruct Hs. }
        split; [rewrite app_assoc; apply nodup_snoc; assumption|]. split; [|exact E4].
        intros y. rewrite app_assoc, in_app_iff, E3. cbn [In]. destruct (Nat.eq_dec x y) as [<-|Hxy].
        * rewrite (upd_same_nth t x _ CRel Hu). split; [intros _; exists CRel; cbn; auto|auto].
        * rewrite upd_other_nth by exact Hxy. split; [intros [H'|[H'|[]]]; [exact H'|contradiction]|auto].
    - destruct (Nat.ltb_spec k nCore) as [Hk|Hk]; [|exact I].
      apply (JC_local pc c t k x CRel CEnd (S k) Js Hu); try discriminate; cbn; try tauto; lia.
  Qed.

  Lemma main_stepC s : JC s -> good (claim_main p s) s.
  Proof.
    intros Js. destruct s as [pc c t k]. pose proof Js as [J1 J2 J3 J4 J5]. cbn [cmn cch cws ctok] in *.
    destruct J5 as (rc & q & E1 & E2 & E3 & E4). unfold claim_main. destruct pc as [i|m res|res]; cbn [mainC spawnedC] in *.
    - destruct E4 as [-> Hi]. destruct (Nat.ltb_spec i n) as [Hlt|Hge].
      + destruct (nth_error t i) as [u|] eqn:Hu; [|apply nth_error_None in Hu; lia].
        assert (u = CIdle) by (apply (J4 i u Hu); lia). subst u.
        pose proof (cnt_upd holdsC t i CIdle CStart Hu) as C1. pose proof (cnt_upd wtC t i CIdle CStart Hu) as C2. cbn [holdsC wtC] in *.
        split; [|unfold measureC; cbn [cmn cws mwtC]; lia].
        constructor; cbn [cmn cch cws ctok spawnedC]; [rewrite upd_length; exact J1|exact J2|lia| |].
        * intros y u Hu'. destruct (Nat.eq_dec i y) as [<-|Hxy].
          -- rewrite (upd_same_nth t i _ CStart Hu) in Hu'. injection Hu' as <-. split; [|discriminate]. split; [discriminate|lia].
          -- rewrite upd_other_nth in Hu' by exact Hxy. destruct (J4 y u Hu') as [A1 A2]. split; [|exact A2]. rewrite A1. lia.
        * exists [], q. split; [exact E1|]. split; [exact E2|]. split; [|cbn; split; [reflexivity|lia]].
          intros y. rewrite E3. destruct (Nat.eq_dec i y) as [<-|Hxy].
          -- rewrite (upd_same_nth t i _ CStart Hu), Hu. split; intros (u & Hu' & Hs); injection Hu' as <-; destruct Hs.
          -- rewrite upd_other_nth by exact Hxy. tauto.
      + split; [|unfold measureC; cbn [cmn cws mwtC]; lia].
        constructor; cbn [cmn cch cws ctok spawnedC]; auto.
        * intros y u Hu'. destruct (J4 y u Hu') as [A1 A2]. split; [|exact A2]. rewrite A1. lia.
        * exists [], q. cbn [mainC length suml fold_right]. repeat (split; [assumption || reflexivity || lia|]). reflexivity.
    - destruct E4 as (L & Hm & ->). destruct (Nat.ltb_spec m n) as [Hlt|Hge].
      + unfold crecv. rewrite E1. destruct q as [|x q]; cbn [map]; [rewrite J2; exact I|].
        split; [|unfold measureC; cbn [cmn cws mwtC]; lia].
        constructor; cbn [cmn cch cws ctok spawnedC cbuf cclosed]; auto.
        exists (rc ++ [x]), q. split; [reflexivity|]. rewrite <- app_assoc. cbn [app]. split; [exact E2|]. split; [exact E3|].
        cbn [mainC]. rewrite app_length, suml_app. cbn [length]. split; [lia|]. split; [lia|]. cbn. ring.
      + split; [|unfold measureC; cbn [cmn cws mwtC]; lia].
        constructor; cbn [cmn cch cws ctok spawnedC]; auto. exists rc, q. cbn [mainC]. repeat (split; [assumption|]). split; [lia|reflexivity].
    - exact I.
  Qed.

  Lemma JC_step s o : JC s -> step s o -> exists s', o = Some s' /\ JC s' /\ (measureC s' < measureC s)%nat.
  Proof.
    intros Js Hs. destruct Hs as [a s' H|a H]; destruct a as [x|]; cbn [claim_run] in H.
    - pose proof (worker_stepC s x Js) as P. rewrite H in P. eauto.
    - pose proof (main_stepC s Js) as P. rewrite H in P. eauto.
    - pose proof (worker_stepC s x Js) as P. rewrite H in P. destruct P.
    - pose proof (main_stepC s Js) as P. rewrite H in P. destruct P.
  Qed.

  Lemma JC_final s : JC s -> (forall o, ~ step s o) ->
    cmn s = CRet (sumn n cl) /\ cws s = repeat CEnd n /\ ctok s = nCore /\ cbuf (cch s) = [].
  Proof.
    intros Js Hno.
    assert (Hblk : forall a, claim_run p nCore a s = Blocks).
    { intros a. destruct (claim_run p nCore a s) eqn:Er; [reflexivity|exfalso|exfalso]; eapply Hno; [eapply cs_panic|eapply cs_ok]; exact Er. }
    clear Hno. pose proof (fun x v => room s x v Js) as HR. destruct s as [pc c t k]. pose proof Js as [J1 J2 J3 J4 J5]. cbn [cmn cch cws ctok] in *.
    assert (Hfree : forall x u, nth_error t x = Some u -> holdsC u = 0%nat).
    { intros x u Hu. pose proof (Hblk (Some x)) as B. cbn [claim_run] in B. unfold claim_worker in B. rewrite Hu in B.
      pose proof (lt_of _ x u Js Hu) as Hx. pose proof (cnt_pos holdsC t x u Hu) as C.
      destruct u as [| | |v| |]; cbn [holdsC] in *; try reflexivity; exfalso.
      - rewrite (Hcl x Hx) in B. discriminate.
      - specialize (HR x v Hu). unfold csend in B. rewrite J2 in B. destruct (Nat.ltb_spec (length (cbuf c)) n); [discriminate|lia].
      - destruct (Nat.ltb_spec k nCore); [discriminate|lia]. }
    assert (Hk : k = nCore) by (rewrite (cnt_zero holdsC t Hfree) in J3; lia).
    assert (Hw : forall x u, nth_error t x = Some u -> u = CIdle \/ u = CEnd).
    { intros x u Hu. pose proof (Hblk (Some x)) as B. cbn [claim_run] in B. unfold claim_worker in B. rewrite Hu in B.
      specialize (Hfree x u Hu). destruct u as [| | |v| |]; cbn [holdsC] in Hfree; try discriminate; auto. destruct k; [lia|discriminate]. }
    pose proof (Hblk None) as B. cbn [claim_run] in B. unfold claim_main in B. destruct pc as [i|m res|res].
    - destruct (i <? n)%nat; discriminate.
    - exfalso. destruct J5 as (rc & q & E1 & E2 & E3 & E4). cbn [mainC spawnedC] in *. destruct E4 as (L & Hm & HA).
      destruct (Nat.ltb_spec m n) as [Hlt|]; [|discriminate].
      unfold crecv in B. rewrite E1 in B. destruct q as [|x q]; [|discriminate]. rewrite app_nil_r in *.
      destruct (nodup_missing rc n) as (x & Hx & Hnot); [exact E2|lia|]. apply Hnot. apply E3.
      destruct (nth_error t x) as [u|] eqn:Hu; [|apply nth_error_None in Hu; lia].
      destruct (Hw x u Hu) as [->| ->]; [|exists CEnd; cbn; auto]. assert (n <= x)%nat by (apply (J4 x _ Hu); reflexivity). lia.
    - destruct J5 as (rc & q & E1 & E2 & E3 & E4). cbn [mainC spawnedC] in *. destruct E4 as (L & ->).
      assert (He : forall x u, nth_error t x = Some u -> u = CEnd).
      { intros x u Hu. destruct (Hw x u Hu) as [->| ->]; [|reflexivity].
        assert (n <= x)%nat by (apply (J4 x _ Hu); reflexivity). pose proof (lt_of _ x _ Js Hu). lia. }
      assert (Hall : forall y, In y (rc ++ q) -> (y < n)%nat).
      { intros y Hy. apply E3 in Hy. destruct Hy as (u & Hu & _). exact (lt_of _ y u Js Hu). }
      split; [|split; [|split; [exact Hk|]]].
      + f_equal. apply suml_perm. apply nodup_perm_seq; [apply nodup_app_l in E2; exact E2| |exact L].
        intros y Hy. apply Hall. apply in_app_iff. auto.
      + clear - J1 He. cut (forall m, length t = m -> t = repeat CEnd m); [intros H; apply H; exact J1|]. intros m <-. clear J1.
        induction t as [|b t IH]; [reflexivity|]. cbn [length repeat].
        rewrite (He 0%nat b eq_refl). f_equal. apply IH. intros x u. apply (He (S x) u).
      + rewrite E1. pose proof (nodup_lt_length _ n E2 Hall) as HL. rewrite app_length in HL. destruct q; [reflexivity|]. cbn in HL. lia.
  Qed.

  Theorem claim_must : must step (fun s => cmn s = CRet (sumn n cl) /\ cws s = repeat CEnd n /\ ctok s = nCore /\ cbuf (cch s) = [])
    (claim_init p nCore).
  Proof. apply (must_by_measure step JC _ measureC); [exact JC_step|exact JC_final|apply JC_init]. Qed.
End S.

Section Claim.
  Context {F : Field}.
  Open Scope F_scope.
  Lemma mt_claim (p : MTProver F) n k bG nCore : mt_ok p n k bG -> (0 < nCore)%nat ->
    exists claim, GetClaim (whole p k bG) = Some claim /\
    must (claim_step p nCore) (fun s => cmn s = CRet claim /\ cws s = repeat CEnd n /\ ctok s = nCore /\ cbuf (cch s) = []) (claim_init p nCore).
  Proof.
    intros Hok HC. pose proof (whole_shape p n k bG Hok) as HS. pose proof Hok as (Hn & L1 & L2 & L3 & _).
    exists (psum (2 ^ k * n) (2 ^ bG) (2 ^ bG) (whole p k bG)). split; [apply GetClaim_spec; exact HS|].
    rewrite (psum_parts n (2 ^ k) _ _ _ Hn HS). subst n. apply claim_must; [|exact HC].
    intros x Hx. unfold chunkClaim. rewrite (get_nth (tVL p) x []), (get_nth (tVR p) x []), (get_nth (tEq p) x []) by lia.
    rewrite <- (whole_part p (length (tEq p)) k bG x Hok Hx).
    apply GetClaim_spec. apply part_shape; [exact Hn|apply pow_pos|exact HS].
  Qed.

  (** Without a token nothing is ever computed. *)
  Lemma claim_stuck (p : MTProver F) s : (0 < length (tEq p))%nat -> reach (claim_step p 0) (claim_init p 0) s -> forall res, cmn s <> CRet res.
  Proof.
    intros Hn Hr.
    assert (I : ctok s = 0%nat /\ cch s = emptyChan /\ (forall x t, nth_error (cws s) x = Some t -> t = CIdle \/ t = CStart) /\
                match cmn s with CSpawn _ => True | CSum m _ => m = 0%nat | CRet _ => False end).
    { refine (reach_inv (claim_step p 0) (fun s => ctok s = 0%nat /\ cch s = emptyChan /\ (forall x t, nth_error (cws s) x = Some t -> t = CIdle \/ t = CStart) /\
                match cmn s with CSpawn _ => True | CSum m _ => m = 0%nat | CRet _ => False end) _ _ s Hr _).
      - intros s1 s2 (I1 & I2 & I3 & I4) Hs. inversion Hs as [a s' Ha E|]; subst. destruct s1 as [pc c t k]. cbn [cmn cch cws ctok] in *. subst k c.
        destruct a as [x|]; cbn [claim_run] in Ha.
        + unfold claim_worker in Ha. destruct (nth_error t x) as [u|] eqn:Hu; [|discriminate].
          destruct (I3 x u Hu) as [->| ->]; discriminate.
        + unfold claim_main in Ha. destruct pc as [i|m res|res]; [| |discriminate].
          * destruct (i <? length (tEq p))%nat; injection Ha as <-; cbn [cmn cch cws ctok]; repeat (split; [auto; reflexivity|]); auto.
            split; [|exact I]. intros x u. rewrite nth_error_upd. destruct ((i =? x)%nat && (i <? length t)%nat); [|apply I3]. intros H. injection H as <-. auto.
          * subst m. destruct (Nat.ltb_spec 0 (length (tEq p))); [|lia]. discriminate.
      - unfold claim_init. cbn [cmn cch cws ctok]. repeat (split; [reflexivity|]). split; [|exact I].
        intros x t H. apply nth_error_In in H. apply repeat_spec in H. auto. }
    intros res E. rewrite E in I. tauto.
  Qed.

  Lemma mt_stuck ch (p : MTProver F) n bG K c s : (0 < n)%nat -> reach (mt_step ch p 0 n bG K c) (mt_init 0 n) s -> forall out, main s <> MEnd out.
  Proof.
    intros Hn Hr.
    assert (I : toks s = 0%nat /\ evC s = emptyChan /\ finC s = emptyChan /\ hs s = [] /\
                (forall x t, nth_error (ws s) x = Some t -> t = WIdle \/ t = WStart) /\
                match main s with MSpawn _ => True | MCons _ m _ => m = 0%nat | MMerge m _ => m = 0%nat | _ => False end).
    { refine (reach_inv (mt_step ch p 0 n bG K c) (fun s => toks s = 0%nat /\ evC s = emptyChan /\ finC s = emptyChan /\ hs s = [] /\
                (forall x t, nth_error (ws s) x = Some t -> t = WIdle \/ t = WStart) /\
                match main s with MSpawn _ => True | MCons _ m _ => m = 0%nat | MMerge m _ => m = 0%nat | _ => False end) _ _ s Hr _).
      - intros s1 s2 (I1 & I2 & I3 & I4 & I5 & I6) Hs. inversion Hs as [a s' Ha E|]; subst. destruct s1 as [pc l eC fC rC w h t k0].
        cbn [main loc evC finC rCs wg hs ws toks] in *. subst k0 eC fC h. destruct a as [|x|x]; cbn [run] in Ha.
        + unfold step_main in Ha. destruct pc as [k|i m acc|i e|i r k|i|m g|g|o|o|o]; try contradiction; try discriminate.
          destruct (k <? n)%nat; injection Ha as <-; cbn [main evC finC hs ws toks]; repeat (split; [reflexivity|]).
          * split; [|exact I]. intros x u. rewrite nth_error_upd. destruct ((k =? x)%nat && (k <? length t)%nat); [|apply I5]. intros H. injection H as <-. auto.
          * split; [exact I5|]. unfold head. destruct (0 <? K)%nat; reflexivity.
        + unfold step_helper in Ha. destruct x; discriminate.
        + unfold step_worker in Ha. destruct (nth_error t x) as [u|] eqn:Hu; [|discriminate].
          destruct (I5 x u Hu) as [->| ->]; discriminate.
      - unfold mt_init, init. cbn [main evC finC hs ws toks]. repeat (split; [reflexivity|]). split; [|exact I].
        intros x t H. apply nth_error_In in H. apply repeat_spec in H. auto. }
    intros out E. rewrite E in I. tauto.
  Qed.

  Lemma mt_same_result ch (p : MTProver F) n k bG nCore out : mt_ok p n k bG -> (0 < nCore)%nat -> Prove ch (whole p k bG) = Some out ->
    mtPrepare p = Some (n, bG, bG + bG + k, log2ceil n)%nat /\
    must (mt_step ch p nCore n bG (bG + bG + k) (log2ceil n))
      (fun s => main s = MEnd out /\ ws s = repeat WEnd n /\ toks s = nCore /\ rCs s = repeat (MkChan [] true) n /\
         evC s = MkChan [] true /\ finC s = MkChan [] true) (mt_init nCore n).
  Proof. intros H1 H2 H3. split; [exact (mt_prepare p n k bG nCore H1 H2)|exact (mt_run ch p n k bG nCore H1 H2 out H3)]. Qed.
End Claim.

From Verif Require Import FrPrime Fr LPoly3 LSumcheck5.
Lemma mt_complete_Fr (ch : list Fr -> Fr) (p : MTProver Fr) c k bG nCore : mt_ok p (2 ^ c) k bG -> (0 < nCore)%nat ->
  (forall g, In g (tGates p) -> gate_ok g) ->
  (maxHL (tGates p) <= 10 /\ maxHR (tGates p) <= 10 /\ maxHP (tGates p) <= 10)%nat ->
  exists out, Prove ch (whole p k bG) = Some out /\
    mtPrepare p = Some (2 ^ c, bG, bG + bG + k, c)%nat /\
    must (mt_step ch p nCore (2 ^ c) bG (bG + bG + k) c) (fun s => main s = MEnd out) (mt_init nCore (2 ^ c)).
Proof.
  intros Hok HC Hg Hd. pose proof Hok as (Hn & L1 & L2 & L3 & M1 & M2 & M3 & M4 & M5 & M6 & M7).
  assert (HT : tables_ok bG bG (k + c) (tGates p) (tStatic p) (interleave (2 ^ k) (tEq p)) (interleave (2 ^ (bG + k)) (tVL p)) (interleave (2 ^ (bG + k)) (tVR p))).
  { unfold tables_ok. rewrite !interleave_length, L1, L2, L3, <- !Nat.pow_add_r, Nat.add_assoc.
    repeat (split; [reflexivity|]). split; [exact M4|]. intros tab Ht. rewrite (M5 tab Ht), Nat.pow_add_r. reflexivity. }
  destruct (complete_Fr ch _ _ _ _ _ _ _ HT M6 Hg Hd) as (proof & qP & qL & qR & H & _).
  eexists. split; [exact H|].
  destruct (mt_same_result ch p (2 ^ c) k bG nCore _ Hok HC H) as [E HM]. rewrite log2ceil_pow2 in E, HM. split; [exact E|].
  apply (must_mono _ _ _ _ (fun s Hs => proj1 Hs) HM).
Qed.
