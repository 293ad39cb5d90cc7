(** Executions that may panic but do not hang: general facts, the fork/join machine, the multi-threaded GetClaim. *)
From Coq Require Import List Arith ZArith Lia Bool Ring Field Permutation.
From Verif Require Import Field Go Trans SpecEnds MCommon Spec MPoly LSpec LCommon LForkJoin MCircuit SpecCircuit LCircuit2 LCircuit3
  MSumcheck SpecSumcheck LSumcheck LSumcheck4 MSumPar SpecSumPar LSumPar LSumPar2 LSumPar3 LSumPar4 MForkJoin.
Import ListNotations.

Section Gen.
  Context {S S' : Type} (step : S -> option S -> Prop) (step' : S' -> option S' -> Prop).

  Lemma ends_sim (abs : S -> S') (I : S -> Prop) (P : S' -> Prop) :
    (forall s s', I s -> step s (Some s') -> I s' /\ step' (abs s) (Some (abs s'))) ->
    (forall s, I s -> (forall o, ~ step s o) -> forall o, ~ step' (abs s) o) ->
    forall s, I s -> must step' P (abs s) -> ends step (fun s => I s /\ P (abs s)) s.
  Proof.
    intros H1 H2 s HI HM. remember (abs s) as a eqn:E. revert s HI E. induction HM as [a HN HS IH HP]. intros s HI ->.
    constructor.
    - intros s' Hs. destruct (H1 s s' HI Hs) as [HI' Hs']. exact (IH _ Hs' s' HI' eq_refl).
    - intros Hno. split; [exact HI|]. apply HP. exact (H2 s HI Hno).
  Qed.

  Lemma reach_first s s1 s2 : step s (Some s1) -> reach step s1 s2 -> reach step s s2.
  Proof. intros H R. induction R as [s1|s1 s2 s3 R IH H']; [apply (reach_step _ _ s); [apply reach_refl|exact H]|econstructor; [apply IH; exact H|exact H']]. Qed.

  Lemma ends_reach (P Q : S -> Prop) s : ends step P s -> (forall s', reach step s s' -> P s' -> Q s') -> ends step Q s.
  Proof.
    induction 1 as [s H IH HP]. intros HQ. constructor.
    - intros s' Hs. apply IH; [exact Hs|]. intros s'' R. apply HQ. exact (reach_first _ _ _ Hs R).
    - intros Hno. apply HQ; [apply reach_refl|exact (HP Hno)].
  Qed.

  Lemma must_ends (P : S -> Prop) s : must step P s <-> ends step P s /\ (forall s', reach step s s' -> ~ step s' None).
  Proof.
    split.
    - intros H. split; [induction H as [s H0 H1 IH HP]; constructor; auto|].
      intros s' R. pose proof (must_reach step P s s' H R) as H'. inversion H'; subst. assumption.
    - intros [H HN]. induction H as [s H IH HP]. constructor; [apply HN, reach_refl| |exact HP].
      intros s' Hs. apply IH; [exact Hs|]. intros s'' R. apply HN. exact (reach_first _ _ _ Hs R).
  Qed.

  Lemma fails_never (P : S -> Prop) s s' : fails step s -> reach step s s' -> ~ (forall o, ~ step s' o).
  Proof.
    intros H R. assert (H' : fails step s').
    { induction R as [s|s s1 s2 R IH Hs]; [exact H|]. specialize (IH H). inversion IH as [? HI _]; subst. apply HI. exact Hs. }
    inversion H' as [? _ HP]; subst. exact HP.
  Qed.
End Gen.

(** ** Fork/join *)
Section FJ.
  Context {M A : Type}.
  Variable exec : A -> M -> option M.
  Variable prog : list (list A).
  Variable nTok : nat.
  Variables inMain closes : bool.
  Hypothesis HnTok : 0 < nTok.

  Definition erase (s : @st M A) : @st unit A := MkSt (main s) (toks s) (closed s) (wg s) (thr s) tt.

  Lemma fj_ends m : ends (step exec prog nTok inMain closes)
    (fun s => main s = MEnd /\ closed s = closes /\ toks s = nTok) (init prog nTok inMain m).
  Proof.
    pose proof (fj_must (fun (_ : A) (_ : unit) => Some tt) prog nTok inMain closes (fun _ _ => True)
      (fun _ _ _ _ _ => ex_intro _ tt (conj eq_refl I)) HnTok tt I) as HM.
    pose proof (ends_sim (step exec prog nTok inMain closes) (step (fun (_ : A) (_ : unit) => Some tt) prog nTok inMain closes)
      erase (fun _ => True)) as HS.
    eapply ends_reach; [eapply HS; [| |exact I|exact HM]|].
    - intros s s' _ Hs. split; [exact I|]. inversion Hs; subst; cbn [erase main toks closed wg thr]; try (constructor; assumption).
      eapply s_exec; [eassumption|reflexivity].
    - intros s _ Hno o Ho. destruct s as [p n c w t mm]. unfold erase in Ho. cbn [main toks closed wg thr] in Ho.
      inversion Ho; subst; try discriminate; try (eapply Hno; econstructor; eassumption).
      destruct (exec a mm) as [mx|] eqn:E; eapply Hno; [eapply s_exec; eassumption|eapply s_exec_panic; eassumption].
    - intros s' _ (_ & H1 & H2 & H3 & _). auto.
  Qed.
End FJ.

Lemma layer_fails {F : Field} (l : Layer F) (inputs : list (list F)) nCore : 0 < nCore -> LayerEvaluate l inputs = None ->
  fails (step (layer_exec l inputs) (per_chunk (length inputs)) nCore false true)
    (init (per_chunk (length inputs)) nCore false (repeat [] (length inputs))).
Proof.
  intros Hn E. eapply ends_reach; [apply fj_ends; exact Hn|]. intros s R (H & _).
  exact (layer_panics_never_returns l inputs nCore s E R H).
Qed.

(** ** GetClaim *)
Section Claim.
  Context {F : Field}.
  Add Field FfieldLEnds : (f_theory F).
  Open Scope F_scope.
  Variable p : MTProver F.
  Variable nCore : nat.
  Notation n := (length (tEq p)).
  Hypothesis HnCore : (0 < nCore)%nat.

  (** A prover with as many chunks, none of which panics *)
  Definition dummy : MTProver F := MkMT (repeat [0] n) (repeat [0] n) (repeat [0] n) [] [].
  Lemma dummy_n : length (tEq dummy) = n.
  Proof. apply repeat_length. Qed.
  Lemma dummy_claim x : (x < length (tEq dummy))%nat -> chunkClaim dummy x = Some 0.
  Proof.
    intros Hx. rewrite dummy_n in Hx. unfold chunkClaim, dummy. cbn [tVL tVR tEq tGates tStatic].
    rewrite (get_nth (repeat [0] n) x []) by (rewrite repeat_length; exact Hx). rewrite nth_indep with (d' := [0]) by (rewrite repeat_length; exact Hx).
    rewrite nth_repeat. reflexivity.
  Qed.

  Definition zpc (t : cpc (F:=F)) : cpc (F:=F) := match t with CSend _ => CSend 0 | t => t end.
  Definition zmain (m : cmain (F:=F)) : cmain (F:=F) := match m with CSpawn k => CSpawn k | CSum m _ => CSum m 0 | CRet _ => CRet 0 end.
  Definition zst (s : cst (F:=F)) : cst (F:=F) :=
    MkC (zmain (cmn s)) (MkChan (map (fun _ => 0) (cbuf (cch s))) (cclosed (cch s))) (map zpc (cws s)) (ctok s).

  Lemma nth_zpc t x : nth_error (map zpc t) x = match nth_error t x with Some u => Some (zpc u) | None => None end.
  Proof. rewrite nth_error_map. destruct (nth_error t x); reflexivity. Qed.
  Lemma upd_map {X Y} (f : X -> Y) l i x : map f (upd l i x) = upd (map f l) i (f x).
  Proof. revert i. induction l as [|y l IH]; intros [|i]; cbn; f_equal; auto. Qed.

  (** Worker [x] of a chunk that panics never gets past it. *)
  Definition caught (s : cst (F:=F)) : Prop :=
    length (cws s) = n /\
    forall x t, nth_error (cws s) x = Some t -> chunkClaim p x = None -> t = CIdle \/ t = CStart \/ t = CRun.

  Lemma claim_sim_main s : match claim_main p s with
    | Gives s' => claim_main dummy (zst s) = Gives (zst s') | Panics => True | Blocks => claim_main dummy (zst s) = Blocks end.
  Proof.
    destruct s as [pc c t k]. unfold claim_main, zst. cbn [cmn cch cws ctok]. rewrite dummy_n.
    destruct pc as [i|m res|res]; cbn [zmain].
    - destruct (i <? n)%nat; cbn; [rewrite upd_map|]; reflexivity.
    - destruct (m <? n)%nat; [|reflexivity]. unfold crecv. cbn [cbuf cclosed]. destruct (cbuf c) as [|v b] eqn:E; cbn [map].
      + destruct (cclosed c) eqn:Ec; [|reflexivity]. unfold zst. cbn. rewrite E, Ec. do 3 f_equal. ring.
      + unfold zst. cbn. do 3 f_equal. ring.
    - reflexivity.
  Qed.

  Lemma claim_sim_worker x s : length (cws s) = n -> match claim_worker p nCore x s with
    | Gives s' => claim_worker dummy nCore x (zst s) = Gives (zst s') | Panics => True | Blocks => claim_worker dummy nCore x (zst s) = Blocks end.
  Proof.
    intros HL. destruct s as [pc c t k]. unfold claim_worker, zst. cbn [cmn cch cws ctok] in *. rewrite nth_zpc, dummy_n.
    destruct (nth_error t x) as [u|] eqn:Hu; [|reflexivity].
    assert (Hx : (x < n)%nat) by (rewrite <- HL; apply nth_error_Some; congruence).
    destruct u as [| | |v| |]; cbn [zpc]; try reflexivity.
    - destruct k; cbn; [reflexivity|rewrite upd_map; reflexivity].
    - destruct (chunkClaim p x); [|exact I]. rewrite dummy_claim by (rewrite dummy_n; exact Hx). cbn. rewrite upd_map. reflexivity.
    - unfold csend. cbn [cbuf cclosed]. rewrite map_length. destruct (cclosed c); [exact I|].
      destruct (length (cbuf c) <? n)%nat; cbn; [rewrite upd_map, map_app|]; reflexivity.
    - destruct (k <? nCore)%nat; cbn; [rewrite upd_map|]; reflexivity.
  Qed.

  Lemma caught_step s s' : caught s -> claim_step p nCore s (Some s') -> caught s'.
  Proof.
    intros [HL HC] Hs. inversion Hs as [a s1 Ha E|]; subst. clear Hs. destruct s as [pc c t k]. cbn [cws] in *.
    assert (Hupd : forall i u t1, t1 = upd t i u -> (chunkClaim p i = None -> u = CIdle \/ u = CStart \/ u = CRun) ->
      length t1 = n /\ forall x v, nth_error t1 x = Some v -> chunkClaim p x = None -> v = CIdle \/ v = CStart \/ v = CRun).
    { intros i u t1 -> Hu. split; [rewrite upd_length; exact HL|]. intros x v Hv HN. rewrite nth_error_upd in Hv.
      destruct (Nat.eqb_spec i x) as [->|]; cbn [andb] in Hv; [|exact (HC x v Hv HN)].
      destruct (x <? length t)%nat; [injection Hv as <-; exact (Hu HN)|exact (HC x v Hv HN)]. }
    destruct a as [x|]; cbn [claim_run] in Ha.
    - unfold claim_worker in Ha. destruct (nth_error t x) as [u|] eqn:Hu; [|discriminate].
      destruct u as [| | |v| |]; try discriminate.
      + destruct k; [discriminate|]. injection Ha as <-. eapply Hupd; [reflexivity|auto].
      + destruct (chunkClaim p x) eqn:E; [|discriminate]. injection Ha as <-. eapply Hupd; [reflexivity|congruence].
      + destruct (csend n c v); try discriminate. injection Ha as <-. eapply Hupd; [reflexivity|].
        intros HN. destruct (HC x _ Hu HN) as [H|[H|H]]; discriminate.
      + destruct (k <? nCore)%nat; [|discriminate]. injection Ha as <-. eapply Hupd; [reflexivity|].
        intros HN. destruct (HC x _ Hu HN) as [H|[H|H]]; discriminate.
    - unfold claim_main in Ha. destruct pc as [i|m res|res]; [| |discriminate].
      + destruct (i <? n)%nat; injection Ha as <-; [eapply Hupd; [reflexivity|auto]|split; assumption].
      + destruct (m <? n)%nat; [|injection Ha as <-; split; assumption].
        destruct (crecv 0 c) as [| |[v c1]]; try discriminate. injection Ha as <-. split; assumption.
  Qed.

  Lemma claim_fails x : (x < n)%nat -> chunkClaim p x = None -> fails (claim_step p nCore) (claim_init p nCore).
  Proof.
    intros Hx HN.
    assert (Hz : zst (claim_init p nCore) = claim_init dummy nCore).
    { unfold claim_init. rewrite dummy_n. unfold zst. cbn [cmn cch cws ctok zmain emptyChan cbuf cclosed map]. f_equal.
      clear. induction n as [|m IH]; cbn; f_equal; auto. }
    assert (HI : caught (claim_init p nCore)).
    { split; [apply repeat_length|]. intros y t Ht _. apply nth_error_In in Ht. apply repeat_spec in Ht. auto. }
    assert (HQ : forall s s', caught s -> claim_step p nCore s (Some s') -> caught s' /\ claim_step dummy nCore (zst s) (Some (zst s'))).
    { intros s s' H1 Hs. split; [exact (caught_step _ _ H1 Hs)|].
      inversion Hs as [a s1 Ha E|]; subst. apply (cs_ok _ _ _ a). destruct a as [y|]; cbn [claim_run] in *.
      - pose proof (claim_sim_worker y s (proj1 H1)) as P. rewrite Ha in P. exact P.
      - pose proof (claim_sim_main s) as P. rewrite Ha in P. exact P. }
    eapply ends_reach; [eapply (ends_sim (claim_step p nCore) (claim_step dummy nCore) zst caught)|].
    - exact HQ.
    - intros s H1 Hno o Ho. inversion Ho as [a s1 Ha E|a Ha E]; subst.
      + destruct (claim_run p nCore a s) as [| |s2] eqn:Er.
        * destruct a as [y|]; cbn [claim_run] in *.
          -- pose proof (claim_sim_worker y s (proj1 H1)) as P. rewrite Er in P. congruence.
          -- pose proof (claim_sim_main s) as P. rewrite Er in P. congruence.
        * apply (Hno None). apply (cs_panic _ _ _ a). exact Er.
        * apply (Hno (Some s2)). apply (cs_ok _ _ _ a). exact Er.
      + destruct (claim_run p nCore a s) as [| |s2] eqn:Er.
        * destruct a as [y|]; cbn [claim_run] in *.
          -- pose proof (claim_sim_worker y s (proj1 H1)) as P. rewrite Er in P. congruence.
          -- pose proof (claim_sim_main s) as P. rewrite Er in P. congruence.
        * apply (Hno None). apply (cs_panic _ _ _ a). exact Er.
        * apply (Hno (Some s2)). apply (cs_ok _ _ _ a). exact Er.
    - exact HI.
    - rewrite Hz. apply (claim_must dummy nCore (fun _ => 0) dummy_claim HnCore).
    - intros s _ [[HL HC] (_ & HE & _)]. cbn [zst cws] in HE.
      destruct (nth_error (cws s) x) as [u|] eqn:Hu; [|apply nth_error_None in Hu; lia].
      assert (E : nth_error (map zpc (cws s)) x = Some (zpc u)) by (rewrite nth_zpc, Hu; reflexivity).
      rewrite HE in E. apply nth_error_In in E. apply repeat_spec in E.
      destruct (HC x u Hu HN) as [->|[->| ->]]; discriminate.
  Qed.
End Claim.
