(** The multi-threaded sum-check prover on any input: it hangs in no schedule when the sub-provers run as many rounds as main, and
    returns in no schedule otherwise. *)
From Coq Require Import List Arith ZArith Lia Bool.
From Verif Require Import Field Go Trans SpecEnds MCommon MPoly LForkJoin MCircuit MSumcheck MSumPar LSumPar LEnds.
Import ListNotations.

Section Erase.
  Context {Wk E R MS G Out : Type}.
  Variables (zE : E) (zR : R) (zW : Wk).
  Variables n nTok K : nat.
  Variable winit : nat -> option Wk.
  Variable wmore : nat -> Wk -> bool.
  Variable wevals : nat -> Wk -> option E.
  Variable wfold : nat -> Wk -> R -> option Wk.
  Variable consume : option E -> E -> option E.
  Variable mround : nat -> MS -> E -> option (MS * R).
  Variable merge : option G -> nat * Wk -> option G.
  Variable mfinish : MS -> G -> option Out.
  (** the number of rounds a sub-prover runs *)
  Variable nr : Wk -> nat.
  Hypothesis Hmore : forall j p, wmore j p = (j <? nr p).
  Hypothesis Hfold : forall j p r p', wfold j p r = Some p' -> nr p' = nr p.
  Hypothesis Hn : 0 < n.

  Notation st := (@st Wk E R MS G Out).
  Notation wpc := (@wpc Wk E R).
  Notation hpc := (@hpc R).
  Notation mpc := (@mpc E R G Out).
  Notation step := (step zE zR zW n nTok K winit wmore wevals wfold consume mround merge mfinish).
  Notation run := (run zE zR zW n nTok K winit wmore wevals wfold consume mround merge mfinish).
  Notation step_main := (step_main zE zW n K consume mround merge mfinish).
  Notation step_worker := (step_worker zR n nTok winit wmore wevals wfold).

  (** ** Without the data *)
  Notation ust := (@MSumPar.st unit unit unit unit unit unit).
  Definition urun := MSumPar.run (Wk:=unit) (E:=unit) (R:=unit) (MS:=unit) (G:=unit) (Out:=unit) tt tt tt n nTok K
    (fun _ => Some tt) (fun j _ => j <? K) (fun _ _ => Some tt) (fun _ _ _ => Some tt) (fun _ _ => Some tt)
    (fun _ _ _ => Some (tt, tt)) (fun _ _ => Some tt) (fun _ _ => Some tt).
  Definition ustep := MSumPar.step (Wk:=unit) (E:=unit) (R:=unit) (MS:=unit) (G:=unit) (Out:=unit) tt tt tt n nTok K
    (fun _ => Some tt) (fun j _ => j <? K) (fun _ _ => Some tt) (fun _ _ _ => Some tt) (fun _ _ => Some tt)
    (fun _ _ _ => Some (tt, tt)) (fun _ _ => Some tt) (fun _ _ => Some tt).

  Definition uo {X} (o : option X) : option unit := match o with Some _ => Some tt | None => None end.
  Definition uchan {X} (c : chan X) : chan unit := MkChan (map (fun _ => tt) (cbuf c)) (cclosed c).
  Definition ufin (c : chan (nat * Wk)) : chan (nat * unit) := MkChan (map (fun x => (fst x, tt)) (cbuf c)) (cclosed c).
  Definition uh (h : hpc) : @MSumPar.hpc unit := match h with HIdle => HIdle | HSend _ => HSend tt | HDone => HDone | HEnd => HEnd end.
  Definition uw (t : wpc) : @MSumPar.wpc unit unit unit :=
    match t with
    | WIdle => WIdle | WStart => WStart | WInit => WInit | WLoop j _ => WLoop j tt | WSend j _ _ => WSend j tt tt
    | WRel j _ => WRel j tt | WRecv j _ => WRecv j tt | WAcq j _ _ => WAcq j tt tt | WFold j _ _ => WFold j tt tt
    | WFin _ => WFin tt | WRelF => WRelF | WClose => WClose | WEnd => WEnd
    end.
  Definition um (m : mpc) : @MSumPar.mpc unit unit unit unit :=
    match m with
    | MSpawn k => MSpawn k | MCons i k a => MCons i k (uo a) | MRound i _ => MRound i tt | MGo i _ k => MGo i tt k | MWait i => MWait i
    | MMerge k g => MMerge k (uo g) | MFinish _ => MFinish tt | MCloseE _ => MCloseE tt | MCloseF _ => MCloseF tt | MEnd _ => MEnd tt
    end.
  Definition ust_of (s : st) : ust :=
    MkSt (um (main s)) tt (uchan (evC s)) (ufin (finC s)) (map uchan (rCs s)) (wg s) (map uh (hs s)) (map uw (ws s)) (toks s).

  Lemma nth_map' {X Y} (f : X -> Y) l i : nth_error (map f l) i = match nth_error l i with Some x => Some (f x) | None => None end.
  Proof. rewrite nth_error_map. destruct (nth_error l i); reflexivity. Qed.
  Lemma uchan_snoc {X} (b : list X) v c : uchan (MkChan (b ++ [v]) c) = MkChan (map (fun _ => tt) b ++ [tt]) c.
  Proof. unfold uchan. cbn [cbuf cclosed]. rewrite map_app. reflexivity. Qed.
  Lemma ufin_snoc b v c : ufin (MkChan (b ++ [v]) c) = MkChan (map (fun x => (fst x, tt)) b ++ [(fst v, tt)]) c.
  Proof. unfold ufin. cbn [cbuf cclosed]. rewrite map_app. reflexivity. Qed.
  Lemma um_if (b : bool) x y : um (if b then x else y) = if b then um x else um y.
  Proof. destruct b; reflexivity. Qed.

  (** The number of rounds of the prover of a sub-prover goroutine *)
  Definition prov (t : wpc) : option Wk :=
    match t with
    | WLoop _ p | WSend _ p _ | WRel _ p | WRecv _ p | WAcq _ p _ | WFold _ p _ => Some p
    | _ => None
    end.
  Definition uniform (s : st) : Prop := length (ws s) = n /\ forall x t p, nth_error (ws s) x = Some t -> prov t = Some p -> nr p = K.
  Hypothesis Huni : forall x p, x < n -> winit x = Some p -> nr p = K.

  Lemma sim_main s : match step_main s with
    | Gives s' => urun TMain (ust_of s) = Gives (ust_of s') | Panics => True | Blocks => urun TMain (ust_of s) = Blocks end.
  Proof.
    destruct s as [pc l eC fC rC w h t k0]. unfold urun. cbn [MSumPar.run]. unfold MSumPar.step_main, ust_of. cbn [main loc evC finC rCs wg hs ws toks].
    destruct pc as [k|i m acc|i e|i r k|i|m g|g|o|o|o]; cbn [um].
    - destruct (k <? n); cbn; [rewrite upd_map; reflexivity|]. unfold head. destruct (0 <? K); reflexivity.
    - unfold crecv at 1 2. cbn [uchan cbuf cclosed]. destruct eC as [[|e b] c]; cbn [cbuf cclosed map].
      + destruct c; [|reflexivity]. destruct (consume acc zE); [|exact I]. cbn [main loc evC finC rCs wg hs ws toks]. rewrite um_if. reflexivity.
      + destruct (consume acc e); [|exact I]. cbn [main loc evC finC rCs wg hs ws toks]. rewrite um_if. reflexivity.
    - destruct (mround i l e) as [[l' r]|]; [|exact I]. cbn [main loc evC finC rCs wg hs ws toks um]. rewrite map_length. do 2 f_equal.
      clear. induction (length rC) as [|m IH]; cbn; f_equal; auto.
    - rewrite map_length. destruct (k <? length rC); cbn; [rewrite upd_map|]; reflexivity.
    - destruct w; [|reflexivity]. cbn [main loc evC finC rCs wg hs ws toks]. unfold head. rewrite um_if. reflexivity.
    - unfold crecv at 1 2. cbn [ufin cbuf cclosed]. destruct fC as [[|e b] c]; cbn [cbuf cclosed map].
      + destruct c; [|reflexivity]. destruct (merge g (0, zW)); [|exact I]. cbn [main loc evC finC rCs wg hs ws toks]. rewrite um_if. reflexivity.
      + destruct (merge g e); [|exact I]. cbn [main loc evC finC rCs wg hs ws toks]. rewrite um_if. reflexivity.
    - destruct (mfinish l g); [reflexivity|exact I].
    - unfold cclose. cbn [uchan cclosed]. destruct (cclosed eC); [exact I|reflexivity].
    - unfold cclose. cbn [ufin cclosed]. destruct (cclosed fC); [exact I|reflexivity].
    - reflexivity.
  Qed.

  Lemma sim_helper x (s : st) : match step_helper x s with
    | Gives s' => urun (THelper x) (ust_of s) = Gives (ust_of s') | Panics => True | Blocks => urun (THelper x) (ust_of s) = Blocks end.
  Proof.
    destruct s as [pc l eC fC rC w h t k0]. unfold urun. cbn [MSumPar.run]. unfold step_helper, ust_of. cbn [main loc evC finC rCs wg hs ws toks].
    rewrite !nth_map'. destruct (nth_error h x) as [[|r| |]|]; cbn [uh]; try reflexivity.
    - destruct (nth_error rC x) as [c|]; [|reflexivity]. unfold csend. cbn [uchan cbuf cclosed]. rewrite map_length.
      destruct (cclosed c); [exact I|]. destruct (length (cbuf c) <? 1); [|reflexivity].
      cbn [main loc evC finC rCs wg hs ws toks]. rewrite !upd_map, uchan_snoc. reflexivity.
    - destruct w; [exact I|]. cbn [main loc evC finC rCs wg hs ws toks]. rewrite upd_map. destruct (nth_error rC x); reflexivity.
  Qed.

  Lemma sim_worker x s : uniform s -> match step_worker x s with
    | Gives s' => urun (TWorker x) (ust_of s) = Gives (ust_of s') | Panics => True | Blocks => urun (TWorker x) (ust_of s) = Blocks end.
  Proof.
    intros [HL HU]. destruct s as [pc l eC fC rC w h t k0]. unfold urun. cbn [MSumPar.run]. unfold MSumPar.step_worker, ust_of.
    cbn [main loc evC finC rCs wg hs ws toks] in *. rewrite !nth_map'. destruct (nth_error t x) as [u|] eqn:Hu; [|reflexivity].
    specialize (fun p => HU x u p Hu).
    destruct u as [| | |j p|j p e|j p|j p|j p r|j p r|p| | |]; cbn [uw]; try reflexivity.
    - destruct k0; cbn; [|rewrite upd_map]; reflexivity.
    - destruct (winit x); [|exact I]. cbn; rewrite upd_map; reflexivity.
    - rewrite Hmore, (HU p eq_refl). destruct (j <? K); [destruct (wevals j p); [|exact I]|]; cbn; rewrite upd_map; reflexivity.
    - unfold csend. cbn [uchan cbuf cclosed]. rewrite map_length. destruct (cclosed eC); [exact I|].
      destruct (length (cbuf eC) <? n); [|reflexivity]. cbn [main loc evC finC rCs wg hs ws toks]. rewrite upd_map, uchan_snoc. reflexivity.
    - destruct (k0 <? nTok); cbn; [rewrite upd_map|]; reflexivity.
    - destruct (nth_error rC x) as [c|]; [|reflexivity]. unfold crecv. cbn [uchan cbuf cclosed].
      destruct c as [[|r b] c]; cbn [cbuf cclosed map].
      + destruct c; [|reflexivity]. cbn. rewrite !upd_map. reflexivity.
      + cbn. rewrite !upd_map. reflexivity.
    - destruct k0; cbn; [|rewrite upd_map]; reflexivity.
    - destruct (wfold j p r); [|exact I]. cbn; rewrite upd_map; reflexivity.
    - unfold csend. cbn [ufin cbuf cclosed]. rewrite map_length. destruct (cclosed fC); [exact I|].
      destruct (length (cbuf fC) <? n); [|reflexivity]. cbn [main loc evC finC rCs wg hs ws toks]. rewrite upd_map, ufin_snoc. reflexivity.
    - destruct (k0 <? nTok); cbn; [rewrite upd_map|]; reflexivity.
    - destruct (nth_error rC x) as [c|]; [|reflexivity]. unfold cclose. cbn [uchan cclosed].
      destruct (cclosed c); [exact I|]. cbn. rewrite !upd_map. reflexivity.
  Qed.

  Lemma ws_main s s' : step_main s = Gives s' -> ws s' = ws s \/ exists k, ws s' = upd (ws s) k WStart.
  Proof.
    destruct s as [pc l eC fC rC w h t k0]. unfold MSumPar.step_main. cbn [ws]. intros H.
    destruct pc as [k|i m acc|i e|i r k|i|m g|g|o|o|o].
    - destruct (k <? n); injection H as <-; cbn [ws]; eauto.
    - destruct (crecv zE eC) as [| |[e eC']]; try discriminate. destruct (consume acc e); [|discriminate]. injection H as <-. auto.
    - destruct (mround i l e) as [[l' r]|]; [|discriminate]. injection H as <-. auto.
    - destruct (k <? length rC); injection H as <-; auto.
    - destruct w; [|discriminate]. injection H as <-. auto.
    - destruct (crecv (0, zW) fC) as [| |[e fC']]; try discriminate. destruct (merge g e); [|discriminate]. injection H as <-. auto.
    - destruct (mfinish l g); [|discriminate]. injection H as <-. auto.
    - destruct (cclose eC); try discriminate. injection H as <-. auto.
    - destruct (cclose fC); try discriminate. injection H as <-. auto.
    - discriminate.
  Qed.

  Lemma ws_helper x (s s' : st) : step_helper x s = Gives s' -> ws s' = ws s.
  Proof.
    destruct s as [pc l eC fC rC w h t k0]. unfold step_helper. cbn [ws]. intros H.
    destruct (nth_error h x) as [[|r| |]|]; try discriminate.
    - destruct (nth_error rC x) as [c|]; [|discriminate]. destruct (csend 1 c r); try discriminate. injection H as <-. reflexivity.
    - destruct w; [discriminate|]. injection H as <-. reflexivity.
  Qed.

  Lemma ws_worker x (s s' : st) : step_worker x s = Gives s' -> exists t t', nth_error (ws s) x = Some t /\ ws s' = upd (ws s) x t' /\
    forall p', prov t' = Some p' -> (exists p, prov t = Some p /\ nr p' = nr p) \/ winit x = Some p'.
  Proof.
    destruct s as [pc l eC fC rC w h t k0]. unfold MSumPar.step_worker. cbn [ws]. intros H.
    destruct (nth_error t x) as [u|] eqn:Hu; [|discriminate]. exists u.
    destruct u as [| | |j p|j p e|j p|j p|j p r|j p r|p| | |]; try discriminate.
    - destruct k0; [discriminate|]. injection H as <-. eexists. split; [reflexivity|]. split; [reflexivity|]. discriminate.
    - destruct (winit x) eqn:Ei; [|discriminate]. injection H as <-. eexists. split; [reflexivity|]. split; [reflexivity|]. cbn. intros p' Hp. right. congruence.
    - destruct (wmore j p).
      + destruct (wevals j p); [|discriminate]. injection H as <-. eexists. split; [reflexivity|]. split; [reflexivity|]. cbn. intros p' Hp. left. exists p. split; [reflexivity|congruence].
      + injection H as <-. eexists. split; [reflexivity|]. split; [reflexivity|]. discriminate.
    - destruct (csend n eC e); try discriminate. injection H as <-. eexists. split; [reflexivity|]. split; [reflexivity|]. cbn. intros p' Hp. left. exists p. split; [reflexivity|congruence].
    - destruct (k0 <? nTok); [|discriminate]. injection H as <-. eexists. split; [reflexivity|]. split; [reflexivity|]. cbn. intros p' Hp. left. exists p. split; [reflexivity|congruence].
    - destruct (nth_error rC x) as [c|]; [|discriminate]. destruct (crecv zR c) as [| |[r c']]; try discriminate. injection H as <-.
      eexists. split; [reflexivity|]. split; [reflexivity|]. cbn. intros p' Hp. left. exists p. split; [reflexivity|congruence].
    - destruct k0; [discriminate|]. injection H as <-. eexists. split; [reflexivity|]. split; [reflexivity|]. cbn. intros p' Hp. left. exists p. split; [reflexivity|congruence].
    - destruct (wfold j p r) as [p2|] eqn:Ef; [|discriminate]. injection H as <-. eexists. split; [reflexivity|]. split; [reflexivity|]. cbn. intros p' Hp.
      injection Hp as <-. left. exists p. split; [reflexivity|exact (Hfold _ _ _ _ Ef)].
    - destruct (csend n fC (x, p)); try discriminate. injection H as <-. eexists. split; [reflexivity|]. split; [reflexivity|]. discriminate.
    - destruct (k0 <? nTok); [|discriminate]. injection H as <-. eexists. split; [reflexivity|]. split; [reflexivity|]. discriminate.
    - destruct (nth_error rC x) as [c|]; [|discriminate]. destruct (cclose c); try discriminate. injection H as <-. eexists. split; [reflexivity|]. split; [reflexivity|]. discriminate.
  Qed.

  Lemma uniform_step s s' : uniform s -> step s (Some s') -> uniform s'.
  Proof.
    intros [HL HU] Hs. inversion Hs as [a s1 Ha E0|]; subst. destruct a as [|x|x]; cbn [MSumPar.run] in Ha.
    - destruct (ws_main s s' Ha) as [E1|(k & E1)]; unfold uniform; rewrite E1; [split; assumption|].
      split; [rewrite upd_length; exact HL|]. intros y u p Hu Hp. rewrite nth_error_upd in Hu.
      destruct ((k =? y) && (k <? length (ws s))); [injection Hu as <-; discriminate|exact (HU y u p Hu Hp)].
    - unfold uniform. rewrite (ws_helper x s s' Ha). split; assumption.
    - destruct (ws_worker x s s' Ha) as (t & t' & Ht & E1 & HP). unfold uniform. rewrite E1, upd_length. split; [exact HL|].
      intros y u p Hu Hp. rewrite nth_error_upd in Hu. destruct ((x =? y) && (x <? length (ws s))) eqn:Eb; [|exact (HU y u p Hu Hp)].
      injection Hu as <-. apply andb_prop in Eb. destruct Eb as [_ Hx]. apply Nat.ltb_lt in Hx.
      destruct (HP p Hp) as [(p0 & H1 & H2)|H1]; [rewrite H2; exact (HU x t p0 Ht H1)|apply (Huni x); [lia|exact H1]].
  Qed.

  Lemma mt_ends m : 0 < nTok -> ends step (fun s => exists o, main s = MEnd o /\ ws s = repeat WEnd n /\ toks s = nTok) (init n nTok m).
  Proof.
    intros HnTok.
    assert (HM : must ustep (fun s => main s = MEnd tt /\ ws s = repeat WEnd n /\ toks s = nTok /\ rCs s = repeat (MkChan [] true) n /\
      evC s = MkChan [] true /\ finC s = MkChan [] true) (init n nTok tt)).
    { apply (mt_must tt tt tt n nTok K (fun _ => Some tt) (fun j _ => j <? K) (fun _ _ => Some tt) (fun _ _ _ => Some tt) (fun _ _ => Some tt)
        (fun _ _ _ => Some (tt, tt)) (fun _ _ => Some tt) (fun _ _ => Some tt)
        (fun _ _ => tt) (fun _ _ => tt) (fun _ => tt) (fun _ => tt) tt (fun _ _ _ => True) (fun _ _ => True)); auto; intros; exists tt; auto. }
    assert (HZ : ust_of (init n nTok m) = init n nTok tt).
    { unfold ust_of, init. cbn. f_equal; clear; induction n as [|k IH]; cbn; f_equal; auto. }
    rewrite <- HZ in HM.
    assert (Hrun : forall a s, uniform s -> match run a s with
      | Gives s' => urun a (ust_of s) = Gives (ust_of s') | Panics => True | Blocks => urun a (ust_of s) = Blocks end).
    { intros a s Hs. destruct a as [|x|x]; [apply sim_main|apply sim_helper|apply sim_worker; exact Hs]. }
    eapply ends_reach; [eapply (ends_sim step ustep ust_of uniform)|].
    - intros s s' Hs Hss. split; [exact (uniform_step s s' Hs Hss)|]. inversion Hss as [a s1 Ha E0|]; subst.
      apply (step_ok _ _ _ _ _ _ _ _ _ _ _ _ _ _ _ a). pose proof (Hrun a s Hs) as P. rewrite Ha in P. exact P.
    - intros s Hs Hno o Ho. assert (HB : forall a, urun a (ust_of s) = Blocks).
      { intros a. pose proof (Hrun a s Hs) as P. destruct (run a s) as [| |s2] eqn:Er; [exact P|exfalso|exfalso].
        - apply (Hno None). eapply step_panic. exact Er.
        - apply (Hno (Some s2)). eapply step_ok. exact Er. }
      inversion Ho as [a s1 Ha E0|a Ha E0]; subst; pose proof (HB a) as P; unfold urun in P; congruence.
    - split; [apply repeat_length|]. intros x t p Ht Hp. apply nth_error_In in Ht. apply repeat_spec in Ht. subst t. discriminate.
    - exact HM.
    - intros s _ ((HL & _) & H1 & H2 & H3 & _). cbn [ust_of main ws toks] in H1, H2, H3.
      destruct (main s) as [k|i mm acc|i e|i r k|i|mm g|g|o|o|o] eqn:Em; try discriminate. exists o. split; [reflexivity|]. split; [|exact H3].
      clear - H2. revert H2. generalize n. induction (ws s) as [|t l IH]; intros [|k] H; cbn in *; try discriminate; [reflexivity|].
      injection H as H1 H2. f_equal; [destruct t; try discriminate; reflexivity|exact (IH k H2)].
  Qed.
End Erase.
