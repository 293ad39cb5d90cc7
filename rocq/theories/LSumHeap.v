(** The machine with shared memory simulates the machine without, when every goroutine keeps to its own cells. *)
From Coq Require Import List Arith Lia Bool.
From Verif Require Import Go Trans MSumPar MSumHeap LSumPar.
Import ListNotations.

Lemma list_eq_nth {A} (l k : list A) : (forall y, nth_error l y = nth_error k y) -> l = k.
Proof.
  revert k. induction l as [|a l IH]; intros [|b k] H; auto.
  - specialize (H 0). discriminate.
  - specialize (H 0). discriminate.
  - pose proof (H 0) as H0. cbn in H0. injection H0 as ->. f_equal. apply IH. intros y. apply (H (S y)).
Qed.

Section Sim.
  Context {Gh Mem Wk Wk' E R MS G G' Out : Type}.
  Variables (zE : E) (zR : R) (zW : Wk) (zW' : Wk').
  Variables nChunks nTok nRounds : nat.
  Variable hinit : nat -> Mem -> option (Mem * Wk).
  Variable wmore : nat -> Wk -> bool.
  Variable hevals : Mem -> nat -> Wk -> option E.
  Variable hfold : nat -> Wk -> R -> Mem -> option (Mem * Wk).
  Variable consume : option E -> E -> option E.
  Variable mround : nat -> MS -> E -> option (MS * R).
  Variable hmerge : Mem -> option G -> nat * Wk -> option G.
  Variable hfinish : Mem -> MS -> G -> option Out.
  Variable winit : nat -> option Wk'.
  Variable wmore' : nat -> Wk' -> bool.
  Variable wevals : nat -> Wk' -> option E.
  Variable wfold : nat -> Wk' -> R -> option Wk'.
  Variable merge : option G' -> nat * Wk' -> option G'.
  Variable mfinish : MS -> G' -> option Out.

  Variable abs : Mem -> Wk -> Wk'.
  Variable absG : Mem -> G -> G'.
  Variable Ipre : Gh -> nat -> Mem -> Prop.
  Variable Irun : Gh -> nat -> Mem -> Wk -> Prop.
  Variable IG : Gh -> nat -> Mem -> G -> Prop.
  Variable Ifr : Gh -> Mem -> Prop.
  Variable chg : nat -> Gh -> Mem -> Gh -> Mem -> Prop.

  Hypothesis Hinit : forall o x m, Ipre o x m ->
    match hinit x m with
    | None => winit x = None
    | Some (m', w) => winit x = Some (abs m' w) /\ exists o', Irun o' x m' w /\ chg x o m o' m'
    end.
  Hypothesis Hmore : forall o x m w j, Irun o x m w -> wmore' j (abs m w) = wmore j w.
  Hypothesis Hevals : forall o x m w j, Irun o x m w -> wevals j (abs m w) = hevals m j w.
  Hypothesis Hfold : forall o x m w j r, Irun o x m w ->
    match hfold j w r m with
    | None => wfold j (abs m w) r = None
    | Some (m', w') => wfold j (abs m w) r = Some (abs m' w') /\ exists o', Irun o' x m' w' /\ chg x o m o' m'
    end.
  Hypothesis Hchg_pre : forall x y o m o' m', chg x o m o' m' -> x <> y -> Ipre o y m -> Ipre o' y m'.
  Hypothesis Hchg_run : forall x y o m o' m' w, chg x o m o' m' -> x <> y -> Irun o y m w -> Irun o' y m' w /\ abs m' w = abs m w.
  Hypothesis Hchg_G : forall x y o m o' m' g, chg x o m o' m' -> x <> y -> IG o y m g -> IG o' y m' g /\ absG m' g = absG m g.
  Hypothesis Hchg_fr : forall x o m o' m', chg x o m o' m' -> Ifr o m -> Ifr o' m'.
  Hypothesis Hmerge0 : forall o x m w, Irun o x m w ->
    merge None (x, abs m w) = option_map (absG m) (hmerge m None (x, w)) /\
    forall g, hmerge m None (x, w) = Some g -> IG o x m g.
  Hypothesis Hmerge1 : forall o x y m w g, Irun o x m w -> IG o y m g ->
    merge (Some (absG m g)) (x, abs m w) = option_map (absG m) (hmerge m (Some g) (x, w)) /\
    forall g', hmerge m (Some g) (x, w) = Some g' -> IG o y m g'.
  Hypothesis Hfinish : forall o y m l g, IG o y m g -> mfinish l (absG m g) = hfinish m l g.

  Definition pcmap (f : Wk -> Wk') (p : wpc (Wk:=Wk) (E:=E) (R:=R)) : wpc (Wk:=Wk') (E:=E) (R:=R) :=
    match p with
    | WIdle => WIdle | WStart => WStart | WInit => WInit
    | WLoop j p => WLoop j (f p) | WSend j p e => WSend j (f p) e | WRel j p => WRel j (f p)
    | WRecv j p => WRecv j (f p) | WAcq j p r => WAcq j (f p) r | WFold j p r => WFold j (f p) r
    | WFin p => WFin (f p) | WRelF => WRelF | WClose => WClose | WEnd => WEnd
    end.
  Definition mpcmap (f : G -> G') (p : mpc (E:=E) (R:=R) (G:=G) (Out:=Out)) : mpc (E:=E) (R:=R) (G:=G') (Out:=Out) :=
    match p with
    | MSpawn k => MSpawn k | MCons i m acc => MCons i m acc | MRound i e => MRound i e
    | MGo i r k => MGo i r k | MWait i => MWait i
    | MMerge m g => MMerge m (option_map f g) | MFinish g => MFinish (f g)
    | MCloseE o => MCloseE o | MCloseF o => MCloseF o | MEnd o => MEnd o
    end.
  Definition chmap {A B} (f : A -> B) (c : chan A) : chan B := MkChan (map f (cbuf c)) (cclosed c).
  Notation hst := (st (Wk:=Wk) (E:=E) (R:=R) (MS:=MS) (G:=G) (Out:=Out)).
  Definition stmap (m : Mem) (s : hst) : st (Wk:=Wk') (E:=E) (R:=R) (MS:=MS) (G:=G') (Out:=Out) :=
    MkSt (mpcmap (absG m) (main s)) (loc s) (evC s) (chmap (fun x => (fst x, abs m (snd x))) (finC s)) (rCs s)
      (wg s) (hs s) (map (pcmap (abs m)) (ws s)) (toks s).

  (** The prover held at a control point. *)
  Definition held (p : wpc (Wk:=Wk) (E:=E) (R:=R)) : option Wk :=
    match p with
    | WLoop _ p | WSend _ p _ | WRel _ p | WRecv _ p | WAcq _ p _ | WFold _ p _ | WFin p => Some p
    | _ => None
    end.
  Definition early (p : wpc (Wk:=Wk) (E:=E) (R:=R)) : bool := match p with WIdle | WStart | WInit => true | _ => false end.
  Definition late (p : wpc (Wk:=Wk) (E:=E) (R:=R)) : bool := match p with WRelF | WClose | WEnd => true | _ => false end.

  Definition pcinv o m x (p : wpc (Wk:=Wk) (E:=E) (R:=R)) : Prop :=
    (early p = true -> Ipre o x m) /\ (forall w, held p = Some w -> Irun o x m w).

  Definition Inv (o : Gh) (s : hst) (m : Mem) : Prop :=
    (forall x p, nth_error (ws s) x = Some p -> pcinv o m x p) /\
    (forall x w, In (x, w) (cbuf (finC s)) -> Irun o x m w /\ exists p, nth_error (ws s) x = Some p /\ late p = true) /\
    (forall n g, main s = MMerge n (Some g) \/ main s = MFinish g ->
       exists y, IG o y m g /\ exists p, nth_error (ws s) y = Some p /\ late p = true) /\
    (cclosed (finC s) = true -> exists out, main s = MEnd out) /\
    (forall k x p, main s = MSpawn k -> k <= x -> nth_error (ws s) x = Some p -> p = WIdle) /\
    Ifr o m.

  Notation hrunI := (hrun zE zR zW nChunks nTok nRounds hinit wmore hevals hfold consume mround hmerge hfinish).
  Notation runI := (run zE zR zW' nChunks nTok nRounds winit wmore' wevals wfold consume mround merge mfinish).

  Lemma map_upd {A B} (f : A -> B) l x v : map f (upd l x v) = upd (map f l) x (f v).
  Proof. revert x. induction l as [|y l IH]; intros [|x]; cbn; auto. rewrite IH. reflexivity. Qed.
  Lemma nth_error_map_pc m l x : nth_error (map (pcmap (abs m)) l) x = option_map (pcmap (abs m)) (nth_error l x).
  Proof. apply nth_error_map. Qed.

  (** When the memory changes by a step of [x], the other goroutines' provers look the same. *)
  Lemma map_same o m o' m' x l v :
    (forall y p, nth_error l y = Some p -> pcinv o m y p) -> chg x o m o' m' ->
    map (pcmap (abs m')) (upd l x v) = upd (map (pcmap (abs m)) l) x (pcmap (abs m') v).
  Proof.
    intros H Hc. rewrite map_upd.
    assert (Hl : forall y, y <> x -> nth_error (map (pcmap (abs m')) l) y = nth_error (map (pcmap (abs m)) l) y).
    { intros y Hy. rewrite !nth_error_map. destruct (nth_error l y) as [p|] eqn:Ep; [|reflexivity]. cbn. f_equal.
      destruct (H y p Ep) as [_ Hh].
      destruct p; cbn [pcmap held] in *; try reflexivity;
        rewrite (proj2 (Hchg_run x y o m o' m' _ Hc ltac:(congruence) (Hh _ eq_refl))); reflexivity. }
    clear H Hc. revert x Hl. induction l as [|a l IH]; intros [|x] Hl; cbn; auto.
    - f_equal. clear IH. apply list_eq_nth. intros y. specialize (Hl (S y) ltac:(lia)). exact Hl.
    - f_equal.
      + specialize (Hl 0 ltac:(lia)). cbn in Hl. congruence.
      + apply IH. intros y Hy. apply (Hl (S y)). lia.
  Qed.

  Definition simulates (a : tid) (s : hst) (m : Mem) : Prop :=
    match hrunI a (s, m) with
    | Blocks => runI a (stmap m s) = Blocks
    | Panics => runI a (stmap m s) = Panics
    | Gives (s', m') => runI a (stmap m s) = Gives (stmap m' s') /\ exists o', Inv o' s' m'
    end.

  Lemma sim_helper o s m x : Inv o s m -> simulates (THelper x) s m.
  Proof.
    intros (H1 & H2 & H3 & H4 & H5 & H6). destruct s as [pc l eC fC rC w h t k0]. unfold simulates, hrun, stmap. cbn [run main loc evC finC rCs wg hs ws toks step_helper written] in *.
    destruct (nth_error h x) as [[|r| |]|] eqn:Eh; try reflexivity.
    - destruct (nth_error rC x) as [c|] eqn:Ec; [|reflexivity]. destruct (csend 1 c r) eqn:Es; try reflexivity.
      split; [reflexivity|]. exists o. unfold Inv. cbn [main finC ws]. auto 8.
    - destruct (nth_error rC x) as [c|]; (destruct w as [|w]; [reflexivity|]); (split; [reflexivity|]; exists o; unfold Inv; cbn [main finC ws]; auto 8).
  Qed.

  Notation hhead i := (head (E:=E) (R:=R) (G:=G) (Out:=Out) nRounds i).
  Lemma head_map i m : mpcmap (absG m) (hhead i) = head nRounds i.
  Proof. unfold head. destruct (i <? nRounds); reflexivity. Qed.
  Lemma head_not i n g : hhead i = MMerge n (Some g) \/ hhead i = MFinish g -> False.
  Proof. unfold head. destruct (i <? nRounds); intros [H|H]; discriminate. Qed.
  Lemma head_not2 i k : hhead i <> MSpawn k.
  Proof. unfold head. destruct (i <? nRounds); discriminate. Qed.

  (** A step of main that leaves the sub-provers alone keeps the invariant. *)
  Lemma inv_main o pc l eC (fC fC' : chan (nat * Wk)) rC w h t k0 m pc' l' eC' rC' w' h' k0' :
    Inv o (MkSt pc l eC fC rC w h t k0) m ->
    (forall x, In x (cbuf fC') -> In x (cbuf fC)) ->
    (forall n g, pc' = MMerge n (Some g) \/ pc' = MFinish g ->
       exists y, IG o y m g /\ exists p, nth_error t y = Some p /\ late p = true) ->
    (cclosed fC' = true -> exists out, pc' = MEnd out) -> (forall k, pc' <> MSpawn k) ->
    Inv o (MkSt pc' l' eC' fC' rC' w' h' t k0') m.
  Proof.
    intros (H1 & H2 & H3 & H4 & H5 & H6) A3 A4 A5 A6. unfold Inv. cbn [main finC ws] in *.
    split; [exact H1|]. split; [intros x w0 Hx; apply H2, A3, Hx|]. split; [exact A4|]. split; [exact A5|].
    split; [|exact H6]. intros k x p Hk. destruct (A6 k Hk).
  Qed.

  Ltac noG := intros ? ? [Hd|Hd]; discriminate.
  Lemma sim_main o s m : Inv o s m -> simulates TMain s m.
  Proof.
    intros I. pose proof I as (H1 & H2 & H3 & H4 & H5 & H6). destruct s as [pc l eC fC rC w h t k0]. unfold simulates, hrun, stmap.
    cbn [run main loc evC finC rCs wg hs ws toks written] in *. cbn [step_main].
    assert (Hnc : forall p, pc = p -> (forall out, p <> MEnd out) -> cclosed fC = false).
    { intros p -> Hp. destruct (cclosed fC); [|reflexivity]. destruct (H4 eq_refl) as [out E']. congruence. }
    destruct pc as [k|i n acc|i e|i r k|i|n g|g|out|out|out]; cbn [mpcmap step_main].
    - assert (Hc : cclosed fC = false) by (apply (Hnc _ eq_refl); discriminate). destruct (k <? nChunks).
      + split; [cbn [main loc evC finC rCs wg hs ws toks]; rewrite map_upd; reflexivity|]. exists o. unfold Inv. cbn [main finC ws].
        assert (Ht : forall x p, nth_error (upd t k WStart) x = Some p -> (x = k /\ p = WStart /\ exists q, nth_error t k = Some q) \/ (x <> k /\ nth_error t x = Some p)).
        { intros x p Hx. destruct (Nat.eq_dec k x) as [<-|Hn].
          - left. destruct (nth_error t k) as [q|] eqn:Eq.
            + rewrite (upd_same_nth _ _ q _ Eq) in Hx. injection Hx as <-. eauto.
            + apply nth_error_None in Eq. assert (k < length (upd t k WStart)) by (apply nth_error_Some; congruence). rewrite upd_length in H. lia.
          - right. rewrite upd_other_nth in Hx by exact Hn. auto. }
        assert (Hl : forall y p, nth_error t y = Some p -> late p = true -> nth_error (upd t k WStart) y = Some p).
        { intros y p Hy Hp. destruct (Nat.eq_dec k y) as [<-|Hn]; [|rewrite upd_other_nth; auto].
          rewrite (H5 k k p eq_refl (le_n _) Hy) in Hp. discriminate. }
        split; [|split; [|split; [|split; [|split]]]]; auto.
        * intros x p Hx. destruct (Ht x p Hx) as [(-> & -> & q & Eq)|[Hn Hx']]; [|apply H1; exact Hx'].
          split; [|cbn; discriminate]. intros _. pose proof (H5 k k q eq_refl (le_n _) Eq) as ->. apply (H1 k _ Eq). reflexivity.
        * intros x w0 Hx. destruct (H2 x w0 Hx) as (A & p & B & C). split; [exact A|]. exists p. auto.
        * noG.
        * intros Hd. congruence.
        * intros k' x p Hk Hx Hp. injection Hk as <-. destruct (Ht x p Hp) as [(-> & _)|[_ Hp']]; [lia|]. apply (H5 k x p eq_refl); [lia|exact Hp'].
      + split; [cbn [main loc evC finC rCs wg hs ws toks]; rewrite head_map; reflexivity|]. exists o. eapply inv_main; [exact I|..]; auto.
        * intros n g Hd. destruct (head_not _ _ _ Hd).
        * congruence.
        * intros k'. apply head_not2.
    - assert (Hc : cclosed fC = false) by (apply (Hnc _ eq_refl); discriminate).
      destruct (crecv zE eC) as [| |[e c]]; try reflexivity. destruct (consume acc e) as [a|]; [|reflexivity].
      split; [destruct (S n <? nChunks); reflexivity|]. exists o. eapply inv_main; [exact I|..]; auto.
      + intros ? ?. destruct (S n <? nChunks); intros [Hd|Hd]; discriminate.
      + congruence.
      + intros k. destruct (S n <? nChunks); discriminate.
    - assert (Hc : cclosed fC = false) by (apply (Hnc _ eq_refl); discriminate).
      destruct (mround i l e) as [[l' r]|]; [|reflexivity]. split; [reflexivity|]. exists o. eapply inv_main; [exact I|..]; auto; [noG|congruence|discriminate].
    - assert (Hc : cclosed fC = false) by (apply (Hnc _ eq_refl); discriminate).
      destruct (k <? length rC); (split; [reflexivity|]; exists o; eapply inv_main; [exact I|..]; auto; [noG|congruence|discriminate]).
    - assert (Hc : cclosed fC = false) by (apply (Hnc _ eq_refl); discriminate).
      destruct w as [|w]; [|reflexivity]. split; [cbn [main loc evC finC rCs wg hs ws toks]; rewrite head_map; reflexivity|]. exists o. eapply inv_main; [exact I|..]; auto.
      + intros n g Hd. destruct (head_not _ _ _ Hd).
      + congruence.
      + intros k'. apply head_not2.
    - assert (Hc : cclosed fC = false) by (apply (Hnc _ eq_refl); discriminate).
      unfold crecv. destruct fC as [[|[x w0] b] cl]; cbn [cbuf cclosed chmap map fst snd] in *; subst cl; [reflexivity|].
      destruct (H2 x w0 (or_introl eq_refl)) as (HR & p & Ep & Hp).
      destruct g as [g|]; cbn [option_map].
      + destruct (H3 n g (or_introl eq_refl)) as (y & HG & q & Eq & Hq).
        destruct (Hmerge1 o x y m w0 g HR HG) as [-> HG']. destruct (hmerge m (Some g) (x, w0)) as [g'|]; cbn [option_map]; [|reflexivity].
        split; [destruct (S n <? nChunks); reflexivity|]. exists o. eapply inv_main; [exact I|..]; auto.
        * cbn. auto.
        * intros n' g2 Hg. assert (g2 = g') as -> by (destruct (S n <? nChunks); destruct Hg; congruence).
          exists y. split; [apply HG'; reflexivity|]. eauto.
        * discriminate.
        * intros k. destruct (S n <? nChunks); discriminate.
      + destruct (Hmerge0 o x m w0 HR) as [-> HG']. destruct (hmerge m None (x, w0)) as [g'|]; cbn [option_map]; [|reflexivity].
        split; [destruct (S n <? nChunks); reflexivity|]. exists o. eapply inv_main; [exact I|..]; auto.
        * cbn. auto.
        * intros n' g2 Hg. assert (g2 = g') as -> by (destruct (S n <? nChunks); destruct Hg; congruence).
          exists x. split; [apply HG'; reflexivity|]. eauto.
        * discriminate.
        * intros k. destruct (S n <? nChunks); discriminate.
    - assert (Hc : cclosed fC = false) by (apply (Hnc _ eq_refl); discriminate).
      destruct (H3 0 g (or_intror eq_refl)) as (y & HG & _). rewrite (Hfinish o y m l g HG).
      destruct (hfinish m l g) as [out|]; [|reflexivity]. split; [reflexivity|]. exists o. eapply inv_main; [exact I|..]; auto; [noG|congruence|discriminate].
    - assert (Hc : cclosed fC = false) by (apply (Hnc _ eq_refl); discriminate).
      destruct (cclose eC) as [| |eC']; try reflexivity. split; [reflexivity|]. exists o. eapply inv_main; [exact I|..]; auto; [noG|congruence|discriminate].
    - unfold cclose. cbn [chmap cclosed]. destruct fC as [b cl]; cbn [cbuf cclosed chmap] in *. destruct cl; [reflexivity|].
      split; [reflexivity|]. exists o. eapply inv_main; [exact I|..]; auto; [noG|eauto|discriminate].
    - reflexivity.
  Qed.

  (** A step of sub-prover [x] from control point [p] to [p'] that does not touch the memory. *)
  Lemma inv_worker o pc l eC eC' fC rC rC' w h t k0 k0' x p p' m :
    Inv o (MkSt pc l eC fC rC w h t k0) m -> nth_error t x = Some p -> p <> WIdle ->
    early p' = false \/ early p = true -> held p' = held p \/ held p' = None -> (late p = true -> late p' = true) -> 
    Inv o (MkSt pc l eC' fC rC' w h (upd t x p') k0') m.
  Proof.
    intros (H1 & H2 & H3 & H4 & H5 & H6) Hx Hi He Hh Hl. unfold Inv. cbn [main finC ws] in *.
    assert (Hlate : forall y q, nth_error t y = Some q -> late q = true -> exists q', nth_error (upd t x p') y = Some q' /\ late q' = true).
    { intros y q Hy Hq. destruct (Nat.eq_dec x y) as [<-|Hn].
      - rewrite Hx in Hy. injection Hy as <-. exists p'. rewrite (upd_same_nth _ _ _ _ Hx). auto.
      - exists q. rewrite upd_other_nth by exact Hn. auto. }
    split; [|split; [|split; [|split; [|split]]]]; auto.
    - intros y q Hy. destruct (Nat.eq_dec x y) as [<-|Hn].
      + rewrite (upd_same_nth _ _ _ _ Hx) in Hy. injection Hy as <-. destruct (H1 x p Hx) as [A B]. split.
        * intros He'. destruct He as [He|He]; [congruence|auto].
        * intros w0 Hw. destruct Hh as [Hh|Hh]; [apply B; congruence|congruence].
      + rewrite upd_other_nth in Hy by exact Hn. apply H1. exact Hy.
    - intros y w0 Hy. destruct (H2 y w0 Hy) as (A & q & B & C). split; [exact A|]. eapply Hlate; eauto.
    - intros n g Hg. destruct (H3 n g Hg) as (y & A & q & B & C). exists y. split; [exact A|]. eapply Hlate; eauto.
    - intros k y q Hk Hy Hq. destruct (Nat.eq_dec x y) as [<-|Hn].
      + destruct (Hi (H5 k x p Hk Hy Hx)).
      + rewrite upd_other_nth in Hq by exact Hn. eapply H5; eauto.
  Qed.

  (** A step of sub-prover [x] that changes the memory. *)
  Lemma inv_write o o' pc l eC fC rC w h t k0 x p p' m m' :
    Inv o (MkSt pc l eC fC rC w h t k0) m -> nth_error t x = Some p -> p <> WIdle -> late p = false ->
    early p' = false -> (forall w, held p' = Some w -> Irun o' x m' w) -> chg x o m o' m' ->
    Inv o' (MkSt pc l eC fC rC w h (upd t x p') k0) m' /\
    MkSt (mpcmap (absG m) pc) l eC (chmap (fun x => (fst x, abs m (snd x))) fC) rC w h (upd (map (pcmap (abs m)) t) x (pcmap (abs m') p')) k0
      = stmap m' (MkSt pc l eC fC rC w h (upd t x p') k0).
  Proof.
    intros (H1 & H2 & H3 & H4 & H5 & H6) Hx Hi Hl He Hh Hc.
    assert (Hlate : forall y q, nth_error t y = Some q -> late q = true -> y <> x /\ nth_error (upd t x p') y = Some q).
    { intros y q Hy Hq. destruct (Nat.eq_dec x y) as [<-|Hn].
      - rewrite Hx in Hy. injection Hy as <-. congruence.
      - split; [congruence|]. rewrite upd_other_nth by exact Hn. exact Hy. }
    split.
    - unfold Inv. cbn [main finC ws] in *. split; [|split; [|split; [|split; [|split]]]]; auto.
      + intros y q Hy. destruct (Nat.eq_dec x y) as [<-|Hn].
        * rewrite (upd_same_nth _ _ _ _ Hx) in Hy. injection Hy as <-. split; [congruence|exact Hh].
        * rewrite upd_other_nth in Hy by exact Hn. destruct (H1 y q Hy) as [A B]. split.
          -- intros He'. eapply Hchg_pre; eauto.
          -- intros w0 Hw. eapply Hchg_run; eauto.
      + intros y w0 Hy. destruct (H2 y w0 Hy) as (A & q & B & C). destruct (Hlate y q B C) as [D Eq]. split; [|eauto].
        eapply Hchg_run; eauto.
      + intros n g Hg. destruct (H3 n g Hg) as (y & A & q & B & C). destruct (Hlate y q B C) as [D Eq].
        exists y. split; [|eauto]. eapply Hchg_G; eauto.
      + intros k y q Hk Hy Hq. destruct (Nat.eq_dec x y) as [<-|Hn].
        * destruct (Hi (H5 k x p Hk Hy Hx)).
        * rewrite upd_other_nth in Hq by exact Hn. eapply H5; eauto.
      + eapply Hchg_fr; eauto.
    - unfold stmap. cbn [main loc evC finC rCs wg hs ws toks] in *. f_equal.
      + destruct pc as [| | | | |n [g|]|g| | |]; cbn [mpcmap option_map]; try reflexivity.
        * destruct (H3 n g (or_introl eq_refl)) as (y & A & q & B & C). destruct (Hlate y q B C) as [D _].
          rewrite (proj2 (Hchg_G x y o m o' m' g Hc ltac:(congruence) A)). reflexivity.
        * destruct (H3 0 g (or_intror eq_refl)) as (y & A & q & B & C). destruct (Hlate y q B C) as [D _].
          rewrite (proj2 (Hchg_G x y o m o' m' g Hc ltac:(congruence) A)). reflexivity.
      + unfold chmap. f_equal. apply map_ext_in. intros [y w0] Hy. destruct (H2 y w0 Hy) as (A & q & B & C). destruct (Hlate y q B C) as [D _].
        cbn [fst snd]. rewrite (proj2 (Hchg_run x y o m o' m' w0 Hc ltac:(congruence) A)). reflexivity.
      + symmetry. eapply map_same; eauto.
  Qed.

  Lemma csend_map {A B} (f : A -> B) cap (c : chan A) v :
    csend cap (chmap f c) (f v) = match csend cap c v with Blocks => Blocks | Panics => Panics | Gives c => Gives (chmap f c) end.
  Proof.
    unfold csend, chmap. cbn [cclosed cbuf]. destruct (cclosed c); [reflexivity|]. rewrite map_length.
    destruct (length (cbuf c) <? cap); [|reflexivity]. cbn [cbuf cclosed]. rewrite map_app. reflexivity.
  Qed.

  Lemma sim_worker o s m x : Inv o s m -> simulates (TWorker x) s m.
  Proof.
    intros I. pose proof I as (H1 & H2 & H3 & H4 & H5 & H6). destruct s as [pc l eC fC rC w h t k0]. unfold simulates, hrun. cbn [ws main finC] in *.
    unfold stmap at 1 2 3. cbn [run main loc evC finC rCs wg hs ws toks]. unfold step_worker.
    cbn [written ws]. rewrite nth_error_map. destruct (nth_error t x) as [p|] eqn:Ex; cbn [option_map]; [|reflexivity].
    pose proof (H1 x p Ex) as [HE HH].
    assert (Hupd : forall p' m, upd (map (pcmap (abs m)) t) x (pcmap (abs m) p') = map (pcmap (abs m)) (upd t x p')).
    { intros p' m0. rewrite map_upd. reflexivity. }
    destruct p as [| | |j p|j p e|j p|j p|j p r|j p r|p| | |]; cbn [pcmap held early] in *; try reflexivity.
    - destruct k0 as [|k0]; [reflexivity|]. unfold stmap. cbn [main loc evC finC rCs wg hs ws toks]. rewrite <- Hupd. split; [reflexivity|].
      exists o. eapply inv_worker; eauto; try discriminate; auto.
    - specialize (Hinit o x m (HE eq_refl)). destruct (hinit x m) as [[m' w0]|] eqn:Ei; cbn [option_map snd].
      + destruct Hinit as (-> & o' & HR & Hc).
        destruct (inv_write o o' pc l eC fC rC w h t k0 x _ (WLoop 0 w0) m m' I Ex) as [HI HS]; auto; try discriminate.
        { cbn. congruence. }
        cbn [pcmap] in HS. rewrite HS. split; [reflexivity|]. exists o'. exact HI.
      + rewrite Hinit. reflexivity.
    - pose proof (HH p eq_refl) as HR. rewrite (Hmore o x m p j HR). destruct (wmore j p).
      + rewrite (Hevals o x m p j HR). destruct (hevals m j p) as [e|]; [|reflexivity].
        unfold stmap. cbn [main loc evC finC rCs wg hs ws toks]. rewrite <- Hupd. split; [reflexivity|].
        exists o. eapply inv_worker; eauto; try discriminate; auto.
      + unfold stmap. cbn [main loc evC finC rCs wg hs ws toks]. rewrite <- Hupd. split; [reflexivity|].
        exists o. eapply inv_worker; eauto; try discriminate; auto.
    - destruct (csend nChunks eC e) as [| |eC']; try reflexivity.
      unfold stmap. cbn [main loc evC finC rCs wg hs ws toks]. rewrite <- Hupd. split; [reflexivity|].
      exists o. eapply inv_worker; eauto; try discriminate; auto.
    - destruct (k0 <? nTok); [|reflexivity].
      unfold stmap. cbn [main loc evC finC rCs wg hs ws toks]. rewrite <- Hupd. split; [reflexivity|].
      exists o. eapply inv_worker; eauto; try discriminate; auto.
    - destruct (nth_error rC x) as [c|]; [|reflexivity]. destruct (crecv zR c) as [| |[r c']]; try reflexivity.
      unfold stmap. cbn [main loc evC finC rCs wg hs ws toks]. rewrite <- Hupd. split; [reflexivity|].
      exists o. eapply inv_worker; eauto; try discriminate; auto.
    - destruct k0 as [|k0]; [reflexivity|]. unfold stmap. cbn [main loc evC finC rCs wg hs ws toks]. rewrite <- Hupd. split; [reflexivity|].
      exists o. eapply inv_worker; eauto; try discriminate; auto.
    - pose proof (HH p eq_refl) as HR. specialize (Hfold o x m p j r HR). destruct (hfold j p r m) as [[m' w0]|] eqn:Ei; cbn [option_map snd].
      + destruct Hfold as (-> & o' & HR' & Hc).
        destruct (inv_write o o' pc l eC fC rC w h t k0 x _ (WLoop (S j) w0) m m' I Ex) as [HI HS]; auto; try discriminate.
        { cbn. congruence. }
        cbn [pcmap] in HS. rewrite HS. split; [reflexivity|]. exists o'. exact HI.
      + rewrite Hfold. reflexivity.
    - pose proof (HH p eq_refl) as HR.
      change (x, abs m p) with ((fun y : nat * Wk => (fst y, abs m (snd y))) (x, p)). rewrite csend_map.
      destruct (csend nChunks fC (x, p)) as [| |fC'] eqn:Es; try reflexivity.
      unfold stmap. cbn [main loc evC finC rCs wg hs ws toks]. rewrite <- Hupd. split; [reflexivity|]. exists o.
      assert (I' : Inv o (MkSt pc l eC fC rC w h (upd t x WRelF) k0) m).
      { eapply inv_worker; eauto; try discriminate; auto. }
      unfold csend in Es. destruct (cclosed fC) eqn:Ecl; [discriminate|]. destruct (length (cbuf fC) <? nChunks); [|discriminate]. injection Es as <-.
      destruct I' as (A1 & A2 & A3 & A4 & A5 & A6). unfold Inv. cbn [main finC ws cbuf cclosed] in *.
      split; [exact A1|]. split; [|split; [exact A3|split; [discriminate|split; [exact A5|exact A6]]]].
      intros y w0 Hy. apply in_app_iff in Hy. destruct Hy as [Hy|[Hy|[]]]; [apply A2; exact Hy|]. injection Hy as <- <-.
      split; [exact HR|]. exists WRelF. split; [|reflexivity]. eapply upd_same_nth; eauto.
    - destruct (k0 <? nTok); [|reflexivity].
      unfold stmap. cbn [main loc evC finC rCs wg hs ws toks]. rewrite <- Hupd. split; [reflexivity|].
      exists o. eapply inv_worker; eauto; try discriminate; auto.
    - destruct (nth_error rC x) as [c|]; [|reflexivity]. destruct (cclose c) as [| |c']; try reflexivity.
      unfold stmap. cbn [main loc evC finC rCs wg hs ws toks]. rewrite <- Hupd. split; [reflexivity|].
      exists o. eapply inv_worker; eauto; try discriminate; auto.
  Qed.

  Lemma sim a o s m : Inv o s m -> simulates a s m.
  Proof. destruct a; intros I; [eapply sim_main|eapply sim_helper|eapply sim_worker]; eauto. Qed.

  Notation hstepI := (hstep zE zR zW nChunks nTok nRounds hinit wmore hevals hfold consume mround hmerge hfinish).
  Notation stepI := (step zE zR zW' nChunks nTok nRounds winit wmore' wevals wfold consume mround merge mfinish).

  Theorem sim_must P s' : must stepI P s' -> forall o s m, s' = stmap m s -> Inv o s m ->
    must hstepI (fun sm => P (stmap (snd sm) (fst sm)) /\ exists o, Inv o (fst sm) (snd sm)) (s, m).
  Proof.
    induction 1 as [s' Hn Hs IH HP]. intros o s m -> I. constructor.
    - intros Hp. inversion Hp as [|a Ha]. apply Hn. apply (step_panic _ _ _ _ _ _ _ _ _ _ _ _ _ _ _ a).
      pose proof (sim a o s m I) as Hsim. unfold simulates in Hsim. rewrite Ha in Hsim. exact Hsim.
    - intros [s1 m1] Hp. inversion Hp as [a sm' Ha Esm|]. subst sm'.
      pose proof (sim a o s m I) as Hsim. unfold simulates in Hsim. rewrite Ha in Hsim. destruct Hsim as [Hr [o' I']].
      apply (IH (stmap m1 s1)) with (o := o'); auto. apply (step_ok _ _ _ _ _ _ _ _ _ _ _ _ _ _ _ a). exact Hr.
    - intros Hf. cbn [fst snd]. split; [|exists o; exact I]. apply HP. intros so Hso. inversion Hso as [a s1 Ha E1|a Ha E1]; subst so.
      + pose proof (sim a o s m I) as Hsim. unfold simulates in Hsim. destruct (hrunI a (s, m)) as [| |[s2 m2]] eqn:Er; try congruence.
        apply (Hf (Some (s2, m2))). apply (hstep_ok _ _ _ _ _ _ _ _ _ _ _ _ _ _ _ a). exact Er.
      + exact (Hn Hso).
  Qed.
End Sim.
