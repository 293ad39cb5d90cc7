(** Every execution of the multi-threaded prover's machine is panic-free, finite, and ends with the
    result of the reference sequence of states. *)
From Coq Require Import List Arith Lia Bool.
From Verif Require Import Go Trans LForkJoin MSumPar.
Import ListNotations.

Lemma nodup_lt_length (l : list nat) n : NoDup l -> (forall x, In x l -> x < n) -> length l <= n.
Proof.
  intros H1 H2. rewrite <- (seq_length n 0). apply NoDup_incl_length; [exact H1|].
  intros x Hx. apply in_seq. specialize (H2 x Hx). lia.
Qed.

Lemma nodup_full (l : list nat) n x : NoDup l -> (forall x, In x l -> x < n) -> length l = n -> x < n -> In x l.
Proof.
  intros H1 H2 H3 Hx.
  assert (I : incl (seq 0 n) l).
  { apply NoDup_length_incl; [exact H1|rewrite seq_length; lia|]. intros y Hy. apply in_seq. specialize (H2 y Hy). lia. }
  apply I. apply in_seq. lia.
Qed.

Lemma nodup_missing (l : list nat) n : NoDup l -> length l < n -> exists x, x < n /\ ~ In x l.
Proof.
  intros H1 H2. destruct (Exists_dec (fun x => ~ In x l) (seq 0 n)) as [H|H].
  - intros x. destruct (in_dec Nat.eq_dec x l); [right|left]; auto.
  - apply Exists_exists in H. destruct H as (x & Hx & Hn). apply in_seq in Hx. exists x. split; [lia|exact Hn].
  - exfalso. assert (I : incl (seq 0 n) l).
    { intros x Hx. destruct (in_dec Nat.eq_dec x l); [assumption|]. exfalso. apply H. apply Exists_exists. exists x. auto. }
    apply NoDup_incl_length in I; [|apply seq_NoDup]. rewrite seq_length in I. lia.
Qed.

Lemma nodup_snoc {A} (l : list A) x : NoDup l -> ~ In x l -> NoDup (l ++ [x]).
Proof.
  intros H1 H2. induction H1 as [|a l Ha Hl IH]; simpl; [constructor; [intros []|constructor]|].
  constructor.
  - rewrite in_app_iff. intros [H|[->|[]]]; [exact (Ha H)|]. apply H2. left. reflexivity.
  - apply IH. intros H. apply H2. right. exact H.
Qed.
Lemma nodup_app_l {A} (l m : list A) : NoDup (l ++ m) -> NoDup l.
Proof.
  induction l as [|a l IH]; simpl; intros H; [constructor|]. inversion H as [|b k H1 H2]; subst. constructor; [|auto].
  intros Hi. apply H1. apply in_app_iff. auto.
Qed.
Lemma nodup_app_r {A} (l m : list A) : NoDup (l ++ m) -> NoDup m.
Proof. induction l as [|a l IH]; simpl; intros H; [exact H|]. inversion H; auto. Qed.
Lemma upd_same_nth {A} (l : list A) i x y : nth_error l i = Some x -> nth_error (upd l i y) i = Some y.
Proof.
  intros H. rewrite nth_error_upd, Nat.eqb_refl. cbn [andb].
  destruct (Nat.ltb_spec i (length l)); [reflexivity|]. apply nth_error_None in H0. congruence.
Qed.
Lemma upd_other_nth {A} (l : list A) i j y : i <> j -> nth_error (upd l i y) j = nth_error l j.
Proof. intros H. rewrite nth_error_upd. destruct (Nat.eqb_spec i j); [contradiction|reflexivity]. Qed.

Section LM.
  Context {Wk E R MS G Out : Type}.
  Variables (zE : E) (zR : R) (zW : Wk).
  Variables n nTok K : nat.
  Variable winit : nat -> option Wk.
  Variable wmore : nat -> Wk -> bool.
  Variable wevals : nat -> Wk -> option E.
  Variable wfold : nat -> Wk -> R -> option Wk.
  Variable consume : option E -> E -> option E.
  Variable mround : nat -> MS -> E -> option (MS * R).
  Variable merge : option G -> nat * Wk -> option G.
  Variable mfinish : MS -> G -> option Out.

  (** The reference: states of the sub-provers and evaluations they send, challenges, main's local states. *)
  Variable pp : nat -> nat -> Wk.
  Variable ee : nat -> nat -> E.
  Variable rr : nat -> R.
  Variable ms : nat -> MS.
  Variable out : Out.
  Variable Acc : nat -> list nat -> option E -> Prop.
  Variable Mrg : list nat -> option G -> Prop.
  Hypothesis Hn : 0 < n.
  Hypothesis HnTok : 0 < nTok.
  Hypothesis H_init : forall x, x < n -> winit x = Some (pp x 0).
  Hypothesis H_more : forall x j, x < n -> j <= K -> wmore j (pp x j) = (j <? K).
  Hypothesis H_evals : forall x j, x < n -> j < K -> wevals j (pp x j) = Some (ee x j).
  Hypothesis H_fold : forall x j, x < n -> j < K -> wfold j (pp x j) (rr j) = Some (pp x (S j)).
  Hypothesis Acc_nil : forall j, Acc j [] None.
  Hypothesis Acc_snoc : forall j l a x, j < K -> Acc j l a -> NoDup (l ++ [x]) -> (forall y, In y (l ++ [x]) -> y < n) ->
    exists a', consume a (ee x j) = Some a' /\ Acc j (l ++ [x]) (Some a').
  Hypothesis Acc_full : forall j l a, j < K -> Acc j l (Some a) -> NoDup l -> (forall y, In y l -> y < n) -> length l = n ->
    mround j (ms j) a = Some (ms (S j), rr j).
  Hypothesis Mrg_nil : Mrg [] None.
  Hypothesis Mrg_snoc : forall l g x, Mrg l g -> NoDup (l ++ [x]) -> (forall y, In y (l ++ [x]) -> y < n) ->
    exists g', merge g (x, pp x K) = Some g' /\ Mrg (l ++ [x]) (Some g').
  Hypothesis Mrg_full : forall l g, Mrg l (Some g) -> NoDup l -> (forall y, In y l -> y < n) -> length l = n ->
    mfinish (ms K) g = Some out.

  Notation st := (@st Wk E R MS G Out).
  Notation wpc := (@wpc Wk E R).
  Notation hpc := (@hpc R).
  Notation mpc := (@mpc E R G Out).
  Notation step := (step zE zR zW n nTok K winit wmore wevals wfold consume mround merge mfinish).
  Notation run := (run zE zR zW n nTok K winit wmore wevals wfold consume mround merge mfinish).

  Definition sent (t : wpc) : nat :=
    match t with
    | WIdle | WStart | WInit => 0 | WLoop j _ | WSend j _ _ => j
    | WRel j _ | WRecv j _ | WAcq j _ _ | WFold j _ _ => S j | _ => K
    end.
  Definition rcvd (t : wpc) : nat :=
    match t with
    | WIdle | WStart | WInit => 0 | WLoop j _ | WSend j _ _ | WRel j _ | WRecv j _ => j
    | WAcq j _ _ | WFold j _ _ => S j | _ => K
    end.
  Definition finished (t : wpc) : bool := match t with WRelF | WClose | WEnd => true | _ => false end.
  Definition ended (t : wpc) : bool := match t with WEnd => true | _ => false end.
  Definition holdsW (t : wpc) : nat :=
    match t with WInit | WLoop _ _ | WSend _ _ _ | WRel _ _ | WFold _ _ _ | WFin _ | WRelF => 1 | _ => 0 end.
  Definition wok (x : nat) (t : wpc) : Prop :=
    match t with
    | WLoop j p => j <= K /\ p = pp x j
    | WSend j p e => j < K /\ p = pp x j /\ e = ee x j
    | WRel j p | WRecv j p => j < K /\ p = pp x j
    | WAcq j p r | WFold j p r => j < K /\ p = pp x j /\ r = rr j
    | WFin p => p = pp x K
    | _ => True
    end.
  Definition consd (m : mpc) : nat :=
    match m with
    | MSpawn _ => 0 | MCons i _ _ => i | MRound i _ | MGo i _ _ | MWait i => S i | _ => K
    end.
  Definition mdone (m : mpc) : nat :=
    match m with
    | MSpawn _ => 0 | MCons i _ _ | MRound i _ => i | MGo i _ _ | MWait i => S i | _ => K
    end.
  Definition hsent (m : mpc) (h : list hpc) (x : nat) : nat :=
    match m with
    | MSpawn _ => 0 | MCons i _ _ | MRound i _ => i
    | MGo i _ _ | MWait i => match nth_error h x with Some HDone | Some HEnd => S i | _ => i end
    | _ => K
    end.
  Definition spawned (m : mpc) : nat := match m with MSpawn k => k | _ => n end.
  Definition hlive (h : hpc) : nat := match h with HEnd => 0 | _ => 1 end.
  Definition all_lt (l : list nat) : Prop := forall y, In y l -> y < n.

  Definition evmain (m : mpc) (rc : list nat) : Prop :=
    match m with
    | MCons i k acc => length rc = k /\ k < n /\ i < K /\ Acc i rc acc
    | MRound i e => rc = [] /\ i < K /\ exists l, NoDup l /\ all_lt l /\ length l = n /\ Acc i l (Some e)
    | MGo i _ _ | MWait i => rc = [] /\ i < K
    | _ => rc = []
    end.
  Definition finmain (m : mpc) (rc : list nat) : Prop :=
    match m with
    | MMerge k g => length rc = k /\ k < n /\ Mrg rc g
    | MFinish g => length rc = n /\ Mrg rc (Some g)
    | MCloseE o | MCloseF o | MEnd o => length rc = n /\ o = out
    | _ => rc = []
    end.
  Definition hsok (m : mpc) (w : nat) (h : list hpc) : Prop :=
    match m with
    | MGo i r k => length h = n /\ k <= n /\ r = rr i /\ w = cnt hlive h /\
        forall x q, nth_error h x = Some q -> (q = HIdle <-> k <= x) /\ (forall r', q = HSend r' -> r' = rr i)
    | MWait i => length h = n /\ w = cnt hlive h /\
        forall x q, nth_error h x = Some q -> q <> HIdle /\ (forall r', q = HSend r' -> r' = rr i)
    | _ => forall x q, nth_error h x = Some q -> q = HEnd
    end.

  Record J (s : st) : Prop := {
    j_len : length (ws s) = n;
    j_rlen : length (rCs s) = n;
    j_tok : toks s + cnt holdsW (ws s) = nTok;
    j_sp : spawned (main s) <= n;
    j_thr : forall x t, nth_error (ws s) x = Some t ->
      wok x t /\ (t = WIdle <-> spawned (main s) <= x) /\
      rcvd t <= hsent (main s) (hs s) x <= S (rcvd t) /\
      nth_error (rCs s) x = Some (MkChan (if rcvd t <? hsent (main s) (hs s) x then [rr (rcvd t)] else []) (ended t)) /\
      (sent t = consd (main s) \/ sent t = S (consd (main s)));
    j_ev : exists rc q, cbuf (evC s) = map (fun w => ee w (consd (main s))) q /\ NoDup (rc ++ q) /\
      (forall x, In x (rc ++ q) <-> exists t, nth_error (ws s) x = Some t /\ sent t = S (consd (main s))) /\
      evmain (main s) rc;
    j_evc : cclosed (evC s) = match main s with MCloseF _ | MEnd _ => true | _ => false end;
    j_fin : exists rc q, cbuf (finC s) = map (fun w => (w, pp w K)) q /\ NoDup (rc ++ q) /\
      (forall x, In x (rc ++ q) <-> exists t, nth_error (ws s) x = Some t /\ finished t = true) /\
      finmain (main s) rc;
    j_finc : cclosed (finC s) = match main s with MEnd _ => true | _ => false end;
    j_loc : loc s = ms (mdone (main s));
    j_hs : hsok (main s) (wg s) (hs s)
  }.

  Definition D : nat := 4 * n + 4.
  Definition mwt (m : mpc) : nat :=
    match m with
    | MSpawn k => (n - k) + 1 + K * D + n + 5
    | MCons i k _ => (K - S i) * D + 4 * n + 8 + (n - k)
    | MRound i _ => (K - S i) * D + 4 * n + 7
    | MGo i _ _ => (K - S i) * D + n + 6
    | MWait i => (K - S i) * D + n + 5
    | MMerge k _ => (n - k) + 4
    | MFinish _ => 3 | MCloseE _ => 2 | MCloseF _ => 1 | MEnd _ => 0
    end.
  Definition hwt (h : hpc) : nat := match h with HIdle => 3 | HSend _ => 2 | HDone => 1 | HEnd => 0 end.
  Definition wwt (t : wpc) : nat :=
    match t with
    | WIdle => 6 * K + 7 | WStart => 6 * K + 6 | WInit => 6 * K + 5
    | WLoop j _ => 6 * (K - j) + 4 | WSend j _ _ => 6 * (K - j) + 3 | WRel j _ => 6 * (K - j) + 2
    | WRecv j _ => 6 * (K - j) + 1 | WAcq j _ _ => 6 * (K - j) | WFold j _ _ => 6 * (K - j) - 1
    | WFin _ => 3 | WRelF => 2 | WClose => 1 | WEnd => 0
    end.
  Definition measure (s : st) : nat := mwt (main s) + cnt hwt (hs s) + cnt wwt (ws s).

  Lemma head_wt i : i <= K -> mwt (head (E:=E) (R:=R) (G:=G) (Out:=Out) K i) <= (K - i) * D + n + 4.
  Proof.
    intros H. unfold head. destruct (Nat.ltb_spec i K).
    - cbn [mwt]. unfold D. replace (K - i) with (S (K - S i)) by lia. cbn [Nat.mul]. lia.
    - cbn [mwt]. lia.
  Qed.

  Lemma hsent_le m h x : hsent m h x <= consd m.
  Proof. destruct m; cbn; try lia; destruct (nth_error h x) as [[]|]; lia. Qed.

  Lemma J_init m : m = ms 0 -> J (init n nTok m).
  Proof.
    intros ->. unfold init.
    assert (Hr : forall x t, nth_error (repeat (@WIdle Wk E R) n) x = Some t -> t = WIdle).
    { intros x t H. apply nth_error_In in H. eapply repeat_spec. exact H. }
    constructor; cbn [main loc evC finC rCs wg hs ws toks emptyChan cbuf cclosed].
    - apply repeat_length.
    - apply repeat_length.
    - rewrite cnt_repeat. cbn. lia.
    - cbn. lia.
    - intros x t H. assert (Hx : x < n).
      { rewrite <- (repeat_length (@WIdle Wk E R) n). apply nth_error_Some. congruence. }
      apply Hr in H. subst t. cbn. split; [exact I|]. split; [split; [lia|reflexivity]|]. split; [lia|]. split; [|left; reflexivity].
      rewrite (nth_error_nth' _ emptyChan) by (rewrite repeat_length; exact Hx). rewrite nth_repeat. reflexivity.
    - exists [], []. split; [reflexivity|]. split; [constructor|]. split; [|reflexivity].
      intros x. split; [intros []|]. intros (t & H & H'). apply Hr in H. subst t. discriminate.
    - reflexivity.
    - exists [], []. split; [reflexivity|]. split; [constructor|]. split; [|reflexivity].
      intros x. split; [intros []|]. intros (t & H & H'). apply Hr in H. subst t. discriminate.
    - reflexivity.
    - reflexivity.
    - intros x q H. destruct x; discriminate.
  Qed.

  (** Membership in the set of workers with a property is stable when one worker's property is. *)
  Lemma members_same (f : wpc -> Prop) (l : list wpc) x t t' y :
    nth_error l x = Some t -> (f t <-> f t') ->
    (exists u, nth_error l y = Some u /\ f u) <-> (exists u, nth_error (upd l x t') y = Some u /\ f u).
  Proof.
    intros H Hf. destruct (Nat.eq_dec x y) as [<-|Hxy].
    - rewrite (upd_same_nth l x t t' H). split; intros (u & Hu & Hfu).
      + exists t'. split; [reflexivity|]. rewrite H in Hu. injection Hu as <-. tauto.
      + injection Hu as <-. exists t. split; [exact H|tauto].
    - rewrite upd_other_nth by exact Hxy. tauto.
  Qed.
  Lemma members_add (f : wpc -> Prop) (l : list wpc) x t t' y :
    nth_error l x = Some t -> f t' ->
    (exists u, nth_error l y = Some u /\ f u) \/ y = x <-> (exists u, nth_error (upd l x t') y = Some u /\ f u).
  Proof.
    intros H Hf. destruct (Nat.eq_dec x y) as [<-|Hxy].
    - rewrite (upd_same_nth l x t t' H). split; [|auto]. intros _. exists t'. auto.
    - rewrite upd_other_nth by exact Hxy. split; [intros [H'|H']; [exact H'|congruence]|auto].
  Qed.

  (** A step of worker [x] that touches only its own state and the tokens. *)
  Lemma J_local pc l eC fC rC w h t k0 x a b k1 :
    J (MkSt pc l eC fC rC w h t k0) -> nth_error t x = Some a -> a <> WIdle -> b <> WIdle ->
    wok x b -> sent b = sent a -> rcvd b = rcvd a -> finished b = finished a -> ended b = ended a ->
    k1 + holdsW b = k0 + holdsW a ->
    J (MkSt pc l eC fC rC w h (upd t x b) k1).
  Proof.
    intros [JL JR JT JS JW JE JEc JF JFc JO JH] Ha Na Nb Hb Hs Hr Hf He Hk.
    cbn [main loc evC finC rCs wg hs ws toks] in *.
    constructor; cbn [main loc evC finC rCs wg hs ws toks]; auto.
    - rewrite upd_length. exact JL.
    - pose proof (cnt_upd holdsW t x a b Ha). lia.
    - intros y u Hu. destruct (Nat.eq_dec x y) as [<-|Hxy].
      + rewrite (upd_same_nth t x a b Ha) in Hu. injection Hu as <-. rewrite Hs, Hr, He.
        destruct (JW x a Ha) as (W1 & W2 & W3 & W4 & W5). split; [exact Hb|].
        split; [split; [intros; contradiction|intros H; apply W2 in H; contradiction]|]. auto.
      + rewrite upd_other_nth in Hu by exact Hxy. apply JW. exact Hu.
    - destruct JE as (rc & q & E1 & E2 & E3 & E4). exists rc, q. split; [exact E1|]. split; [exact E2|]. split; [|exact E4].
      intros y. rewrite E3. apply members_same with (t := a); [exact Ha|]. rewrite Hs. tauto.
    - destruct JF as (rc & q & E1 & E2 & E3 & E4). exists rc, q. split; [exact E1|]. split; [exact E2|]. split; [|exact E4].
      intros y. rewrite E3. apply members_same with (t := a); [exact Ha|]. rewrite Hf. tauto.
  Qed.

  Lemma thr_lt s x t : J s -> nth_error (ws s) x = Some t -> x < n.
  Proof. intros Js H. rewrite <- (j_len s Js). apply nth_error_Some. congruence. Qed.

  Lemma members_lt s (f : wpc -> Prop) l : J s ->
    (forall x, In x l <-> exists t, nth_error (ws s) x = Some t /\ f t) -> all_lt l.
  Proof. intros Js H x Hx. apply H in Hx. destruct Hx as (t & Ht & _). exact (thr_lt s x t Js Ht). Qed.

  Lemma worker_step s x : J s ->
    match step_worker zR n nTok winit wmore wevals wfold x s with
    | Blocks => True | Panics => False | Gives s' => J s' /\ measure s' < measure s
    end.
  Proof.
    intros Js. destruct s as [pc l eC fC rC w h t k0]. unfold step_worker.
    destruct (nth_error t x) as [a|] eqn:Ha; [|exact I].
    pose proof (thr_lt _ x a Js Ha) as Hx.
    pose proof Js as [JL JR JT JS JW JE JEc JF JFc JO JH].
    cbn [main loc evC finC rCs wg hs ws toks] in *.
    destruct (JW x a Ha) as (W1 & W2 & W3 & W4 & W5).
    pose proof (hsent_le pc h x) as Hle.
    assert (Hmeas : forall b k1 eC' fC' rC', wwt b < wwt a ->
      measure (MkSt pc l eC' fC' rC' w h (upd t x b) k1) < measure (MkSt pc l eC fC rC w h t k0)).
    { intros b k1 eC' fC' rC' Hlt. unfold measure. cbn [main hs ws]. pose proof (cnt_upd wwt t x a b Ha). lia. }
    destruct a as [| | |j p|j p e|j p|j p|j p r|j p r|p| | |]; cbn [wok sent rcvd] in *.
    - exact I.
    - destruct k0 as [|k]; [exact I|]. split; [|apply Hmeas; cbn [wwt]; lia].
      eapply J_local; [exact Js|exact Ha|..]; try discriminate; try reflexivity. cbn [holdsW]. lia.
    - rewrite H_init by exact Hx. split; [|apply Hmeas; cbn [wwt]; lia].
      eapply J_local; [exact Js|exact Ha|..]; try discriminate; try reflexivity. cbn [wok]. split; [lia|reflexivity].
    - destruct W1 as [W1 ->]. rewrite H_more by assumption. destruct (Nat.ltb_spec j K) as [Hj|Hj].
      + rewrite H_evals by assumption. split; [|apply Hmeas; cbn [wwt]; lia].
        eapply J_local; [exact Js|exact Ha|..]; try discriminate; try reflexivity. cbn [wok]. auto.
      + assert (j = K) by lia. subst j. split; [|apply Hmeas; cbn [wwt]; lia].
        eapply J_local; [exact Js|exact Ha|..]; try discriminate; try reflexivity.
    - (* send on evalsChan *)
      destruct W1 as (W1 & -> & ->). assert (Hj : j = consd pc) by lia.
      destruct JE as (rc & q & E1 & E2 & E3 & E4).
      assert (Hnot : ~ In x (rc ++ q)).
      { rewrite E3. intros (u & Hu & Hs). rewrite Ha in Hu. injection Hu as <-. cbn [sent] in Hs. lia. }
      assert (Hopen : cclosed eC = false).
      { rewrite JEc. destruct pc; try reflexivity; cbn [consd] in Hj; lia. }
      assert (HND : NoDup ((rc ++ q) ++ [x])) by (apply nodup_snoc; assumption).
      assert (Hroom : length (cbuf eC) < n).
      { rewrite E1, map_length.
        assert (L : length (q ++ [x]) <= n); [|rewrite app_length in L; simpl in L; lia].
        apply nodup_lt_length; [rewrite <- app_assoc in HND; apply nodup_app_r in HND; exact HND|].
        intros y Hy. apply in_app_iff in Hy. destruct Hy as [Hy|[<-|[]]]; [|exact Hx].
        apply (members_lt _ (fun t => sent t = S (consd pc)) (rc ++ q) Js E3). apply in_app_iff. auto. }
      unfold csend. rewrite Hopen. destruct (Nat.ltb_spec (length (cbuf eC)) n); [|lia].
      split; [|apply Hmeas; cbn [wwt]; lia].
      constructor; cbn [main loc evC finC rCs wg hs ws toks cbuf cclosed]; auto.
      + rewrite upd_length. exact JL.
      + pose proof (cnt_upd holdsW t x _ (WRel j (pp x j)) Ha) as C. cbn [holdsW] in C. lia.
      + intros y u Hu. destruct (Nat.eq_dec x y) as [<-|Hxy].
        * rewrite (upd_same_nth t x _ _ Ha) in Hu. injection Hu as <-. cbn [wok sent rcvd ended].
          split; [auto|]. split; [split; [discriminate|intros H'; apply W2 in H'; discriminate]|].
          split; [exact W3|]. split; [exact W4|]. right. congruence.
        * rewrite upd_other_nth in Hu by exact Hxy. apply JW. exact Hu.
      + exists rc, (q ++ [x]). split; [rewrite E1, map_app, Hj; reflexivity|]. rewrite app_assoc. split; [exact HND|].
        split; [|exact E4]. intros y. rewrite in_app_iff, E3.
        rewrite <- (members_add _ t x _ _ y Ha) by (cbn [sent]; congruence). cbn [In]. intuition.
      + destruct pc; try reflexivity; cbn [consd] in Hj; lia.
      + destruct JF as (rc' & q' & F1 & F2 & F3 & F4). exists rc', q'. split; [exact F1|]. split; [exact F2|]. split; [|exact F4].
        intros y. rewrite F3. apply members_same with (t := WSend j (pp x j) (ee x j)); [exact Ha|]. reflexivity.
    - (* Release *)
      destruct W1 as [W1 ->]. destruct (Nat.ltb_spec k0 nTok); [|exact I].
      split; [|apply Hmeas; cbn [wwt]; lia].
      eapply J_local; [exact Js|exact Ha|..]; try discriminate; try reflexivity; [cbn [wok]; auto|]. cbn [holdsW]. lia.
    - (* receive r *)
      destruct W1 as [W1 ->]. rewrite W4. unfold crecv. cbn [cbuf cclosed ended].
      destruct (Nat.ltb_spec j (hsent pc h x)) as [Hlt|Hge]; [|exact I].
      split; [|apply Hmeas; cbn [wwt]; lia].
      assert (Hh : hsent pc h x = S j) by lia.
      constructor; cbn [main loc evC finC rCs wg hs ws toks cbuf cclosed]; auto.
      + rewrite upd_length. exact JL.
      + rewrite upd_length. exact JR.
      + pose proof (cnt_upd holdsW t x _ (WAcq j (pp x j) (rr j)) Ha) as C. cbn [holdsW] in C. lia.
      + intros y u Hu. destruct (Nat.eq_dec x y) as [<-|Hxy].
        * rewrite (upd_same_nth t x _ _ Ha) in Hu. injection Hu as <-. cbn [wok sent rcvd ended].
          split; [auto|]. split; [split; [discriminate|intros H'; apply W2 in H'; discriminate]|].
          split; [lia|]. split; [|exact W5]. rewrite (upd_same_nth rC x _ _ W4), Hh.
          destruct (Nat.ltb_spec (S j) (S j)); [lia|reflexivity].
        * rewrite upd_other_nth in Hu by exact Hxy. rewrite upd_other_nth by exact Hxy. apply JW. exact Hu.
      + destruct JE as (rc & q & E1 & E2 & E3 & E4). exists rc, q. split; [exact E1|]. split; [exact E2|]. split; [|exact E4].
        intros y. rewrite E3. apply members_same with (t := WRecv j (pp x j)); [exact Ha|]. reflexivity.
      + destruct JF as (rc' & q' & F1 & F2 & F3 & F4). exists rc', q'. split; [exact F1|]. split; [exact F2|]. split; [|exact F4].
        intros y. rewrite F3. apply members_same with (t := WRecv j (pp x j)); [exact Ha|]. reflexivity.
    - destruct k0 as [|k]; [exact I|]. split; [|apply Hmeas; cbn [wwt]; lia].
      eapply J_local; [exact Js|exact Ha|..]; try discriminate; try reflexivity; [exact W1|]. cbn [holdsW]. lia.
    - destruct W1 as (W1 & -> & ->). rewrite H_fold by assumption. split; [|apply Hmeas; cbn [wwt]; lia].
      eapply J_local; [exact Js|exact Ha|..]; try discriminate; try reflexivity. cbn [wok]. split; [lia|reflexivity].
    - (* send on finChan *)
      subst p. destruct JF as (rc & q & F1 & F2 & F3 & F4).
      assert (Hnot : ~ In x (rc ++ q)).
      { rewrite F3. intros (u & Hu & Hs). rewrite Ha in Hu. injection Hu as <-. discriminate. }
      pose proof (members_lt _ (fun t => finished t = true) (rc ++ q) Js F3) as Hall.
      assert (HND : NoDup ((rc ++ q) ++ [x])) by (apply nodup_snoc; assumption).
      assert (Hopen : cclosed fC = false).
      { rewrite JFc. destruct pc; try reflexivity. destruct F4 as [F4 _]. exfalso. apply Hnot. apply in_app_iff. left.
        apply (nodup_full rc n); auto; [apply nodup_app_l in F2; exact F2|]. intros y Hy. apply Hall. apply in_app_iff. auto. }
      assert (Hroom : length (cbuf fC) < n).
      { rewrite F1, map_length.
        assert (L : length (q ++ [x]) <= n); [|rewrite app_length in L; simpl in L; lia].
        apply nodup_lt_length; [rewrite <- app_assoc in HND; apply nodup_app_r in HND; exact HND|].
        intros y Hy. apply in_app_iff in Hy. destruct Hy as [Hy|[<-|[]]]; [|exact Hx]. apply Hall. apply in_app_iff. auto. }
      unfold csend. rewrite Hopen. destruct (Nat.ltb_spec (length (cbuf fC)) n); [|lia].
      split; [|apply Hmeas; cbn [wwt]; lia].
      constructor; cbn [main loc evC finC rCs wg hs ws toks cbuf cclosed]; auto.
      + rewrite upd_length. exact JL.
      + pose proof (cnt_upd holdsW t x _ WRelF Ha) as C. cbn [holdsW] in C. lia.
      + intros y u Hu. destruct (Nat.eq_dec x y) as [<-|Hxy].
        * rewrite (upd_same_nth t x _ _ Ha) in Hu. injection Hu as <-. cbn [wok sent rcvd ended].
          split; [auto|]. split; [split; [discriminate|intros H'; apply W2 in H'; discriminate]|]. auto.
        * rewrite upd_other_nth in Hu by exact Hxy. apply JW. exact Hu.
      + destruct JE as (rc' & q' & E1 & E2 & E3 & E4). exists rc', q'. split; [exact E1|]. split; [exact E2|]. split; [|exact E4].
        intros y. rewrite E3. apply members_same with (t := WFin (pp x K)); [exact Ha|]. reflexivity.
      + exists rc, (q ++ [x]). split; [rewrite F1, map_app; reflexivity|]. rewrite app_assoc. split; [exact HND|].
        split; [|exact F4]. intros y. rewrite in_app_iff, F3.
        rewrite <- (members_add _ t x _ _ y Ha) by reflexivity. cbn [In]. intuition.
      + rewrite <- JFc. symmetry. exact Hopen.
    - destruct (Nat.ltb_spec k0 nTok); [|exact I]. split; [|apply Hmeas; cbn [wwt]; lia].
      eapply J_local; [exact Js|exact Ha|..]; try discriminate; try reflexivity. cbn [holdsW]. lia.
    - (* close rChan *)
      rewrite W4. unfold cclose. cbn [cbuf cclosed ended].
      split; [|apply Hmeas; cbn [wwt]; lia].
      constructor; cbn [main loc evC finC rCs wg hs ws toks cbuf cclosed]; auto.
      + rewrite upd_length. exact JL.
      + rewrite upd_length. exact JR.
      + pose proof (cnt_upd holdsW t x _ WEnd Ha) as C. cbn [holdsW] in C. lia.
      + intros y u Hu. destruct (Nat.eq_dec x y) as [<-|Hxy].
        * rewrite (upd_same_nth t x _ _ Ha) in Hu. injection Hu as <-. cbn [wok sent rcvd ended].
          split; [auto|]. split; [split; [discriminate|intros H'; apply W2 in H'; discriminate]|].
          split; [lia|]. split; [|exact W5]. rewrite (upd_same_nth rC x _ _ W4). reflexivity.
        * rewrite upd_other_nth in Hu by exact Hxy. rewrite upd_other_nth by exact Hxy. apply JW. exact Hu.
      + destruct JE as (rc & q & E1 & E2 & E3 & E4). exists rc, q. split; [exact E1|]. split; [exact E2|]. split; [|exact E4].
        intros y. rewrite E3. apply members_same with (t := WClose); [exact Ha|]. reflexivity.
      + destruct JF as (rc' & q' & F1 & F2 & F3 & F4). exists rc', q'. split; [exact F1|]. split; [exact F2|]. split; [|exact F4].
        intros y. rewrite F3. apply members_same with (t := WClose); [exact Ha|]. reflexivity.
    - exact I.
  Qed.

  Lemma members_ext (f : wpc -> Prop) (t : list wpc) : forall x, (exists u, nth_error t x = Some u /\ f u) <-> (exists u, nth_error t x = Some u /\ f u).
  Proof. tauto. Qed.

  Lemma helper_step s x : J s ->
    match step_helper x s with
    | Blocks => True | Panics => False | Gives s' => J s' /\ measure s' < measure s
    end.
  Proof.
    intros Js. destruct s as [pc l eC fC rC w h t k0]. unfold step_helper.
    destruct (nth_error h x) as [a|] eqn:Ha; [|exact I].
    pose proof Js as [JL JR JT JS JW JE JEc JF JFc JO JH].
    cbn [main loc evC finC rCs wg hs ws toks] in *.
    (* all goroutines of Broadcast have ended outside of it *)
    assert (Hcase : a = HEnd \/ exists i, i < K /\ consd pc = S i /\ length h = n /\ w = cnt hlive h /\
      (forall r, a = HSend r -> r = rr i) /\ spawned pc = n /\
      (forall h' y, hsent pc h' y = match nth_error h' y with Some HDone | Some HEnd => S i | _ => i end) /\
      (forall w' h' b, length h' = n -> w' = cnt hlive h' -> a <> HIdle -> b <> HIdle -> h' = upd h x b ->
         (forall r, b <> HSend r) -> hsok pc w' h')).
    { destruct JE as (rc & q & _ & _ & _ & E4).
      destruct pc; try (left; apply (JH x a Ha)).
      - right. destruct JH as (H1 & H2 & H3 & H4 & H5). destruct E4 as [_ E4]. exists i.
        split; [exact E4|]. split; [reflexivity|]. split; [exact H1|]. split; [exact H4|].
        split; [intros r' ->; apply (H5 x _ Ha); reflexivity|]. split; [reflexivity|]. split; [reflexivity|].
        intros w' h' b L' -> Na Nb -> Nr. cbn [hsok]. split; [exact L'|]. split; [exact H2|]. split; [exact H3|]. split; [reflexivity|].
        intros y u Hu. destruct (Nat.eq_dec x y) as [<-|Hxy].
        + rewrite (upd_same_nth h x _ _ Ha) in Hu. injection Hu as <-. destruct (H5 x a Ha) as [G1 _]. split.
          * split; [intros; contradiction|]. intros Hk. apply G1 in Hk. contradiction.
          * intros r' Hr. exfalso. apply (Nr r'). exact Hr.
        + rewrite upd_other_nth in Hu by exact Hxy. apply H5. exact Hu.
      - right. destruct JH as (H1 & H4 & H5). destruct E4 as [_ E4]. exists i.
        split; [exact E4|]. split; [reflexivity|]. split; [exact H1|]. split; [exact H4|].
        split; [intros r' ->; apply (H5 x _ Ha); reflexivity|]. split; [reflexivity|]. split; [reflexivity|].
        intros w' h' b L' -> Na Nb -> Nr. cbn [hsok]. split; [exact L'|]. split; [reflexivity|].
        intros y u Hu. destruct (Nat.eq_dec x y) as [<-|Hxy].
        + rewrite (upd_same_nth h x _ _ Ha) in Hu. injection Hu as <-. split; [exact Nb|].
          intros r' Hr. exfalso. apply (Nr r'). exact Hr.
        + rewrite upd_other_nth in Hu by exact Hxy. apply (H5 y u Hu). }
    destruct Hcase as [->|(i & Hi & Hc & Hlh & Hw & Hr & Hsp & Hhs & Hok)]; [destruct (nth_error rC x); exact I|].
    assert (Hmeas : forall b w' rC', hwt b < hwt a ->
      measure (MkSt pc l eC fC rC' w' (upd h x b) t k0) < measure (MkSt pc l eC fC rC w h t k0)).
    { intros b w' rC' Hlt. unfold measure. cbn [main hs ws]. pose proof (cnt_upd hwt h x a b Ha). lia. }
    assert (Hx : x < n) by (rewrite <- Hlh; apply nth_error_Some; congruence).
    destruct (nth_error t x) as [u|] eqn:Hu; [|apply nth_error_None in Hu; lia].
    destruct (JW x u Hu) as (W1 & W2 & W3 & W4 & W5). rewrite Hhs, Ha in W3, W4.
    destruct a as [|r| |]; [destruct (nth_error rC x); exact I| | |destruct (nth_error rC x); exact I].
    - (* send *)
      rewrite (Hr r eq_refl). clear Hr.
      assert (Hsr : sent u <= S (rcvd u)) by (destruct u; cbn; lia).
      assert (Hru : rcvd u = i) by lia.
      assert (Hend : ended u = false).
      { destruct u; try reflexivity. cbn [rcvd] in Hru. lia. }
      rewrite W4. unfold csend. cbn [cbuf cclosed]. rewrite Hend, Hru, Nat.ltb_irrefl. cbn [length Nat.ltb Nat.leb].
      split; [|apply Hmeas; cbn [hwt]; lia].
      constructor; cbn [main loc evC finC rCs wg hs ws toks]; auto.
      + rewrite upd_length. exact JR.
      + intros y v Hv. rewrite Hhs. destruct (Nat.eq_dec x y) as [<-|Hxy].
        * rewrite (upd_same_nth h x _ _ Ha), (upd_same_nth rC x _ _ W4). rewrite Hu in Hv. injection Hv as <-.
          split; [exact W1|]. split; [exact W2|]. split; [lia|]. split; [|exact W5].
          rewrite Hru, Hend. destruct (Nat.ltb_spec i (S i)); [reflexivity|lia].
        * rewrite !upd_other_nth by exact Hxy. specialize (JW y v Hv). rewrite Hhs in JW. exact JW.
      + apply (Hok w (upd h x HDone) HDone); try discriminate; try reflexivity; [rewrite upd_length; exact Hlh|].
        pose proof (cnt_upd hlive h x _ HDone Ha) as C. cbn [hlive] in C. lia.
    - (* wg.Done *)
      pose proof (cnt_upd hlive h x _ HEnd Ha) as C. cbn [hlive] in C.
      replace (match nth_error rC x with Some _ | _ => match w with 0 => Panics | S w0 => Gives (MkSt pc l eC fC rC w0 (upd h x HEnd) t k0) end end)
        with (match w with 0 => Panics | S w0 => Gives (MkSt pc l eC fC rC w0 (upd h x HEnd) t k0) end) by (destruct (nth_error rC x); reflexivity).
      destruct w as [|w].
      + pose proof (cnt_pos hlive h x _ Ha) as C'. cbn [hlive] in C'. lia.
      + split; [|apply Hmeas; cbn [hwt]; lia].
        constructor; cbn [main loc evC finC rCs wg hs ws toks]; auto.
        * intros y v Hv. specialize (JW y v Hv). rewrite Hhs in *. destruct (Nat.eq_dec x y) as [<-|Hxy].
          -- rewrite (upd_same_nth h x _ _ Ha). rewrite Ha in JW. exact JW.
          -- rewrite upd_other_nth by exact Hxy. exact JW.
        * apply (Hok w (upd h x HEnd) HEnd); try discriminate; try reflexivity; [rewrite upd_length; exact Hlh|]. lia.
  Qed.

  Lemma head_facts i : i <= K ->
    let pc := head (E:=E) (R:=R) (G:=G) (Out:=Out) K i in
    consd pc = i /\ mdone pc = i /\ spawned pc = n /\ (forall h x, hsent pc h x = i) /\ evmain pc [] /\ finmain pc [] /\
    (forall w h, (forall x q, nth_error h x = Some q -> q = HEnd) -> hsok pc w h) /\
    match pc with MCloseF _ | MEnd _ => true | _ => false end = false /\
    match pc with MEnd _ => true | _ => false end = false.
  Proof.
    intros H. unfold head. destruct (Nat.ltb_spec i K) as [Hi|Hi]; cbn.
    - repeat split; auto.
    - assert (i = K) by lia. subst i. repeat split; auto.
  Qed.

  Lemma main_step s : J s ->
    match step_main zE zW n K consume mround merge mfinish s with
    | Blocks => True | Panics => False | Gives s' => J s' /\ measure s' < measure s
    end.
  Proof.
    intros Js. destruct s as [pc l eC fC rC w h t k0].
    pose proof Js as [JL JR JT JS JW JE JEc JF JFc JO JH].
    cbn [main loc evC finC rCs wg hs ws toks] in *. unfold step_main.
    destruct pc as [k|i m acc|i e|i r k|i|m g|g|o|o|o].
    - (* spawn *)
      cbn [spawned] in JS. destruct (Nat.ltb_spec k n) as [Hk|Hk].
      + destruct (nth_error t k) as [a|] eqn:Ha; [|apply nth_error_None in Ha; lia].
        assert (a = WIdle) by (apply (JW k a Ha); cbn [spawned]; lia). subst a.
        split.
        * constructor; cbn [main loc evC finC rCs wg hs ws toks]; auto.
          -- rewrite upd_length. exact JL.
          -- pose proof (cnt_upd holdsW t k _ WStart Ha) as C. cbn [holdsW] in C. lia.
          -- intros y u Hu. cbn [spawned hsent consd]. destruct (Nat.eq_dec k y) as [<-|Hxy].
             ++ rewrite (upd_same_nth t k _ _ Ha) in Hu. injection Hu as <-.
                destruct (JW k _ Ha) as (W1 & W2 & W3 & W4 & W5). cbn [wok sent rcvd ended] in *.
                split; [exact I|]. split; [split; [discriminate|lia]|]. auto.
             ++ rewrite upd_other_nth in Hu by exact Hxy. destruct (JW y u Hu) as (W1 & W2 & W3 & W4 & W5).
                split; [exact W1|]. split; [cbn [spawned] in W2; rewrite W2; lia|]. auto.
          -- destruct JE as (rc & q & E1 & E2 & E3 & E4). exists rc, q. split; [exact E1|]. split; [exact E2|]. split; [|exact E4].
             intros y. rewrite E3. apply members_same with (t := WIdle); [exact Ha|]. reflexivity.
          -- destruct JF as (rc & q & E1 & E2 & E3 & E4). exists rc, q. split; [exact E1|]. split; [exact E2|]. split; [|exact E4].
             intros y. rewrite E3. apply members_same with (t := WIdle); [exact Ha|]. reflexivity.
        * unfold measure. cbn [main hs ws mwt]. pose proof (cnt_upd wwt t k _ WStart Ha) as C. cbn [wwt] in C. lia.
      + assert (k = n) by lia. subst k. destruct (head_facts 0 ltac:(lia)) as (A1 & A2 & A3 & A4 & A5 & A6 & A7 & A8 & A9).
        split.
        * constructor; cbn [main loc evC finC rCs wg hs ws toks]; auto; rewrite ?A1, ?A2, ?A3, ?A8, ?A9; auto.
          -- intros y u Hu. rewrite A4. apply JW. exact Hu.
          -- destruct JE as (rc & q & E1 & E2 & E3 & E4). cbn [evmain] in E4. subst rc. exists [], q. auto.
          -- destruct JF as (rc & q & E1 & E2 & E3 & E4). cbn [finmain] in E4. subst rc. exists [], q. auto.
        * unfold measure. cbn [main hs ws]. pose proof (head_wt 0 ltac:(lia)) as Hwt. rewrite Nat.sub_0_r in Hwt. cbn [mwt]. lia.
    - (* consume *)
      destruct JE as (rc & q & E1 & E2 & E3 & E4). cbn [evmain consd] in *. destruct E4 as (L & Hm & Hi & HA).
      unfold crecv. rewrite E1. destruct q as [|x q]; cbn [map].
      { rewrite JEc. exact I. }
      pose proof (members_lt _ (fun t => sent t = S i) (rc ++ x :: q) Js E3) as Hall.
      assert (E2' : NoDup ((rc ++ [x]) ++ q)) by (rewrite <- app_assoc; exact E2).
      assert (Hall' : all_lt (rc ++ [x])).
      { intros y Hy. apply Hall. rewrite in_app_iff in *. cbn [In] in *. tauto. }
      destruct (Acc_snoc i rc acc x Hi HA (nodup_app_l _ _ E2') Hall') as (a' & Ea & HA').
      rewrite Ea. destruct (Nat.ltb_spec (S m) n) as [Hlt|Hge].
      + split.
        * constructor; cbn [main loc evC finC rCs wg hs ws toks cbuf cclosed consd spawned mdone]; auto.
          exists (rc ++ [x]), q. split; [reflexivity|]. split; [exact E2'|].
          split; [intros y; rewrite <- app_assoc; apply E3|]. cbn [evmain]. rewrite app_length. cbn [length].
          split; [lia|]. auto.
        * unfold measure. cbn [main hs ws mwt]. lia.
      + assert (Hlen : length (rc ++ [x]) = n) by (rewrite app_length; cbn [length]; lia).
        assert (q = []).
        { assert (Hq : length ((rc ++ [x]) ++ q) <= n).
          { apply nodup_lt_length; [exact E2'|]. intros y Hy. apply Hall. rewrite <- app_assoc in Hy. exact Hy. }
          rewrite app_length in Hq. destruct q; [reflexivity|]. cbn [length] in Hq. lia. }
        subst q. split.
        * constructor; cbn [main loc evC finC rCs wg hs ws toks cbuf cclosed consd spawned mdone hsent]; auto.
          -- intros y u Hu. destruct (JW y u Hu) as (W1 & W2 & W3 & W4 & W5). split; [exact W1|]. split; [exact W2|].
             split; [exact W3|]. split; [exact W4|]. left. cbn [hsent] in W3.
             pose proof (thr_lt _ y u Js Hu) as Hy.
             pose proof (nodup_full (rc ++ [x]) n y (nodup_app_l _ _ E2') Hall' Hlen Hy) as HIn.
             apply E3 in HIn. destruct HIn as (u' & Hu' & Hs). cbn [ws] in *. congruence.
          -- exists [], []. split; [reflexivity|]. split; [constructor|]. split.
             ++ intros y. split; [intros []|]. intros (u & Hu & Hs). exfalso.
                destruct (JW y u Hu) as (_ & _ & _ & _ & W5). cbn [consd] in W5. lia.
             ++ cbn [evmain]. split; [reflexivity|]. split; [exact Hi|]. exists (rc ++ [x]).
                split; [apply (nodup_app_l _ _ E2')|]. auto.
        * unfold measure. cbn [main hs ws mwt]. lia.
    - (* interpolate, start Broadcast *)
      destruct JE as (rc & q & E1 & E2 & E3 & E4). cbn [evmain] in E4. destruct E4 as (-> & Hi & l0 & N0 & A0 & L0 & HA).
      cbn [mdone] in JO. subst l. rewrite (Acc_full i l0 e Hi HA N0 A0 L0). split.
      + constructor; cbn [main loc evC finC rCs wg hs ws toks consd mdone spawned]; auto.
        * intros y u Hu. destruct (JW y u Hu) as (W1 & W2 & W3 & W4 & W5). cbn [hsent] in *.
          assert (Hnone : forall z, match nth_error (repeat (@HIdle R) (length rC)) z with Some HDone | Some HEnd => S i | _ => i end = i).
          { intros z. destruct (nth_error (repeat (@HIdle R) (length rC)) z) as [hh|] eqn:Eh; [|reflexivity].
            apply nth_error_In, repeat_spec in Eh. subst hh. reflexivity. }
          rewrite Hnone. auto.
        * exists [], q. split; [exact E1|]. split; [exact E2|]. split; [exact E3|]. split; [reflexivity|exact Hi].
        * cbn [hsok]. rewrite repeat_length. split; [exact JR|]. split; [lia|]. split; [reflexivity|].
          split; [rewrite cnt_repeat; cbn [hlive]; lia|].
          intros x u Hu. apply nth_error_In, repeat_spec in Hu. subst u. split; [split; [lia|reflexivity]|discriminate].
      + unfold measure. cbn [main hs ws mwt]. rewrite cnt_repeat. cbn [hwt]. lia.
    - (* start goroutine k of Broadcast *)
      destruct JH as (H1 & H2 & -> & H4 & H5). destruct (Nat.ltb_spec k (length rC)) as [Hk|Hk].
      + destruct (nth_error h k) as [a|] eqn:Ha; [|apply nth_error_None in Ha; lia].
        assert (a = HIdle) by (apply (H5 k a Ha); lia). subst a. split.
        * constructor; cbn [main loc evC finC rCs wg hs ws toks consd mdone spawned]; auto.
          -- intros y u Hu. specialize (JW y u Hu). cbn [hsent] in *. destruct (Nat.eq_dec k y) as [<-|Hxy].
             ++ rewrite (upd_same_nth h k _ _ Ha). rewrite Ha in JW. exact JW.
             ++ rewrite upd_other_nth by exact Hxy. exact JW.
          -- cbn [hsok]. rewrite upd_length. split; [exact H1|]. split; [lia|]. split; [reflexivity|].
             split; [pose proof (cnt_upd hlive h k _ (HSend (rr i)) Ha) as C; cbn [hlive] in C; lia|].
             intros y u Hu. destruct (Nat.eq_dec k y) as [<-|Hxy].
             ++ rewrite (upd_same_nth h k _ _ Ha) in Hu. injection Hu as <-. split; [split; [discriminate|lia]|]. congruence.
             ++ rewrite upd_other_nth in Hu by exact Hxy. destruct (H5 y u Hu) as [G1 G2]. split; [rewrite G1; lia|exact G2].
        * unfold measure. cbn [main hs ws mwt]. pose proof (cnt_upd hwt h k _ (HSend (rr i)) Ha) as C. cbn [hwt] in C. lia.
      + split.
        * constructor; cbn [main loc evC finC rCs wg hs ws toks consd mdone spawned]; auto.
          cbn [hsok]. split; [exact H1|]. split; [exact H4|]. intros y u Hu. destruct (H5 y u Hu) as [G1 G2].
          split; [|exact G2]. intros ->. assert (y < length h) by (apply nth_error_Some; congruence).
          assert (k <= y) by (apply G1; reflexivity). lia.
        * unfold measure. cbn [main hs ws mwt]. lia.
    - (* wg.Wait *)
      destruct JH as (H1 & H4 & H5). destruct w as [|w]; [|exact I].
      destruct JE as (rc & q & E1 & E2 & E3 & E4). cbn [evmain] in E4. destruct E4 as [-> Hi].
      assert (Hend : forall x u, nth_error h x = Some u -> u = HEnd).
      { intros x u Hu. pose proof (cnt_pos hlive h x u Hu) as C. destruct u; cbn [hlive] in C; try lia. reflexivity. }
      destruct (head_facts (S i) ltac:(lia)) as (A1 & A2 & A3 & A4 & A5 & A6 & A7 & A8 & A9).
      split.
      + constructor; cbn [main loc evC finC rCs wg hs ws toks]; auto; rewrite ?A1, ?A2, ?A3, ?A8, ?A9; auto.
        * intros y u Hu. rewrite A4. specialize (JW y u Hu). cbn [hsent] in JW.
          destruct (nth_error h y) as [v|] eqn:Ev.
          -- rewrite (Hend y v Ev) in JW. exact JW.
          -- apply nth_error_None in Ev. pose proof (thr_lt _ y u Js Hu). lia.
        * exists [], q. auto.
        * destruct JF as (rc' & q' & F1 & F2 & F3 & F4). cbn [finmain] in F4. subst rc'. exists [], q'. auto.
      + unfold measure. cbn [main hs ws]. pose proof (head_wt (S i) ltac:(lia)). cbn [mwt]. lia.
    - (* merge *)
      destruct JF as (rc & q & E1 & E2 & E3 & E4). cbn [finmain] in *. destruct E4 as (L & Hm & HA).
      unfold crecv. rewrite E1. destruct q as [|x q]; cbn [map].
      { rewrite JFc. exact I. }
      pose proof (members_lt _ (fun t => finished t = true) (rc ++ x :: q) Js E3) as Hall.
      assert (E2' : NoDup ((rc ++ [x]) ++ q)) by (rewrite <- app_assoc; exact E2).
      assert (Hall' : all_lt (rc ++ [x])).
      { intros y Hy. apply Hall. rewrite in_app_iff in *. cbn [In] in *. tauto. }
      destruct (Mrg_snoc rc g x HA (nodup_app_l _ _ E2') Hall') as (a' & Ea & HA').
      rewrite Ea. destruct (Nat.ltb_spec (S m) n) as [Hlt|Hge].
      + split.
        * constructor; cbn [main loc evC finC rCs wg hs ws toks cbuf cclosed consd spawned mdone]; auto.
          exists (rc ++ [x]), q. split; [reflexivity|]. split; [exact E2'|].
          split; [intros y; rewrite <- app_assoc; apply E3|]. cbn [finmain]. rewrite app_length. cbn [length].
          split; [lia|]. auto.
        * unfold measure. cbn [main hs ws mwt]. lia.
      + split.
        * constructor; cbn [main loc evC finC rCs wg hs ws toks cbuf cclosed consd spawned mdone]; auto.
          exists (rc ++ [x]), q. split; [reflexivity|]. split; [exact E2'|].
          split; [intros y; rewrite <- app_assoc; apply E3|]. cbn [finmain]. rewrite app_length. cbn [length].
          split; [lia|exact HA'].
        * unfold measure. cbn [main hs ws mwt]. lia.
    - (* finish *)
      destruct JF as (rc & q & E1 & E2 & E3 & E4). cbn [finmain] in *. destruct E4 as (L & HA).
      pose proof (members_lt _ (fun t => finished t = true) (rc ++ q) Js E3) as Hall.
      cbn [mdone] in JO. subst l. rewrite (Mrg_full rc g HA (nodup_app_l _ _ E2)) by (try assumption; intros y Hy; apply Hall; apply in_app_iff; auto).
      split.
      + constructor; cbn [main loc evC finC rCs wg hs ws toks consd spawned mdone]; auto. exists rc, q. cbn [finmain]. auto.
      + unfold measure. cbn [main hs ws mwt]. lia.
    - unfold cclose. rewrite JEc. split.
      + constructor; cbn [main loc evC finC rCs wg hs ws toks consd spawned mdone cbuf cclosed]; auto.
      + unfold measure. cbn [main hs ws mwt]. lia.
    - unfold cclose. rewrite JFc. split.
      + constructor; cbn [main loc evC finC rCs wg hs ws toks consd spawned mdone cbuf cclosed]; auto.
      + unfold measure. cbn [main hs ws mwt]. lia.
    - exact I.
  Qed.

  Lemma J_step s o : J s -> step s o -> exists s', o = Some s' /\ J s' /\ measure s' < measure s.
  Proof.
    intros Js Hs. destruct Hs as [a s' H|a H]; destruct a as [|x|x]; cbn [MSumPar.run] in H.
    - pose proof (main_step s Js) as P. rewrite H in P. eauto.
    - pose proof (helper_step s x Js) as P. rewrite H in P. eauto.
    - pose proof (worker_step s x Js) as P. rewrite H in P. eauto.
    - pose proof (main_step s Js) as P. rewrite H in P. destruct P.
    - pose proof (helper_step s x Js) as P. rewrite H in P. destruct P.
    - pose proof (worker_step s x Js) as P. rewrite H in P. destruct P.
  Qed.

  (** When every goroutine blocks, all the work is done. *)
  Lemma J_final s : J s -> (forall o, ~ step s o) ->
    main s = MEnd out /\ ws s = repeat WEnd n /\ toks s = nTok /\ rCs s = repeat (MkChan [] true) n /\
    evC s = MkChan [] true /\ finC s = MkChan [] true.
  Proof.
    intros Js Hno.
    assert (Hblk : forall a, run a s = Blocks).
    { intros a. destruct (run a s) eqn:Er; [reflexivity|exfalso|exfalso]; eapply Hno; [eapply step_panic|eapply step_ok]; exact Er. }
    clear Hno. destruct s as [pc l eC fC rC w h t k0].
    pose proof Js as [JL JR JT JS JW JE JEc JF JFc JO JH].
    cbn [main loc evC finC rCs wg hs ws toks] in *.
    (* no worker holds a token *)
    assert (Hfree : forall x u, nth_error t x = Some u -> holdsW u = 0).
    { intros x u Hu. pose proof (Hblk (TWorker x)) as B. cbn [MSumPar.run] in B.
      pose proof (worker_step _ x Js) as WS. unfold step_worker in *. rewrite Hu in *.
      pose proof (thr_lt _ x u Js Hu) as Hx. destruct (JW x u Hu) as (W1 & W2 & W3 & W4 & W5).
      pose proof (cnt_pos holdsW t x u Hu) as C.
      destruct u as [| | |j p|j p e|j p|j p|j p r|j p r|p| | |]; cbn [holdsW wok sent rcvd] in *; try reflexivity; exfalso.
      - rewrite H_init in B by exact Hx. discriminate.
      - destruct W1 as [W1 ->]. rewrite H_more in B by assumption. destruct (Nat.ltb_spec j K); [|discriminate].
        rewrite H_evals in B by assumption. discriminate.
      - destruct W1 as (W1 & -> & ->).
        destruct JE as (rc & q & E1 & E2 & E3 & E4).
        pose proof (hsent_le pc h x) as Hle. assert (Hj : j = consd pc) by lia.
        assert (Hnot : ~ In x q).
        { intros Hin. assert (Hin' : In x (rc ++ q)) by (apply in_app_iff; auto). apply E3 in Hin'.
          destruct Hin' as (v & Hv & Hs). rewrite Hu in Hv. injection Hv as <-. cbn [sent] in Hs. lia. }
        assert (Hroom : length (cbuf eC) < n).
        { rewrite E1, map_length.
          assert (L : length (q ++ [x]) <= n); [|rewrite app_length in L; simpl in L; lia].
          apply nodup_lt_length; [apply nodup_snoc; [apply nodup_app_r in E2; exact E2|exact Hnot]|].
          intros y Hy. apply in_app_iff in Hy. destruct Hy as [Hy|[<-|[]]]; [|exact Hx].
          apply (members_lt _ (fun t => sent t = S (consd pc)) (rc ++ q) Js E3). apply in_app_iff. auto. }
        unfold csend in B. destruct (cclosed eC); [discriminate|]. destruct (Nat.ltb_spec (length (cbuf eC)) n); [discriminate|lia].
      - destruct (Nat.ltb_spec k0 nTok); [discriminate|lia].
      - destruct W1 as (W1 & -> & ->). rewrite H_fold in B by assumption. discriminate.
      - destruct JF as (rc & q & E1 & E2 & E3 & E4).
        assert (Hnot : ~ In x q).
        { intros Hin. assert (Hin' : In x (rc ++ q)) by (apply in_app_iff; auto). apply E3 in Hin'.
          destruct Hin' as (v & Hv & Hs). rewrite Hu in Hv. injection Hv as <-. discriminate. }
        assert (Hroom : length (cbuf fC) < n).
        { rewrite E1, map_length.
          assert (L : length (q ++ [x]) <= n); [|rewrite app_length in L; simpl in L; lia].
          apply nodup_lt_length; [apply nodup_snoc; [apply nodup_app_r in E2; exact E2|exact Hnot]|].
          intros y Hy. apply in_app_iff in Hy. destruct Hy as [Hy|[<-|[]]]; [|exact Hx].
          apply (members_lt _ (fun t => finished t = true) (rc ++ q) Js E3). apply in_app_iff. auto. }
        unfold csend in B. destruct (cclosed fC); [discriminate|]. destruct (Nat.ltb_spec (length (cbuf fC)) n); [discriminate|lia].
      - destruct (Nat.ltb_spec k0 nTok); [discriminate|lia]. }
    assert (Htok : k0 = nTok).
    { rewrite (cnt_zero holdsW t Hfree) in JT. lia. }
    (* so every worker is idle, waiting for a challenge that was not sent, or has ended *)
    assert (Hw : forall x u, nth_error t x = Some u -> u = WIdle \/ u = WEnd \/
      (sent u = S (hsent pc h x) /\ hsent pc h x < K)).
    { intros x u Hu. pose proof (Hblk (TWorker x)) as B. cbn [MSumPar.run] in B. unfold step_worker in B. rewrite Hu in B.
      destruct (JW x u Hu) as (W1 & W2 & W3 & W4 & W5). specialize (Hfree x u Hu).
      destruct u as [| | |j p|j p e|j p|j p|j p r|j p r|p| | |]; cbn [holdsW wok sent rcvd] in *; try discriminate; auto.
      - destruct k0; [lia|discriminate].
      - rewrite W4 in B. unfold crecv in B. cbn [cbuf cclosed ended] in B.
        destruct (Nat.ltb_spec j (hsent pc h x)); [discriminate|]. right. right. lia.
      - destruct k0; [lia|discriminate].
      - rewrite W4 in B. discriminate. }
    pose proof (Hblk TMain) as B. cbn [MSumPar.run] in B. unfold step_main in B.
    destruct pc as [k|i m acc|i e|i r k|i|m g|g|o|o|o].
    - destruct (k <? n); discriminate.
    - exfalso. destruct JE as (rc & q & E1 & E2 & E3 & E4). cbn [evmain consd] in *. destruct E4 as (L & Hm & Hi & HA).
      unfold crecv in B. rewrite E1 in B. destruct q as [|x q]; cbn [map] in B.
      + destruct (nodup_missing rc n) as (x & Hx & Hnot); [apply nodup_app_l in E2; exact E2|lia|].
        rewrite app_nil_r in E3.
        destruct (nth_error t x) as [u|] eqn:Hu; [|apply nth_error_None in Hu; lia].
        destruct (JW x u Hu) as (W1 & W2 & W3 & W4 & W5). cbn [consd hsent spawned] in *.
        assert (Hs : sent u <> S i) by (intros Hs; apply Hnot; apply E3; eauto).
        destruct (Hw x u Hu) as [->|[->|[H1 H2]]].
        * assert (n <= x) by (apply W2; reflexivity). lia.
        * cbn [sent] in *. lia.
        * cbn [hsent] in *. lia.
      + pose proof (members_lt _ (fun t => sent t = S i) (rc ++ x :: q) Js E3) as Hall.
        assert (E2' : NoDup ((rc ++ [x]) ++ q)) by (rewrite <- app_assoc; exact E2).
        destruct (Acc_snoc i rc acc x Hi HA (nodup_app_l _ _ E2')) as (a' & Ea & _).
        { intros y Hy. apply Hall. rewrite in_app_iff in *. cbn [In] in *. tauto. }
        rewrite Ea in B. discriminate.
    - exfalso. pose proof (main_step _ Js) as P. unfold step_main in P. rewrite B in P.
      destruct (mround i l e) as [[l' r]|]; [discriminate|discriminate].
    - destruct (k <? length rC); discriminate.
    - (* wg.Wait *)
      exfalso. destruct JH as (H1 & H4 & H5). destruct w as [|w]; [discriminate|].
      destruct (cnt_pos_ex hlive h ltac:(lia)) as (x & a & Ha & Hl).
      assert (Hx : x < n) by (rewrite <- H1; apply nth_error_Some; congruence).
      pose proof (Hblk (THelper x)) as B'. cbn [MSumPar.run] in B'. unfold step_helper in B'. rewrite Ha in B'.
      destruct (nth_error t x) as [u|] eqn:Hu; [|apply nth_error_None in Hu; lia].
      destruct (JW x u Hu) as (W1 & W2 & W3 & W4 & W5). cbn [hsent consd] in *. rewrite Ha in *.
      destruct (H5 x a Ha) as [G1 _]. destruct a as [|r| |]; cbn [hlive] in Hl; try lia; [contradiction| |destruct (nth_error rC x); discriminate].
      rewrite W4 in B'. unfold csend in B'. cbn [cbuf cclosed] in B'.
      assert (Hsr : sent u <= S (rcvd u)) by (destruct u; cbn; lia).
      assert (Hru : rcvd u = i) by lia. rewrite Hru, Nat.ltb_irrefl in B'. cbn [length Nat.ltb Nat.leb] in B'.
      destruct (ended u); discriminate.
    - exfalso. destruct JF as (rc & q & E1 & E2 & E3 & E4). cbn [finmain] in *. destruct E4 as (L & Hm & HA).
      unfold crecv in B. rewrite E1 in B. destruct q as [|x q]; cbn [map] in B.
      + destruct (nodup_missing rc n) as (x & Hx & Hnot); [apply nodup_app_l in E2; exact E2|lia|].
        rewrite app_nil_r in E3.
        destruct (nth_error t x) as [u|] eqn:Hu; [|apply nth_error_None in Hu; lia].
        destruct (JW x u Hu) as (W1 & W2 & W3 & W4 & W5). cbn [consd hsent spawned] in *.
        destruct (Hw x u Hu) as [->|[->|[H1 H2]]].
        * assert (n <= x) by (apply W2; reflexivity). lia.
        * apply Hnot. apply E3. exists WEnd. auto.
        * cbn [hsent] in *. lia.
      + pose proof (members_lt _ (fun t => finished t = true) (rc ++ x :: q) Js E3) as Hall.
        assert (E2' : NoDup ((rc ++ [x]) ++ q)) by (rewrite <- app_assoc; exact E2).
        destruct (Mrg_snoc rc g x HA (nodup_app_l _ _ E2')) as (a' & Ea & _).
        { intros y Hy. apply Hall. rewrite in_app_iff in *. cbn [In] in *. tauto. }
        rewrite Ea in B. discriminate.
    - exfalso. destruct (mfinish l g); discriminate.
    - exfalso. unfold cclose in B. destruct (cclosed eC); discriminate.
    - exfalso. unfold cclose in B. destruct (cclosed fC); discriminate.
    - destruct JF as (rc & q & F1 & F2 & F3 & F4). cbn [finmain] in F4. destruct F4 as [FL ->].
      assert (He : forall x u, nth_error t x = Some u -> u = WEnd).
      { intros x u Hu. destruct (Hw x u Hu) as [->|[->|[H1 H2]]]; [|reflexivity|cbn [hsent] in H2; lia].
        destruct (JW x _ Hu) as (_ & W2 & _). cbn [spawned] in W2. pose proof (thr_lt _ x _ Js Hu).
        assert (n <= x) by (apply W2; reflexivity). lia. }
      assert (Hrep : forall (A : Type) (a : list A) z, length a = n -> (forall x u, nth_error a x = Some u -> u = z) -> a = repeat z n).
      { intros A a z <- Ha. clear - Ha. induction a as [|b a IH]; [reflexivity|]. cbn [length repeat].
        rewrite (Ha 0 b eq_refl). f_equal. apply IH. intros x u. apply (Ha (S x) u). }
      split; [reflexivity|]. split; [apply Hrep; assumption|]. split; [exact Htok|].
      split; [|split].
      + apply Hrep; [exact JR|]. intros x c Hc.
        destruct (nth_error t x) as [u|] eqn:Hu.
        * pose proof (He x u Hu) as ->. destruct (JW x _ Hu) as (_ & _ & W3 & W4 & _). rewrite Hc in W4. cbn [rcvd hsent ended] in W4.
          rewrite Nat.ltb_irrefl in W4. injection W4 as ->. reflexivity.
        * apply nth_error_None in Hu. assert (x < length rC) by (apply nth_error_Some; congruence). lia.
      + destruct JE as (rc' & q' & E1 & E2 & E3 & E4). cbn [evmain consd] in *. subst rc'.
        destruct eC as [b c]. cbn [cbuf cclosed] in *. subst b c. f_equal.
        destruct q' as [|x q']; [reflexivity|exfalso].
        destruct (proj1 (E3 x)) as (u & Hu & Hs); [left; reflexivity|]. rewrite (He x u Hu) in Hs. cbn [sent] in Hs. lia.
      + destruct fC as [b c]. cbn [cbuf cclosed] in *. subst b c. f_equal.
        destruct q as [|x q]; [reflexivity|exfalso].
        pose proof (members_lt _ (fun t => finished t = true) (rc ++ x :: q) Js F3) as Hall.
        pose proof (nodup_lt_length _ n F2 Hall) as HL. rewrite app_length in HL. cbn [length] in HL. lia.
  Qed.

  Theorem mt_must m : m = ms 0 ->
    must step (fun s => main s = MEnd out /\ ws s = repeat WEnd n /\ toks s = nTok /\ rCs s = repeat (MkChan [] true) n /\
      evC s = MkChan [] true /\ finC s = MkChan [] true) (init n nTok m).
  Proof.
    intros Hm. apply (must_by_measure step J _ measure).
    - exact J_step.
    - exact J_final.
    - apply J_init. exact Hm.
  Qed.
End LM.
