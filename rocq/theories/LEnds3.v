(** The multi-threaded sum-check prover returns only when every sub-prover runs as many rounds as main: counting messages. *)
From Coq Require Import List Arith ZArith Lia Bool.
From Verif Require Import Field Go Trans SpecEnds MCommon MPoly LForkJoin MCircuit MSumcheck MSumPar LSumPar LEnds LEnds2.
Import ListNotations.

Lemma cnt_all {X} (f : X -> nat) b l : (forall i x, nth_error l i = Some x -> f x <= b) -> b * length l <= cnt f l ->
  forall i x, nth_error l i = Some x -> f x = b.
Proof.
  induction l as [|a l IH]; intros H Hc i x Hx; [destruct i; discriminate|]. rewrite cnt_cons in Hc. cbn [length] in Hc.
  assert (Hl : cnt f l <= b * length l).
  { clear - H. induction l as [|y l IH]; [cbn; lia|]. rewrite cnt_cons. cbn [length]. pose proof (H 1 y eq_refl).
    assert (cnt f l <= b * length l); [|nia]. apply IH. intros [|i] x Hx; [apply (H 0 x Hx)|apply (H (S (S i)) x Hx)]. }
  pose proof (H 0 a eq_refl) as H0. destruct i as [|i].
  - injection Hx as <-. nia.
  - apply (IH (fun j y Hy => H (S j) y Hy)) with (i := i); [nia|exact Hx].
Qed.

Section Count.
  Context {Wk E R MS G Out : Type}.
  Variables (zE : E) (zR : R) (zW : Wk).
  Variables n nTok K : nat.
  Variable winit : nat -> option Wk.
  Variable wmore : nat -> Wk -> bool.
  Variable wevals : nat -> Wk -> option E.
  Variable wfold : nat -> Wk -> R -> option Wk.
  Variable consume : option E -> E -> option E.
  Variable mround : nat -> MS -> E -> option (MS * R).
  Variable merge : option G -> nat * Wk -> option G.
  Variable mfinish : MS -> G -> option Out.
  Variable nr : Wk -> nat.
  Hypothesis Hmore : forall j p, wmore j p = (j <? nr p).
  Hypothesis Hfold : forall j p r p', wfold j p r = Some p' -> nr p' = nr p.
  Hypothesis Hn : 0 < n.

  Notation st := (@st Wk E R MS G Out).
  Notation wpc := (@wpc Wk E R).
  Notation hpc := (@hpc R).
  Notation mpc := (@mpc E R G Out).
  Notation step := (step zE zR zW n nTok K winit wmore wevals wfold consume mround merge mfinish).
  Notation step_main := (step_main zE zW n K consume mround merge mfinish).
  Notation step_worker := (step_worker zR n nTok winit wmore wevals wfold).

  Definition rnds (x : nat) : nat := match winit x with Some p => nr p | None => 0 end.
  Definition sentX (x : nat) (t : wpc) : nat :=
    match t with
    | WIdle | WStart | WInit => 0 | WLoop j _ | WSend j _ _ => j
    | WRel j _ | WRecv j _ | WAcq j _ _ | WFold j _ _ => S j | _ => rnds x
    end.
  Definition rcvdX (x : nat) (t : wpc) : nat :=
    match t with
    | WIdle | WStart | WInit => 0 | WLoop j _ | WSend j _ _ | WRel j _ | WRecv j _ => j
    | WAcq j _ _ | WFold j _ _ => S j | _ => rnds x
    end.
  Definition wokX (x : nat) (t : wpc) : Prop :=
    match t with
    | WIdle | WStart | WInit => True
    | WLoop j p => winit x <> None /\ nr p = rnds x /\ j <= rnds x
    | WSend j p _ | WRel j p | WRecv j p | WAcq j p _ | WFold j p _ => winit x <> None /\ nr p = rnds x /\ j < rnds x
    | _ => winit x <> None
    end.
  Definition finb (t : wpc) : nat := match t with WRelF | WClose | WEnd => 1 | _ => 0 end.
  Definition hsentX (m : mpc) (h : list hpc) (x : nat) : nat :=
    match m with
    | MSpawn _ => 0 | MCons i _ _ | MRound i _ => i
    | MGo i _ _ | MWait i => match nth_error h x with Some HDone | Some HEnd => S i | _ => i end
    | _ => K
    end.
  Definition consumed (m : mpc) : nat :=
    match m with
    | MSpawn _ => 0 | MCons i k _ => i * n + k | MRound i _ | MGo i _ _ | MWait i => S i * n | _ => K * n
    end.
  Definition merged (m : mpc) : nat :=
    match m with MMerge k _ => k | MFinish _ | MCloseE _ | MCloseF _ | MEnd _ => n | _ => 0 end.
  Definition inr (m : mpc) : Prop :=
    match m with
    | MCons i k _ => i < K /\ k < n | MRound i _ | MGo i _ _ | MWait i => i < K | MMerge k _ => k < n | _ => True
    end.
  Definition hlv (h : hpc) : nat := match h with HEnd => 0 | _ => 1 end.
  Definition hsX (m : mpc) (w : nat) (h : list hpc) : Prop :=
    match m with
    | MGo i r k => length h = n /\ k <= n /\ w = cnt hlv h /\ forall x q, nth_error h x = Some q -> (q = HIdle <-> k <= x)
    | MWait i => length h = n /\ w = cnt hlv h /\ forall x q, nth_error h x = Some q -> q <> HIdle
    | _ => forall x q, nth_error h x = Some q -> q = HEnd
    end.
  Definition total (t : list wpc) : nat := cnt (fun xt => sentX (fst xt) (snd xt)) (combine (seq 0 n) t).

  Record JB (s : st) : Prop := {
    b_len : length (ws s) = n;
    b_rlen : length (rCs s) = n;
    b_sp : match main s with MSpawn k => forall x t, nth_error (ws s) x = Some t -> k <= x -> t = WIdle | _ => True end;
    b_thr : forall x t, nth_error (ws s) x = Some t -> wokX x t /\
      exists c, nth_error (rCs s) x = Some c /\ rcvdX x t + length (cbuf c) = hsentX (main s) (hs s) x /\ (cclosed c = true -> t = WEnd);
    b_ev : total (ws s) = consumed (main s) + length (cbuf (evC s));
    b_evc : cclosed (evC s) = true -> match main s with MCloseF _ | MEnd _ => True | _ => False end;
    b_fin : cnt finb (ws s) = merged (main s) + length (cbuf (finC s));
    b_finc : cclosed (finC s) = true -> match main s with MEnd _ => True | _ => False end;
    b_hs : hsX (main s) (wg s) (hs s);
    b_in : inr (main s) }.

  Lemma seq_nth_error m x : x < m -> nth_error (seq 0 m) x = Some x.
  Proof. intros H. rewrite (nth_error_nth' _ 0) by (rewrite seq_length; exact H). rewrite seq_nth by exact H. reflexivity. Qed.

  Lemma total_upd t x a b : length t = n -> nth_error t x = Some a -> total (upd t x b) + sentX x a = total t + sentX x b.
  Proof.
    intros HL Ha. assert (Hx : x < n) by (rewrite <- HL; apply nth_error_Some; congruence).
    unfold total. rewrite upd_combine, (seq_nth_error n x Hx).
    apply (cnt_upd (fun xt => sentX (fst xt) (snd xt)) (combine (seq 0 n) t) x (x, a) (x, b)).
    apply combine_nth_error; [apply seq_nth_error; exact Hx|exact Ha].
  Qed.

  Lemma nth_combine_seq (t : list wpc) x y a : nth_error (combine (seq 0 n) t) x = Some (y, a) -> y = x /\ nth_error t x = Some a.
  Proof.
    assert (H : forall m k, nth_error (combine (seq k m) t) x = Some (y, a) -> y = k + x /\ nth_error t x = Some a).
    { revert t. induction x as [|x IH]; intros t [|m] k H; cbn in *; try discriminate; destruct t as [|b t]; try discriminate.
      - injection H as <- <-. split; [lia|reflexivity].
      - destruct (IH t m (S k) H) as [H1 H2]. split; [lia|exact H2]. }
    intros H0. exact (H n 0 H0).
  Qed.

  Lemma JB_init m : JB (init n nTok m).
  Proof.
    assert (Hr : forall x t, nth_error (repeat (@WIdle Wk E R) n) x = Some t -> t = WIdle).
    { intros x t H. apply nth_error_In in H. eapply repeat_spec. exact H. }
    unfold init. constructor; cbn [main loc evC finC rCs wg hs ws toks emptyChan cbuf cclosed consumed merged inr hsX length].
    - apply repeat_length.
    - apply repeat_length.
    - intros x t H _. exact (Hr x t H).
    - intros x t H. assert (Hx : x < n) by (rewrite <- (repeat_length (@WIdle Wk E R) n); apply nth_error_Some; congruence).
      apply Hr in H. subst t. split; [exact I|]. exists emptyChan. split; [|split; [reflexivity|discriminate]].
      rewrite (nth_error_nth' _ emptyChan) by (rewrite repeat_length; exact Hx). rewrite nth_repeat. reflexivity.
    - unfold total. apply cnt_zero. intros i [y a] H. apply nth_combine_seq in H. destruct H as [-> H]. apply Hr in H. subst a. reflexivity.
    - discriminate.
    - rewrite cnt_repeat. cbn. lia.
    - discriminate.
    - intros x q H. destruct x; discriminate.
    - exact I.
  Qed.

  Lemma head_X i h x : (forall y q, nth_error h y = Some q -> q = HEnd) -> i <= K ->
    consumed (head (E:=E) (R:=R) (G:=G) (Out:=Out) K i) = i * n /\ merged (head (E:=E) (R:=R) (G:=G) (Out:=Out) K i) = 0 /\
    inr (head (E:=E) (R:=R) (G:=G) (Out:=Out) K i) /\ hsentX (head (E:=E) (R:=R) (G:=G) (Out:=Out) K i) h x = i /\
    (forall w, hsX (head (E:=E) (R:=R) (G:=G) (Out:=Out) K i) w h) /\
    match head (E:=E) (R:=R) (G:=G) (Out:=Out) K i with MCons _ _ _ | MMerge _ _ => True | _ => False end.
  Proof.
    intros Hh Hi. unfold head. destruct (Nat.ltb_spec i K).
    - cbn. repeat (split; [lia || auto|]). exact I.
    - assert (i = K) by lia. subst i. cbn. repeat (split; [lia || auto|]). exact I.
  Qed.

  (** A worker step that leaves the channels alone *)
  Lemma JB_local pc l eC fC rC w h t k0 x a b k1 : JB (MkSt pc l eC fC rC w h t k0) -> nth_error t x = Some a -> a <> WIdle ->
    wokX x b -> sentX x b = sentX x a -> rcvdX x b = rcvdX x a -> finb b = finb a -> a <> WEnd ->
    JB (MkSt pc l eC fC rC w h (upd t x b) k1).
  Proof.
    intros [J1 J2 J3 J4 J5 J6 J7 J8 J9 J10] Ha Hi Hb Hs Hr Hf He. cbn [main loc evC finC rCs wg hs ws toks] in *.
    pose proof (total_upd t x a b J1 Ha) as C1. pose proof (cnt_upd finb t x a b Ha) as C2.
    constructor; cbn [main loc evC finC rCs wg hs ws toks]; auto.
    - rewrite upd_length. exact J1.
    - destruct pc; auto. intros y u Hu Hk. rewrite nth_error_upd in Hu. destruct ((x =? y) && (x <? length t)) eqn:Eb; [|exact (J3 y u Hu Hk)].
      apply andb_prop in Eb. destruct Eb as [E1 _]. apply Nat.eqb_eq in E1. subst y. exfalso. apply Hi. exact (J3 x a Ha Hk).
    - intros y u Hu. rewrite nth_error_upd in Hu. destruct ((x =? y) && (x <? length t)) eqn:Eb; [|exact (J4 y u Hu)].
      apply andb_prop in Eb. destruct Eb as [E1 _]. apply Nat.eqb_eq in E1. subst y. injection Hu as <-.
      destruct (J4 x a Ha) as (W & c & Hc & HR & HC). split; [exact Hb|]. exists c. split; [exact Hc|]. split; [lia|]. intros Hcc. specialize (HC Hcc). contradiction.
    - lia.
    - lia.
  Qed.

  Lemma JB_worker s s' x : JB s -> step_worker x s = Gives s' -> JB s'.
  Proof.
    intros Js Hs. pose proof Js as [J1 J2 J3 J4 J5 J6 J7 J8 J9 J10]. destruct s as [pc l eC fC rC w h t k0].
    cbn [main loc evC finC rCs wg hs ws toks] in *. unfold MSumPar.step_worker in Hs.
    destruct (nth_error t x) as [u|] eqn:Hu; [|discriminate].
    destruct (J4 x u Hu) as (W & c & Hc & HR & HC).
    assert (Hx : x < n) by (rewrite <- J1; apply nth_error_Some; congruence).
    (* what changes and what does not, for a worker step that touches a channel *)
    assert (Hsp : forall b, u <> WIdle -> match pc with MSpawn k => forall y v, nth_error (upd t x b) y = Some v -> k <= y -> v = WIdle | _ => True end).
    { intros b Hi. destruct pc; auto. intros y v Hv Hk. rewrite nth_error_upd in Hv. destruct ((x =? y) && (x <? length t)) eqn:Eb; [|exact (J3 y v Hv Hk)].
      apply andb_prop in Eb. destruct Eb as [E1 _]. apply Nat.eqb_eq in E1. subst y. exfalso. apply Hi. exact (J3 x u Hu Hk). }
    assert (Hoth : forall b c', wokX x b -> rcvdX x b + length (cbuf c') = hsentX pc h x -> (cclosed c' = true -> b = WEnd) ->
      forall y v, nth_error (upd t x b) y = Some v -> wokX y v /\
      exists c, nth_error (upd rC x c') y = Some c /\ rcvdX y v + length (cbuf c) = hsentX pc h y /\ (cclosed c = true -> v = WEnd)).
    { intros b c' H1 H2 H3 y v Hv. rewrite nth_error_upd in Hv. rewrite nth_error_upd. rewrite J1 in Hv. rewrite J2.
      destruct (Nat.eqb_spec x y) as [<-|]; cbn [andb] in *; [|exact (J4 y v Hv)].
      destruct (Nat.ltb_spec x n); [|lia]. injection Hv as <-. split; [exact H1|]. exists c'. auto. }
    assert (Hsame : upd rC x c = rC).
    { clear - Hc. revert x Hc. induction rC as [|y l IH]; intros [|x] Hc; cbn in *; try discriminate; [congruence|]. f_equal. apply IH, Hc. }
    destruct u as [| | |j p|j p e|j p|j p|j p r|j p r|p| | |]; try discriminate; cbn [wokX rcvdX] in W, HR.
    - destruct k0; [discriminate|]. injection Hs as <-. apply (JB_local _ _ _ _ _ _ _ _ (S k0) _ _ _ _ Js Hu); try discriminate; reflexivity || exact I.
    - destruct (winit x) as [p|] eqn:Ei; [|discriminate]. injection Hs as <-.
      apply (JB_local _ _ _ _ _ _ _ _ k0 _ _ _ _ Js Hu); try discriminate; try reflexivity. cbn [wokX]. unfold rnds. rewrite Ei. split; [discriminate|]. split; [reflexivity|lia].
    - rewrite Hmore in Hs. destruct W as (W1 & W2 & W3). destruct (Nat.ltb_spec j (nr p)) as [Hlt|Hge].
      + destruct (wevals j p) as [e|]; [|discriminate]. injection Hs as <-.
        apply (JB_local _ _ _ _ _ _ _ _ k0 _ _ _ _ Js Hu); try discriminate; try reflexivity. cbn [wokX]. split; [exact W1|]. split; [exact W2|lia].
      + injection Hs as <-. apply (JB_local _ _ _ _ _ _ _ _ k0 _ _ _ _ Js Hu); try discriminate; try reflexivity; cbn [wokX sentX rcvdX]; [exact W1|lia|lia].
    - unfold csend in Hs. destruct (cclosed eC) eqn:Ec; [discriminate|]. destruct (length (cbuf eC) <? n); [|discriminate]. injection Hs as <-.
      pose proof (total_upd t x _ (WRel j p) J1 Hu) as C1. pose proof (cnt_upd finb t x _ (WRel j p) Hu) as C2. cbn [sentX finb] in C1, C2.
      constructor; cbn [main loc evC finC rCs wg hs ws toks cbuf cclosed]; auto.
      + rewrite upd_length. exact J1.
      + apply Hsp. discriminate.
      + rewrite <- Hsame. apply Hoth; [exact W|exact HR|]. intros Hcc. specialize (HC Hcc). discriminate.
      + rewrite app_length. cbn [length]. lia.
      + lia.
    - destruct (k0 <? nTok); [|discriminate]. injection Hs as <-. apply (JB_local _ _ _ _ _ _ _ _ k0 _ _ _ _ Js Hu); try discriminate; try reflexivity. exact W.
    - rewrite Hc in Hs. destruct (cclosed c) eqn:Ec; [specialize (HC eq_refl); discriminate|].
      unfold crecv in Hs. rewrite Ec in Hs. destruct (cbuf c) as [|r b] eqn:Eb; [discriminate|]. injection Hs as <-.
      pose proof (total_upd t x _ (WAcq j p r) J1 Hu) as C1. pose proof (cnt_upd finb t x _ (WAcq j p r) Hu) as C2. cbn [sentX finb] in C1, C2.
      constructor; cbn [main loc evC finC rCs wg hs ws toks cbuf cclosed]; auto.
      + rewrite upd_length. exact J1.
      + rewrite upd_length. exact J2.
      + apply Hsp. discriminate.
      + apply Hoth; [exact W| |discriminate]. cbn [rcvdX cbuf length] in *. lia.
      + lia.
      + lia.
    - destruct k0; [discriminate|]. injection Hs as <-. apply (JB_local _ _ _ _ _ _ _ _ (S k0) _ _ _ _ Js Hu); try discriminate; try reflexivity. exact W.
    - destruct (wfold j p r) as [p2|] eqn:Ef; [|discriminate]. injection Hs as <-. destruct W as (W1 & W2 & W3).
      apply (JB_local _ _ _ _ _ _ _ _ k0 _ _ _ _ Js Hu); try discriminate; try reflexivity. cbn [wokX]. split; [exact W1|]. split; [rewrite (Hfold _ _ _ _ Ef); exact W2|lia].
    - unfold csend in Hs. destruct (cclosed fC) eqn:Ec; [discriminate|]. destruct (length (cbuf fC) <? n); [|discriminate]. injection Hs as <-.
      pose proof (total_upd t x _ WRelF J1 Hu) as C1. pose proof (cnt_upd finb t x _ WRelF Hu) as C2. cbn [sentX finb] in C1, C2.
      constructor; cbn [main loc evC finC rCs wg hs ws toks cbuf cclosed]; auto.
      + rewrite upd_length. exact J1.
      + apply Hsp. discriminate.
      + rewrite <- Hsame. apply Hoth; [exact W|exact HR|]. intros Hcc. specialize (HC Hcc). discriminate.
      + lia.
      + rewrite app_length. cbn [length]. lia.
    - destruct (k0 <? nTok); [|discriminate]. injection Hs as <-. apply (JB_local _ _ _ _ _ _ _ _ k0 _ _ _ _ Js Hu); try discriminate; try reflexivity. exact W.
    - rewrite Hc in Hs. unfold cclose in Hs. destruct (cclosed c) eqn:Ec; [discriminate|]. injection Hs as <-.
      pose proof (total_upd t x _ WEnd J1 Hu) as C1. pose proof (cnt_upd finb t x _ WEnd Hu) as C2. cbn [sentX finb] in C1, C2.
      constructor; cbn [main loc evC finC rCs wg hs ws toks cbuf cclosed]; auto.
      + rewrite upd_length. exact J1.
      + rewrite upd_length. exact J2.
      + apply Hsp. discriminate.
      + apply Hoth; [exact W|exact HR|]. auto.
      + lia.
      + lia.
  Qed.

  Lemma JB_helper s s' x : JB s -> step_helper x s = Gives s' -> JB s'.
  Proof.
    intros Js Hs. pose proof Js as [J1 J2 J3 J4 J5 J6 J7 J8 J9 J10]. destruct s as [pc l eC fC rC w h t k0].
    cbn [main loc evC finC rCs wg hs ws toks] in *. unfold step_helper in Hs.
    destruct (nth_error h x) as [q|] eqn:Hq; [|discriminate].
    assert (HP : q <> HEnd -> exists i, (exists r k, pc = MGo i r k) \/ pc = MWait i).
    { intros Hne. destruct pc; cbn [hsX] in J9; try (exfalso; apply Hne; exact (J9 x q Hq)); eauto. }
    assert (HH : forall b, q <> HIdle -> b <> HIdle -> hlv q = 1 -> forall w', w' + 1 = w + hlv b -> hsX pc w' (upd h x b)).
    { intros b Hqi Hbi Hl w' Hw. pose proof (cnt_upd hlv h x q b Hq) as C.
      destruct pc; cbn [hsX] in *; try (exfalso; specialize (J9 x q Hq); subst q; cbn in Hl; discriminate).
      - destruct J9 as (A1 & A2 & A3 & A4). rewrite upd_length. split; [exact A1|]. split; [exact A2|]. split; [lia|].
        intros y v Hv. rewrite nth_error_upd in Hv. destruct ((x =? y) && (x <? length h)) eqn:Eb; [|exact (A4 y v Hv)].
        injection Hv as <-. apply andb_prop in Eb. destruct Eb as [E1 _]. apply Nat.eqb_eq in E1. subst y.
        pose proof (A4 x q Hq) as A5. split; intros Hz; [contradiction|]. exfalso. apply Hqi, A5, Hz.
      - destruct J9 as (A1 & A3 & A4). rewrite upd_length. split; [exact A1|]. split; [lia|].
        intros y v Hv. rewrite nth_error_upd in Hv. destruct ((x =? y) && (x <? length h)) eqn:Eb; [|exact (A4 y v Hv)]. injection Hv as <-. exact Hbi. }
    assert (Hhs : forall b y, x <> y -> hsentX pc (upd h x b) y = hsentX pc h y).
    { intros b y Hy. destruct pc; cbn [hsentX]; auto; rewrite nth_error_upd; destruct (Nat.eqb_spec x y); cbn [andb]; congruence. }
    assert (Hxh : x < length h) by (apply nth_error_Some; congruence).
    destruct q as [|r| |]; try discriminate.
    - destruct (nth_error rC x) as [c|] eqn:Hc; [|discriminate]. unfold csend in Hs. destruct (cclosed c) eqn:Ec; [discriminate|].
      destruct (length (cbuf c) <? 1); [|discriminate]. injection Hs as <-.
      destruct (HP ltac:(discriminate)) as (i & Hpc).
      constructor; cbn [main loc evC finC rCs wg hs ws toks cbuf cclosed]; auto.
      + rewrite upd_length. exact J2.
      + intros y u Hu. destruct (J4 y u Hu) as (W & c' & Hc' & HR & HC). split; [exact W|]. rewrite nth_error_upd, J2.
        destruct (Nat.eqb_spec x y) as [<-|Hxy]; cbn [andb]; [|exists c'; rewrite Hhs by exact Hxy; auto].
        assert (Hx : x < n) by (rewrite <- J2; apply nth_error_Some; congruence). destruct (Nat.ltb_spec x n); [|lia].
        rewrite Hc in Hc'. injection Hc' as <-. eexists. split; [reflexivity|]. cbn [cbuf cclosed]. split; [|discriminate].
        rewrite app_length. cbn [length].
        assert (Hold : hsentX pc h x = i) by (destruct Hpc as [(r0 & k & ->)| ->]; cbn; rewrite Hq; reflexivity).
        assert (Hnew : hsentX pc (upd h x HDone) x = S i).
        { destruct Hpc as [(r0 & k & ->)| ->]; cbn; rewrite nth_error_upd, Nat.eqb_refl; cbn [andb]; destruct (Nat.ltb_spec x (length h)); try lia; reflexivity. }
        lia.
      + apply HH; try discriminate; cbn; lia.
    - assert (Hs2 : exists w', w = S w' /\ s' = MkSt pc l eC fC rC w' (upd h x HEnd) t k0).
      { destruct (nth_error rC x); destruct w as [|w']; try discriminate; injection Hs as <-; eauto. }
      destruct Hs2 as (w' & -> & ->). destruct (HP ltac:(discriminate)) as (i & Hpc).
      constructor; cbn [main loc evC finC rCs wg hs ws toks cbuf cclosed]; auto.
      + intros y u Hu. destruct (J4 y u Hu) as (W & c' & Hc' & HR & HC). split; [exact W|]. exists c'. split; [exact Hc'|]. split; [|exact HC]. rewrite HR.
        destruct (Nat.eq_dec x y) as [<-|Hxy]; [|symmetry; apply Hhs, Hxy].
        destruct Hpc as [(r0 & k & ->)| ->]; cbn; rewrite nth_error_upd, Nat.eqb_refl, Hq; cbn [andb]; destruct (Nat.ltb_spec x (length h)); try lia; reflexivity.
      + apply HH; try discriminate; cbn; lia.
  Qed.

  Lemma JB_main s s' : JB s -> step_main s = Gives s' -> JB s'.
  Proof.
    intros Js Hs. pose proof Js as [J1 J2 J3 J4 J5 J6 J7 J8 J9 J10]. destruct s as [pc l eC fC rC w h t k0].
    cbn [main loc evC finC rCs wg hs ws toks] in *. unfold MSumPar.step_main in Hs.
    destruct pc as [k|i m acc|i e|i r k|i|m g|g|o|o|o]; cbn [consumed merged inr hsX hsentX] in *.
    - destruct (Nat.ltb_spec k n) as [Hlt|Hge]; injection Hs as <-.
      + destruct (nth_error t k) as [u|] eqn:Hu; [|apply nth_error_None in Hu; lia]. pose proof (J3 k u Hu ltac:(lia)) as E0. subst u.
        pose proof (total_upd t k _ WStart J1 Hu) as C1. pose proof (cnt_upd finb t k _ WStart Hu) as C2. cbn [sentX finb] in C1, C2.
        constructor; cbn [main loc evC finC rCs wg hs ws toks consumed merged inr hsX hsentX]; auto; try lia.
        * rewrite upd_length. exact J1.
        * intros y v Hv Hk. rewrite nth_error_upd in Hv. destruct (Nat.eqb_spec k y) as [->|]; [lia|]. cbn [andb] in Hv. apply (J3 y v Hv). lia.
        * intros y v Hv. rewrite nth_error_upd in Hv. destruct (Nat.eqb_spec k y) as [->|]; cbn [andb] in Hv; [|exact (J4 y v Hv)].
          destruct (Nat.ltb_spec y (length t)); [|lia]. injection Hv as <-. destruct (J4 y _ Hu) as (_ & c & H1 & H2 & H3).
          split; [exact I|]. exists c. split; [exact H1|]. split; [exact H2|]. intros Hcc. specialize (H3 Hcc). discriminate.
      + pose proof (fun x => head_X 0 h x J9 ltac:(lia)) as HX. destruct (HX 0) as (A1 & A2 & A3 & _ & A5 & A6).
        constructor; cbn [main loc evC finC rCs wg hs ws toks]; auto.
        * destruct (head K 0); try contradiction; exact I.
        * intros y v Hv. destruct (J4 y v Hv) as (W & c & H1 & H2 & H3). split; [exact W|]. exists c. destruct (HX y) as (_ & _ & _ & -> & _). auto.
        * rewrite A1. exact J5.
        * intros Hc. specialize (J6 Hc). contradiction.
        * rewrite A2. exact J7.
        * intros Hc. specialize (J8 Hc). contradiction.
    - destruct (cclosed eC) eqn:Ec; [destruct (J6 eq_refl)|].
      destruct eC as [[|e b] cc]; cbn [cclosed] in Ec; subst cc; unfold crecv in Hs; cbn [cbuf cclosed length] in *; [discriminate|].
      destruct (consume acc e) as [a|]; [|discriminate]. injection Hs as <-. destruct J10 as [Hi Hm].
      destruct (Nat.ltb_spec (S m) n) as [Hlt|Hge].
      + constructor; cbn [main loc evC finC rCs wg hs ws toks consumed merged inr hsX hsentX cbuf cclosed]; auto; try lia; discriminate.
      + constructor; cbn [main loc evC finC rCs wg hs ws toks consumed merged inr hsX hsentX cbuf cclosed]; auto; try discriminate; try lia.
    - destruct (mround i l e) as [[l' r]|]; [|discriminate]. injection Hs as <-.
      assert (Hrep : forall y, nth_error (repeat (@HIdle R) (length rC)) y = if y <? length rC then Some HIdle else None).
      { intros y. destruct (Nat.ltb_spec y (length rC)).
        - rewrite (nth_error_nth' _ HIdle) by (rewrite repeat_length; assumption). rewrite nth_repeat. reflexivity.
        - apply nth_error_None. rewrite repeat_length. assumption. }
      constructor; cbn [main loc evC finC rCs wg hs ws toks consumed merged inr hsX hsentX]; auto.
      + intros y v Hv. destruct (J4 y v Hv) as (W & c & H1 & H2 & H3). split; [exact W|]. exists c. rewrite Hrep. destruct (y <? length rC); auto.
      + rewrite repeat_length, J2. split; [reflexivity|]. split; [lia|]. split; [rewrite cnt_repeat; cbn; lia|].
        intros y q Hy. apply nth_error_In in Hy. apply repeat_spec in Hy. subst q. split; [lia|reflexivity].
    - destruct J9 as (A1 & A2 & A3 & A4). destruct (Nat.ltb_spec k (length rC)) as [Hlt|Hge]; injection Hs as <-.
      + destruct (nth_error h k) as [q|] eqn:Hq; [|apply nth_error_None in Hq; lia].
        assert (q = HIdle) by (apply (A4 k q Hq); lia). subst q.
        pose proof (cnt_upd hlv h k _ (HSend r) Hq) as C. cbn [hlv] in C.
        constructor; cbn [main loc evC finC rCs wg hs ws toks consumed merged inr hsX hsentX]; auto.
        * intros y v Hv. destruct (J4 y v Hv) as (W & c & H1 & H2 & H3). split; [exact W|]. exists c. split; [exact H1|]. split; [|exact H3].
          rewrite nth_error_upd. destruct (Nat.eqb_spec k y) as [->|]; cbn [andb]; [|exact H2]. rewrite Hq in H2. destruct (y <? length h); [exact H2|rewrite Hq; exact H2].
        * rewrite upd_length. split; [exact A1|]. split; [lia|]. split; [lia|]. intros y q Hy. rewrite nth_error_upd in Hy.
          destruct (Nat.eqb_spec k y) as [->|]; cbn [andb] in Hy.
          -- destruct (Nat.ltb_spec y (length h)); [|lia]. injection Hy as <-. split; [discriminate|lia].
          -- rewrite (A4 y q Hy). lia.
      + constructor; cbn [main loc evC finC rCs wg hs ws toks consumed merged inr hsX hsentX]; auto.
        split; [exact A1|]. split; [exact A3|]. intros y q Hy Hqq. apply (A4 y q Hy) in Hqq.
        assert (y < length h) by (apply nth_error_Some; congruence). lia.
    - destruct w; [|discriminate]. injection Hs as <-. destruct J9 as (A1 & A3 & A4).
      assert (Hend : forall y q, nth_error h y = Some q -> q = HEnd).
      { intros y q Hy. pose proof (cnt_pos hlv h y q Hy) as C. destruct q; cbn [hlv] in C; try lia. reflexivity. }
      pose proof (fun x => head_X (S i) h x Hend ltac:(lia)) as HX. destruct (HX 0) as (B1 & B2 & B3 & _ & B5 & B6).
      constructor; cbn [main loc evC finC rCs wg hs ws toks]; auto.
      * destruct (head K (S i)); try contradiction; exact I.
      * intros y v Hv. destruct (J4 y v Hv) as (W & c & H1 & H2 & H3). split; [exact W|]. exists c. destruct (HX y) as (_ & _ & _ & -> & _).
        split; [exact H1|]. split; [|exact H3]. assert (Hy : y < length h) by (rewrite A1, <- J1; apply nth_error_Some; congruence).
        destruct (nth_error h y) as [q|] eqn:Hq; [|apply nth_error_None in Hq; lia]. rewrite (Hend y q Hq) in H2. exact H2.
      * rewrite B1. exact J5.
      * intros Hc. specialize (J6 Hc). contradiction.
      * rewrite B2. exact J7.
      * intros Hc. specialize (J8 Hc). contradiction.
    - destruct (cclosed fC) eqn:Ec; [destruct (J8 eq_refl)|].
      destruct fC as [[|e b] cc]; cbn [cclosed] in Ec; subst cc; unfold crecv in Hs; cbn [cbuf cclosed length] in *; [discriminate|].
      destruct (merge g e) as [a|]; [|discriminate]. injection Hs as <-.
      destruct (Nat.ltb_spec (S m) n) as [Hlt|Hge].
      + constructor; cbn [main loc evC finC rCs wg hs ws toks consumed merged inr hsX hsentX cbuf cclosed]; auto; try lia; discriminate.
      + constructor; cbn [main loc evC finC rCs wg hs ws toks consumed merged inr hsX hsentX cbuf cclosed]; auto; try discriminate; lia.
    - destruct (mfinish l g); [|discriminate]. injection Hs as <-.
      constructor; cbn [main loc evC finC rCs wg hs ws toks consumed merged inr hsX hsentX]; auto.
    - unfold cclose in Hs. destruct (cclosed eC) eqn:Ec; [discriminate|]. injection Hs as <-.
      constructor; cbn [main loc evC finC rCs wg hs ws toks consumed merged inr hsX hsentX cbuf cclosed]; auto.
    - unfold cclose in Hs. destruct (cclosed fC) eqn:Ec; [discriminate|]. injection Hs as <-.
      constructor; cbn [main loc evC finC rCs wg hs ws toks consumed merged inr hsX hsentX cbuf cclosed]; auto.
    - discriminate.
  Qed.

  Lemma JB_reach m s : reach step (init n nTok m) s -> JB s.
  Proof.
    intros H. apply (reach_inv step JB) with (2 := H); [|apply JB_init].
    intros s1 s2 J1 Hs. inversion Hs as [a s3 Ha E0|]; subst. destruct a as [|x|x]; cbn [MSumPar.run] in Ha.
    - exact (JB_main _ _ J1 Ha).
    - exact (JB_helper _ _ x J1 Ha).
    - exact (JB_worker _ _ x J1 Ha).
  Qed.

  Lemma mt_returns m s o x : reach step (init n nTok m) s -> main s = MEnd o -> x < n -> exists p, winit x = Some p /\ nr p = K.
  Proof.
    intros HR Hm. destruct (JB_reach m s HR) as [J1 J2 J3 J4 J5 J6 J7 J8 J9 J10]. rewrite Hm in *. cbn [consumed merged hsentX] in *.
    assert (HF : forall y t, nth_error (ws s) y = Some t -> finb t = 1).
    { apply (cnt_all finb 1); [intros i t _; destruct t; cbn; lia|]. rewrite J1. lia. }
    assert (HK : forall y t, nth_error (ws s) y = Some t -> winit y <> None /\ rnds y <= K /\ sentX y t = rnds y).
    { intros y t Ht. pose proof (HF y t Ht) as Hf. destruct (J4 y t Ht) as (W & c & H1 & H2 & H3).
      destruct t; cbn [finb] in Hf; try discriminate; cbn [wokX rcvdX sentX] in *; (split; [exact W|]; split; [lia|reflexivity]). }
    assert (HA : forall i y t, nth_error (combine (seq 0 n) (ws s)) i = Some (y, t) -> sentX y t = K).
    { intros i y t Hi. apply (cnt_all (fun xt => sentX (fst xt) (snd xt)) K (combine (seq 0 n) (ws s))) with (i := i) (x := (y, t)).
      - intros i0 [y0 t0] H0. destruct (nth_combine_seq _ _ _ _ H0) as [-> H1]. cbn [fst snd]. destruct (HK i0 t0 H1) as (_ & A & ->). exact A.
      - rewrite combine_length, seq_length, J1, Nat.min_id. unfold total in J5. lia.
      - exact Hi. }
    intros Hx. destruct (nth_error (ws s) x) as [t|] eqn:Ht; [|apply nth_error_None in Ht; lia].
    pose proof (HA x x t (combine_nth_error _ _ _ _ _ (seq_nth_error n x Hx) Ht)) as H1. destruct (HK x t Ht) as (A & _ & B).
    unfold rnds in B. destruct (winit x) as [p|]; [|contradiction]. exists p. split; [reflexivity|congruence].
  Qed.

  (** Every execution is finite: a measure *)
  Definition wrank (x : nat) (t : wpc) : nat :=
    match t with
    | WIdle | WStart => 6 * rnds x + 7 | WInit => 6 * rnds x + 6
    | WLoop j _ => 6 * (rnds x - j) + 5 | WSend j _ _ => 6 * (rnds x - j) + 4 | WRel j _ => 6 * (rnds x - j) + 3
    | WRecv j _ => 6 * (rnds x - j) + 2 | WAcq j _ _ => 6 * (rnds x - j) + 1 | WFold j _ _ => 6 * (rnds x - j)
    | WFin _ => 3 | WRelF => 2 | WClose => 1 | WEnd => 0
    end.
  Definition hrank (h : hpc) : nat := match h with HIdle | HSend _ => 2 | HDone => 1 | HEnd => 0 end.
  Definition brank (i : nat) : nat := (K - i) * (4 * n + 5) + n + 5.
  Definition mrank (m : mpc) : nat :=
    match m with
    | MSpawn k => brank 0 + (n - k) + 1
    | MCons i k _ => brank (S i) + 3 * n + 3 + (n - k) | MRound i _ => brank (S i) + 3 * n + 3
    | MGo i _ k => brank (S i) + 2 + (n - k) | MWait i => brank (S i) + 1
    | MMerge k _ => 4 + (n - k) | MFinish _ => 3 | MCloseE _ => 2 | MCloseF _ => 1 | MEnd _ => 0
    end.
  Definition wsum (t : list wpc) : nat := cnt (fun xt => wrank (fst xt) (snd xt)) (combine (seq 0 n) t).
  Definition mu (s : st) : nat := mrank (main s) + cnt hrank (hs s) + wsum (ws s).

  Lemma wsum_upd t x a b : length t = n -> nth_error t x = Some a -> wsum (upd t x b) + wrank x a = wsum t + wrank x b.
  Proof.
    intros HL Ha. assert (Hx : x < n) by (rewrite <- HL; apply nth_error_Some; congruence).
    unfold wsum. rewrite upd_combine, (seq_nth_error n x Hx).
    apply (cnt_upd (fun xt => wrank (fst xt) (snd xt)) (combine (seq 0 n) t) x (x, a) (x, b)).
    apply combine_nth_error; [apply seq_nth_error; exact Hx|exact Ha].
  Qed.

  Lemma mu_worker s s' x : JB s -> step_worker x s = Gives s' -> mu s' < mu s.
  Proof.
    intros [J1 J2 J3 J4 J5 J6 J7 J8 J9 J10] Hs. destruct s as [pc l eC fC rC w h t k0].
    cbn [main loc evC finC rCs wg hs ws toks] in *. unfold MSumPar.step_worker in Hs.
    destruct (nth_error t x) as [u|] eqn:Hu; [|discriminate]. destruct (J4 x u Hu) as (W & c & Hc & HR & HC).
    assert (GG : forall b, wrank x b < wrank x u -> forall eC' fC' rC' k', mu (MkSt pc l eC' fC' rC' w h (upd t x b) k') < mu (MkSt pc l eC fC rC w h t k0)).
    { intros b Hb eC' fC' rC' k'. unfold mu. cbn [main hs ws]. pose proof (wsum_upd t x u b J1 Hu). lia. }
    destruct u as [| | |j p|j p e|j p|j p|j p r|j p r|p| | |]; try discriminate; cbn [wokX] in W.
    - destruct k0; [discriminate|]. injection Hs as <-. apply GG. cbn [wrank]. lia.
    - destruct (winit x); [|discriminate]. injection Hs as <-. apply GG. cbn [wrank]. lia.
    - destruct (wmore j p); [destruct (wevals j p); [|discriminate]|]; injection Hs as <-; apply GG; cbn [wrank]; lia.
    - destruct (csend n eC e); [discriminate|discriminate|]. injection Hs as <-. apply GG. cbn [wrank]. lia.
    - destruct (k0 <? nTok); [|discriminate]. injection Hs as <-. apply GG. cbn [wrank]. lia.
    - destruct (nth_error rC x) as [c0|]; [|discriminate]. destruct (crecv zR c0) as [| |[r c1]]; [discriminate|discriminate|]. injection Hs as <-. apply GG. cbn [wrank]. lia.
    - destruct k0; [discriminate|]. injection Hs as <-. apply GG. cbn [wrank]. lia.
    - destruct (wfold j p r); [|discriminate]. injection Hs as <-. apply GG. cbn [wrank]. lia.
    - destruct (csend n fC (x, p)); [discriminate|discriminate|]. injection Hs as <-. apply GG. cbn [wrank]. lia.
    - destruct (k0 <? nTok); [|discriminate]. injection Hs as <-. apply GG. cbn [wrank]. lia.
    - destruct (nth_error rC x) as [c0|]; [|discriminate]. destruct (cclose c0); [discriminate|discriminate|]. injection Hs as <-. apply GG. cbn [wrank]. lia.
  Qed.

  Lemma mu_helper (s s' : st) x : step_helper x s = Gives s' -> mu s' < mu s.
  Proof.
    intros Hs. destruct s as [pc l eC fC rC w h t k0]. unfold step_helper in Hs.
    destruct (nth_error h x) as [q|] eqn:Hq; [|discriminate].
    assert (GG : forall b, hrank b < hrank q -> forall rC' w', mu (MkSt pc l eC fC rC' w' (upd h x b) t k0) < mu (MkSt pc l eC fC rC w h t k0)).
    { intros b Hb rC' w'. unfold mu. cbn [main hs ws]. pose proof (cnt_upd hrank h x q b Hq). lia. }
    destruct q as [|r| |]; destruct (nth_error rC x) as [c|]; try discriminate.
    - destruct (csend 1 c r); [discriminate|discriminate|]. injection Hs as <-. apply GG. cbn. lia.
    - destruct w; [discriminate|]. injection Hs as <-. apply GG. cbn. lia.
    - destruct w; [discriminate|]. injection Hs as <-. apply GG. cbn. lia.
  Qed.

  Lemma mrank_head i : i <= K -> mrank (head (E:=E) (R:=R) (G:=G) (Out:=Out) K i) < brank i.
  Proof.
    intros Hi. unfold head. destruct (Nat.ltb_spec i K); cbn [mrank]; unfold brank.
    - replace (K - i) with (S (K - S i)) by lia. lia.
    - lia.
  Qed.

  Lemma mu_main s s' : JB s -> step_main s = Gives s' -> mu s' < mu s.
  Proof.
    intros [J1 J2 J3 J4 J5 J6 J7 J8 J9 J10] Hs. destruct s as [pc l eC fC rC w h t k0].
    cbn [main loc evC finC rCs wg hs ws toks] in *. unfold MSumPar.step_main in Hs. unfold mu.
    destruct pc as [k|i m acc|i e|i r k|i|m g|g|o|o|o]; cbn [inr hsX] in *.
    - destruct (Nat.ltb_spec k n) as [Hlt|Hge]; injection Hs as <-; cbn [main hs ws].
      + destruct (nth_error t k) as [u|] eqn:Hu; [|apply nth_error_None in Hu; lia]. pose proof (J3 k u Hu ltac:(lia)) as E0. subst u.
        pose proof (wsum_upd t k _ WStart J1 Hu) as C. cbn [wrank mrank] in *. lia.
      + pose proof (mrank_head 0 ltac:(lia)). cbn [mrank]. lia.
    - destruct (crecv zE eC) as [| |[e c]]; [discriminate|discriminate|]. destruct (consume acc e); [|discriminate]. injection Hs as <-. cbn [main hs ws].
      destruct (S m <? n); cbn [mrank]; lia.
    - destruct (mround i l e) as [[l' r]|]; [|discriminate]. injection Hs as <-. cbn [main hs ws mrank]. rewrite cnt_repeat, J2. cbn [hrank]. lia.
    - destruct J9 as (A1 & A2 & A3 & A4). destruct (Nat.ltb_spec k (length rC)) as [Hlt|Hge]; injection Hs as <-; cbn [main hs ws mrank]; [|lia].
      destruct (nth_error h k) as [q|] eqn:Hq; [|apply nth_error_None in Hq; lia]. assert (q = HIdle) by (apply (A4 k q Hq); lia). subst q.
      pose proof (cnt_upd hrank h k _ (HSend r) Hq) as C. cbn [hrank] in C. lia.
    - destruct w; [|discriminate]. injection Hs as <-. cbn [main hs ws]. pose proof (mrank_head (S i) ltac:(lia)). cbn [mrank]. lia.
    - destruct (crecv (0, zW) fC) as [| |[e c]]; [discriminate|discriminate|]. destruct (merge g e); [|discriminate]. injection Hs as <-. cbn [main hs ws].
      destruct (S m <? n); cbn [mrank]; lia.
    - destruct (mfinish l g); [|discriminate]. injection Hs as <-. cbn [main hs ws mrank]. lia.
    - destruct (cclose eC); [discriminate|discriminate|]. injection Hs as <-. cbn [main hs ws mrank]. lia.
    - destruct (cclose fC); [discriminate|discriminate|]. injection Hs as <-. cbn [main hs ws mrank]. lia.
    - discriminate.
  Qed.

  Lemma JB_step s s' : JB s -> step s (Some s') -> JB s' /\ mu s' < mu s.
  Proof.
    intros J Hs. inversion Hs as [a s3 Ha E0|]; subst. destruct a as [|x|x]; cbn [MSumPar.run] in Ha.
    - split; [exact (JB_main _ _ J Ha)|exact (mu_main _ _ J Ha)].
    - split; [exact (JB_helper _ _ x J Ha)|exact (mu_helper _ _ x Ha)].
    - split; [exact (JB_worker _ _ x J Ha)|exact (mu_worker _ _ x J Ha)].
  Qed.

  Lemma mt_finite m : ends step (fun _ => True) (init n nTok m).
  Proof.
    assert (H : forall k s, mu s < k -> JB s -> ends step (fun _ => True) s).
    { induction k as [|k IH]; intros s Hk J; [lia|]. constructor; [|trivial]. intros s' Hs. destruct (JB_step s s' J Hs) as [J' Hm]. apply IH; [lia|exact J']. }
    apply (H (S (mu (init n nTok m)))); [lia|apply JB_init].
  Qed.
End Count.
