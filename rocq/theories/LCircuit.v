(** Lemmas about gates, layers and circuits. *)
From Coq Require Import List Arith ZArith Lia Bool Ring Field.
From Verif Require Import Field Go Trans MCommon Spec MPoly LSpec LCommon LPoly LEffect LPoly2 LPoly3
  MForkJoin LForkJoin LSem LHeap MCircuit SpecCircuit.
Import ListNotations.

Lemma forN_fill {A} (d : A) (g : nat -> A) (body : list A -> nat -> option (list A)) n res :
  n <= length res ->
  (forall t i, i < n -> length t = length res -> body t i = Some (upd t i (g i))) ->
  forN n body res = Some (map g (seq 0 n) ++ skipn n res).
Proof.
  intros HL H.
  destruct (forN_inv (fun k t => length t = length res /\
      (forall j, j < k -> nth j t d = g j) /\ (forall j, k <= j -> nth j t d = nth j res d)) body n res)
    as (t & E & Ht & H1 & H2).
  - repeat split; auto. intros j Hj. lia.
  - intros k t Hk (Ht & H1 & H2). exists (upd t k (g k)). split; [apply H; assumption|].
    split; [rewrite upd_length; assumption|]. split.
    + intros j Hj. destruct (Nat.eq_dec j k) as [->|Hne].
      * apply nth_upd_same. lia.
      * rewrite nth_upd_other by auto. apply H1. lia.
    + intros j Hj. rewrite nth_upd_other by lia. apply H2. lia.
  - rewrite E. f_equal. apply (list_ext d).
    + rewrite app_length, map_length, seq_length, skipn_length. lia.
    + intros i Hi. destruct (Nat.lt_ge_cases i n) as [Hin|Hin].
      * rewrite app_nth1 by (rewrite map_length, seq_length; lia). rewrite nth_map_seq by lia. apply H1. lia.
      * rewrite app_nth2 by (rewrite map_length, seq_length; lia). rewrite map_length, seq_length.
        rewrite nth_skipn. rewrite H2 by lia. f_equal. lia.
Qed.

Lemma map_nth_seq {A B} (f : A -> B) (l : list A) d : map (fun i => f (nth i l d)) (seq 0 (length l)) = map f l.
Proof.
  induction l as [|a l IH]; [reflexivity|]. cbn [length seq map nth]. f_equal.
  rewrite <- seq_shift, map_map. exact IH.
Qed.

Lemma upd_upd {A} (l : list A) i x y : upd (upd l i x) i y = upd l i y.
Proof. revert i; induction l as [|a l IH]; intros [|i]; simpl; auto. rewrite IH. reflexivity. Qed.

Section Gates.
  Context {F : Field}.
  Add Field FfieldLCirc : (f_theory F).
  Open Scope F_scope.

  Lemma many_of (f : F -> F) (res xs : list F) body :
    (length xs <= length res)%nat ->
    (forall t i, (i < length xs)%nat -> length t = length res -> body t i = Some (upd t i (f (nth i xs 0)))) ->
    forN (length xs) body res = Some (map f xs ++ skipn (length xs) res).
  Proof.
    intros HL H. rewrite (forN_fill 0 (fun i => f (nth i xs 0)) body (length xs) res HL H).
    f_equal. f_equal. apply map_nth_seq.
  Qed.

  Ltac many := intros res xs y HL; split; cbn [gmanyVL gmanyVR geval AddGate MulGate CopyGate CipherGate];
    [apply (many_of (fun x => _)) | apply (many_of (fun x => _))]; try assumption;
    intros t i Hi Ht; rewrite ?(get_nth xs i 0) by assumption; rewrite ?set_some by lia; try reflexivity.

  Lemma add_many : many_ok (F:=F) AddGate.
  Proof. many. Qed.
  Lemma mul_many : many_ok (F:=F) MulGate.
  Proof. many. Qed.
  Lemma copy_many : many_ok (F:=F) CopyGate.
  Proof.
    intros res xs y HL; split; cbn [gmanyVL gmanyVR geval CopyGate].
    - unfold gocopy. rewrite firstn_all2 by assumption. rewrite map_id. reflexivity.
    - apply (many_of (fun x => y)); [assumption|]. intros t i Hi Ht. apply set_some. lia.
  Qed.
  Lemma cipher_many ark : many_ok (F:=F) (CipherGate ark).
  Proof.
    intros res xs y HL; split; cbn [gmanyVL gmanyVR geval CipherGate].
    - apply (many_of (fun x => _)); [assumption|].
      intros t i Hi Ht; rewrite (get_nth xs i 0) by assumption; rewrite set_some by lia. reflexivity.
    - apply (many_of (fun x => _)); [assumption|].
      intros t i Hi Ht; rewrite (get_nth xs i 0) by assumption.
      repeat (rewrite set_some by (rewrite ?upd_length; lia);
              rewrite (get_nth _ i 0) by (rewrite ?upd_length; lia);
              rewrite nth_upd_same by (rewrite ?upd_length; lia)).
      rewrite set_some by (rewrite ?upd_length; lia). rewrite !upd_upd. reflexivity.
  Qed.

  Lemma pdl_line' d (a b : F) : (1 <= d)%nat -> poly_deg_le d (fun x => a + b * x).
  Proof. intros H. apply (pdl_mono 1); [exact H|apply pdl_line]. Qed.

  Lemma add_degs : degs_ok (F:=F) AddGate.
  Proof.
    intros a b c d; cbn; repeat split.
    - apply pdl_add; [apply pdl_line|apply pdl_const].
    - apply pdl_add; [apply pdl_const|apply pdl_line].
    - apply pdl_add; apply pdl_line.
  Qed.
  Lemma mul_degs : degs_ok (F:=F) MulGate.
  Proof.
    intros a b c d; cbn; repeat split.
    - apply (pdl_ext 1 (fun t => c * (a + b * t))); [intros; ring|]. apply pdl_scal, pdl_line.
    - apply pdl_scal, pdl_line.
    - apply (pdl_mul 1 1); apply pdl_line.
  Qed.
  Lemma copy_degs : degs_ok (F:=F) CopyGate.
  Proof.
    intros a b c d; cbn; repeat split; try apply pdl_line. apply pdl_const.
  Qed.
  Lemma cipher_eval ark (x y : F) : geval (CipherGate ark) x y = x + fpow (y + ark) 7.
  Proof. cbn. ring. Qed.
  Lemma cipher_pow ark (c d : F) : poly_deg_le 7 (fun t => fpow (c + d * t + ark) 7).
  Proof.
    apply (pdl_pow 1 _ 7). apply (pdl_ext 1 (fun t => (c + ark) + d * t)); [intros; ring|apply pdl_line].
  Qed.
  Lemma cipher_degs ark : degs_ok (F:=F) (CipherGate ark).
  Proof.
    intros a b c d; unfold degHL, degHR, degHPrime; cbn [gdegs CipherGate fst snd]; repeat split.
    - eapply pdl_ext; [intros x; symmetry; apply cipher_eval|]. apply pdl_add; [apply pdl_line|apply pdl_const].
    - eapply pdl_ext; [intros x; symmetry; apply cipher_eval|]. apply pdl_add; [apply pdl_const|apply cipher_pow].
    - eapply pdl_ext; [intros x; symmetry; apply cipher_eval|].
      apply pdl_add; [apply pdl_line'; lia|apply cipher_pow].
  Qed.

  Lemma add_ok : gate_ok (F:=F) AddGate.
  Proof. split; [apply add_many|]. split; [apply add_degs|reflexivity]. Qed.
  Lemma mul_ok : gate_ok (F:=F) MulGate.
  Proof. split; [apply mul_many|]. split; [apply mul_degs|reflexivity]. Qed.
  Lemma copy_ok : gate_ok (F:=F) CopyGate.
  Proof. split; [apply copy_many|]. split; [apply copy_degs|reflexivity]. Qed.
  Lemma cipher_ok ark : gate_ok (F:=F) (CipherGate ark).
  Proof. split; [apply cipher_many|]. split; [apply cipher_degs|reflexivity]. Qed.

  (** too short a destination *)
  Lemma forN_short (res xs : list F) (body : list F -> nat -> option (list F)) :
    (length res < length xs)%nat ->
    (forall t i, length t = length res -> (length res <= i)%nat -> body t i = None) ->
    (forall t i t', length t = length res -> body t i = Some t' -> length t' = length res) ->
    forN (length xs) body res = None.
  Proof.
    intros HL Hn Hp. unfold forN.
    replace (length xs) with (length res + S (length xs - length res - 1))%nat by lia.
    rewrite seq_app, foldM_app.
    destruct (foldM body (seq 0 (length res)) res) as [t|] eqn:E; [|reflexivity].
    assert (Ht : length t = length res).
    { eapply (foldM_pres (fun t : list F => length t = length res)); [|reflexivity|exact E].
      intros s b s' Hs Hb. eapply Hp; eassumption. }
    cbn [seq foldM]. rewrite Hn by (try assumption; lia). reflexivity.
  Qed.

  Ltac short := apply forN_short; [assumption| |];
    [ intros t i Ht Hi; match goal with |- context[get ?l i] => destruct (get l i); [|reflexivity] | _ => idtac end;
      rewrite set_none by lia; reflexivity
    | intros t i t' Ht E ].

  Lemma cipher_many_short ark (res xs : list F) y : (length res < length xs)%nat ->
    gmanyVL (CipherGate ark) res xs y = None /\ gmanyVR (CipherGate ark) res y xs = None.
  Proof.
    intros HL. split; cbn [gmanyVL gmanyVR CipherGate]; short.
    - destruct (get xs i); [|discriminate]. apply set_length in E. congruence.
    - destruct (get xs i); [|discriminate].
      destruct (set t i _) as [t1|] eqn:E1; [|discriminate].
      destruct (get t1 i); [|discriminate]. destruct (set t1 i _) as [t2|] eqn:E2; [|discriminate].
      destruct (get t2 i); [|discriminate]. destruct (set t2 i _) as [t3|] eqn:E3; [|discriminate].
      destruct (get t3 i); [|discriminate]. destruct (set t3 i _) as [t4|] eqn:E4; [|discriminate].
      destruct (get t4 i); [|discriminate].
      apply set_length in E, E1, E2, E3, E4. congruence.
  Qed.
  Lemma add_many_short (res xs : list F) y : (length res < length xs)%nat ->
    gmanyVL AddGate res xs y = None /\ gmanyVR AddGate res y xs = None.
  Proof.
    intros HL. split; cbn [gmanyVL gmanyVR AddGate]; short;
      (destruct (get xs i); [|discriminate]; apply set_length in E; congruence).
  Qed.
  Lemma mul_many_short (res xs : list F) y : (length res < length xs)%nat ->
    gmanyVL MulGate res xs y = None /\ gmanyVR MulGate res y xs = None.
  Proof.
    intros HL. split; cbn [gmanyVL gmanyVR MulGate]; short;
      (destruct (get xs i); [|discriminate]; apply set_length in E; congruence).
  Qed.
  Lemma copy_many_short (res xs : list F) y : (length res < length xs)%nat ->
    gmanyVL CopyGate res xs y = Some (firstn (length res) xs) /\ gmanyVR CopyGate res y xs = None.
  Proof.
    intros HL. split; cbn [gmanyVL gmanyVR CopyGate].
    - unfold gocopy. rewrite skipn_all2 by lia. rewrite app_nil_r. reflexivity.
    - apply forN_short; [assumption| |].
      + intros t i Ht Hi. apply set_none. lia.
      + intros t i t' Ht E. apply set_length in E. congruence.
  Qed.

  Lemma id_eqb_eq (a b : GateId F) : id_eqb a b = true <-> a = b.
  Proof.
    destruct a, b; simpl; split; try congruence; intros H.
    - apply feqb_eq in H. congruence.
    - injection H as ->. apply feqb_refl.
    - apply Nat.eqb_eq in H. congruence.
    - injection H as ->. apply Nat.eqb_refl.
  Qed.
  Lemma id_eqb_refl (a : GateId F) : id_eqb a a = true.
  Proof. apply id_eqb_eq. reflexivity. Qed.

  Lemma id_eq_dec (a b : GateId F) : {a = b} + {a <> b}.
  Proof.
    destruct (id_eqb a b) eqn:E; [left; apply id_eqb_eq; exact E|right].
    intros H. apply id_eqb_eq in H. congruence.
  Qed.

  (** ** Combinator *)
  Lemma combinator_sum (gates : list (Gate F)) (statics : list F) vL vR eq :
    (length gates <= length statics)%nat ->
    EvaluateCombinator vL vR eq gates statics =
    Some (eq * suml (combine statics gates) (fun sg => fst sg * geval (snd sg) vL vR)).
  Proof.
    intros HL. unfold EvaluateCombinator.
    assert (H : forall gs k r, (k + length gs <= length statics)%nat ->
      foldM (fun (res : F) (ig : nat * Gate F) =>
        s <- get statics (fst ig) ;; Some (res + s * geval (snd ig) vL vR))
        (combine (seq k (length gs)) gs) r
      = Some (r + suml (combine (skipn k statics) gs) (fun sg => fst sg * geval (snd sg) vL vR))).
    { induction gs as [|g gs IH]; intros k r Hk.
      - destruct (skipn k statics); cbn; f_equal; ring.
      - cbn [length] in Hk. cbn [length seq combine foldM fst snd].
        rewrite (get_nth statics k 0) by lia. rewrite (IH (S k)) by lia.
        rewrite (skipn_S_nth statics k 0) by lia. cbn [combine suml fst snd]. f_equal. ring. }
    rewrite (H gates 0%nat 0) by (simpl; lia). cbn [skipn]. f_equal. ring.
  Qed.
  Lemma combinator_panics (gates : list (Gate F)) (statics : list F) vL vR eq :
    (length statics < length gates)%nat -> EvaluateCombinator vL vR eq gates statics = None.
  Proof.
    intros HL. unfold EvaluateCombinator.
    assert (H : forall gs k r, (k <= length statics)%nat -> (length statics < k + length gs)%nat ->
      foldM (fun (res : F) (ig : nat * Gate F) =>
        s <- get statics (fst ig) ;; Some (res + s * geval (snd ig) vL vR))
        (combine (seq k (length gs)) gs) r = None).
    { induction gs as [|g gs IH]; intros k r Hk1 Hk2.
      - simpl in Hk2. lia.
      - cbn [length] in Hk2. cbn [length seq combine foldM fst snd].
        destruct (Nat.eq_dec k (length statics)) as [->|Hne].
        + rewrite get_none by lia. reflexivity.
        + rewrite (get_nth statics k 0) by lia. apply IH; lia. }
    rewrite (H gates 0%nat 0) by (simpl; lia). reflexivity.
  Qed.

  (** ** Layer sizes *)
  Lemma fold_max {A} (f : A -> nat) (ws : list A) n :
    fold_left (fun res w => if (res <? f w)%nat then f w else res) ws n = Nat.max n (list_max (map f ws)).
  Proof.
    revert n; induction ws as [|w ws IH]; intros n; [simpl; lia|].
    cbn [fold_left map list_max fold_right]. rewrite IH. unfold list_max in *. simpl.
    destruct (Nat.ltb_spec n (f w)); lia.
  Qed.
  Lemma BGOutputs_max (ws : list (Wire F)) : BGOutputs ws = log2ceil (list_max (map wO ws) + 1).
  Proof. unfold BGOutputs. rewrite fold_max. reflexivity. Qed.
  Lemma BGInputs_max (ws : list (Wire F)) :
    BGInputs ws = log2ceil (list_max (map (fun w => Nat.max (wL w) (wR w)) ws) + 1).
  Proof.
    unfold BGInputs. f_equal. f_equal.
    transitivity (fold_left (fun res w => if (res <? Nat.max (wL w) (wR w))%nat then Nat.max (wL w) (wR w) else res) ws 0%nat).
    2: rewrite fold_max; reflexivity.
    generalize 0%nat. induction ws as [|w ws IH]; intros n; [reflexivity|].
    cbn [fold_left]. rewrite IH. f_equal. cbn zeta.
    destruct (Nat.ltb_spec n (wL w)); destruct (Nat.ltb_spec n (Nat.max (wL w) (wR w)));
      match goal with |- context[Nat.ltb ?a ?b] => destruct (Nat.ltb_spec a b) end; lia.
  Qed.
  Lemma log2ceil_max_spec {A} (f : A -> nat) (ws : list A) :
    let b := log2ceil (list_max (map f ws) + 1) in
    (forall w, In w ws -> f w < 2 ^ b)%nat /\ (forall k, (forall w, In w ws -> f w < 2 ^ k) -> b <= k)%nat.
  Proof.
    cbn zeta. set (m := list_max (map f ws)).
    destruct (log2ceil_spec (m + 1)) as [H1 H2]; [lia|].
    assert (Hm : Forall (fun x => x <= m)%nat (map f ws)) by (apply list_max_le; lia).
    rewrite Forall_forall in Hm. split.
    - intros w Hw. specialize (Hm (f w) (in_map f ws w Hw)). lia.
    - intros k Hk. apply H2. destruct ws as [|w ws'].
      + subst m. simpl. pose proof (Nat.pow_nonzero 2 k). lia.
      + enough (m <= 2 ^ k - 1)%nat by (pose proof (Nat.pow_nonzero 2 k); lia).
        subst m. apply list_max_le. apply Forall_forall. intros x Hx. apply in_map_iff in Hx.
        destruct Hx as (w' & <- & Hw'). specialize (Hk w' Hw'). lia.
  Qed.
  Lemma BGInputs_spec (ws : list (Wire F)) :
    (forall w, In w ws -> wL w < 2 ^ BGInputs ws /\ wR w < 2 ^ BGInputs ws)%nat /\
    (forall k, (forall w, In w ws -> wL w < 2 ^ k /\ wR w < 2 ^ k) -> BGInputs ws <= k)%nat.
  Proof.
    rewrite BGInputs_max. destruct (log2ceil_max_spec (fun w => Nat.max (wL w) (wR w)) ws) as [H1 H2]. split.
    - intros w Hw. specialize (H1 w Hw). cbn beta in H1. lia.
    - intros k Hk. apply H2. intros w Hw. specialize (Hk w Hw). lia.
  Qed.
  Lemma BGOutputs_spec (ws : list (Wire F)) :
    (forall w, In w ws -> wO w < 2 ^ BGOutputs ws)%nat /\
    (forall k, (forall w, In w ws -> wO w < 2 ^ k) -> BGOutputs ws <= k)%nat.
  Proof. rewrite BGOutputs_max. apply (log2ceil_max_spec wO ws). Qed.

  Lemma NewLayer_wf (ws : list (Wire F)) : wf_layer (NewLayer ws).
  Proof.
    intros w Hw. cbn [Wires NewLayer lBGInputs lBGOutputs] in *.
    destruct (BGInputs_spec ws) as [H1 _]. destruct (BGOutputs_spec ws) as [H2 _].
    specialize (H1 w Hw). specialize (H2 w Hw). tauto.
  Qed.

  (** ** The list of gates *)
  Lemma Gates_all (ws : list (Wire F)) : Gates ws = map wGate ws.
  Proof.
    unfold Gates. cbn [existsb].
    assert (H : forall acc, fold_left (fun res w => res ++ [wGate w]) ws acc = acc ++ map wGate ws).
    { induction ws as [|w ws IH]; intros acc; [rewrite app_nil_r; reflexivity|].
      cbn [fold_left map]. rewrite IH, <- app_assoc. reflexivity. }
    apply (H []).
  Qed.
  Lemma existsb_id (i : GateId F) l : existsb (id_eqb i) l = true <-> In i l.
  Proof.
    rewrite existsb_exists. split.
    - intros (x & Hx & E). apply id_eqb_eq in E. subst. exact Hx.
    - intros H. exists i. split; [exact H|apply id_eqb_refl].
  Qed.
  Lemma first_by_id_distinct (gs : list (Gate F)) : forall seen,
    NoDup (map gid gs) -> (forall g, In g gs -> ~ In (gid g) seen) -> first_by_id seen gs = gs.
  Proof.
    induction gs as [|g gs IH]; intros seen Hn Hs; [reflexivity|].
    cbn [map] in Hn. inversion Hn as [|? ? Hni Hn']; subst. cbn [first_by_id].
    destruct (existsb (id_eqb (gid g)) seen) eqn:E.
    - apply existsb_id in E. exfalso. apply (Hs g); [left; reflexivity|exact E].
    - f_equal. apply IH; [exact Hn'|]. intros g' Hg' [Heq|Hin].
      + apply Hni. rewrite Heq. apply in_map. exact Hg'.
      + apply (Hs g'); [right; exact Hg'|exact Hin].
  Qed.
  Lemma first_by_id_spec (gs : list (Gate F)) : forall seen,
    NoDup (map gid (first_by_id seen gs)) /\
    (forall i, In i (map gid (first_by_id seen gs)) <-> In i (map gid gs) /\ ~ In i seen).
  Proof.
    induction gs as [|g gs IH]; intros seen; cbn [first_by_id].
    - split; [constructor|]. simpl. tauto.
    - destruct (existsb (id_eqb (gid g)) seen) eqn:E.
      + apply existsb_id in E. destruct (IH seen) as [H1 H2]. split; [exact H1|].
        intros i. rewrite H2. cbn [map In]. split; [tauto|]. intros [[<-|H] Hn]; tauto.
      + assert (Hni : ~ In (gid g) seen) by (rewrite <- existsb_id; congruence).
        destruct (IH (gid g :: seen)) as [H1 H2]. cbn [map]. split.
        * constructor; [|exact H1]. rewrite H2. cbn [In]. tauto.
        * intros i. cbn [In]. rewrite H2. cbn [In].
          split; [intros [<-|[H Hn]]; tauto|]. intros [[<-|H] Hn]; [tauto|].
          destruct (id_eq_dec (gid g) i); tauto.
  Qed.
End Gates.
