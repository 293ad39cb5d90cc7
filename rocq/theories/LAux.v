(** Lemmas about ProfileTrace, the random arrays and the constructors (statements for PAux.v). *)
From Coq Require Import List Arith Lia Bool.
From Verif Require Import Field Go LCommon LForkJoin MCircuit MSumcheck SpecSumcheck LSumcheck4 MSumPar MAux SpecAux.
Import ListNotations.

Ltac run_profile E :=
  unfold ProfileTrace, start in E; cbv zeta in E;
  repeat match type of E with
  | context[do ?oc ?c (MkBody ?m ?d Returns)] => change (do oc c (MkBody m d Returns)) with (MkBody (m ++ [c]) d (oc c)) in E; destruct (oc c) eqn:?
  | context[do ?oc ?c (MkBody ?m ?d Panics)] => change (do oc c (MkBody m d Panics)) with (MkBody m d Panics) in E
  | context[do ?oc ?c (MkBody ?m ?d Exits)] => change (do oc c (MkBody m d Exits)) with (MkBody m d Exits) in E
  | context[defer ?c (MkBody ?m ?d Returns)] => change (defer c (MkBody m d Returns)) with (MkBody m (c :: d) Returns) in E
  | context[defer ?c (MkBody ?m ?d Panics)] => change (defer c (MkBody m d Panics)) with (MkBody m d Panics) in E
  | context[defer ?c (MkBody ?m ?d Exits)] => change (defer c (MkBody m d Exits)) with (MkBody m d Exits) in E
  end;
  unfold finish in E; cbn [ended made deferred app] in E;
  repeat (cbn [unwind app] in E; match type of E with context[match ?oc ?c with Returns => _ | Panics => _ | Exits => _ end] =>
    destruct (oc c) eqn:? end);
  cbn [unwind app] in E; injection E as <- <-.

Lemma profile_success outcome profiled traced tr o : ProfileTrace outcome profiled traced = (tr, o) ->
  (forall c, In c (setups profiled traced) -> outcome c = Returns) -> (forall c, is_stop c -> outcome c = Returns) ->
  o = outcome Fn /\
  tr = setups profiled traced ++ Fn :: match outcome Fn with Exits => [] | _ => stops profiled traced end.
Proof.
  intros E Hs Hp.
  assert (S1 : outcome TraceStop = Returns) by (apply Hp; exact I). assert (S2 : outcome ProfStop = Returns) by (apply Hp; exact I).
  assert (S3 : outcome StopTimer = Returns) by (apply Hp; exact I). clear Hp.
  assert (S4 : outcome StartTimer = Returns) by (apply Hs; unfold setups; rewrite !in_app_iff; right; right; left; reflexivity).
  assert (A1 : traced = true -> outcome CreateFile = Returns) by (intros ->; apply Hs; left; reflexivity).
  assert (A2 : traced = true -> outcome TraceStart = Returns) by (intros ->; apply Hs; right; left; reflexivity).
  assert (A3 : profiled = true -> outcome ProfStart = Returns) by (intros ->; apply Hs; unfold setups; rewrite !in_app_iff; right; left; left; reflexivity).
  clear Hs.
  destruct traced, profiled; try specialize (A1 eq_refl); try specialize (A2 eq_refl); try specialize (A3 eq_refl);
    run_profile E; try congruence; auto.
Qed.

Lemma profile_stops outcome profiled traced tr o : ProfileTrace outcome profiled traced = (tr, o) -> o <> Exits ->
  forall s e, stop_of s = Some e -> calls e tr = if (calls s tr =? 1) && returns (outcome s) then 1 else 0.
Proof.
  intros E Ho s e Hse. destruct s; try discriminate Hse; injection Hse as <-;
    destruct traced, profiled; run_profile E; try congruence;
    repeat match goal with H : ?x = _ |- context[?x] => rewrite H end; reflexivity.
Qed.

Lemma profile_fn outcome profiled traced tr o : ProfileTrace outcome profiled traced = (tr, o) ->
  (calls Fn tr = 1 /\ forall c, In c (setups profiled traced) -> outcome c = Returns) \/
  (calls Fn tr = 0 /\ exists c, In c (setups profiled traced) /\ outcome c <> Returns /\ calls c tr = 1).
Proof.
  intros E. destruct traced, profiled; run_profile E;
    solve [ left; split; [reflexivity|]; intros c Hc; cbn in Hc; repeat (destruct Hc as [<-|Hc]; [assumption|]); destruct Hc
          | right; split; [reflexivity|]; match goal with H : outcome ?c = Panics |- _ => exists c; split; [cbn; tauto|]; split; [congruence|reflexivity]
                                                  | H : outcome ?c = Exits |- _ => exists c; split; [cbn; tauto|]; split; [congruence|reflexivity] end ].
Qed.

Lemma profile_returns outcome profiled traced tr o : ProfileTrace outcome profiled traced = (tr, o) -> o = Returns -> forall c, In c tr -> outcome c = Returns.
Proof.
  intros E Ho c Hc. destruct traced, profiled; run_profile E; try discriminate Ho; cbn in Hc; repeat (destruct Hc as [<-|Hc]; [assumption|]); destruct Hc.
Qed.

Lemma profile_leak outcome tr o : ProfileTrace outcome true true = (tr, o) -> outcome CreateFile = Returns -> outcome TraceStart = Returns ->
  outcome ProfStart = Exits -> tr = [CreateFile; TraceStart; ProfStart] /\ o = Exits.
Proof. intros E H1 H2 H3. run_profile E; try congruence; auto. Qed.

(** ** Random arrays *)
Lemma upd_at {A} (l1 l2 : list A) x y i : length l1 = i -> upd (l1 ++ x :: l2) i y = l1 ++ y :: l2.
Proof. intros <-. apply upd_app_mid. Qed.

Section Random.
  Context {A : Type}.
  Variable rnd : nat -> A.
  Variable zero : A.

  Lemma RandomFrArray_ok size k : RandomFrArray rnd zero size k = Some (map rnd (seq k size), k + size).
  Proof.
    unfold RandomFrArray.
    destruct (forN_inv (fun i s => s = (map rnd (seq k i) ++ repeat zero (size - i), k + i))
      (fun '(res, k) i => res <- set res i (rnd k) ;; Some (res, S k)) size (repeat zero size, k)) as (s & E & ->).
    - rewrite Nat.sub_0_r, Nat.add_0_r. reflexivity.
    - intros i s Hi ->. replace (size - i) with (S (size - S i)) by lia. cbn [repeat].
      rewrite set_some by (rewrite app_length, map_length, seq_length; cbn [length]; lia). eexists. split; [reflexivity|].
      f_equal; [|lia]. rewrite seq_S, map_app, <- app_assoc. cbn [map app].
      assert (L : length (map rnd (seq k i)) = i) by (rewrite map_length, seq_length; reflexivity). apply upd_at. exact L.
    - rewrite E, Nat.sub_diag, app_nil_r. reflexivity.
  Qed.

  Lemma RandomFrDoubleSlice_ok nChunks chunkSize k : RandomFrDoubleSlice rnd zero nChunks chunkSize k =
    Some (map (fun i => map rnd (seq (k + i * chunkSize) chunkSize)) (seq 0 nChunks), k + nChunks * chunkSize).
  Proof.
    unfold RandomFrDoubleSlice. set (row := fun i => map rnd (seq (k + i * chunkSize) chunkSize)).
    match goal with |- forN _ ?f _ = _ => destruct (forN_inv (fun i s => s = (map row (seq 0 i) ++ repeat [] (nChunks - i), k + i * chunkSize))
      f nChunks (repeat [] nChunks, k)) as (s & E & ->) end.
    - rewrite Nat.sub_0_r, Nat.add_0_r. reflexivity.
    - intros i s Hi ->. replace (nChunks - i) with (S (nChunks - S i)) by lia. cbn [repeat].
      set (pre := map row (seq 0 i)). set (post := repeat [] (nChunks - S i)).
      assert (L : length pre = i) by (unfold pre; rewrite map_length, seq_length; reflexivity).
      rewrite set_some by (rewrite app_length, L; cbn [length]; lia). rewrite (upd_at pre) by exact L.
      match goal with |- exists s', forN _ ?f _ = _ /\ _ => destruct (forN_inv (fun j s => s =
         (pre ++ (map rnd (seq (k + i * chunkSize) j) ++ repeat zero (chunkSize - j)) :: post, k + i * chunkSize + j))
         f chunkSize (pre ++ repeat zero chunkSize :: post, k + i * chunkSize)) as (s & E & ->) end.
      + rewrite Nat.sub_0_r, Nat.add_0_r. reflexivity.
      + intros j s Hj ->. rewrite (get_nth _ i []) by (rewrite app_length, L; cbn [length]; lia).
        rewrite app_nth2, L, Nat.sub_diag by lia. cbn [nth]. replace (chunkSize - j) with (S (chunkSize - S j)) by lia. cbn [repeat].
        assert (L' : length (map rnd (seq (k + i * chunkSize) j)) = j) by (rewrite map_length, seq_length; reflexivity).
        rewrite set_some by (rewrite app_length, L'; cbn [length]; lia).
        rewrite set_some by (rewrite app_length, L; cbn [length]; lia).
        eexists. split; [reflexivity|]. f_equal; [|lia]. rewrite (upd_at pre) by exact L. do 2 f_equal.
        rewrite upd_at by exact L'. rewrite seq_S, map_app, <- app_assoc. reflexivity.
      + eexists. split; [exact E|]. f_equal; [|cbn [Nat.mul]; lia]. rewrite Nat.sub_diag, app_nil_r. unfold pre, post.
        rewrite seq_S, map_app, <- app_assoc. reflexivity.
    - rewrite E, Nat.sub_diag, app_nil_r. reflexivity.
  Qed.
End Random.

(** ** Constructors *)
Lemma NewMultiThreadedProver_ok (F : Field) (vL vR eq : list (list F)) gates statics p dL dR dP :
  NewMultiThreadedProver vL vR eq gates statics = (p, (dL, dR, dP)) ->
  tVL p = vL /\ tVR p = vR /\ tEq p = eq /\ tGates p = gates /\ tStatic p = statics /\
  forall i s, subInit p i = Some s -> dHL (subProver s) = dL /\ dHR (subProver s) = dR /\ dHPrime (subProver s) = dP.
Proof.
  unfold NewMultiThreadedProver. rewrite degs_fold, !Nat.max_0_l. intros E. injection E as <- <- <- <-. cbn [tVL tVR tEq tGates tStatic].
  do 5 (split; [reflexivity|]). intros i s. unfold subInit. cbn [tVL tVR tEq tGates tStatic].
  destruct (get vL i) as [l|]; [|discriminate]. destruct (get vR i) as [r|]; [|discriminate]. destruct (get eq i) as [e|]; [|discriminate].
  rewrite New_eq. cbn [sEq sVR]. destruct (godiv (length r) (length e)); [|discriminate]. intros E. injection E as <-. cbn. auto.
Qed.
