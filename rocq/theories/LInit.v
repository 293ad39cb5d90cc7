(** Start-up of package hash. *)
From Coq Require Import List Arith Lia Bool ZArith.
From Verif Require Import Field Go Trans Spec Fr MArk MHash MCircuit MInit SpecHash LHash LHash2 LHash3 LHash4.
Import ListNotations.
Local Open Scope F_scope.

Lemma init_ok : exists c2 c4 c8, GenerateMDSMatrix xArr yArr 2 = Some c2 /\ GenerateMDSMatrix xArr yArr 4 = Some c4 /\
  GenerateMDSMatrix xArr yArr 8 = Some c8 /\
  hashInit zeroVars = Some (MkHV xArr yArr Arks (MkPH 2 c2 8 82) (MkPH 4 c4 8 83) (MkPH 8 c8 8 84) (MkGH 2 91) (MkGH 4 91) (MkGH 8 91)).
Proof.
  destruct (cauchy_invertible 2 ltac:(lia)) as (c2 & _ & E2 & _). destruct (cauchy_invertible 4 ltac:(lia)) as (c4 & _ & E4 & _).
  destruct (cauchy_invertible 8 ltac:(lia)) as (c8 & _ & E8 & _).
  exists c2, c4, c8. split; [exact E2|]. split; [exact E4|]. split; [exact E8|].
  unfold hashInit, initArk, initPoseidon, newPoseidonHasher. cbn [vX vY]. rewrite E2, E4, E8. reflexivity.
Qed.

Lemma init_order v : vX v = [] -> initPoseidon v = None.
Proof. intros E. unfold initPoseidon, newPoseidonHasher, GenerateMDSMatrix. rewrite E. reflexivity. Qed.

(** The steps are those of the function. *)
Section Loop.
  Variable update : list Fr -> list Fr -> option (list Fr).
  Variable t : nat.
  Variable msg : list Fr.
  Hypothesis Ht : 0 < t.
  Notation step := (hash_step update t msg).

  Lemma loop_must fuel i state r : length msg <= i + fuel ->
    match hashLoop update t msg fuel i state with Some s => get s 0 | None => None end = Some r ->
    must step (fun s => s = HRet r) (HLoop i state).
  Proof.
    revert i state. induction fuel as [|fuel IH]; intros i state Hf HE.
    - cbn [hashLoop] in HE. constructor.
      + intros H. inversion H; subst; try lia; congruence.
      + intros s' H. inversion H; subst; [lia|]. constructor; [intros X; inversion X|intros s'' X; inversion X|]. intros _. congruence.
      + intros H. exfalso. apply (H (Some (HRet r))). constructor; [lia|exact HE].
    - cbn [hashLoop] in HE. destruct (Nat.ltb_spec i (length msg)) as [Hi|Hi].
      + destruct (blockAt t msg i) as [block|] eqn:Eb; [|discriminate]. destruct (update state block) as [state'|] eqn:Eu; [|discriminate].
        constructor.
        * intros H. inversion H; subst; try lia; congruence.
        * intros s' H. inversion H; subst; [|lia]. apply IH; [lia|]. match goal with |- context [hashLoop _ _ _ _ _ ?x] => assert (x = state') as -> by congruence end. exact HE.
        * intros H. exfalso. eapply H. eapply h_block; eassumption.
      + constructor.
        * intros H. inversion H; subst; try lia; congruence.
        * intros s' H. inversion H; subst; [lia|]. constructor; [intros X; inversion X|intros s'' X; inversion X|]. intros _. congruence.
        * intros H. exfalso. apply (H (Some (HRet r))). constructor; [lia|exact HE].
  Qed.

  Lemma hash_must r : hashWith update t msg = Some r -> must step (fun s => s = HRet r) (hash_start t).
  Proof. intros H. apply (loop_must (length msg)); [lia|]. exact H. Qed.
End Loop.

Lemma block_zero (msg : list Fr) : 0 < length msg -> blockAt 0 msg 0 = Some [].
Proof.
  intros H. unfold blockAt. destruct (Nat.leb_spec (length msg) (0 + 0)); [lia|]. unfold slice. cbn [Nat.add]. rewrite Nat.leb_refl.
  destruct (Nat.leb_spec 0 (length msg)); [|lia]. reflexivity.
Qed.

(** With [t = 0] the loop does not advance. *)
Lemma zero_loops update (msg : list Fr) : update [] [] = Some [] -> msg <> [] ->
  forall s, reach (hash_step update 0 msg) (hash_start 0) s ->
    s = hash_start 0 /\ hash_step update 0 msg s (Some s) /\ forall o, hash_step update 0 msg s o -> o = Some s.
Proof.
  intros Hu Hm.
  assert (HL : 0 < length msg) by (destruct msg; [congruence|cbn; lia]). pose proof (block_zero msg HL) as Hb.
  assert (H0 : hash_step update 0 msg (hash_start 0) (Some (hash_start 0)) /\ forall o, hash_step update 0 msg (hash_start 0) o -> o = Some (hash_start 0)).
  { split.
    - apply (h_block update 0 msg 0 [] [] []); assumption.
    - intros o H. unfold hash_start in *. cbn [repeat] in *. inversion H as [i st blk st' H1 H2 H3|i st H1 H2|i st blk H1 H2 H3|i st r H1 H2|i st H1 H2]; subst; try lia.
      + rewrite Hb in H2. injection H2 as <-. injection (eq_trans (eq_sym Hu) H3) as <-. reflexivity.
      + congruence.
      + rewrite Hb in H2. injection H2 as <-. discriminate (eq_trans (eq_sym Hu) H3). }
  intros s Hr. assert (E : s = hash_start 0).
  { refine (reach_inv _ (fun s => s = hash_start 0) _ (hash_start 0) s Hr eq_refl). intros s1 s2 -> H. apply (proj2 H0) in H. congruence. }
  subst s. tauto.
Qed.

Lemma zero_empty update : hash_step update 0 [] (hash_start 0) None.
Proof. apply h_return_panic; [cbn; lia|reflexivity]. Qed.

Lemma zero_hashers v (msg : list Fr) :
  (msg <> [] -> forall s, reach (poseidon_hash_step v zeroPH msg) (hash_start 0) s ->
     poseidon_hash_step v zeroPH msg s (Some s) /\ forall o, poseidon_hash_step v zeroPH msg s o -> o = Some s) /\
  (msg <> [] -> forall s, reach (gmimc_hash_step v zeroGH msg) (hash_start 0) s ->
     gmimc_hash_step v zeroGH msg s (Some s) /\ forall o, gmimc_hash_step v zeroGH msg s o -> o = Some s) /\
  poseidon_hash_step v zeroPH [] (hash_start 0) None /\ gmimc_hash_step v zeroGH [] (hash_start 0) None.
Proof.
  split; [|split; [|split]].
  - intros Hm s Hr. apply (zero_loops _ msg eq_refl Hm s Hr).
  - intros Hm s Hr. apply (zero_loops _ msg eq_refl Hm s Hr).
  - apply zero_empty.
  - apply zero_empty.
Qed.

Lemma hashers_ready v (msg : list Fr) : hashInit zeroVars = Some v ->
  vArks v = Arks /\
  (forall h, In h [vP2 v; vP4 v; vP8 v] -> exists r, PoseidonHash Arks xArr yArr (pT h) (pRoundsF h) (pRoundsP h) msg = Some r /\
     must (poseidon_hash_step v h msg) (fun s => s = HRet r) (hash_start (pT h))) /\
  (forall h, In h [vG2 v; vG4 v; vG8 v] -> exists r, GMimcHash Arks (gT h) (gRounds h) msg = Some r /\
     must (gmimc_hash_step v h msg) (fun s => s = HRet r) (hash_start (gT h))).
Proof.
  intros Ei. destruct init_ok as (c2 & c4 & c8 & E2 & E4 & E8 & E). rewrite Ei in E. injection E as ->. cbn [vArks vP2 vP4 vP8 vG2 vG4 vG8].
  split; [reflexivity|]. split.
  - assert (HP : forall t c nF nP, GenerateMDSMatrix xArr yArr t = Some c -> poseidon_params t nF nP ->
      exists r, PoseidonHash Arks xArr yArr t nF nP msg = Some r /\
      must (hash_step (PoseidonUpdate Arks c nF nP) t msg) (fun s => s = HRet r) (hash_start t)).
    { intros t c nF nP Ec Hp. eexists. split; [apply PoseidonHash_exact; exact Hp|]. apply hash_must; [apply Hp|].
      pose proof (PoseidonHash_exact t nF nP msg Hp) as H. unfold PoseidonHash in H. rewrite Ec in H. exact H. }
    intros h [<-|[<-|[<-|[]]]]; apply HP; try assumption; repeat split; cbn [pT pRoundsF pRoundsP]; lia.
  - intros h Hh. assert (Hg : 0 < gT h /\ gRounds h = 91) by (destruct Hh as [<-|[<-|[<-|[]]]]; split; cbn [gT gRounds]; lia).
    destruct Hg as [Hg1 Hg2]. destruct (GMimcHash_exact Arks (gT h) (gRounds h) msg) as (s & Es & _); [exact Hg1|rewrite Hg2, Arks_length; lia|].
    eexists. split; [exact Es|]. apply hash_must; assumption.
Qed.
