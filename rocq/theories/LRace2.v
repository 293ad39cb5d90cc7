(** The fork/join loops of Sub and Mul have no data race. *)
From Coq Require Import List Arith ZArith Lia Bool.
From Verif Require Import Field Go Trans MCommon MPoly Spec LPoly MCircuit MForkJoin LForkJoin MHeap SpecHeap LHeap SpecRace.
Import ListNotations.

Section FJ.
  Context {M A : Type}.
  Variable exec : A -> M -> option M.
  Variable prog : list (list A).
  Variable nTok : nat.
  Variables inMain closes : bool.
  Notation stepI := (step exec prog nTok inMain closes).

  (** Every running goroutine has a suffix of its own program left. *)
  Definition own_prog (s : st (M:=M) (A:=A)) : Prop :=
    forall i r, nth_error (thr s) i = Some (TRun r) -> exists l, nth i prog [] = l ++ r.

  Lemma own_step s s' : own_prog s -> stepI s (Some s') -> own_prog s'.
  Proof.
    intros H Hs.
    assert (K : forall t i x j q, (forall i r, nth_error t i = Some (TRun r) -> exists l, nth i prog [] = l ++ r) ->
      (forall r, x = TRun r -> exists l, nth i prog [] = l ++ r) -> nth_error (upd t i x) j = Some (TRun q) ->
      exists l, nth j prog [] = l ++ q).
    { intros t i x j q Ht Hx. rewrite nth_error_upd. destruct ((i =? j) && (i <? length t))%bool eqn:E; [|apply Ht].
      apply andb_true_iff in E. destruct E as [E _]. apply Nat.eqb_eq in E. subst j. intros E. injection E as E. apply Hx. exact E. }
    unfold own_prog in *. inversion Hs; subst; cbn [thr] in *; try exact H; intros j q; (eapply K; [exact H|]); intros q' E.
    - destruct inMain; [|discriminate]. injection E as <-. exists []. reflexivity.
    - injection E as <-. exists []. reflexivity.
    - injection E as <-. exists []. reflexivity.
    - injection E as <-. match goal with H1 : nth_error _ _ = Some (TRun (?a :: ?r)) |- _ => destruct (H _ _ H1) as [l E]; exists (l ++ [a]) end.
      rewrite E, <- app_assoc. reflexivity.
    - discriminate.
    - discriminate.
  Qed.
  Lemma own_reach m s : reach stepI (init prog nTok inMain m) s -> own_prog s.
  Proof.
    intros Hr. eapply (reach_inv _ own_prog); [intros s1 s2; apply own_step|exact Hr|].
    intros i r Hi. unfold init in Hi. cbn [thr] in Hi. apply nth_error_In, repeat_spec in Hi. discriminate.
  Qed.

  Lemma distinct_actions m s i j a b : NoDup (concat prog) -> reach stepI (init prog nTok inMain m) s ->
    i <> j -> about_to s i a -> about_to s j b -> a <> b /\ In a (concat prog) /\ In b (concat prog).
  Proof.
    intros Hd Hr Hij [r Ha] [q Hb]. pose proof (own_reach m s Hr) as Ho.
    destruct (Ho i _ Ha) as [l Ea]. destruct (Ho j _ Hb) as [l' Eb].
    assert (Ia : In a (nth i prog [])) by (rewrite Ea; apply in_app_iff; right; left; reflexivity).
    assert (Ib : In b (nth j prog [])) by (rewrite Eb; apply in_app_iff; right; left; reflexivity).
    clear - Hd Hij Ia Ib.
    assert (NoDup_app_inv : forall (l k : list A), NoDup (l ++ k) -> NoDup l /\ NoDup k /\ forall x, In x l -> In x k -> False).
    { induction l as [|x l IH]; intros k H; cbn in *; [split; [constructor|split; [exact H|intros ? []]]|].
      inversion H as [|? ? H1 H2]; subst. destruct (IH k H2) as (A1 & A2 & A3). split; [|split; [exact A2|]].
      - constructor; [|exact A1]. intros Hi. apply H1, in_app_iff. auto.
      - intros y [<-|Hy] Hk; [apply H1, in_app_iff; auto|eapply A3; eauto]. }
    assert (Li : i < length prog) by (destruct (Nat.lt_ge_cases i (length prog)); [assumption|]; rewrite nth_overflow in Ia by assumption; destruct Ia).
    assert (Lj : j < length prog) by (destruct (Nat.lt_ge_cases j (length prog)); [assumption|]; rewrite nth_overflow in Ib by assumption; destruct Ib).
    split; [|split; apply in_concat; [exists (nth i prog [])|exists (nth j prog [])]; (split; [apply nth_In; assumption|assumption])].
    intros <-. revert i j Hij Ia Ib Li Lj. induction prog as [|p l IH]; intros i j Hij Ia Ib Li Lj; [inversion Li|].
    cbn [concat] in Hd. apply NoDup_app_inv in Hd as (Hd1 & Hd2 & Hd3). cbn [length] in *.
    assert (K : forall n, In a (nth n l []) -> In a (concat l)).
    { intros n Hn. destruct (Nat.lt_ge_cases n (length l)) as [Hl|Hl]; [|rewrite nth_overflow in Hn by exact Hl; destruct Hn].
      apply in_concat. exists (nth n l []). split; [apply nth_In; exact Hl|exact Hn]. }
    destruct i as [|i], j as [|j]; cbn [nth] in *; [congruence|eapply Hd3; eauto|eapply Hd3; eauto|].
    apply (IH Hd2 i j); auto; lia.
  Qed.
End FJ.

Section H.
  Context {F : Field}.
  Open Scope F_scope.

  Lemma sub_race_free (m : list F) dst left right nCore :
    (0 < nCore)%nat -> swf m dst -> swf m left -> swf m right -> slen right = slen left ->
    compat (slen left) dst left -> compat (slen left) dst right ->
    exists m1 dst' prog, HSub_start m dst left right nCore = Some (m1, dst', prog) /\
      forall s i j a b, reach (step (sub_exec dst' left right) prog nCore true false) (init prog nCore true m1) s ->
        i <> j -> about_to s i a -> about_to s j b ->
        (base dst' + a <> base dst' + b /\ base dst' + a <> base left + b /\ base dst' + a <> base right + b)%nat.
  Proof.
    intros Hn Hd Hl Hr Hs Cl Cr. unfold HSub_start.
    destruct (chunk_prog_concat nCore (slen left) Hn) as (chunks & -> & Hc).
    rewrite Hs, Nat.eqb_refl. cbn [negb].
    destruct (hresize_ok m dst (slen left) Hd) as (e & dst' & -> & HL & Hw & Hb & Hrel).
    exists (m ++ e), dst', (chunk_prog chunks). split; [reflexivity|].
    intros s i j a b HR Hij Ha Hbb.
    destruct (distinct_actions _ _ _ _ _ _ s i j a b ltac:(rewrite Hc; apply seq_NoDup) HR Hij Ha Hbb) as (Hab & Ia & Ib).
    rewrite Hc in Ia, Ib. apply in_seq in Ia, Ib.
    pose proof (Hrel left Hl eq_refl Cl). pose proof (Hrel right Hr Hs Cr). lia.
  Qed.

  Lemma mul_race_free (m : list F) dst x lambda nCore :
    (0 < nCore)%nat -> swf m dst -> swf m x -> compat (slen x) dst x ->
    exists m1 dst' prog, HMul_start m dst x nCore = Some (m1, dst', prog) /\
      forall s i j a b, reach (step (mul_exec dst' x lambda) prog nCore true false) (init prog nCore true m1) s ->
        i <> j -> about_to s i a -> about_to s j b ->
        (base dst' + a <> base dst' + b /\ base dst' + a <> base x + b)%nat.
  Proof.
    intros Hn Hd Hl Cl. unfold HMul_start.
    destruct (chunk_prog_concat nCore (slen x) Hn) as (chunks & -> & Hc).
    destruct (hresize_ok m dst (slen x) Hd) as (e & dst' & -> & HL & Hw & Hb & Hrel).
    exists (m ++ e), dst', (chunk_prog chunks). split; [reflexivity|].
    intros s i j a b HR Hij Ha Hbb.
    destruct (distinct_actions _ _ _ _ _ _ s i j a b ltac:(rewrite Hc; apply seq_NoDup) HR Hij Ha Hbb) as (Hab & Ia & Ib).
    rewrite Hc in Ia, Ib. apply in_seq in Ia, Ib.
    pose proof (Hrel x Hl eq_refl Cl). lia.
  Qed.
End H.

(** layers.go and circuit.go: goroutine [i] writes the entry [i] of the result, and what it writes does not depend on the
    result. *)
Section Layer.
  Context {F : Field}.
  Lemma per_chunk_owner (exec : nat -> list (list F) -> option (list (list F))) n nCore m s i a :
    reach (step exec (per_chunk n) nCore false true) (init (per_chunk n) nCore false m) s -> about_to s i a -> a = i.
  Proof.
    intros HR [r Ha]. destruct (own_reach _ _ _ _ _ _ _ HR i _ Ha) as [l E]. unfold per_chunk in E.
    destruct (Nat.lt_ge_cases i n) as [Hi|Hi].
    - rewrite nth_map_seq in E by exact Hi. destruct l as [|x l]; [injection E as -> _; lia|]. destruct l; discriminate.
    - rewrite nth_overflow in E by (rewrite map_length, seq_length; exact Hi). destruct l; discriminate.
  Qed.
  Lemma layer_race_free (l : Layer F) (inputs : list (list F)) nCore s i j a b :
    reach (step (layer_exec l inputs) (per_chunk (length inputs)) nCore false true)
      (init (per_chunk (length inputs)) nCore false (repeat [] (length inputs))) s ->
    i <> j -> about_to s i a -> about_to s j b -> a = i /\ b = j.
  Proof. intros HR _ H1 H2. split; eapply per_chunk_owner; eassumption. Qed.
  Lemma layer_writes (l : Layer F) (inputs : list (list F)) i : (i < length inputs)%nat ->
    (forall res, layer_exec l inputs i res = None) \/
    exists out, forall res, (i < length res)%nat -> layer_exec l inputs i res = Some (upd res i out).
  Proof.
    intros Hi. unfold layer_exec. rewrite (get_nth inputs i []) by exact Hi.
    destruct (eval_chunk l (nth i inputs [])) as [out|]; [|left; reflexivity].
    right. exists out. intros res Hr. apply set_some. exact Hr.
  Qed.
  Lemma copy_race_free (vals : list (list F)) nCore s i j a b :
    reach (step (copy_exec vals) (per_chunk (length vals)) nCore false true)
      (init (per_chunk (length vals)) nCore false (repeat [] (length vals))) s ->
    i <> j -> about_to s i a -> about_to s j b -> a = i /\ b = j.
  Proof. intros HR _ H1 H2. split; eapply per_chunk_owner; eassumption. Qed.
  Lemma copy_writes (vals : list (list F)) i : (i < length vals)%nat ->
    exists out, forall res, (i < length res)%nat -> copy_exec vals i res = Some (upd res i out).
  Proof.
    intros Hi. unfold copy_exec. rewrite (get_nth vals i []) by exact Hi. eexists. intros res Hr. apply set_some. exact Hr.
  Qed.
End Layer.
