(** Accumulation loops: a piece of code "has effect E" when it always succeeds, preserves the
    shape of the state, and adds [E k] to the cell [k] of the state. *)
From Coq Require Import List Arith Lia Bool Ring Field.
From Verif Require Import Field Go.
Import ListNotations.

Section Effect.
  Context {F : Field}.
  Add Field FfieldLEffect : (f_theory F).
  Open Scope F_scope.

  Definition has_effect {S K} (wf : S -> Prop) (rd : S -> K -> F) (f : S -> option S) (E : K -> F) : Prop :=
    forall s, wf s -> exists s', f s = Some s' /\ wf s' /\ forall k, rd s' k = rd s k + E k.

  Lemma eff_ext {S K} (wf : S -> Prop) (rd : S -> K -> F) f E E' :
    (forall k, E k = E' k) -> has_effect wf rd f E -> has_effect wf rd f E'.
  Proof.
    intros HE H s Hs. destruct (H s Hs) as (s' & H1 & H2 & H3).
    exists s'. repeat split; auto. intros k. rewrite H3, HE. reflexivity.
  Qed.

  Lemma eff_fun_ext {S K} (wf : S -> Prop) (rd : S -> K -> F) (f g : S -> option S) E :
    (forall s, wf s -> f s = g s) -> has_effect wf rd f E -> has_effect wf rd g E.
  Proof.
    intros HE H s Hs. destruct (H s Hs) as (s' & H1 & H2 & H3).
    exists s'. rewrite <- HE by assumption. auto.
  Qed.

  Lemma eff_nop {S K} (wf : S -> Prop) (rd : S -> K -> F) : has_effect wf rd (fun s => Some s) (fun _ => 0).
  Proof. intros s Hs. exists s. repeat split; auto. intros k. ring. Qed.

  Lemma eff_foldM {S K A} (wf : S -> Prop) (rd : S -> K -> F) (f : S -> A -> option S) (E : A -> K -> F) l :
    (forall a, In a l -> has_effect wf rd (fun s => f s a) (E a)) ->
    has_effect wf rd (fun s => foldM f l s) (fun k => suml l (fun a => E a k)).
  Proof.
    induction l as [|a l IH]; intros H s Hs; simpl.
    - exists s. repeat split; auto. intros k. ring.
    - destruct (H a (or_introl eq_refl) s Hs) as (s1 & E1 & W1 & R1). rewrite E1.
      destruct (IH (fun b Hb => H b (or_intror Hb)) s1 W1) as (s2 & E2 & W2 & R2).
      exists s2. repeat split; auto. intros k. rewrite R2, R1. ring.
  Qed.

  Lemma eff_forN {S K} (wf : S -> Prop) (rd : S -> K -> F) n (f : S -> nat -> option S) (E : nat -> K -> F) :
    (forall i, (i < n)%nat -> has_effect wf rd (fun s => f s i) (E i)) ->
    has_effect wf rd (fun s => forN n f s) (fun k => sumn n (fun i => E i k)).
  Proof.
    intros H. apply eff_foldM. intros a Ha. apply in_seq in Ha. apply H. lia.
  Qed.

  Lemma eff_seq {S K} (wf : S -> Prop) (rd : S -> K -> F) (f g : S -> option S) E1 E2 :
    has_effect wf rd f E1 -> has_effect wf rd g E2 ->
    has_effect wf rd (fun s => s' <- f s ;; g s') (fun k => E1 k + E2 k).
  Proof.
    intros Hf Hg s Hs. destruct (Hf s Hs) as (s1 & A1 & W1 & R1). rewrite A1.
    destruct (Hg s1 W1) as (s2 & A2 & W2 & R2). exists s2. repeat split; auto.
    intros k. rewrite R2, R1. ring.
  Qed.

  (** one-dimensional arrays *)
  Definition wf1 (n : nat) (s : list F) : Prop := length s = n.
  Definition rd1 (s : list F) (k : nat) : F := nth k s 0.

  Lemma eff_add1 n i v : (i < n)%nat ->
    has_effect (wf1 n) rd1 (fun s => x <- get s i ;; set s i (x + v)) (fun k => if Nat.eqb k i then v else 0).
  Proof.
    intros Hi s Hs. unfold wf1, rd1 in *.
    rewrite (get_nth s i 0), set_some by lia. eexists. split; [reflexivity|].
    rewrite upd_length. split; [assumption|]. intros k. rewrite nth_upd by lia.
    destruct (Nat.eqb_spec k i) as [->|]; ring.
  Qed.

  (** starting from zeros, the result is the effect *)
  Lemma eff1_run n f E : has_effect (wf1 n) rd1 f E ->
    exists s, f (repeat 0 n) = Some s /\ length s = n /\ forall k, nth k s 0 = E k.
  Proof.
    intros H. destruct (H (repeat 0 n)) as (s & H1 & H2 & H3).
    - apply repeat_length.
    - exists s. repeat split; auto. intros k. specialize (H3 k). unfold rd1 in H3. rewrite H3.
      assert (Z : nth k (repeat (0 : F) n) 0 = 0).
      { destruct (Nat.lt_ge_cases k n).
        - apply nth_repeat_lt; assumption.
        - apply nth_overflow. rewrite repeat_length. assumption. }
      rewrite Z. ring.
  Qed.

  (** two-dimensional arrays: [n] rows of [m] entries *)
  Definition wf2 (n m : nat) (s : list (list F)) : Prop :=
    length s = n /\ forall i, (i < n)%nat -> length (nth i s []) = m.
  Definition rd2 (s : list (list F)) (k : nat * nat) : F := nth (snd k) (nth (fst k) s []) 0.

  Lemma eff_add2 n m i j v : (i < n)%nat -> (j < m)%nat ->
    has_effect (wf2 n m) rd2
      (fun s => row <- get s i ;; x <- get row j ;; row <- set row j (x + v) ;; set s i row)
      (fun k => if Nat.eqb (fst k) i && Nat.eqb (snd k) j then v else 0).
  Proof.
    intros Hi Hj s [Hs1 Hs2]. unfold rd2.
    rewrite (get_nth s i []) by lia. specialize (Hs2 i Hi) as Hrow.
    rewrite (get_nth (nth i s []) j 0) by lia. rewrite set_some by lia. rewrite set_some by lia.
    eexists. split; [reflexivity|]. split.
    - split; [rewrite upd_length; assumption|]. intros i' Hi'. rewrite nth_upd by lia.
      destruct (Nat.eqb_spec i' i) as [->|]; [rewrite upd_length; assumption|apply Hs2; assumption].
    - intros [a b]. cbn [fst snd]. rewrite nth_upd by lia.
      destruct (Nat.eqb_spec a i) as [->|]; cbn [andb]; [|ring].
      rewrite nth_upd by lia. destruct (Nat.eqb_spec b j) as [->|]; ring.
  Qed.

  (** three-dimensional arrays *)
  Definition wf3 (n m p : nat) (s : list (list (list F))) : Prop :=
    length s = n /\ forall i, (i < n)%nat -> wf2 m p (nth i s []).
  Definition rd3 (s : list (list (list F))) (k : nat * nat * nat) : F :=
    rd2 (nth (fst (fst k)) s []) (snd (fst k), snd k).

  Lemma eff_add3 n m p i j l v : (i < n)%nat -> (j < m)%nat -> (l < p)%nat ->
    has_effect (wf3 n m p) rd3
      (fun s => mat <- get s i ;; row <- get mat j ;; x <- get row l ;;
                row <- set row l (x + v) ;; mat <- set mat j row ;; set s i mat)
      (fun k => if Nat.eqb (fst (fst k)) i && Nat.eqb (snd (fst k)) j && Nat.eqb (snd k) l then v else 0).
  Proof.
    intros Hi Hj Hl s [Hs1 Hs2]. unfold rd3.
    rewrite (get_nth s i []) by lia. specialize (Hs2 i Hi) as Hmat.
    destruct (eff_add2 m p j l v Hj Hl (nth i s []) Hmat) as (mat & E & W & R).
    destruct (get (nth i s []) j) as [row|]; [|discriminate].
    destruct (get row l) as [x|]; [|discriminate].
    destruct (set row l (x + v)) as [row'|]; [|discriminate].
    rewrite E, set_some by lia.
    eexists. split; [reflexivity|]. split.
    - split; [rewrite upd_length; assumption|]. intros i' Hi'. rewrite nth_upd by lia.
      destruct (Nat.eqb_spec i' i) as [->|]; [assumption|apply Hs2; assumption].
    - intros [[a b] c]. cbn [fst snd]. rewrite nth_upd by lia.
      destruct (Nat.eqb_spec a i) as [->|]; cbn [andb]; [|ring].
      rewrite R. reflexivity.
  Qed.

  Lemma rd2_zeros n m k : rd2 (repeat (repeat 0 m) n) k = 0.
  Proof.
    unfold rd2. destruct (Nat.lt_ge_cases (fst k) n).
    - rewrite nth_repeat_lt by assumption. destruct (Nat.lt_ge_cases (snd k) m).
      + apply nth_repeat_lt; assumption.
      + apply nth_overflow. rewrite repeat_length. assumption.
    - rewrite (nth_overflow (repeat _ n)) by (rewrite repeat_length; assumption). destruct (snd k); reflexivity.
  Qed.

  Lemma wf2_zeros n m : wf2 n m (repeat (repeat 0 m) n).
  Proof.
    split; [apply repeat_length|]. intros i Hi. rewrite nth_repeat_lt by assumption. apply repeat_length.
  Qed.

  Lemma eff2_run n m f E : has_effect (wf2 n m) rd2 f E ->
    exists s, f (repeat (repeat 0 m) n) = Some s /\ wf2 n m s /\ forall k, rd2 s k = E k.
  Proof.
    intros H. destruct (H (repeat (repeat 0 m) n)) as (s & H1 & H2 & H3); [apply wf2_zeros|].
    exists s. repeat split; auto; try apply H2. intros k. rewrite H3, rd2_zeros. ring.
  Qed.

  Lemma eff3_run n m p f E : has_effect (wf3 n m p) rd3 f E ->
    exists s, f (repeat (repeat (repeat 0 p) m) n) = Some s /\ wf3 n m p s /\ forall k, rd3 s k = E k.
  Proof.
    intros H. destruct (H (repeat (repeat (repeat 0 p) m) n)) as (s & H1 & H2 & H3).
    - split; [apply repeat_length|]. intros i Hi. rewrite nth_repeat_lt by assumption. apply wf2_zeros.
    - exists s. split; [exact H1|]. split; [exact H2|]. intros [[a b] c]. rewrite H3.
      unfold rd3 at 1. cbn [fst snd]. destruct (Nat.lt_ge_cases a n).
      + rewrite nth_repeat_lt by assumption. rewrite rd2_zeros. ring.
      + rewrite (nth_overflow (repeat _ n)) by (rewrite repeat_length; assumption).
        unfold rd2. cbn [fst snd]. destruct b; cbn [nth]; destruct c; cbn [nth]; ring.
  Qed.

End Effect.
