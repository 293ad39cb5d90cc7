(** The fragment of Go used by the model: panics, indexing, in-place update and loops.
    A panic is [None].  A slice is a list; [len] is [length]. *)
From Coq Require Import List Arith Lia Bool.
Import ListNotations.

Notation "x <- e ;; k" := (match e with Some x => k | None => None end)
  (at level 60, e at next level, right associativity).
Notation "' p <- e ;; k" := (match e with Some x => match x with p => k end | None => None end)
  (at level 60, p pattern, e at next level, right associativity).

(** [l[i]] as an expression: panics out of range. *)
Definition get {A} (l : list A) (i : nat) : option A := nth_error l i.

Fixpoint upd {A} (l : list A) (i : nat) (v : A) : list A :=
  match l, i with
  | [], _ => []
  | _ :: l', O => v :: l'
  | a :: l', S i' => a :: upd l' i' v
  end.

(** [l[i] = v]: panics out of range. *)
Definition set {A} (l : list A) (i : nat) (v : A) : option (list A) :=
  if i <? length l then Some (upd l i v) else None.

(** [l[a:b]] for slices whose capacity is their length: panics unless [a <= b <= len(l)]. *)
Definition slice {A} (l : list A) (a b : nat) : option (list A) :=
  if (a <=? b) && (b <=? length l) then Some (firstn (b - a) (skipn a l)) else None.

(** Integer division of non-negative ints: panics on a zero divisor. *)
Definition godiv (a b : nat) : option nat :=
  match b with O => None | _ => Some (a / b) end.

(** [a - b] used as a slice bound: a negative bound panics. *)
Definition gosub (a b : nat) : option nat :=
  if b <=? a then Some (a - b) else None.

(** [for _, x := range l { s = f(s, x) }] where the body may panic. *)
Fixpoint foldM {A S} (f : S -> A -> option S) (l : list A) (s : S) : option S :=
  match l with
  | [] => Some s
  | a :: l' => s' <- f s a ;; foldM f l' s'
  end.

(** [res := make([]B, len(l)); for i, x := range l { res[i] = f(x) }]. *)
Fixpoint mapM {A B} (f : A -> option B) (l : list A) : option (list B) :=
  match l with
  | [] => Some []
  | a :: l' => b <- f a ;; bs <- mapM f l' ;; Some (b :: bs)
  end.

(** [for i := 0; i < n; i++]. *)
Definition forN {S} (n : nat) (f : S -> nat -> option S) (s : S) : option S :=
  foldM f (seq 0 n) s.

(** [for i := a; i < b; i++]. *)
Definition forRange {S} (a b : nat) (f : S -> nat -> option S) (s : S) : option S :=
  foldM f (seq a (b - a)) s.

(* ------------------------------------------------------------------ lemmas *)

Lemma upd_length {A} (l : list A) i v : length (upd l i v) = length l.
Proof. revert i; induction l as [|a l IH]; intros [|i]; simpl; auto. Qed.

Lemma nth_upd_same {A} (l : list A) i v d : i < length l -> nth i (upd l i v) d = v.
Proof.
  revert i; induction l as [|a l IH]; intros [|i]; simpl; intros H; try lia; auto.
  apply IH; lia.
Qed.

Lemma nth_upd_other {A} (l : list A) i j v d : i <> j -> nth j (upd l i v) d = nth j l d.
Proof.
  revert i j; induction l as [|a l IH]; intros [|i] [|j]; simpl; intros H; auto; try congruence.
Qed.

Lemma nth_upd {A} (l : list A) i j v d :
  i < length l -> nth j (upd l i v) d = if Nat.eqb j i then v else nth j l d.
Proof.
  intros H. destruct (Nat.eqb_spec j i) as [->|Hne].
  - apply nth_upd_same; assumption.
  - apply nth_upd_other; congruence.
Qed.

Lemma get_nth {A} (l : list A) i d : i < length l -> get l i = Some (nth i l d).
Proof. intros H. apply nth_error_nth'. exact H. Qed.

Lemma get_none {A} (l : list A) i : length l <= i -> get l i = None.
Proof. intros H. apply nth_error_None. exact H. Qed.

Lemma get_some_lt {A} (l : list A) i x : get l i = Some x -> i < length l.
Proof. intros H. apply nth_error_Some. unfold get in H. congruence. Qed.

Lemma get_some_nth {A} (l : list A) i x d : get l i = Some x -> nth i l d = x.
Proof. intros H. apply nth_error_nth. exact H. Qed.

Lemma set_some {A} (l : list A) i v : i < length l -> set l i v = Some (upd l i v).
Proof. intros H. unfold set. destruct (Nat.ltb_spec i (length l)); [reflexivity|lia]. Qed.

Lemma set_none {A} (l : list A) i v : length l <= i -> set l i v = None.
Proof. intros H. unfold set. destruct (Nat.ltb_spec i (length l)); [lia|reflexivity]. Qed.

Lemma slice_some {A} (l : list A) a b :
  a <= b -> b <= length l -> slice l a b = Some (firstn (b - a) (skipn a l)).
Proof.
  intros H1 H2. unfold slice.
  destruct (Nat.leb_spec a b); [|lia]. destruct (Nat.leb_spec b (length l)); [reflexivity|lia].
Qed.

Lemma godiv_some a b : 0 < b -> godiv a b = Some (a / b).
Proof. destruct b; [lia|reflexivity]. Qed.

Lemma gosub_some a b : b <= a -> gosub a b = Some (a - b).
Proof. intros H. unfold gosub. destruct (Nat.leb_spec b a); [reflexivity|lia]. Qed.

Lemma foldM_app {A S} (f : S -> A -> option S) l1 l2 s :
  foldM f (l1 ++ l2) s = (s' <- foldM f l1 s ;; foldM f l2 s').
Proof.
  revert s; induction l1 as [|a l IH]; simpl; intros s; [reflexivity|].
  destruct (f s a); auto.
Qed.

Lemma foldM_ext {A S} (f g : S -> A -> option S) l s :
  (forall s a, In a l -> f s a = g s a) -> foldM f l s = foldM g l s.
Proof.
  revert s; induction l as [|a l IH]; simpl; intros s H; [reflexivity|].
  rewrite H by auto. destruct (g s a); auto.
Qed.

(** Loop rule. *)
Lemma foldM_seq_inv {S} (P : nat -> S -> Prop) f a n s :
  P 0 s ->
  (forall k s, k < n -> P k s -> exists s', f s (a + k) = Some s' /\ P (Datatypes.S k) s') ->
  exists s', foldM f (seq a n) s = Some s' /\ P n s'.
Proof.
  intros H0 Hstep.
  assert (H : forall m, m <= n -> exists s', foldM f (seq a m) s = Some s' /\ P m s').
  { induction m as [|m IH]; intros Hm.
    - exists s; auto.
    - destruct IH as (s1 & E1 & P1); [lia|].
      rewrite seq_S, foldM_app, E1. simpl.
      destruct (Hstep m s1) as (s2 & E2 & P2); [lia|assumption|].
      rewrite E2. exists s2; auto. }
  apply H; lia.
Qed.

Lemma forN_inv {S} (P : nat -> S -> Prop) f n s :
  P 0 s ->
  (forall k s, k < n -> P k s -> exists s', f s k = Some s' /\ P (Datatypes.S k) s') ->
  exists s', forN n f s = Some s' /\ P n s'.
Proof. intros H0 H. apply (foldM_seq_inv P f 0 n s H0). exact H. Qed.

Lemma foldM_inv {A S} (P : list A -> S -> Prop) (f : S -> A -> option S) l s :
  P [] s ->
  (forall l1 a l2 s, l = l1 ++ a :: l2 -> P l1 s -> exists s', f s a = Some s' /\ P (l1 ++ [a]) s') ->
  exists s', foldM f l s = Some s' /\ P l s'.
Proof.
  intros H0 Hstep.
  assert (G : forall l2 l1 s, l = l1 ++ l2 -> P l1 s ->
              exists s', foldM f l2 s = Some s' /\ P l s').
  { induction l2 as [|a l2 IH]; intros l1 s1 E P1.
    - rewrite app_nil_r in E; subst. exists s1; auto.
    - destruct (Hstep l1 a l2 s1 E P1) as (s2 & E2 & P2). simpl. rewrite E2.
      apply (IH (l1 ++ [a])); auto. rewrite <- app_assoc; auto. }
  apply (G l []); auto.
Qed.

(** A total body makes the loop an ordinary left fold. *)
Lemma foldM_total {A S} (f : S -> A -> S) l s :
  foldM (fun s a => Some (f s a)) l s = Some (fold_left f l s).
Proof. revert s; induction l as [|a l IH]; simpl; intros s; auto. Qed.

Lemma mapM_some {A B} (f : A -> option B) (g : A -> B) l :
  (forall a, In a l -> f a = Some (g a)) -> mapM f l = Some (map g l).
Proof.
  induction l as [|a l IH]; simpl; intros H; [reflexivity|].
  rewrite H by auto. rewrite IH by auto. reflexivity.
Qed.

Lemma mapM_length {A B} (f : A -> option B) l r : mapM f l = Some r -> length r = length l.
Proof.
  revert r; induction l as [|a l IH]; simpl; intros r H; [injection H as <-; reflexivity|].
  destruct (f a); [|discriminate]. destruct (mapM f l); [|discriminate].
  injection H as <-. simpl. rewrite (IH l0); auto.
Qed.

Lemma mapM_ext {A B} (f g : A -> option B) l :
  (forall a, In a l -> f a = g a) -> mapM f l = mapM g l.
Proof.
  induction l as [|a l IH]; simpl; intros H; [reflexivity|].
  rewrite H by auto. rewrite IH by auto. reflexivity.
Qed.

Lemma mapM_none {A B} (f : A -> option B) l a : In a l -> f a = None -> mapM f l = None.
Proof.
  induction l as [|b l IH]; simpl; [tauto|]. intros [->|H] Hn.
  - rewrite Hn; reflexivity.
  - destruct (f b); [|reflexivity]. rewrite IH; auto.
Qed.

Lemma mapM_Forall2 {A B} (f : A -> option B) l r :
  mapM f l = Some r <-> Forall2 (fun a b => f a = Some b) l r.
Proof.
  revert r; induction l as [|a l IH]; simpl; intros r.
  - split; [intros H; injection H as <-; constructor|inversion 1; reflexivity].
  - split.
    + intros H. destruct (f a) eqn:E; [|discriminate].
      destruct (mapM f l) eqn:E2; [|discriminate]. injection H as <-.
      constructor; [assumption|]. apply IH; reflexivity.
    + inversion 1 as [|? b ? r' H1 H2]; subst. rewrite H1.
      apply IH in H2. rewrite H2. reflexivity.
Qed.

Lemma list_ext {A} (d : A) (l m : list A) :
  length l = length m -> (forall i, i < length l -> nth i l d = nth i m d) -> l = m.
Proof. intros H1 H2. apply (nth_ext l m d d); assumption. Qed.

Lemma nth_firstn {A} (l : list A) n i d : i < n -> nth i (firstn n l) d = nth i l d.
Proof.
  revert n i; induction l as [|a l IH]; intros [|n] [|i] H; simpl; try lia; auto.
  apply IH; lia.
Qed.

Lemma nth_skipn {A} (l : list A) n i d : nth i (skipn n l) d = nth (n + i) l d.
Proof.
  revert n; induction l as [|a l IH]; intros [|n]; simpl; auto. destruct i; reflexivity.
Qed.

Lemma nth_repeat_lt {A} (x d : A) n i : i < n -> nth i (repeat x n) d = x.
Proof. revert i; induction n as [|n IH]; intros [|i] H; simpl; try lia; auto. apply IH; lia. Qed.

Lemma nth_map_seq {A} (f : nat -> A) n i d : i < n -> nth i (map f (seq 0 n)) d = f i.
Proof.
  intros H. rewrite nth_indep with (d' := f 0) by (rewrite map_length, seq_length; lia).
  rewrite map_nth, seq_nth by lia. reflexivity.
Qed.

Lemma map_seq_ext {A} (d : A) (f : nat -> A) n l :
  length l = n -> (forall i, i < n -> nth i l d = f i) -> l = map f (seq 0 n).
Proof.
  intros HL H. apply (list_ext d).
  - rewrite map_length, seq_length; assumption.
  - intros i Hi. rewrite nth_map_seq by lia. apply H; lia.
Qed.

Lemma nth_map_lt {A B} (f : A -> B) l i d d' : i < length l -> nth i (map f l) d = f (nth i l d').
Proof.
  intros H. rewrite nth_indep with (d' := f d') by (rewrite map_length; lia). apply map_nth.
Qed.

Lemma skipn_S_nth {A} (l : list A) k d : k < length l -> skipn k l = nth k l d :: skipn (S k) l.
Proof.
  revert k; induction l as [|a l IH]; intros [|k] H; simpl in *; try lia; auto.
  apply IH; lia.
Qed.
