(** Package hash in memory: every function does to the window of its state what the list model does to the list, and nothing to
    the other cells. *)
From Coq Require Import List Arith Lia Bool.
From Verif Require Import Field Go MHeap SpecHeap MHash MHashHeap LHash.
Import ListNotations.

Lemma upd_upd {A} (l : list A) : forall i v w, upd (upd l i v) i w = upd l i w.
Proof. induction l as [|a l IH]; intros [|i] v w; simpl; auto. now rewrite IH. Qed.
Lemma get_upd_same {A} (l : list A) : forall i v, i < length l -> get (upd l i v) i = Some v.
Proof. induction l as [|a l IH]; intros [|i] v H; simpl in *; try lia; auto. apply IH. lia. Qed.
Lemma upd_app_mid {A} (X l Y : list A) i v : i < length l -> upd (X ++ l ++ Y) (length X + i) v = X ++ upd l i v ++ Y.
Proof.
  intros H. rewrite upd_app_r. f_equal. revert i H. induction l as [|a l IH]; intros [|i] H; simpl in *; try lia; auto.
  rewrite IH by lia. reflexivity.
Qed.
Lemma get_app_mid {A} (X l Y : list A) i : i < length l -> get (X ++ l ++ Y) (length X + i) = get l i.
Proof. intros H. rewrite get_app_r. unfold get. now rewrite nth_error_app1. Qed.

Lemma mapM_app {A B} (f : A -> option B) l1 l2 : mapM f (l1 ++ l2) = (a <- mapM f l1 ;; b <- mapM f l2 ;; Some (a ++ b)).
Proof.
  induction l1 as [|x l IH]; simpl; [destruct (mapM f l2); reflexivity|].
  rewrite IH. destruct (f x); [|reflexivity]. destruct (mapM f l); [|reflexivity]. now destruct (mapM f l2).
Qed.
Lemma mapM_len {A B} (f : A -> option B) l : forall r, mapM f l = Some r -> length r = length l.
Proof.
  induction l as [|x l IH]; simpl; intros r H; [now injection H as <-|].
  destruct (f x); [|discriminate]. destruct (mapM f l) eqn:E; [|discriminate]. injection H as <-. simpl. now rewrite (IH _ eq_refl).
Qed.
Lemma firstn_snoc {A} (l : list A) : forall k x, nth_error l k = Some x -> firstn (S k) l = firstn k l ++ [x].
Proof. induction l as [|a l IH]; intros [|k] x H; simpl in *; try discriminate; [now injection H as ->|]. now rewrite (IH _ _ H). Qed.

Lemma skipn_tl {A} (l : list A) : forall a, skipn (S a) l = tl (skipn a l).
Proof. induction l as [|x l IH]; intros [|a]; auto. exact (IH a). Qed.

Section L.
  Context {F : Field}.
  Open Scope F_scope.
  Variable writable : nat -> bool.
  Notation Mem := (list F).

  (** slice [k] of memory [M] holds [ks] *)
  Definition holds (M : Mem) (k : Slice) (ks : list F) : Prop := length ks = slen k /\ forall i, hget M k i = get ks i.
  Lemma holds_app M E k ks : holds M k ks -> holds (M ++ E) k ks.
  Proof.
    intros [L H]. split; [exact L|]. intros i. specialize (H i). unfold hget in *. destruct (i <? slen k)%nat eqn:Ei; [|exact H].
    apply Nat.ltb_lt in Ei. rewrite <- H. unfold get. rewrite nth_error_app1; [reflexivity|].
    apply nth_error_Some. unfold get in H. rewrite H. apply nth_error_Some. lia.
  Qed.
  Lemma holds_win (X l Y : Mem) s : base s = length X -> slen s = length l -> holds (X ++ l ++ Y) s l.
  Proof.
    intros Hb Hl. split; [congruence|]. intros i. unfold hget. rewrite Hl. destruct (Nat.ltb_spec i (length l)).
    - rewrite Hb. now apply get_app_mid.
    - symmetry. now apply get_none.
  Qed.
  Lemma holds_tab M s : (base s + slen s <= length M)%nat -> holds M s (tab M s).
  Proof.
    intros H. split; [unfold tab; now rewrite map_length, seq_length|]. intros i. unfold hget.
    destruct (Nat.ltb_spec i (slen s)).
    - rewrite (get_nth M _ 0) by lia. unfold get, tab. rewrite nth_error_map, nth_error_nth' with (d := 0%nat) by (rewrite seq_length; lia).
      simpl. rewrite seq_nth by lia. reflexivity.
    - symmetry. apply get_none. unfold tab. now rewrite map_length, seq_length.
  Qed.
  Lemma holds_eq M s ks : (base s + slen s <= length M)%nat -> holds M s ks -> ks = tab M s.
  Proof.
    intros Hb [L H]. destruct (holds_tab M s Hb) as [L' H']. apply nth_ext with (d := 0) (d' := 0); [congruence|].
    intros i Hi. specialize (H i). rewrite H' in H. rewrite (get_nth ks i 0), (get_nth (tab M s) i 0) in H by congruence. congruence.
  Qed.

  (** the window [X..X+n) may be written *)
  Definition wr (X : Mem) (n : nat) : Prop := forall i, (i < n)%nat -> writable (length X + i) = true.

  Lemma hget_win (X l Y : Mem) s i : base s = length X -> slen s = length l -> hget (X ++ l ++ Y) s i = get l i.
  Proof. intros Hb Hl. apply (holds_win X l Y s Hb Hl). Qed.
  Lemma wset_win (X l Y : Mem) s i v : base s = length X -> slen s = length l -> wr X (length l) ->
    wset writable (X ++ l ++ Y) s i v = (l' <- set l i v ;; Some (X ++ l' ++ Y)).
  Proof.
    intros Hb Hl Hw. unfold wset, addr, pset. rewrite Hl. unfold set at 2. destruct (Nat.ltb_spec i (length l)) as [H|H]; [|reflexivity].
    rewrite Hb, Hw by exact H. rewrite set_some by (rewrite !app_length; lia). now rewrite upd_app_mid by exact H.
  Qed.

  (** A memory program that does to a window of length n what [f] does to the list *)
  Definition sim (X Y : Mem) (n : nat) (fh : Mem -> option Mem) (f : list F -> option (list F)) : Prop :=
    forall l, length l = n -> fh (X ++ l ++ Y) = (l' <- f l ;; Some (X ++ l' ++ Y)) /\ (forall l', f l = Some l' -> length l' = n).

  Lemma sim_ret X Y n : sim X Y n (fun m => Some m) (fun l => Some l).
  Proof. intros l Hl. split; [reflexivity|]. intros l' H. now injection H as <-. Qed.
  Lemma sim_bind X Y n fh f gh g : sim X Y n fh f -> sim X Y n gh g ->
    sim X Y n (fun m => m <- fh m ;; gh m) (fun l => l <- f l ;; g l).
  Proof.
    intros Hf Hg l Hl. destruct (Hf l Hl) as [-> Hlen]. destruct (f l) as [l1|]; [|split; [reflexivity|discriminate]].
    exact (Hg l1 (Hlen _ eq_refl)).
  Qed.
  Lemma sim_ext X Y n fh fh' f f' : (forall m, fh m = fh' m) -> (forall l, length l = n -> f l = f' l) -> sim X Y n fh' f' -> sim X Y n fh f.
  Proof. intros E1 E2 H l Hl. rewrite E1, E2 by exact Hl. now apply H. Qed.
  Lemma sim_fold {A} X Y n (is : list A) fh f : (forall i, In i is -> sim X Y n (fun m => fh m i) (fun l => f l i)) ->
    sim X Y n (fun m => foldM fh is m) (fun l => foldM f is l).
  Proof.
    induction is as [|i is IH]; intros H; [apply sim_ret|].
    apply (sim_bind X Y n (fun m => fh m i) (fun l => f l i) (fun m => foldM fh is m) (fun l => foldM f is l)).
    - apply H. now left.
    - apply IH. intros j Hj. apply H. now right.
  Qed.
  Lemma sim_get X Y n s i kh k : base s = length X -> slen s = n -> (forall v, sim X Y n (kh v) (k v)) ->
    sim X Y n (fun m => v <- hget m s i ;; kh v m) (fun l => v <- get l i ;; k v l).
  Proof.
    intros Hb Hs Hk l Hl. rewrite hget_win by congruence. destruct (get l i) as [v|]; [|split; [reflexivity|discriminate]]. exact (Hk v l Hl).
  Qed.
  (** a read elsewhere *)
  Definition sees (X Y : Mem) (n : nat) (k : Slice) (ks : list F) : Prop := forall l, length l = n -> holds (X ++ l ++ Y) k ks.
  Lemma sim_read X Y n kk ks i kh k : sees X Y n kk ks -> (forall v, sim X Y n (kh v) (k v)) ->
    sim X Y n (fun m => v <- hget m kk i ;; kh v m) (fun l => v <- get ks i ;; k v l).
  Proof.
    intros Hk H l Hl. destruct (Hk l Hl) as [_ E]. rewrite E. destruct (get ks i) as [v|]; [|split; [reflexivity|discriminate]].
    exact (H v l Hl).
  Qed.
  Lemma sim_set X Y n s i v : base s = length X -> slen s = n -> wr X n ->
    sim X Y n (fun m => wset writable m s i v) (fun l => set l i v).
  Proof.
    intros Hb Hs Hw l Hl. split; [apply wset_win; try congruence; now rewrite Hl|].
    intros l' H. unfold set in H. destruct (i <? length l)%nat; [|discriminate]. injection H as <-. now rewrite upd_length.
  Qed.

  Section Win.
    Variables (X Y : Mem) (n : nat) (s : Slice).
    Hypotheses (Hb : base s = length X) (Hs : slen s = n) (Hw : wr X n).

    Lemma HSBox_win l i : length l = n -> (i < n)%nat ->
      HSBox writable (X ++ l ++ Y) (length X + i) = Some (X ++ upd l i (SBox (nth i l 0)) ++ Y).
    Proof.
      intros Hl Hi. unfold HSBox.
      assert (G : forall l, length l = n -> pget (X ++ l ++ Y) (length X + i) = Some (nth i l 0)).
      { intros k Hk. unfold pget. rewrite get_app_mid by lia. apply get_nth. lia. }
      assert (S : forall l v, length l = n -> pset writable (X ++ l ++ Y) (length X + i) v = Some (X ++ upd l i v ++ Y)).
      { intros k v Hk. unfold pset. rewrite Hw by exact Hi. rewrite set_some by (rewrite !app_length; lia). now rewrite upd_app_mid by lia. }
      rewrite G by exact Hl.
      repeat (rewrite S by (rewrite ?upd_length; exact Hl); rewrite G by (rewrite ?upd_length; exact Hl); rewrite nth_upd_same by (rewrite ?upd_length; lia)).
      rewrite S by (rewrite ?upd_length; exact Hl). rewrite !upd_upd. reflexivity.
    Qed.
    Lemma sim_sbox i : sim X Y n (fun m => a <- addr s i ;; HSBox writable m a) (fun l => x <- get l i ;; set l i (SBox x)).
    Proof.
      intros l Hl. unfold addr. rewrite Hs, Hb. destruct (Nat.ltb_spec i n) as [H|H].
      - rewrite HSBox_win by assumption. rewrite (get_nth l i 0) by lia. rewrite set_some by lia. split; [reflexivity|].
        intros l' E. injection E as <-. now rewrite upd_length.
      - rewrite get_none by lia. split; [reflexivity|discriminate].
    Qed.
    Lemma sim_addark k ks ark : sees X Y n k ks -> sim X Y n (fun m => HAddArkAndKeys writable m s k ark) (fun l => AddArkAndKeys l ks ark).
    Proof.
      intros Hk. unfold HAddArkAndKeys, AddArkAndKeys.
      apply (sim_ext X Y n _ (fun m => foldM (fun m i =>
        s0 <- hget m s i ;; k0 <- hget m k i ;; m <- wset writable m s i (s0 + k0) ;; s0 <- hget m s i ;; wset writable m s i (s0 + ark)) (seq 0 n) m) _
        (fun l => foldM (fun l i => s0 <- get l i ;; k0 <- get ks i ;; l <- set l i (s0 + k0) ;; s0 <- get l i ;; set l i (s0 + ark)) (seq 0 n) l)).
      - intros m. now rewrite Hs.
      - intros l Hl. unfold forN. now rewrite Hl.
      - apply sim_fold. intros i _. apply sim_get; [exact Hb|exact Hs|]. intros v. apply sim_read; [exact Hk|]. intros w.
        apply (sim_bind X Y n (fun m => wset writable m s i (v + w)) _ (fun m => s0 <- hget m s i ;; wset writable m s i (s0 + ark))).
        + now apply sim_set.
        + apply (sim_get X Y n s i (fun s0 m => wset writable m s i (s0 + ark)) (fun s0 l => set l i (s0 + ark))); [exact Hb|exact Hs|].
          intros x. now apply sim_set.
    Qed.
    Lemma sim_full : sim X Y n (fun m => HFullRound writable m s) (fun l => FullRound l).
    Proof.
      unfold HFullRound, FullRound.
      apply (sim_ext X Y n _ (fun m => foldM (fun m i => a <- addr s i ;; HSBox writable m a) (seq 0 n) m) _
        (fun l => foldM (fun l i => x <- get l i ;; set l i (SBox x)) (seq 0 n) l)).
      - intros m. now rewrite Hs.
      - intros l Hl. unfold forN. now rewrite Hl.
      - apply sim_fold. intros i _. apply sim_sbox.
    Qed.
    Lemma sim_partial : sim X Y n (fun m => HPartialRound writable m s) (fun l => PartialRound l).
    Proof. exact (sim_sbox 0). Qed.
    Lemma sim_recombine o os k ks : sees X Y n o os -> sees X Y n k ks ->
      sim X Y n (fun m => HRecombineState writable m s o k) (fun l => recombine l os ks).
    Proof.
      intros Ho Hk. unfold HRecombineState, recombine.
      apply (sim_ext X Y n _ (fun m => foldM (fun m i =>
        s0 <- hget m s i ;; k0 <- hget m o i ;; m <- wset writable m s i (s0 + k0) ;; s0 <- hget m s i ;; b <- hget m k i ;; wset writable m s i (s0 + b)) (seq 0 n) m) _
        (fun l => foldM (fun l i => s0 <- get l i ;; k0 <- get os i ;; l <- set l i (s0 + k0) ;; s0 <- get l i ;; b <- get ks i ;; set l i (s0 + b)) (seq 0 n) l)).
      - intros m. now rewrite Hs.
      - intros l Hl. unfold forN. now rewrite Hl.
      - apply sim_fold. intros i _. apply sim_get; [exact Hb|exact Hs|]. intros v. apply sim_read; [exact Ho|]. intros w.
        apply (sim_bind X Y n (fun m => wset writable m s i (v + w)) _ (fun m => s0 <- hget m s i ;; b <- hget m k i ;; wset writable m s i (s0 + b))).
        + now apply sim_set.
        + apply (sim_get X Y n s i (fun s0 m => b <- hget m k i ;; wset writable m s i (s0 + b)) (fun s0 l => b <- get ks i ;; set l i (s0 + b))); [exact Hb|exact Hs|].
          intros x. apply (sim_read X Y n k ks i (fun b m => wset writable m s i (x + b)) (fun b l => set l i (x + b)) Hk). intros b. now apply sim_set.
    Qed.
    Lemma sim_circular : sim X Y n (fun m => HCircularPermutation writable m s) (fun l => CircularPermutation l).
    Proof.
      unfold HCircularPermutation, CircularPermutation.
      apply (sim_ext X Y n _ (fun m => foldM (fun m i =>
        im <- gosub i 1 ;; x <- hget m s i ;; y <- hget m s im ;; m <- wset writable m s im x ;; wset writable m s i y) (seq 1 (n - 1)) m) _
        (fun l => foldM (fun l i => im <- gosub i 1 ;; x <- get l i ;; y <- get l im ;; l <- set l im x ;; set l i y) (seq 1 (n - 1)) l)).
      - intros m. now rewrite Hs.
      - intros l Hl. unfold forRange. now rewrite Hl.
      - apply sim_fold. intros i _. destruct (gosub i 1) as [im|]; [|intros l Hl; split; [reflexivity|discriminate]].
        apply (sim_get X Y n s i (fun x m => y <- hget m s im ;; m <- wset writable m s im x ;; wset writable m s i y)
          (fun x l => y <- get l im ;; l <- set l im x ;; set l i y)); [exact Hb|exact Hs|]. intros x.
        apply (sim_get X Y n s im (fun y m => m <- wset writable m s im x ;; wset writable m s i y) (fun y l => l <- set l im x ;; set l i y)); [exact Hb|exact Hs|].
        intros y. apply (sim_bind X Y n (fun m => wset writable m s im x) _ (fun m => wset writable m s i y)); now apply sim_set.
    Qed.
  End Win.

  (** cells from [lo] on are writable *)
  Definition above (lo : nat) : Prop := forall a, (lo <= a)%nat -> writable a = true.
  Lemma above_wr lo X n : above lo -> (lo <= length X)%nat -> wr X n.
  Proof. intros H Hl i _. apply H. lia. Qed.

  Lemma HAppendNew_ok M s l : holds M s l -> above (length M) ->
    HAppendNew writable M s = Some (M ++ l, MkSlice (length M) (slen s) (slen s)).
  Proof.
    intros [Hl Hh] Ha. unfold HAppendNew, halloc.
    set (d := MkSlice (length M) (slen s) (slen s)).
    assert (Hsim : forall k, (k <= slen s)%nat ->
      foldM (fun m i => x <- hget m s i ;; wset writable m d i x) (seq 0 k) (M ++ repeat 0 (slen s)) = Some (M ++ firstn k l ++ repeat 0 (slen s - k))).
    { induction k as [|k IH]; intros Hk; [simpl; now rewrite Nat.sub_0_r|].
      rewrite seq_S, foldM_app, IH by lia. cbn [foldM]. rewrite Nat.add_0_l.
      rewrite (proj2 (holds_app M (firstn k l ++ repeat 0 (slen s - k)) s l (conj Hl Hh))).
      assert (E : nth_error l k = Some (nth k l 0)) by (apply nth_error_nth'; lia). unfold get. rewrite E.
      rewrite <- (app_nil_r (firstn k l ++ _)).
      rewrite wset_win; [|reflexivity|rewrite app_length, firstn_length, repeat_length; simpl; lia|now apply (above_wr (length M))].
      rewrite set_some by (rewrite app_length, firstn_length, repeat_length; lia).
      replace k with (length (firstn k l) + 0)%nat at 3 by (rewrite firstn_length; lia). rewrite upd_app_r.
      rewrite (firstn_snoc l k _ E). replace (slen s - k)%nat with (S (slen s - S k)) by lia. cbn [repeat upd].
      now rewrite app_nil_r, <- app_assoc. }
    unfold forN. rewrite Hsim by lia. rewrite Nat.sub_diag, app_nil_r. rewrite <- Hl, firstn_all. reflexivity.
  Qed.

  Lemma sees_more X Y E n k ks : sees X Y n k ks -> sees X (Y ++ E) n k ks.
  Proof. intros H l Hl. rewrite !app_assoc. apply holds_app. rewrite <- app_assoc. now apply H. Qed.
  Lemma sees_after X Y : forall k ks n, holds X k ks -> sees X Y n k ks.
  Proof. intros k ks n H l _. now apply holds_app. Qed.

  (** UpdateInplace of GMimc *)
  Lemma gmimc_update_ok X Y l s arks As nR k ks : base s = length X -> slen s = length l -> wr X (length l) ->
    above (length (X ++ l ++ Y)) -> sees X Y (length l) arks As -> sees X Y (length l) k ks ->
    HGMimcUpdate writable (X ++ l ++ Y) arks nR s k = (l' <- GMimcUpdate As nR l ks ;; Some (X ++ l' ++ Y ++ l)) /\
    (forall l', GMimcUpdate As nR l ks = Some l' -> length l' = length l).
  Proof.
    intros Hb Hs Hw Ha HA Hk. unfold HGMimcUpdate. rewrite (HAppendNew_ok _ s l (holds_win X l Y s Hb Hs) Ha). rewrite <- !app_assoc.
    set (o := MkSlice _ _ _).
    assert (Ho : sees X (Y ++ l) (length l) o l).
    { intros l0 Hl0. replace (X ++ l0 ++ Y ++ l) with ((X ++ l0 ++ Y) ++ l ++ []) by (now rewrite app_nil_r, <- !app_assoc).
      apply holds_win; [|exact Hs]. simpl. rewrite !app_length. lia. }
    assert (HA' := sees_more X Y l _ _ _ HA). assert (Hk' := sees_more X Y l _ _ _ Hk).
    assert (Hsim : sim X (Y ++ l) (length l) (fun m => m <- forN nR (fun m i => ark <- hget m arks i ;; m <- HAddArkAndKeys writable m s k ark ;;
        m <- HPartialRound writable m s ;; HCircularPermutation writable m s) m ;; HRecombineState writable m s o k)
      (fun st => st <- gmimcRounds As nR st ks ;; recombine st l ks)).
    { apply (sim_bind X (Y ++ l) (length l) (fun m => forN nR _ m) (fun st => gmimcRounds As nR st ks) (fun m => HRecombineState writable m s o k)).
      - apply sim_fold. intros i _.
        apply (sim_read X (Y ++ l) (length l) arks As i (fun ark m => m <- HAddArkAndKeys writable m s k ark ;; m <- HPartialRound writable m s ;; HCircularPermutation writable m s)
          (fun ark l => l <- AddArkAndKeys l ks ark ;; l <- PartialRound l ;; CircularPermutation l) HA'). intros ark.
        apply (sim_bind X (Y ++ l) (length l) (fun m => HAddArkAndKeys writable m s k ark) _ (fun m => m <- HPartialRound writable m s ;; HCircularPermutation writable m s)).
        + now apply sim_addark.
        + apply (sim_bind X (Y ++ l) (length l) (fun m => HPartialRound writable m s) _ (fun m => HCircularPermutation writable m s)).
          * now apply sim_partial.
          * now apply sim_circular.
      - now apply sim_recombine. }
    exact (Hsim l eq_refl).
  Qed.

  (** MatrixMultiplication *)
  Definition rowdot (vec row : list F) : option F :=
    foldM (fun res (je : nat * F) => let '(j, el) := je in v <- get vec j ;; Some (res + v * el)) (combine (seq 0 (length row)) row) 0.

  Lemma dot_loop M X l Y col cs vec vs (res : Slice) i : M = X ++ l ++ Y -> base res = length X -> slen res = length l -> wr X (length l) ->
    holds X col cs -> holds X vec vs -> (i < length l)%nat -> nth i l 0 = 0 ->
    forN (slen col) (fun m j => el <- hget m col j ;; tmp <- hget m vec j ;; let tmp := tmp * el in r <- hget m res i ;; wset writable m res i (r + tmp)) M
    = (v <- rowdot vs cs ;; Some (X ++ upd l i v ++ Y)).
  Proof.
    intros -> Hb Hl Hw Hc Hv Hi Hz. unfold rowdot. rewrite <- (proj1 Hc).
    assert (H : forall is (cs' : list F) a acc, acc = upd l i a -> is = seq (length cs - length cs') (length cs') -> (length cs' <= length cs)%nat ->
      skipn (length cs - length cs') cs = cs' ->
      foldM (fun m j => el <- hget m col j ;; tmp <- hget m vec j ;; let tmp := tmp * el in r <- hget m res i ;; wset writable m res i (r + tmp)) is (X ++ acc ++ Y)
      = (v <- foldM (fun res (je : nat * F) => let '(j, el) := je in v <- get vs j ;; Some (res + v * el)) (combine is cs') a ;; Some (X ++ upd l i v ++ Y))).
    { induction is as [|j is IH]; intros cs' a acc -> Eis Hlen Hsk.
      - simpl. reflexivity.
      - destruct cs' as [|c cs']; [discriminate|]. simpl in Eis. injection Eis as Ej Eis. simpl combine. cbn [foldM].
        assert (Hj : get cs j = Some c).
        { subst j. rewrite <- (firstn_skipn (length cs - S (length cs')) cs) at 1. simpl length in Hsk. rewrite Hsk.
          unfold get. rewrite nth_error_app2 by (rewrite firstn_length; simpl in Hlen; lia).
          rewrite firstn_length. simpl in Hlen. replace (_ - _)%nat with 0%nat by lia. reflexivity. }
        rewrite (proj2 (holds_app X (upd l i a ++ Y) col cs Hc)), Hj.
        rewrite (proj2 (holds_app X (upd l i a ++ Y) vec vs Hv)). destruct (get vs j) as [x|]; [|reflexivity]. cbv zeta.
        rewrite hget_win by (rewrite ?upd_length; assumption). rewrite get_upd_same by exact Hi.
        rewrite wset_win by (rewrite ?upd_length; assumption). rewrite set_some by (rewrite upd_length; exact Hi). rewrite upd_upd.
        apply IH; [reflexivity| | |].
        + rewrite Eis. f_equal. simpl in Hlen. lia.
        + simpl in Hlen. lia.
        + simpl length in Hsk. simpl in Hlen. replace (length cs - length cs')%nat with (S (length cs - S (length cs'))) by lia.
          now rewrite skipn_tl, Hsk. }
    assert (E0 : l = upd l i 0).
    { rewrite <- Hz. clear -Hi. revert i Hi. induction l as [|a l IH]; intros [|i] Hi; simpl in *; try lia; auto. rewrite <- IH by lia. reflexivity. }
    unfold forN. apply (H (seq 0 (length cs)) cs 0 l E0).
    - now rewrite Nat.sub_diag.
    - lia.
    - now rewrite Nat.sub_diag.
  Qed.
End L.
