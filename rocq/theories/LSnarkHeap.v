(** The memory-level gadgets of MSnarkHeap.v build the constraints of those of MSnark.v and leave existing memory alone. *)
From Coq Require Import List Arith Lia Bool.
From Verif Require Import Field Go MHash MHeap MGkrHeap MSnark SpecSnark SpecFit LFit SpecSnarkHeap MSnarkHeap.
Import ListNotations.

(* ------------------------------------------------------------------ slices *)

Lemma vext_refl m : vext m m.
Proof. exists []. rewrite app_nil_r. reflexivity. Qed.
Lemma vext_trans m m1 m2 : vext m m1 -> vext m1 m2 -> vext m m2.
Proof. intros [x ->] [y ->]. exists (x ++ y). rewrite app_assoc. reflexivity. Qed.
Lemma vext_app m x : vext m (m ++ x).
Proof. exists x. reflexivity. Qed.
Lemma vwf_ext m m' s : vext m m' -> vwf m s -> vwf m' s.
Proof. intros [x ->] [H1 H2]. split; [exact H1|]. rewrite app_length. lia. Qed.
Lemma vtab_app m x s : vwf m s -> vtab (m ++ x) s = vtab m s.
Proof.
  intros [H1 H2]. unfold vtab. rewrite skipn_app, firstn_app, skipn_length.
  replace (slen s - (length m - base s)) with 0 by lia. rewrite firstn_O, app_nil_r. reflexivity.
Qed.
Lemma vtab_ext m m' s : vext m m' -> vwf m s -> vtab m' s = vtab m s.
Proof. intros [x ->]. apply vtab_app. Qed.
Lemma vtab_length m s : vwf m s -> length (vtab m s) = slen s.
Proof. intros [H1 H2]. unfold vtab. rewrite firstn_length, skipn_length. lia. Qed.

Lemma nth_error_firstn' {A} n : forall (l : list A) i, i < n -> nth_error (firstn n l) i = nth_error l i.
Proof. induction n as [|n IH]; intros [|x l] [|i] H; simpl; try lia; try reflexivity. apply IH. lia. Qed.
Lemma nth_error_skipn' {A} n : forall (l : list A) i, nth_error (skipn n l) i = nth_error l (n + i).
Proof. induction n as [|n IH]; intros [|x l] i; simpl; try reflexivity; [destruct i; reflexivity|apply IH]. Qed.

Lemma vget_tab m s i : vwf m s -> vget m s i = get (vtab m s) i.
Proof.
  intros W. unfold vget. destruct (Nat.ltb_spec i (slen s)).
  - unfold vtab, get. rewrite nth_error_firstn' by assumption. rewrite nth_error_skipn'. reflexivity.
  - symmetry. apply get_none. rewrite vtab_length by assumption. assumption.
Qed.

(** the slice of a fresh array *)
Lemma vtab_new m t k c : k <= length t -> vtab (m ++ t) (MkSlice (length m) k c) = firstn k t.
Proof. intros H. unfold vtab. cbn [slen base]. rewrite skipn_app, skipn_all, Nat.sub_diag. reflexivity. Qed.
Lemma vwf_new m t k c : k <= c -> c <= length t -> vwf (m ++ t) (MkSlice (length m) k c).
Proof. intros. split; cbn; [assumption|]. rewrite app_length. lia. Qed.
Lemma vtab_mid m t j n c : n = length t -> vtab (m ++ t ++ j) (MkSlice (length m) n c) = t.
Proof. intros ->. rewrite vtab_new by (rewrite app_length; lia). rewrite firstn_app, Nat.sub_diag, firstn_O, app_nil_r. apply firstn_all. Qed.

Lemma upd_app {A} (m t : list A) i v : upd (m ++ t) (length m + i) v = m ++ upd t i v.
Proof. induction m; simpl; [reflexivity|]. rewrite IHm. reflexivity. Qed.
Lemma upd_app1 {A} (t j : list A) i v : i < length t -> upd (t ++ j) i v = upd t i v ++ j.
Proof. revert i. induction t as [|x t IH]; intros [|i] H; simpl in *; try lia; [reflexivity|]. rewrite IH by lia. reflexivity. Qed.
Lemma upd_at {A} (b : list A) y q v k : length b = k -> upd (b ++ y :: q) k v = b ++ v :: q.
Proof. intros <-. induction b as [|x b IH]; [reflexivity|]. simpl. rewrite IH. reflexivity. Qed.
Lemma firstn_upd {A} n : forall (t : list A) i v, firstn n (upd t i v) = upd (firstn n t) i v.
Proof. induction n as [|n IH]; intros [|x t] [|i] v; simpl; try reflexivity. rewrite IH. reflexivity. Qed.
Lemma vset_new m t j k c i v : i < k -> k <= length t -> vset (m ++ t ++ j) (MkSlice (length m) k c) i v = Some (m ++ upd t i v ++ j).
Proof.
  intros H1 H2. unfold vset. cbn [slen base]. destruct (Nat.ltb_spec i k); [|lia].
  rewrite set_some by (rewrite !app_length; lia). rewrite upd_app, upd_app1 by lia. reflexivity.
Qed.

Lemma vwf_slice m s a b s' : vwf m s -> hslice s a b = Some s' -> vwf m s'.
Proof.
  intros [H1 H2]. unfold hslice. destruct (Nat.leb_spec a b); cbn [andb]; [|discriminate]. destruct (Nat.leb_spec b (scap s)); [|discriminate].
  intros E. injection E as <-. split; cbn; lia.
Qed.
Lemma skipn_add {A} a b (l : list A) : skipn a (skipn b l) = skipn (b + a) l.
Proof. revert l. induction b as [|b IH]; intros [|x l]; simpl; try reflexivity; [apply skipn_nil|apply IH]. Qed.
Lemma slice_ok m s a b : vwf m s -> b <= slen s -> match hslice s a b with
  | Some s' => slice (vtab m s) a b = Some (vtab m s') /\ vwf m s'
  | None => slice (vtab m s) a b = None end.
Proof.
  intros W Hb. assert (W' := W). destruct W' as [W1 W2]. destruct (hslice s a b) as [s'|] eqn:E.
  - split; [|eapply vwf_slice; eassumption]. unfold hslice in E. destruct (Nat.leb_spec a b); cbn [andb] in E; [|discriminate].
    destruct (Nat.leb_spec b (scap s)); [|discriminate]. injection E as <-. rewrite slice_some by (try rewrite vtab_length; assumption).
    f_equal. unfold vtab. cbn [slen base]. rewrite skipn_firstn_comm, firstn_firstn, skipn_add. f_equal. lia.
  - unfold hslice in E. unfold slice. destruct (Nat.leb_spec a b); cbn [andb] in *; [|reflexivity]. destruct (Nat.leb_spec b (scap s)); [discriminate|].
    rewrite vtab_length by assumption. destruct (Nat.leb_spec b (slen s)); [lia|reflexivity].
Qed.

Section L.
  Context {F : Field}.
  Variable grow : nat -> nat -> nat.
  Variable Arks : list F.

  (** In memory [m], of which the part [m0] is kept, [h] does what [s] does, with results related by [R]. *)
  Definition refines {A B} (m0 m : list nat) (h : HM (F:=F) A) (s : M (F:=F) B) (R : list nat -> A -> B -> Prop) : Prop :=
    vext m0 m -> forall cs, match s cs with
    | None => h m cs = None
    | Some (b, cs') => exists a m', h m cs = Some (a, m', cs') /\ vext m0 m' /\ R m' a b
    end.

  Lemma ref_bind {A B A' B'} m0 m (h : HM A) (s : M B) R (k : A -> HM A') (k' : B -> M B') R' :
    refines m0 m h s R -> (forall m' a b, vext m0 m' -> R m' a b -> refines m0 m' (k a) (k' b) R') ->
    refines m0 m (hbind h k) (mbind s k') R'.
  Proof.
    intros H1 H2 X cs. specialize (H1 X cs). unfold hbind, mbind. destruct (s cs) as [[b cs']|].
    - destruct H1 as (a & m' & -> & X' & HR). apply (H2 m' a b X' HR X').
    - rewrite H1. reflexivity.
  Qed.

  Lemma ref_weaken {A B} m0 m (h : HM A) (s : M B) (R : list nat -> A -> B -> Prop) :
    refines m m h s (fun m' a b => vext m m' -> R m' a b) -> refines m0 m h s R.
  Proof.
    intros H X cs. specialize (H (vext_refl m) cs). destruct (s cs) as [[b cs']|]; [|exact H].
    destruct H as (a & m' & E & X' & HR). exists a, m'. split; [exact E|]. split; [eapply vext_trans; eassumption|]. apply HR. exact X'.
  Qed.

  Lemma ref_conseq {A B} m0 m (h : HM A) (s : M B) (R R' : list nat -> A -> B -> Prop) :
    refines m0 m h s R -> (forall m' a b, vext m0 m' -> R m' a b -> R' m' a b) -> refines m0 m h s R'.
  Proof.
    intros H HI X cs. specialize (H X cs). destruct (s cs) as [[b cs']|]; [|exact H].
    destruct H as (a & m' & E & X' & HR). exists a, m'. auto.
  Qed.

  Lemma ref_ret {A B} m0 m (a : A) (b : B) (R : list nat -> A -> B -> Prop) : R m a b -> refines m0 m (hret a) (ret b) R.
  Proof. intros H X cs. exists a, m. auto. Qed.

  Lemma ref_gadget {A} m0 m (g : M A) : refines m0 m (gadget g) g (fun m' a b => m' = m /\ a = b).
  Proof. intros X cs. unfold gadget. destruct (g cs) as [[a cs']|]; [|reflexivity]. exists a, m. auto. Qed.

  Lemma ref_lift {A} m0 m (o : option A) : refines m0 m (hlift o) (lift o) (fun m' a b => m' = m /\ a = b).
  Proof. intros X cs. unfold hlift, lift. destruct o as [a|]; [|reflexivity]. exists a, m. auto. Qed.

  Lemma ref_load m0 m s i l : vtab m s = l -> vwf m s -> refines m0 m (load s i) (lift (get l i)) (fun m' a b => m' = m /\ a = b).
  Proof. intros <- W X cs. unfold load, lift. rewrite vget_tab by assumption. destruct (get (vtab m s) i) as [v|]; [|reflexivity]. exists v, m. auto. Qed.

  (** memory steps without counterpart in the list model *)
  Lemma ref_mem {A A' B'} m0 m (h : HM A) a m1 (k : A -> HM A') (s : M B') R :
    (forall cs, h m cs = Some (a, m1, cs)) -> vext m0 m1 -> refines m0 m1 (k a) s R -> refines m0 m (hbind h k) s R.
  Proof.
    intros E X1 H X cs. specialize (H X1 cs). unfold hbind. rewrite E. exact H.
  Qed.

  Lemma ref_fold {A B C} (I : list nat -> A -> B -> Prop) m0 (f : A -> C -> HM A) (g : B -> C -> M B) l : forall m a b,
    I m a b -> (forall m' a b c, In c l -> vext m0 m' -> I m' a b -> refines m0 m' (f a c) (g b c) I) ->
    refines m0 m (hfold f l a) (mfold g l b) I.
  Proof.
    induction l as [|c l IH]; intros m a b H1 H2; cbn [hfold mfold].
    - apply ref_ret. exact H1.
    - intros X. revert X. apply (ref_bind m0 m (f a c) (g b c) I).
      + intros X. apply H2; [left; reflexivity|exact X|exact H1|exact X].
      + intros m' a' b' X' HI. apply IH; [exact HI|]. intros. apply H2; [right; assumption|assumption|assumption].
  Qed.

  (* ---------------------------------------------------------------- multilinear.go *)

  Lemma deep_copy m table cs : vwf m table ->
    VDeepCopy (F:=F) table m cs = Some (MkSlice (length m) (slen table) (slen table), m ++ vtab m table, cs).
  Proof.
    intros W. unfold VDeepCopy, hbind, make. set (n := slen table). set (d := MkSlice (length m) n n).
    assert (L : length (vtab m table) = n) by (apply vtab_length; exact W).
    assert (H : forall k, k <= n -> hfold (F:=F) (fun _ i => hbind (load table i) (fun x => store d i x)) (seq 0 k) tt (m ++ repeat 0 n) cs =
      Some (tt, m ++ firstn k (vtab m table) ++ repeat 0 (n - k), cs)).
    { assert (FA : forall (f : unit -> nat -> HM (F:=F) unit) l1 l2 m cs, hfold f (l1 ++ l2) tt m cs = ('(a, m, cs) <- hfold f l1 tt m cs ;; hfold f l2 a m cs)).
      { clear. intros f. induction l1 as [|x l1 IH]; intros l2 m cs; [reflexivity|]. cbn [app hfold]. unfold hbind. destruct (f tt x m cs) as [[[[] m'] cs']|]; [|reflexivity]. apply IH. }
      induction k as [|k IH]; intros Hk. { cbn [seq hfold firstn]. rewrite Nat.sub_0_r. reflexivity. }
      rewrite seq_S, FA, IH by lia. cbn [hfold]. unfold hbind at 1. unfold hbind at 1. unfold load. cbn [Nat.add].
      assert (X : vget (m ++ firstn k (vtab m table) ++ repeat 0 (n - k)) table k = Some (nth k (vtab m table) 0)).
      { rewrite vget_tab by (eapply vwf_ext; [apply vext_app|exact W]). rewrite vtab_app by exact W. apply get_nth. lia. }
      rewrite X. unfold store, d.
      pose proof (vset_new m (firstn k (vtab m table) ++ repeat 0 (n - k)) [] n n k (nth k (vtab m table) 0)) as V. rewrite !app_nil_r in V.
      rewrite V; [|lia|rewrite app_length, firstn_length, repeat_length; lia].
      unfold hret. do 3 f_equal. f_equal. clear - L Hk. revert n L Hk. generalize (vtab m table). intros t n <-. revert t. induction k as [|k IH]; intros [|x t] H; simpl in *; try lia.
      - rewrite Nat.sub_0_r. reflexivity.
      - f_equal. apply IH. lia. }
    rewrite H by lia. rewrite <- L at 1. rewrite firstn_all, Nat.sub_diag, app_nil_r. reflexivity.
  Qed.

  (** Fold on a fresh array [t] whose first [k] entries are the table *)
  Lemma ref_vfold m0 m t k x : k <= length t -> vext m0 m ->
    refines m0 (m ++ t) (VFold (MkSlice (length m) k (length t)) x) (SFold (firstn k t) x)
      (fun m' a b => exists t' k', m' = m ++ t' /\ length t' = length t /\ k' <= length t' /\ a = MkSlice (length m) k' (length t') /\ b = firstn k' t').
  Proof.
    intros Hk X0. unfold VFold, SFold. cbn [slen]. assert (LK : length (firstn k t) = k) by (rewrite firstn_length; lia). rewrite LK.
    apply (ref_bind m0 (m ++ t) _ _ (fun m' _ l => exists t', m' = m ++ t' /\ length t' = length t /\ l = firstn k t')).
    - apply ref_fold; [exists t; auto|]. intros m' [] b i Hi X (t' & -> & Lt & ->).
      assert (W : vwf (m ++ t') (MkSlice (length m) k (length t))) by (apply vwf_new; lia).
      assert (T : vtab (m ++ t') (MkSlice (length m) k (length t)) = firstn k t') by (apply vtab_new; lia).
      eapply ref_bind; [apply ref_load; eassumption|]. intros m1 top top' _ [-> <-].
      eapply ref_bind; [apply ref_load; eassumption|]. intros m1 bot bot' _ [-> <-].
      eapply ref_bind; [apply ref_gadget|]. intros m1 v1 v1' _ [-> <-].
      eapply ref_bind; [apply ref_gadget|]. intros m1 v2 v2' _ [-> <-].
      eapply ref_bind; [apply ref_load; eassumption|]. intros m1 bot2 bot2' _ [-> <-].
      eapply ref_bind; [apply ref_gadget|]. intros m1 v3 v3' _ [-> <-].
      intros _ cs. unfold lift, store. destruct (Nat.lt_ge_cases i k) as [Hik|Hik].
      + rewrite set_some by (rewrite firstn_length; lia). exists tt, (m ++ upd t' i v3). split.
        { pose proof (vset_new m t' [] k (length t) i v3 Hik) as V. rewrite !app_nil_r in V. rewrite V by lia. reflexivity. }
        split; [eapply vext_trans; [exact X0|apply vext_app]|]. exists (upd t' i v3). rewrite upd_length, firstn_upd. auto.
      + rewrite set_none by (rewrite firstn_length; lia). unfold vset. cbn [slen]. destruct (Nat.ltb_spec i k); [lia|reflexivity].
    - intros m' [] b _ (t' & -> & Lt & ->). intros _ cs. unfold hlift, lift, hslice. cbn [scap base].
      assert (k / 2 <= k) by (apply Nat.div_le_upper_bound; lia).
      rewrite slice_some by (try rewrite firstn_length; lia). destruct (Nat.leb_spec 0 (k / 2)); [|lia]. destruct (Nat.leb_spec (k / 2) (length t)); [|lia]. cbn [andb].
      do 2 eexists. split; [reflexivity|]. split; [eapply vext_trans; [exact X0|apply vext_app]|]. exists t', (k / 2). rewrite !Nat.sub_0_r, Nat.add_0_r, Lt.
      split; [reflexivity|]. split; [reflexivity|]. split; [lia|]. split; [reflexivity|]. cbn [skipn]. rewrite firstn_firstn, Nat.min_l by assumption. reflexivity.
  Qed.

  Lemma mfold_seq {A} (f : A -> nat -> M (F:=F) A) (xs : list nat) : forall a cs,
    mfold f xs a cs = mfold (fun a i => mbind (lift (get xs i)) (fun x => f a x)) (seq 0 (length xs)) a cs.
  Proof.
    intros a cs. assert (H : forall ys zs a cs, mfold f zs a cs = mfold (fun a i => mbind (lift (get (ys ++ zs) i)) (fun x => f a x)) (seq (length ys) (length zs)) a cs).
    { clear. intros ys zs. revert ys. induction zs as [|z zs IH]; intros ys a cs; [reflexivity|]. cbn [mfold length seq]. unfold mbind at 1 2 3. unfold lift at 1.
      unfold get at 1. rewrite nth_error_app2, Nat.sub_diag by lia. cbn [nth_error]. destruct (f a z cs) as [[a' cs']|]; [|reflexivity].
      rewrite (IH (ys ++ [z])). rewrite app_length. cbn [length]. rewrite Nat.add_1_r, <- app_assoc. reflexivity. }
    apply (H []).
  Qed.

  Lemma ref_eq {A B} m0 m (h : HM A) (s s' : M B) R : (forall cs, s cs = s' cs) -> refines m0 m h s' R -> refines m0 m h s R.
  Proof. intros E H X cs. rewrite E. apply H. exact X. Qed.

  Lemma ref_eval m0 m table xs t x : vwf m table -> vwf m xs -> vtab m table = t -> vtab m xs = x ->
    refines m0 m (VEval table xs) (SEval t x) (fun m' a b => vext m m' /\ a = b).
  Proof.
    intros W1 W2 <- <-. apply ref_weaken. unfold VEval, SEval.
    assert (LT : length (vtab m table) = slen table) by (apply vtab_length; exact W1).
    eapply ref_mem; [intros cs; apply deep_copy; exact W1|apply vext_app|].
    apply (ref_bind m (m ++ vtab m table) _ _
      (fun m' a b => exists t' k', m' = m ++ t' /\ length t' = length (vtab m table) /\ k' <= length t' /\ a = MkSlice (length m) k' (length t') /\ b = firstn k' t')).
    - eapply ref_eq; [intros cs; apply mfold_seq|]. rewrite vtab_length by exact W2. apply ref_fold.
      + exists (vtab m table), (slen table). rewrite LT. repeat split; [lia|]. rewrite <- LT, firstn_all. reflexivity.
      + intros m' a b i Hi X (t' & k' & -> & L1 & L2 & -> & ->).
        eapply ref_bind; [apply ref_load; [apply vtab_app; exact W2|eapply vwf_ext; [apply vext_app|exact W2]]|]. intros m1 v v' _ [-> <-].
        eapply ref_conseq; [apply ref_vfold; [exact L2|apply vext_refl]|]. intros m1 a b X1 (t'' & k'' & -> & E1 & E2 & -> & ->). exists t'', k''. rewrite <- L1. auto.
    - intros m' a b X (t' & k' & -> & L1 & L2 & -> & ->).
      eapply ref_conseq; [apply ref_load; [apply vtab_new; exact L2|apply vwf_new; lia]|]. intros m1 v v' X1 [-> <-] X2. split; [exact X2|reflexivity].
  Qed.

  Lemma mmap_app {A B} (f : A -> M (F:=F) B) l1 l2 cs : mmap f (l1 ++ l2) cs = ('(b1, cs) <- mmap f l1 cs ;; '(b2, cs) <- mmap f l2 cs ;; Some (b1 ++ b2, cs)).
  Proof.
    revert cs. induction l1 as [|a l1 IH]; intros cs; cbn [app mmap].
    - unfold ret. cbv beta iota. destruct (mmap f l2 cs) as [[]|]; reflexivity.
    - unfold mbind. destruct (f a cs) as [[b cs']|]; [|reflexivity]. rewrite IH. destruct (mmap f l1 cs') as [[b1 cs1]|]; [|reflexivity]. unfold ret.
      destruct (mmap f l2 cs1) as [[b2 cs2]|]; reflexivity.
  Qed.

  (** filling a fresh array in a loop *)
  Lemma ref_fill m (h : nat -> HM nat) (g : nat -> M (F:=F) nat) n :
    (forall i m', i < n -> vext m m' -> refines m' m' (h i) (g i) (fun _ a b => a = b)) ->
    refines m (m ++ repeat 0 n) (hfold (fun _ i => hbind (h i) (fun v => store (MkSlice (length m) n n) i v)) (seq 0 n) tt) (mmap g (seq 0 n))
      (fun m' _ b => exists j, m' = m ++ b ++ j /\ length b = n).
  Proof.
    intros H _. assert (FA : forall (f : unit -> nat -> HM (F:=F) unit) l1 l2 m cs, hfold f (l1 ++ l2) tt m cs = ('(a, m, cs) <- hfold f l1 tt m cs ;; hfold f l2 a m cs)).
    { clear. intros f. induction l1 as [|x l1 IH]; intros l2 m cs; [reflexivity|]. cbn [app hfold]. unfold hbind. destruct (f tt x m cs) as [[[[] m'] cs']|]; [|reflexivity]. apply IH. }
    assert (K : forall k, k <= n -> forall cs, match mmap g (seq 0 k) cs with
      | None => hfold (fun _ i => hbind (h i) (fun v => store (MkSlice (length m) n n) i v)) (seq 0 k) tt (m ++ repeat 0 n) cs = None
      | Some (b, cs') => length b = k /\ exists j, hfold (fun _ i => hbind (h i) (fun v => store (MkSlice (length m) n n) i v)) (seq 0 k) tt (m ++ repeat 0 n) cs = Some (tt, m ++ b ++ repeat 0 (n - k) ++ j, cs')
      end).
    { induction k as [|k IH]; intros Hk cs.
      - cbn. split; [reflexivity|]. exists []. rewrite Nat.sub_0_r, app_nil_r. reflexivity.
      - rewrite seq_S, mmap_app, FA. specialize (IH ltac:(lia) cs). destruct (mmap g (seq 0 k) cs) as [[b cs']|].
        2:{ rewrite IH. reflexivity. }
        destruct IH as (Lb & j & ->). cbn [mmap hfold Nat.add]. unfold mbind, hbind, ret.
        assert (X : vext m (m ++ b ++ repeat 0 (n - k) ++ j)) by apply vext_app.
        pose proof (H k _ ltac:(lia) X (vext_refl _) cs') as HK. destruct (g k cs') as [[v cs2]|].
        2:{ rewrite HK. reflexivity. }
        destruct HK as (a & m' & -> & [j' ->] & ->). cbv beta iota. split; [rewrite app_length; cbn; lia|].
        exists (j ++ j'). unfold store.
        replace ((m ++ b ++ repeat 0 (n - k) ++ j) ++ j') with (m ++ (b ++ repeat 0 (n - k)) ++ (j ++ j')) by (rewrite !app_assoc; reflexivity).
        rewrite vset_new; [|lia|rewrite app_length, repeat_length; lia]. replace (n - k) with (S (n - S k)) by lia. cbn [repeat].
        rewrite upd_at by exact Lb. unfold hret. do 3 f_equal. rewrite <- !app_assoc. reflexivity. }
    intros cs. specialize (K n (le_n n) cs). destruct (mmap g (seq 0 n) cs) as [[b cs']|]; [|exact K].
    destruct K as (Lb & j & E). exists tt, (m ++ b ++ j). split; [rewrite E, Nat.sub_diag; reflexivity|]. split; [apply vext_app|]. exists j. auto.
  Qed.

  Lemma ref_some {A B A' B'} m0 m (a : A) (b : B) (k : A -> HM A') (k' : B -> M (F:=F) B') R :
    refines m0 m (k a) (k' b) R -> refines m0 m (hbind (hlift (Some a)) k) (mbind (lift (Some b)) k') R.
  Proof. intros H. exact H. Qed.
  Lemma ref_eqh {A B} m0 m (h h' : HM A) (s : M (F:=F) B) R : (forall m cs, h m cs = h' m cs) -> refines m0 m h' s R -> refines m0 m h s R.
  Proof. intros E H X cs. specialize (H X cs). rewrite E. exact H. Qed.
  Lemma hfold_ext {A C} (f g : A -> C -> HM (F:=F) A) l : (forall a c m cs, In c l -> f a c m cs = g a c m cs) -> forall a m cs, hfold f l a m cs = hfold g l a m cs.
  Proof.
    induction l as [|c l IH]; intros H a m cs; [reflexivity|]. cbn [hfold]. unfold hbind. rewrite H by (left; reflexivity).
    destruct (g a c m cs) as [[[a' m'] cs']|]; [|reflexivity]. apply IH. intros. apply H. right. assumption.
  Qed.
  Lemma hbind_assoc {A B C} (h : HM (F:=F) A) (k : A -> HM B) (k' : B -> HM C) m cs : hbind (hbind h k) k' m cs = hbind h (fun a => hbind (k a) k') m cs.
  Proof. unfold hbind. destruct (h m cs) as [[[a m'] cs']|]; reflexivity. Qed.

  Lemma ref_eval_mixed m0 m table qL qR qPrime t l r p : vwf m table -> vwf m qL -> vwf m qR -> vwf m qPrime ->
    vtab m table = t -> vtab m qL = l -> vtab m qR = r -> vtab m qPrime = p ->
    refines m0 m (VEvalMixed table qL qR qPrime) (SEvalMixed t l r p) (fun m' a b => vext m m' /\ a = b).
  Proof.
    intros W1 W2 W3 W4 <- <- <- <-. apply ref_weaken. unfold VEvalMixed, SEvalMixed. rewrite !vtab_length by assumption. set (n := 2 ^ slen qL).
    assert (NZ : n <> 0) by (apply Nat.pow_nonzero; discriminate). rewrite godiv_some by lia. apply ref_some. set (cz := slen table / n).
    assert (HC : n * cz <= slen table) by (apply Nat.mul_div_le; exact NZ).
    eapply ref_mem; [intros cs; reflexivity|apply vext_app|].
    apply (ref_bind m _ _ _ (fun m' _ b => exists j, m' = m ++ b ++ j /\ length b = n)).
    - eapply ref_eqh. { intros m' cs. apply (hfold_ext _ (fun _ i => hbind (hbind (hlift (hslice table (i * cz) ((i + 1) * cz))) (fun multlin => VEval multlin qPrime)) (fun v => store (MkSlice (length m) n n) i v))).
        intros. rewrite hbind_assoc. reflexivity. }
      apply ref_fill. intros i m' Hi X. assert (HI : (i + 1) * cz <= slen table) by nia.
      assert (W1' : vwf m' table) by (eapply vwf_ext; eassumption). assert (T1 : vtab m' table = vtab m table) by (apply vtab_ext; assumption).
      pose proof (slice_ok m' table (i * cz) ((i + 1) * cz) W1' HI) as S. rewrite T1 in S. destruct (hslice table (i * cz) ((i + 1) * cz)) as [s|].
      + destruct S as [-> WS]. apply ref_some. eapply ref_conseq; [apply ref_eval; [exact WS|eapply vwf_ext; eassumption|reflexivity|apply vtab_ext; assumption]|].
        intros m1 a b _ [_ E]. exact E.
      + rewrite S. intros _ cs. reflexivity.
    - intros m' [] b X (j & -> & Lb).
      assert (WI : vwf (m ++ b ++ j) (MkSlice (length m) n n)) by (apply vwf_new; [|rewrite app_length]; lia).
      eapply ref_bind; [apply (ref_eval m (m ++ b ++ j) (MkSlice (length m) n n) qL); [exact WI|eapply vwf_ext; [exact X|exact W2]|apply vtab_mid; congruence|apply vtab_ext; assumption]|].
      intros m1 vL vL' X1 [X1' <-].
      eapply ref_bind; [apply (ref_eval m m1 (MkSlice (length m) n n) qR);
        [eapply vwf_ext; [exact X1'|exact WI]|eapply vwf_ext; [exact X1|exact W3]|rewrite (vtab_ext _ _ _ X1' WI); apply vtab_mid; congruence|apply vtab_ext; assumption]|].
      intros m2 vR vR' X2 [X2' <-]. apply ref_ret. intros X3. split; [exact X3|reflexivity].
  Qed.

  (* ---------------------------------------------------------------- append *)

  Lemma vtab_nil m : vtab m nilSlice = [].
  Proof. reflexivity. Qed.
  Lemma vwf_nil m : vwf m nilSlice.
  Proof. split; cbn; lia. Qed.

  Lemma append_full m s src (cs : CS F) : scap s < slen s + slen src -> appendTo grow s src m cs =
    Some (MkSlice (length m) (slen s + slen src) (Nat.max (slen s + slen src) (grow (scap s) (slen s + slen src))),
          m ++ (vtab m s ++ vtab m src) ++ repeat 0 (Nat.max (slen s + slen src) (grow (scap s) (slen s + slen src)) - (slen s + slen src)), cs).
  Proof. intros H. unfold appendTo. cbv zeta. destruct (Nat.leb_spec (slen s + slen src) (scap s)); [lia|reflexivity]. Qed.
  Lemma append_fit m s src m' (cs : CS F) : slen s + slen src <= scap s -> vwrite m (base s + slen s) (vtab m src) = Some m' -> appendTo grow s src m cs =
    Some (MkSlice (base s) (slen s + slen src) (scap s), m', cs).
  Proof. intros H E. unfold appendTo. cbv zeta. destruct (Nat.leb_spec (slen s + slen src) (scap s)); [|lia]. rewrite E. reflexivity. Qed.

  Lemma vwrite_app : forall vs a p, length vs <= length p -> vwrite (a ++ p) (length a) vs = Some (a ++ vs ++ skipn (length vs) p).
  Proof.
    induction vs as [|v vs IH]; intros a p H; [reflexivity|]. destruct p as [|y p]; cbn [length] in *; [lia|]. cbn [vwrite].
    rewrite set_some by (rewrite !app_length; cbn [length]; lia). rewrite upd_at by reflexivity.
    replace (S (length a)) with (length (a ++ [v])) by (rewrite app_length; cbn; lia).
    replace (a ++ v :: p) with ((a ++ [v]) ++ p) by (rewrite <- app_assoc; reflexivity).
    rewrite IH by lia. cbn [skipn]. rewrite <- !app_assoc. reflexivity.
  Qed.

  (** appending to a slice that is empty or lies in new memory *)
  Definition fresh (m : list nat) (s : Slice) : Prop := scap s = 0 \/ length m <= base s.

  Lemma fresh_ext m m' s : vext m m' -> fresh m' s -> fresh m s.
  Proof. intros [j ->] [H|H]; [left; exact H|right; rewrite app_length in H; lia]. Qed.

  Lemma append_over m j s src : vwf (m ++ j) s -> fresh m s -> vwf m src -> exists s' j',
    (forall cs : CS F, appendTo grow s src (m ++ j) cs = Some (s', m ++ j', cs)) /\ vwf (m ++ j') s' /\ fresh m s' /\ vtab (m ++ j') s' = vtab (m ++ j) s ++ vtab m src.
  Proof.
    intros Ws Fs W. pose proof (vtab_length _ _ Ws) as Ls. pose proof (vtab_length _ _ W) as L. pose proof (vtab_app m j src W) as T.
    destruct (Nat.le_gt_cases (slen s + slen src) (scap s)) as [H|H].
    - destruct (Nat.eq_dec (scap s) 0) as [Z|Z].
      + exists (MkSlice (base s) (slen s + slen src) (scap s)), j. assert (E : vtab m src = []) by (apply length_zero_iff_nil; lia).
        split. { intros cs. apply append_fit; [exact H|]. rewrite T, E. reflexivity. }
        destruct Ws as [Ws1 Ws2]. split; [split; cbn; lia|]. split; [left; exact Z|]. rewrite E, app_nil_r. unfold vtab. cbn [base slen]. f_equal. lia.
      + destruct Fs as [Fs|Fs]; [lia|]. destruct Ws as [Ws1 Ws2]. rewrite app_length in Ws2.
        set (d := base s - length m). assert (D : d + scap s <= length j) by (unfold d; lia).
        set (A := firstn (d + slen s) j). set (P := skipn (d + slen s) j). assert (EJ : j = A ++ P) by (symmetry; apply firstn_skipn).
        assert (LA : length A = d + slen s) by (unfold A; rewrite firstn_length; lia). assert (LP : length P = length j - (d + slen s)) by (unfold P; apply skipn_length).
        exists (MkSlice (base s) (slen s + slen src) (scap s)), (A ++ vtab m src ++ skipn (slen src) P).
        split. { intros cs. apply append_fit; [exact H|]. rewrite T, EJ, app_assoc. replace (base s + slen s) with (length (m ++ A)) by (rewrite app_length; lia).
          rewrite vwrite_app by lia. rewrite L, <- app_assoc. reflexivity. }
        split. { split; cbn [slen scap base]; [exact H|]. rewrite !app_length, skipn_length. lia. }
        split; [right; exact Fs|].
        assert (TS : vtab (m ++ j) s = skipn d A).
        { unfold vtab. rewrite skipn_app, (skipn_all2 m) by lia. cbn [app]. fold d. unfold A. rewrite firstn_skipn_comm. reflexivity. }
        rewrite TS. unfold vtab. cbn [base slen]. rewrite skipn_app, (skipn_all2 m) by lia. cbn [app]. fold d. rewrite skipn_app. replace (d - length A) with 0 by lia. cbn [skipn].
        rewrite !app_assoc. rewrite firstn_app. replace (slen s + slen src - length (skipn d A ++ firstn (slen src) (skipn (base src) m))) with 0.
        2: { fold (vtab m src). rewrite app_length, skipn_length. lia. }
        rewrite firstn_O, app_nil_r. apply firstn_all2. fold (vtab m src). rewrite app_length, skipn_length. lia.
    - set (n := slen s + slen src) in *. set (cap := Nat.max n (grow (scap s) n)).
      exists (MkSlice (length (m ++ j)) n cap), (j ++ (vtab (m ++ j) s ++ vtab m src) ++ repeat 0 (cap - n)).
      split. { intros cs. rewrite append_full by exact H. fold n. fold cap. rewrite T, <- (app_assoc m j). reflexivity. }
      rewrite (app_assoc m j). split; [apply vwf_new; [lia|]|split].
      + rewrite !app_length, repeat_length. lia.
      + right. cbn [base]. rewrite app_length. lia.
      + apply vtab_mid. rewrite app_length. lia.
  Qed.

  Lemma append_new m s : vwf m s -> exists s' j, (forall cs : CS F, appendTo grow nilSlice s m cs = Some (s', m ++ j, cs)) /\ vwf (m ++ j) s' /\ fresh m s' /\ vtab (m ++ j) s' = vtab m s.
  Proof.
    intros W. destruct (append_over m [] nilSlice s (vwf_nil _)) as (s' & j & E & H); [left; reflexivity|exact W|]. rewrite app_nil_r in *. exists s', j. split; [exact E|exact H].
  Qed.

  Lemma concat2_ok m a b : vwf m a -> vwf m b -> exists s' j, (forall cs : CS F, concat2 grow a b m cs = Some (s', m ++ j, cs)) /\ vwf (m ++ j) s' /\ vtab (m ++ j) s' = vtab m a ++ vtab m b.
  Proof.
    intros Wa Wb. destruct (append_new m a Wa) as (s & j & E & Ws & Fs & T). destruct (append_over m j s b Ws Fs Wb) as (s' & j' & E' & Ws' & _ & T').
    exists s', j'. split; [|split; [exact Ws'|rewrite T', T; reflexivity]]. intros cs. unfold concat2, hbind. rewrite E. apply E'.
  Qed.

  (* ---------------------------------------------------------------- sumcheck.go *)

  (** the three points and the last claim *)
  Definition points (m m' : list nat) (a : Slice * Slice * Slice * nat) (b : list nat * list nat * list nat * nat) : Prop :=
    let '(hL, hR, hP, c) := a in b = (vtab m' hL, vtab m' hR, vtab m' hP, c) /\ (vwf m' hL /\ vwf m' hR /\ vwf m' hP) /\ fresh m hL /\ fresh m hR /\ fresh m hP.

  Lemma ref_loop m (polys : list Slice) hs claim : (forall s, In s polys -> vwf m s) ->
    hs = MkSlice (length m) (length polys) (length polys) ->
    refines m (m ++ repeat 0 (length polys)) (hfold (fun claimCurr i =>
      hbind (hlift (get polys i)) (fun poly =>
      hbind (values poly) (fun coeffs =>
      hbind (gadget (SZeroAndOne coeffs)) (fun zeroAndOne =>
      hbind (gadget (cAssertIsEqual zeroAndOne claimCurr)) (fun _ =>
      hbind (gadget (SMimcHash Arks coeffs)) (fun h =>
      hbind (store hs i h) (fun _ =>
      hbind (load hs i) (fun h =>
      gadget (SUniEval coeffs h))))))))) (seq 0 (length polys)) claim)
    (mfold (fun '(hs, claimCurr) poly =>
      mbind (SZeroAndOne poly) (fun zeroAndOne =>
      mbind (cAssertIsEqual zeroAndOne claimCurr) (fun _ =>
      mbind (SMimcHash Arks poly) (fun h =>
      mbind (SUniEval poly h) (fun claimCurr =>
      ret (hs ++ [h], claimCurr)))))) (map (vtab m) polys) ([], claim))
    (fun m' a b => exists j, snd b = a /\ m' = m ++ fst b ++ j /\ length (fst b) = length polys).
  Proof.
    intros W Ehs. set (n := length polys) in *.
    set (F1 := fun (claimCurr i : nat) => _). set (F2 := fun '(hs, claimCurr) (poly : list nat) => _).
    assert (K : forall done todo acc c j, polys = done ++ todo -> length acc = length done ->
      refines m (m ++ acc ++ repeat 0 (length todo) ++ j) (hfold F1 (seq (length done) (length todo)) c) (mfold F2 (map (vtab m) todo) (acc, c))
        (fun m' a b => exists j, snd b = a /\ m' = m ++ fst b ++ j /\ length (fst b) = n)).
    { intros done todo. revert done. induction todo as [|s todo IH]; intros done acc c j E L.
      - cbn [length seq hfold mfold map]. apply ref_ret. exists j. cbn [fst snd repeat app]. split; [reflexivity|]. split; [reflexivity|]. unfold n. rewrite E, app_nil_r. exact L.
      - cbn [length seq hfold mfold map].
        assert (Ws : vwf m s) by (apply W; rewrite E; apply in_or_app; right; left; reflexivity).
        set (m1 := m ++ acc ++ repeat 0 (S (length todo)) ++ j).
        assert (X1 : vext m m1) by apply vext_app.
        assert (LN : n = length acc + S (length todo)) by (unfold n; rewrite E, app_length, L; reflexivity).
        apply (ref_bind m m1 _ _ (fun m' c' st => exists h, st = (acc ++ [h], c') /\ m' = m ++ (acc ++ [h]) ++ repeat 0 (length todo) ++ j)).
        + unfold F1 at 1, F2 at 1. unfold get. rewrite E, nth_error_app2, Nat.sub_diag by lia. cbn [nth_error].
          intros X. revert X.
          eapply ref_mem; [intros cs; reflexivity|exact X1|]. eapply ref_mem; [intros cs; reflexivity|exact X1|]. rewrite (vtab_ext m m1 s X1 Ws).
          eapply ref_bind; [apply ref_gadget|]. intros m2 z z' _ [-> <-].
          eapply ref_bind; [apply ref_gadget|]. intros m2 u u' _ [-> <-].
          eapply ref_bind; [apply ref_gadget|]. intros m2 h h' _ [-> <-].
          set (m3 := m ++ (acc ++ [h]) ++ repeat 0 (length todo) ++ j).
          assert (ST : vset m1 hs (length done) h = Some m3).
          { unfold m1, m3. rewrite Ehs. rewrite app_assoc with (m := repeat 0 _).
            rewrite vset_new; [|lia|rewrite app_length, repeat_length; lia]. cbn [repeat]. rewrite upd_at by exact L. rewrite <- !app_assoc. reflexivity. }
          eapply ref_mem; [intros cs; unfold store; rewrite ST; reflexivity|apply vext_app|].
          assert (LD : vget m3 hs (length done) = Some h).
          { unfold vget. rewrite Ehs. cbn [slen base]. destruct (Nat.ltb_spec (length done) n); [|lia]. unfold m3, get. rewrite nth_error_app2 by lia.
            replace (length m + length done - length m) with (length done) by lia. rewrite <- app_assoc, nth_error_app2 by lia. rewrite L, Nat.sub_diag. reflexivity. }
          eapply ref_mem; [intros cs; unfold load; rewrite LD; reflexivity|apply vext_app|].
          intros X3 cs. unfold gadget, mbind. destruct (SUniEval (vtab m s) h cs) as [[v cs']|]; [|reflexivity]. unfold ret. exists v, m3. split; [reflexivity|]. split; [exact X3|].
          exists h. split; [reflexivity|reflexivity].
        + intros m2 c' st X2 (h & -> & ->).
          replace (S (length done)) with (length (done ++ [s])) by (rewrite app_length; cbn; lia).
          apply IH; [rewrite E, <- app_assoc; reflexivity|rewrite !app_length; cbn; lia]. }
    specialize (K [] polys [] claim [] eq_refl eq_refl). cbn [app length] in K. rewrite app_nil_r in K. exact K.
  Qed.

  Lemma ref_sumcheck m0 m polys ps claim bG : (forall s, In s polys -> vwf m s) -> map (vtab m) polys = ps ->
    refines m0 m (VSumcheckAssertValid grow Arks polys claim bG) (SSumcheckAssertValid Arks ps claim bG) (fun m' a b => vext m m' /\ points m m' a b).
  Proof.
    intros W <-. apply ref_weaken. unfold VSumcheckAssertValid, SSumcheckAssertValid.
    eapply ref_mem; [intros cs; reflexivity|apply vext_app|].
    eapply ref_bind; [apply ref_loop; [exact W|reflexivity]|]. intros m1 c [hs c'] X1 (j & E1 & -> & L). cbn [fst snd] in *. subst c'.
    set (s := MkSlice (length m) (length polys) (length polys)). cbn [slen].
    assert (Ws : vwf (m ++ hs ++ j) s) by (apply vwf_new; [|rewrite app_length]; lia).
    assert (Ts : vtab (m ++ hs ++ j) s = hs) by (apply vtab_mid; congruence).
    assert (SL : forall m', vext (m ++ hs ++ j) m' -> forall a b, match hslice s a b with Some s' => slice hs a b = Some (vtab m' s') /\ vwf m' s' | None => slice hs a b = None end).
    { intros m' X a b. destruct (Nat.le_gt_cases b (length polys)) as [Hb|Hb].
      - pose proof (slice_ok m' s a b (vwf_ext _ _ _ X Ws) Hb) as P. rewrite (vtab_ext _ _ _ X Ws), Ts in P. exact P.
      - unfold hslice, s. cbn [scap]. unfold slice. rewrite L. destruct (Nat.leb_spec a b); cbn [andb]; [|reflexivity]. destruct (Nat.leb_spec b (length polys)); [lia|reflexivity]. }
    pose proof (SL _ (vext_refl _) 0 bG) as S1. destruct (hslice s 0 bG) as [s1|]; [destruct S1 as [-> W1]|rewrite S1; intros _ cs; reflexivity]. apply ref_some.
    destruct (append_new _ _ W1) as (hL & j1 & E1 & WL & FL & TL). eapply ref_mem; [exact E1|eapply vext_trans; [exact X1|apply vext_app]|].
    set (m1 := (m ++ hs ++ j) ++ j1) in *. assert (X1' : vext (m ++ hs ++ j) m1) by apply vext_app.
    pose proof (SL _ X1' bG (2 * bG)) as S2. destruct (hslice s bG (2 * bG)) as [s2|]; [destruct S2 as [-> W2]|rewrite S2; intros _ cs; reflexivity]. apply ref_some.
    destruct (append_new _ _ W2) as (hR & j2 & E2 & WR & FR & TR). eapply ref_mem; [exact E2|eapply vext_trans; [eapply vext_trans; [exact X1|exact X1']|apply vext_app]|].
    set (m2 := m1 ++ j2) in *. assert (X2' : vext m1 m2) by apply vext_app. rewrite L.
    change (slen s) with (length polys). pose proof (SL _ (vext_trans _ _ _ X1' X2') (2 * bG) (length polys)) as S3. destruct (hslice s (2 * bG) (length polys)) as [s3|]; [destruct S3 as [-> W3]|rewrite S3; intros _ cs; reflexivity]. apply ref_some.
    destruct (append_new _ _ W3) as (hP & j3 & E3 & WP & FP & TP). eapply ref_mem; [exact E3|eapply vext_trans; [eapply vext_trans; [exact X1|eapply vext_trans; [exact X1'|exact X2']]|apply vext_app]|].
    set (m3 := m2 ++ j3) in *. assert (X3' : vext m2 m3) by apply vext_app.
    apply ref_ret. intros X4. split; [exact X4|]. unfold points.
    assert (X13 : vext m1 m3) by (eapply vext_trans; eassumption).
    rewrite (vtab_ext m1 m3 hL X13 WL), (vtab_ext m2 m3 hR X3' WR). rewrite TL, TR, TP. split; [reflexivity|].
    split; [split; [exact (vwf_ext _ _ _ X13 WL)|]; split; [exact (vwf_ext _ _ _ X3' WR)|exact WP]|].
    split; [exact (fresh_ext _ _ _ X1 FL)|]. split; [exact (fresh_ext _ _ _ (vext_trans _ _ _ X1 X1') FR)|].
    exact (fresh_ext _ _ _ (vext_trans _ _ _ (vext_trans _ _ _ X1 X1') X2') FP).
  Qed.

  (* ---------------------------------------------------------------- circuit.go *)

  Lemma ref_table m0 m gen q l : vwf m q -> vtab m q = l ->
    refines m0 m (VTable gen q) (gen l) (fun m' a b => vext m m' /\ vtab m' a = b /\ vwf m' a).
  Proof.
    intros W <-. apply ref_weaken. unfold VTable. eapply ref_mem; [intros cs; reflexivity|apply vext_refl|].
    intros X cs. unfold hbind, gadget. destruct (gen (vtab m q) cs) as [[t cs']|]; [|reflexivity]. unfold literal. do 2 eexists. split; [reflexivity|]. split; [apply vext_app|].
    intros X'. split; [exact X'|]. split; [|apply vwf_new; lia]. rewrite vtab_new by lia. apply firstn_all.
  Qed.

  Lemma ref_eqeval m0 m a b la lb : vtab m a = la -> vtab m b = lb -> refines m0 m (VEqEval a b) (SEqEval la lb) (fun m' v v' => m' = m /\ v = v').
  Proof. intros <- <-. intros X. revert X. unfold VEqEval. intros X. exact (ref_gadget m0 m (SEqEval (vtab m a) (vtab m b)) X). Qed.

  Lemma ref_combine m0 m l q qP hL hR hP lq lqP lL lR lP vL vR : vwf m q -> vwf m qP -> vwf m hL -> vwf m hR -> vwf m hP ->
    vtab m q = lq -> vtab m qP = lqP -> vtab m hL = lL -> vtab m hR = lR -> vtab m hP = lP ->
    refines m0 m (VCombine grow l q qP hL hR hP vL vR) (SCombine l lq lqP lL lR lP vL vR) (fun m' a b => vext m m' /\ a = b).
  Proof.
    intros Wq WqP WL WR WP <- <- <- <- <-. apply ref_weaken. unfold VCombine, SCombine.
    eapply ref_bind; [apply ref_gadget|]. intros m1 r r' _ [-> <-]. cbv zeta.
    destruct (concat2_ok m hL hR WL WR) as (s & j & E & Ws & Ts). eapply ref_mem; [exact E|apply vext_app|]. rewrite <- Ts.
    set (m1 := m ++ j) in *. assert (X1 : vext m m1) by apply vext_app.
    eapply ref_bind.
    - apply (ref_fold (fun m' a b => vext m1 m' /\ a = b)); [split; [apply vext_refl|reflexivity]|]. intros m2 a b i _ X2 [X2' <-].
      eapply ref_bind; [apply ref_lift|]. intros m3 gen gen' _ [-> <-].
      eapply ref_bind; [apply ref_table; [eapply vwf_ext; [exact X2|exact Wq]|apply vtab_ext; assumption]|]. intros m3 t t' X3 (X3' & T3 & W3).
      assert (Y3 : vext m1 m3) by (eapply vext_trans; eassumption).
      eapply ref_bind; [apply ref_eval; [exact W3|eapply vwf_ext; [exact Y3|exact Ws]|exact T3|apply vtab_ext; assumption]|]. intros m4 v v' X4 [X4' <-].
      assert (Y4 : vext m1 m4) by (eapply vext_trans; eassumption).
      eapply ref_bind; [apply ref_lift|]. intros m5 gate gate' _ [-> <-].
      eapply ref_bind; [apply ref_gadget|]. intros m5 g g' _ [-> <-].
      eapply ref_bind; [apply ref_gadget|]. intros m5 p p' _ [-> <-].
      eapply ref_conseq; [apply ref_gadget|]. intros m5 x x' _ [-> <-]. auto.
    - intros m2 a b X2 [X2' <-].
      eapply ref_bind; [apply ref_eqeval; apply vtab_ext; assumption|]. intros m3 e e' _ [-> <-].
      eapply ref_conseq; [apply ref_gadget|]. intros m3 x x' _ [-> <-]. auto.
  Qed.

  Lemma ref_combine2 m0 m l qL qR qP hL hR hP lqL lqR lqP lL lR lP lamL lamR vL vR : vwf m qL -> vwf m qR -> vwf m qP -> vwf m hL -> vwf m hR -> vwf m hP ->
    vtab m qL = lqL -> vtab m qR = lqR -> vtab m qP = lqP -> vtab m hL = lL -> vtab m hR = lR -> vtab m hP = lP ->
    refines m0 m (VCombineWithLinearComb grow l qL qR qP hL hR hP lamL lamR vL vR) (SCombineWithLinearComb l lqL lqR lqP lL lR lP lamL lamR vL vR) (fun m' a b => vext m m' /\ a = b).
  Proof.
    intros WqL WqR WqP WL WR WP <- <- <- <- <- <-. apply ref_weaken. unfold VCombineWithLinearComb, SCombineWithLinearComb.
    eapply ref_bind; [apply ref_gadget|]. intros m1 r r' _ [-> <-]. cbv zeta.
    destruct (concat2_ok m hL hR WL WR) as (s & j & E & Ws & Ts). eapply ref_mem; [exact E|apply vext_app|]. rewrite <- Ts.
    set (m1 := m ++ j) in *. assert (X1 : vext m m1) by apply vext_app.
    eapply ref_bind.
    - apply (ref_fold (fun m' a b => vext m1 m' /\ a = b)); [split; [apply vext_refl|reflexivity]|]. intros m2 a b i _ X2 [X2' <-].
      eapply ref_bind; [apply ref_lift|]. intros m3 gen gen' _ [-> <-].
      eapply ref_bind; [apply ref_table; [eapply vwf_ext; [exact X2|exact WqL]|apply vtab_ext; assumption]|]. intros m3 t t' X3 (X3' & T3 & W3).
      assert (Y3 : vext m1 m3) by (eapply vext_trans; eassumption).
      eapply ref_bind; [apply ref_table; [eapply vwf_ext; [exact X3|exact WqR]|apply vtab_ext; assumption]|]. intros m4 u u' X4 (X4' & T4 & W4).
      assert (Y4 : vext m1 m4) by (eapply vext_trans; eassumption).
      eapply ref_bind; [apply ref_eval; [eapply vwf_ext; [exact X4'|exact W3]|eapply vwf_ext; [exact Y4|exact Ws]|rewrite (vtab_ext _ _ _ X4' W3); exact T3|apply vtab_ext; assumption]|]. intros m5 v v' X5 [X5' <-].
      assert (Y5 : vext m1 m5) by (eapply vext_trans; eassumption).
      eapply ref_bind; [apply ref_gadget|]. intros m6 aL aL' _ [-> <-].
      eapply ref_bind; [apply ref_eval; [eapply vwf_ext; [exact X5'|exact W4]|eapply vwf_ext; [exact Y5|exact Ws]|rewrite (vtab_ext _ _ _ X5' W4); exact T4|apply vtab_ext; assumption]|]. intros m6 w w' X6 [X6' <-].
      assert (Y6 : vext m1 m6) by (eapply vext_trans; eassumption).
      eapply ref_bind; [apply ref_gadget|]. intros m7 aR aR' _ [-> <-].
      eapply ref_bind; [apply ref_gadget|]. intros m7 te te' _ [-> <-].
      eapply ref_bind; [apply ref_lift|]. intros m7 gate gate' _ [-> <-].
      eapply ref_bind; [apply ref_gadget|]. intros m7 g g' _ [-> <-].
      eapply ref_bind; [apply ref_gadget|]. intros m7 p p' _ [-> <-].
      eapply ref_conseq; [apply ref_gadget|]. intros m7 x x' _ [-> <-]. auto.
    - intros m2 a b X2 [X2' <-].
      eapply ref_bind; [apply ref_eqeval; apply vtab_ext; assumption|]. intros m3 e e' _ [-> <-].
      eapply ref_conseq; [apply ref_gadget|]. intros m3 x x' _ [-> <-]. auto.
  Qed.

  (* ---------------------------------------------------------------- proof.go *)

  Lemma get_map {A B} (f : A -> B) l i : get (map f l) i = option_map f (get l i).
  Proof. apply nth_error_map. Qed.
  Lemma get_In {A} (l : list A) i x : get l i = Some x -> In x l.
  Proof. apply nth_error_In. Qed.

  (** the wires of a proof *)
  Definition ptab (m : list nat) (p : VProof) : SProof nat := MkSProof (map (map (vtab m)) (vSumchecks p)) (vtab m (vLeft p)) (vtab m (vRight p)).
  Definition pwf (m : list nat) (p : VProof) : Prop := (forall sc s, In sc (vSumchecks p) -> In s sc -> vwf m s) /\ vwf m (vLeft p) /\ vwf m (vRight p).
  Lemma pwf_ext m m' p : vext m m' -> pwf m p -> pwf m' p.
  Proof. intros X (WS & Wl & Wr). split; [intros sc s H1 H2; eapply vwf_ext; [exact X|eapply WS; eassumption]|split; eapply vwf_ext; eassumption]. Qed.
  Lemma ptab_ext m m' p : vext m m' -> pwf m p -> ptab m' p = ptab m p.
  Proof.
    intros X (WS & Wl & Wr). unfold ptab. rewrite !(vtab_ext m m') by assumption. f_equal.
    apply map_ext_in. intros sc H1. apply map_ext_in. intros s H2. apply vtab_ext; [exact X|eapply WS; eassumption].
  Qed.

  Lemma ref_layer m0 m c p st hL hR hP layer : pwf m p ->
    (let '(sL, sR, sP) := st in (vwf m sL /\ vwf m sR /\ vwf m sP) /\ vtab m sL = hL /\ vtab m sR = hR /\ vtab m sP = hP) ->
    refines m0 m (VAssertLayer grow Arks c p st layer) (SAssertLayer Arks c (ptab m p) (hL, hR, hP) layer)
      (fun m' a b => vext m m' /\ let '(sL, sR, sP) := a in (vwf m' sL /\ vwf m' sR /\ vwf m' sP) /\ b = (vtab m' sL, vtab m' sR, vtab m' sP)).
  Proof.
    destruct st as [[qL qR] qP]. intros (WS & Wl & Wr) ((WqL & WqR & WqP) & <- & <- & <-). apply ref_weaken.
    unfold VAssertLayer, SAssertLayer, ptab. cbn [sSumchecks sLeft sRight].
    eapply ref_bind; [apply ref_gadget|]. intros m1 lamL ? _ [-> <-].
    eapply ref_bind; [apply ref_load; [reflexivity|exact Wl]|]. intros m1 cl ? _ [-> <-].
    eapply ref_bind; [apply ref_load; [reflexivity|exact Wr]|]. intros m1 cr ? _ [-> <-].
    eapply ref_bind; [apply ref_gadget|]. intros m1 lamR ? _ [-> <-].
    eapply ref_bind; [apply ref_gadget|]. intros m1 t ? _ [-> <-].
    eapply ref_bind; [apply ref_gadget|]. intros m1 claim ? _ [-> <-].
    rewrite get_map. destruct (get (vSumchecks p) layer) as [sp|] eqn:Esp; cbn [option_map]; [|intros _ cs; reflexivity]. apply ref_some.
    eapply ref_bind; [apply ref_lift|]. intros m1 l ? _ [-> <-].
    eapply ref_bind; [apply ref_sumcheck; [intros s Hs; eapply WS; [eapply get_In; exact Esp|exact Hs]|reflexivity]|].
    intros m1 [[[hL hR] hP] e] [[[lL lR] lP] e'] X1 [_ (E & (WL & WR & WP) & _)]. injection E as -> -> -> ->.
    eapply ref_bind; [apply ref_load; [apply vtab_ext; [exact X1|exact Wl]|eapply vwf_ext; [exact X1|exact Wl]]|]. intros m2 vl ? _ [-> <-].
    eapply ref_bind; [apply ref_load; [apply vtab_ext; [exact X1|exact Wr]|eapply vwf_ext; [exact X1|exact Wr]]|]. intros m2 vr ? _ [-> <-].
    eapply ref_bind; [apply ref_combine2; try reflexivity; try assumption; try (eapply vwf_ext; eassumption); apply vtab_ext; assumption|].
    intros m2 a ? X2 [X2' <-].
    eapply ref_bind; [apply ref_gadget|]. intros m3 u ? _ [-> <-].
    apply ref_ret. intros X3. split; [exact X3|]. split; [split; [|split]; (eapply vwf_ext; [exact X2'|assumption])|].
    rewrite !(vtab_ext m1 m2) by assumption. reflexivity.
  Qed.

  Lemma ref_gkr m p c q qP vI vO : pwf m p -> vwf m q -> vwf m qP -> vwf m vI -> vwf m vO ->
    refines m m (VGkrAssertValid grow Arks p c q qP vI vO) (SGkrAssertValid Arks (ptab m p) c (vtab m q) (vtab m qP) (vtab m vI) (vtab m vO)) (fun _ _ _ => True).
  Proof.
    intros WPp Wq WqP WI WO. pose proof WPp as (WS & Wl & Wr). unfold VGkrAssertValid, SGkrAssertValid. cbv zeta. set (lst := MimcRounds - 1). generalize lst. clear lst. intros lst.
    destruct (concat2_ok m q qP Wq WqP) as (s & j & E & Ws & Ts). eapply ref_mem; [exact E|apply vext_app|]. rewrite <- Ts.
    set (m1 := m ++ j) in *. assert (X1 : vext m m1) by apply vext_app.
    eapply ref_bind; [apply ref_eval; [eapply vwf_ext; [exact X1|exact WO]|exact Ws|apply vtab_ext; assumption|reflexivity]|]. intros m2 claim ? X2 [_ <-].
    change (sSumchecks (ptab m p)) with (map (map (vtab m)) (vSumchecks p)).
    rewrite get_map. destruct (get (vSumchecks p) lst) as [sp|] eqn:Esp; cbn [option_map]; [|intros _ cs; reflexivity]. apply ref_some.
    eapply ref_bind; [apply ref_lift|]. intros m3 l ? _ [-> <-].
    assert (Wsp : forall s, In s sp -> vwf m s) by (intros x Hx; eapply WS; [eapply get_In; exact Esp|exact Hx]).
    eapply ref_bind; [apply ref_sumcheck; [intros x Hx; eapply vwf_ext; [exact X2|apply Wsp; exact Hx]|apply map_ext_in; intros x Hx; apply vtab_ext; [exact X2|apply Wsp; exact Hx]]|].
    intros m3 [[[hL hR] hP] e] [[[lL lR] lP] e'] X3 [_ (E3 & (WL & WR & WP) & _)]. injection E3 as -> -> -> ->.
    eapply ref_bind; [apply ref_load; [apply vtab_ext; [exact X3|exact Wl]|eapply vwf_ext; [exact X3|exact Wl]]|]. intros m4 vl ? _ [-> <-].
    eapply ref_bind; [apply ref_load; [apply vtab_ext; [exact X3|exact Wr]|eapply vwf_ext; [exact X3|exact Wr]]|]. intros m4 vr ? _ [-> <-].
    eapply ref_bind; [apply ref_combine; try reflexivity; try assumption; try (eapply vwf_ext; eassumption); apply vtab_ext; assumption|].
    intros m4 a ? X4 [X4' <-].
    eapply ref_bind; [apply ref_gadget|]. intros m5 u ? _ [-> <-].
    apply (ref_bind m _ _ _ (fun m' a b => let '(sL, sR, sP) := a in (vwf m' sL /\ vwf m' sR /\ vwf m' sP) /\ b = (vtab m' sL, vtab m' sR, vtab m' sP))).
    - apply ref_fold.
      + split; [split; [|split]; (eapply vwf_ext; [exact X4'|assumption])|]. rewrite !(vtab_ext m3 m4) by assumption. reflexivity.
      + intros m5 [[sL sR] sP] b layer _ X5 [W5 ->]. rewrite <- (ptab_ext m m5 p X5 WPp).
        eapply ref_conseq; [apply ref_layer; [apply (pwf_ext m m5 p X5 WPp)|split; [exact W5|split; [|split]; reflexivity]]|]. intros m6 a' b' _ [_ H]. exact H.
    - intros m5 [[sL sR] sP] b X5 [(W5L & W5R & W5P) ->].
      eapply ref_bind; [apply ref_load; [apply vtab_ext; [exact X5|exact Wl]|eapply vwf_ext; [exact X5|exact Wl]]|]. intros m6 aVL ? _ [-> <-].
      eapply ref_bind; [apply ref_load; [apply vtab_ext; [exact X5|exact Wr]|eapply vwf_ext; [exact X5|exact Wr]]|]. intros m6 aVR ? _ [-> <-].
      eapply ref_bind; [apply ref_eval_mixed; try reflexivity; try assumption; [eapply vwf_ext; [exact X5|exact WI]|apply vtab_ext; assumption]|].
      intros m6 [eL eR] ? X6 [_ <-].
      eapply ref_bind; [apply ref_gadget|]. intros m7 u' ? _ [-> <-].
      eapply ref_conseq; [apply ref_gadget|]. intros. exact I.
  Qed.

  (* ---------------------------------------------------------------- Fold in place *)

  Lemma skipn_upd {A} k : forall (t : list A) i v, i < k -> skipn k (upd t i v) = skipn k t.
  Proof. induction k as [|k IH]; intros [|y t] [|i] v H; simpl; try lia; try reflexivity. apply IH. lia. Qed.

  Lemma vext_nil m : vext [] m.
  Proof. exists m. reflexivity. Qed.

  Lemma ref_fold_in_place pre t post n c x : n = length t -> n <= c ->
    refines [] (pre ++ t ++ post) (VFold (MkSlice (length pre) n c) x) (SFold t x)
      (fun m' a b => a = MkSlice (length pre) (n / 2) c /\ m' = pre ++ (b ++ skipn (n / 2) t) ++ post /\ length b = n / 2).
  Proof.
    intros -> Hc. unfold VFold, SFold. cbn [slen]. set (n := length t). set (k := n / 2).
    assert (Hk : k <= n) by (apply Nat.div_le_upper_bound; lia).
    apply (ref_bind [] _ _ _ (fun m' _ l => m' = pre ++ l ++ post /\ length l = n /\ skipn k l = skipn k t)).
    - apply ref_fold; [auto|]. intros m' [] l i Hi X (-> & Ll & Sl). apply in_seq in Hi.
      assert (T : vtab (pre ++ l ++ post) (MkSlice (length pre) n c) = l) by (apply vtab_mid; congruence).
      assert (G : forall j, refines [] (pre ++ l ++ post) (load (MkSlice (length pre) n c) j) (lift (get l j)) (fun m' a b => m' = pre ++ l ++ post /\ a = b)).
      { intros j _ cs. unfold load, vget, lift. cbn [slen base]. destruct (Nat.ltb_spec j n) as [H|H].
        - unfold get. rewrite nth_error_app2 by lia. replace (length pre + j - length pre) with j by lia. rewrite nth_error_app1 by lia.
          destruct (nth_error l j) as [v|] eqn:E; [|reflexivity]. do 2 eexists. split; [reflexivity|]. split; [apply vext_nil|auto].
        - rewrite get_none by lia. reflexivity. }
      eapply ref_bind; [apply G|]. intros m1 top top' _ [-> <-].
      eapply ref_bind; [apply G|]. intros m1 bot bot' _ [-> <-].
      eapply ref_bind; [apply ref_gadget|]. intros m1 v1 v1' _ [-> <-].
      eapply ref_bind; [apply ref_gadget|]. intros m1 v2 v2' _ [-> <-].
      eapply ref_bind; [apply G|]. intros m1 bot2 bot2' _ [-> <-].
      eapply ref_bind; [apply ref_gadget|]. intros m1 v3 v3' _ [-> <-].
      intros _ cs. unfold lift, store. rewrite set_some by lia. rewrite vset_new by lia. do 2 eexists. split; [reflexivity|]. split; [apply vext_nil|].
      split; [reflexivity|]. split; [rewrite upd_length; exact Ll|]. rewrite skipn_upd by lia. exact Sl.
    - intros m' [] l _ (-> & Ll & Sl). intros _ cs. unfold hlift, lift, hslice. cbn [scap base].
      rewrite slice_some by lia. destruct (Nat.leb_spec 0 k); [|lia]. destruct (Nat.leb_spec k c); [|lia]. cbn [andb].
      do 2 eexists. split; [reflexivity|]. split; [apply vext_nil|]. rewrite !Nat.sub_0_r, Nat.add_0_r. cbn [skipn]. split; [reflexivity|].
      rewrite <- Sl, firstn_skipn. split; [reflexivity|]. rewrite firstn_length. lia.
  Qed.

  (** the memory after Fold: the folded table over the first half of the slice, everything else as before *)
  Lemma fold_in_place m table x (cs : CS F) : vwf m table ->
    match SFold (vtab m table) x cs with
    | None => VFold table x m cs = None
    | Some (t, cs') => exists m', VFold table x m cs = Some (MkSlice (base table) (slen table / 2) (scap table), m', cs') /\
        vtab m' (MkSlice (base table) (slen table / 2) (scap table)) = t /\ length m' = length m /\
        (forall a, a < base table \/ base table + slen table / 2 <= a -> nth_error m' a = nth_error m a)
    end.
  Proof.
    intros W. pose proof (vtab_length _ _ W) as LT. pose proof W as [W1 W2]. destruct table as [b n c]. cbn [base slen scap] in *.
    set (pre := firstn b m). set (t := vtab m (MkSlice b n c)) in *. set (post := skipn (b + n) m).
    assert (LP : length pre = b) by (unfold pre; rewrite firstn_length; lia).
    assert (E : m = pre ++ t ++ post).
    { unfold pre, t, post, vtab. cbn [base slen]. rewrite <- (firstn_skipn b m) at 1. f_equal. rewrite <- skipn_add. symmetry. apply firstn_skipn. }
    pose proof (ref_fold_in_place pre t post n c x (eq_sym LT) W1 (vext_nil _) cs) as R. rewrite LP in R. rewrite <- E in R.
    assert (K : n / 2 <= n) by (apply Nat.div_le_upper_bound; lia).
    destruct (SFold t x cs) as [[f cs']|]; [|exact R]. destruct R as (a & m' & -> & _ & -> & -> & Lf). eexists. split; [reflexivity|].
    split; [rewrite <- LP, <- !app_assoc; apply vtab_mid; congruence|].
    split; [rewrite E, !app_length, skipn_length; lia|].
    intros a [Ha|Ha].
    - rewrite E. rewrite !nth_error_app1 by lia. reflexivity.
    - rewrite E. rewrite !(nth_error_app2 pre) by lia. rewrite LP. rewrite <- app_assoc. rewrite nth_error_app2 by lia. rewrite Lf.
      rewrite <- (firstn_skipn (n / 2) t) at 2. rewrite <- app_assoc. rewrite (nth_error_app2 (firstn (n / 2) t)) by (rewrite firstn_length; lia).
      rewrite firstn_length, Nat.min_l by lia. reflexivity.
  Qed.
End L.

(* ------------------------------------------------------------------ the theorems *)

Lemma eval_heap : forall (F : Field) m table xs (cs : CS F), vwf m table -> vwf m xs ->
  match SEval (vtab m table) (vtab m xs) cs with
  | None => VEval table xs m cs = None
  | Some (v, cs') => exists m', VEval table xs m cs = Some (v, m', cs') /\ vext m m'
  end.
Proof.
  intros F m table xs cs W1 W2. pose proof (ref_eval m m table xs _ _ W1 W2 eq_refl eq_refl (vext_refl m) cs) as H.
  destruct (SEval (vtab m table) (vtab m xs) cs) as [[v cs']|]; [|exact H]. destruct H as (a & m' & E & X & _ & ->). exists m'. auto.
Qed.

Lemma eval_mixed_heap : forall (F : Field) m table qL qR qPrime (cs : CS F), vwf m table -> vwf m qL -> vwf m qR -> vwf m qPrime ->
  match SEvalMixed (vtab m table) (vtab m qL) (vtab m qR) (vtab m qPrime) cs with
  | None => VEvalMixed table qL qR qPrime m cs = None
  | Some (v, cs') => exists m', VEvalMixed table qL qR qPrime m cs = Some (v, m', cs') /\ vext m m'
  end.
Proof.
  intros F m table qL qR qPrime cs W1 W2 W3 W4. pose proof (ref_eval_mixed m m table qL qR qPrime _ _ _ _ W1 W2 W3 W4 eq_refl eq_refl eq_refl eq_refl (vext_refl m) cs) as H.
  destruct (SEvalMixed _ _ _ _ cs) as [[v cs']|]; [|exact H]. destruct H as (a & m' & E & X & _ & ->). exists m'. auto.
Qed.

Lemma sumcheck_heap : forall (F : Field) grow (Arks : list F) m polys claim bG (cs : CS F), (forall s, In s polys -> vwf m s) ->
  match SSumcheckAssertValid Arks (map (vtab m) polys) claim bG cs with
  | None => VSumcheckAssertValid grow Arks polys claim bG m cs = None
  | Some (hL, hR, hPrime, c, cs') => exists sL sR sPrime m',
      VSumcheckAssertValid grow Arks polys claim bG m cs = Some (sL, sR, sPrime, c, m', cs') /\ vext m m' /\
      forall s h, In (s, h) [(sL, hL); (sR, hR); (sPrime, hPrime)] -> vwf m' s /\ vtab m' s = h /\ (slen s = 0 \/ length m <= base s)
  end.
Proof.
  intros F grow Arks m polys claim bG cs W. pose proof (ref_sumcheck grow Arks m m polys _ claim bG W eq_refl (vext_refl m) cs) as H.
  destruct (SSumcheckAssertValid _ _ _ _ cs) as [[[[[hL hR] hP] c] cs']|]; [|exact H].
  destruct H as ([[[sL sR] sP] c1] & m' & E & X & _ & E1 & (W1 & W2 & W3) & F1 & F2 & F3). injection E1 as -> -> -> ->. exists sL, sR, sP, m'.
  split; [exact E|]. split; [exact X|].
  assert (Z : forall s, vwf m' s -> fresh m s -> slen s = 0 \/ length m <= base s) by (intros s [Ws _] [Fs|Fs]; [left; lia|right; exact Fs]).
  intros s h [Q|[Q|[Q|[]]]]; injection Q as <- <-; auto.
Qed.

Lemma combine_heap : forall (F : Field) grow m (l : SLayer F) q qPrime hL hR hPrime vL vR (cs : CS F),
  (forall s, In s [q; qPrime; hL; hR; hPrime] -> vwf m s) ->
  match SCombine l (vtab m q) (vtab m qPrime) (vtab m hL) (vtab m hR) (vtab m hPrime) vL vR cs with
  | None => VCombine grow l q qPrime hL hR hPrime vL vR m cs = None
  | Some (v, cs') => exists m', VCombine grow l q qPrime hL hR hPrime vL vR m cs = Some (v, m', cs') /\ vext m m'
  end.
Proof.
  intros F grow m l q qP hL hR hP vL vR cs W.
  assert (H : refines m m (VCombine grow l q qP hL hR hP vL vR) (SCombine l (vtab m q) (vtab m qP) (vtab m hL) (vtab m hR) (vtab m hP) vL vR) (fun m' a b => vext m m' /\ a = b)).
  { apply ref_combine; try reflexivity; apply W; cbn; tauto. }
  specialize (H (vext_refl m) cs). destruct (SCombine _ _ _ _ _ _ _ _ cs) as [[v cs']|]; [|exact H]. destruct H as (a & m' & E & X & _ & ->). exists m'. auto.
Qed.

Lemma combine_lc_heap : forall (F : Field) grow m (l : SLayer F) qL qR qPrime hL hR hPrime lambdaL lambdaR vL vR (cs : CS F),
  (forall s, In s [qL; qR; qPrime; hL; hR; hPrime] -> vwf m s) ->
  match SCombineWithLinearComb l (vtab m qL) (vtab m qR) (vtab m qPrime) (vtab m hL) (vtab m hR) (vtab m hPrime) lambdaL lambdaR vL vR cs with
  | None => VCombineWithLinearComb grow l qL qR qPrime hL hR hPrime lambdaL lambdaR vL vR m cs = None
  | Some (v, cs') => exists m', VCombineWithLinearComb grow l qL qR qPrime hL hR hPrime lambdaL lambdaR vL vR m cs = Some (v, m', cs') /\ vext m m'
  end.
Proof.
  intros F grow m l qL qR qP hL hR hP lamL lamR vL vR cs W.
  assert (H : refines m m (VCombineWithLinearComb grow l qL qR qP hL hR hP lamL lamR vL vR)
    (SCombineWithLinearComb l (vtab m qL) (vtab m qR) (vtab m qP) (vtab m hL) (vtab m hR) (vtab m hP) lamL lamR vL vR) (fun m' a b => vext m m' /\ a = b)).
  { apply ref_combine2; try reflexivity; apply W; cbn; tauto. }
  specialize (H (vext_refl m) cs). destruct (SCombineWithLinearComb _ _ _ _ _ _ _ _ _ _ _ cs) as [[v cs']|]; [|exact H]. destruct H as (a & m' & E & X & _ & ->). exists m'. auto.
Qed.

Lemma gkr_heap : forall (F : Field) grow (Arks : list F) m sumchecks left right (c : list (SLayer F)) q qPrime vInput vOutput (cs : CS F),
  (forall sc s, In sc sumchecks -> In s sc -> vwf m s) -> (forall s, In s [left; right; q; qPrime; vInput; vOutput] -> vwf m s) ->
  match SGkrAssertValid Arks (MkSProof (map (map (vtab m)) sumchecks) (vtab m left) (vtab m right)) c
          (vtab m q) (vtab m qPrime) (vtab m vInput) (vtab m vOutput) cs with
  | None => VGkrAssertValid grow Arks (MkVProof sumchecks left right) c q qPrime vInput vOutput m cs = None
  | Some (_, cs') => exists m', VGkrAssertValid grow Arks (MkVProof sumchecks left right) c q qPrime vInput vOutput m cs = Some (tt, m', cs') /\ vext m m'
  end.
Proof.
  intros F grow Arks m scs left right c q qP vI vO cs WS W.
  assert (H : refines m m (VGkrAssertValid grow Arks (MkVProof scs left right) c q qP vI vO)
    (SGkrAssertValid Arks (ptab m (MkVProof scs left right)) c (vtab m q) (vtab m qP) (vtab m vI) (vtab m vO)) (fun _ _ _ => True)).
  { apply ref_gkr; [|apply W; cbn; tauto..]. split; [exact WS|]. split; apply W; cbn; tauto. }
  specialize (H (vext_refl m) cs). unfold ptab in H. cbn [vSumchecks vLeft vRight] in H.
  destruct (SGkrAssertValid _ _ _ _ _ _ _ cs) as [[u cs']|]; [|exact H]. destruct H as ([] & m' & E & X & _). exists m'. auto.
Qed.

(** laying out lists one after the other *)
Lemma lay1 (l : list nat) m : exists m' s, vext m m' /\ vwf m' s /\ l = vtab m' s.
Proof.
  exists (m ++ l), (MkSlice (length m) (length l) (length l)). split; [apply vext_app|]. split; [apply vwf_new; lia|]. rewrite vtab_new by lia. symmetry. apply firstn_all.
Qed.
Lemma lay2 (l : list (list nat)) : forall m, exists m' ss, vext m m' /\ (forall s, In s ss -> vwf m' s) /\ l = map (vtab m') ss.
Proof.
  induction l as [|x l IH]; intros m.
  - exists m, []. split; [apply vext_refl|]. split; [intros s []|reflexivity].
  - destruct (lay1 x m) as (m1 & s & X1 & W1 & ->). destruct (IH m1) as (m2 & ss & X2 & W2 & ->). exists m2, (s :: ss).
    split; [eapply vext_trans; eassumption|]. split; [intros s' [<-|H]; [eapply vwf_ext; eassumption|apply W2; exact H]|]. cbn [map]. rewrite (vtab_ext _ _ _ X2 W1). reflexivity.
Qed.
Lemma lay3 (l : list (list (list nat))) : forall m, exists m' sss, vext m m' /\ (forall ss s, In ss sss -> In s ss -> vwf m' s) /\ l = map (map (vtab m')) sss.
Proof.
  induction l as [|x l IH]; intros m.
  - exists m, []. split; [apply vext_refl|]. split; [intros ss s []|reflexivity].
  - destruct (lay2 x m) as (m1 & ss & X1 & W1 & ->). destruct (IH m1) as (m2 & sss & X2 & W2 & ->). exists m2, (ss :: sss).
    split; [eapply vext_trans; eassumption|]. split; [intros ss' s [<-|H] Hs; [eapply vwf_ext; [exact X2|apply W1; exact Hs]|eapply W2; eassumption]|].
    cbn [map]. f_equal. apply map_ext_in. intros s Hs. symmetry. apply vtab_ext; [exact X2|apply W1; exact Hs].
Qed.

Lemma layout_heap : forall (p : SProof nat) (q qPrime vInput vOutput : list nat), exists m sumchecks left right sq sqPrime sInput sOutput,
  (forall sc s, In sc sumchecks -> In s sc -> vwf m s) /\ (forall s, In s [left; right; sq; sqPrime; sInput; sOutput] -> vwf m s) /\
  p = MkSProof (map (map (vtab m)) sumchecks) (vtab m left) (vtab m right) /\
  q = vtab m sq /\ qPrime = vtab m sqPrime /\ vInput = vtab m sInput /\ vOutput = vtab m sOutput.
Proof.
  intros [scs l r] q qP vI vO. destruct (lay2 [l; r; q; qP; vI; vO] []) as (m1 & ss & _ & W1 & E1). destruct (lay3 scs m1) as (m & sss & X & W2 & ->).
  destruct ss as [|s1 [|s2 [|s3 [|s4 [|s5 [|s6 [|s7 ss]]]]]]]; try discriminate. cbn [map] in E1. injection E1 as -> -> -> -> -> ->.
  exists m, sss, s1, s2, s3, s4, s5, s6. split; [exact W2|]. split; [intros s H; eapply vwf_ext; [exact X|apply W1; exact H]|].
  rewrite !(vtab_ext _ _ _ X) by (apply W1; cbn; tauto). repeat split; reflexivity.
Qed.

Lemma vtab_In m s v : In v (vtab m s) -> In v m.
Proof.
  unfold vtab. intros H. rewrite <- (firstn_skipn (base s) m). apply in_or_app. right.
  rewrite <- (firstn_skipn (slen s) (skipn (base s) m)). apply in_or_app. left. exact H.
Qed.

Lemma builds_heap : forall (F : Field) (arks : list F), 91 <= length arks -> forall grow m sumchecks left right (cs : CS F) sc q qPrime vInput vOutput,
  SCreateMimcCircuit arks = Some sc -> cs_ok cs -> vars cs m ->
  (forall ss s, In ss sumchecks -> In s ss -> vwf m s) -> (forall s, In s [left; right; q; qPrime; vInput; vOutput] -> vwf m s) ->
  (VGkrAssertValid grow arks (MkVProof sumchecks left right) sc q qPrime vInput vOutput m cs <> None <->
   buildable (MkSProof (map (map (vtab m)) sumchecks) (vtab m left) (vtab m right)) (slen q) (slen qPrime) (slen vInput) (slen vOutput)).
Proof.
  intros F arks HA grow m scs left right cs sc q qP vI vO HC HO HV WS W.
  pose proof (gkr_heap F grow arks m scs left right sc q qP vI vO cs WS W) as H.
  rewrite <- !(vtab_length m) by (apply W; cbn; tauto).
  rewrite <- (SGkr_builds arks HA (MkSProof (map (map (vtab m)) scs) (vtab m left) (vtab m right)) cs sc _ _ _ _ HC HO).
  - destruct (SGkrAssertValid _ _ _ _ _ _ _ cs) as [[u cs']|].
    + destruct H as (m' & -> & _). split; intros _; discriminate.
    + rewrite H. split; intros N; exfalso; apply N; reflexivity.
  - intros v Hv. apply HV. cbn [sSumchecks sLeft sRight] in Hv. repeat (apply in_app_or in Hv; destruct Hv as [Hv|Hv]; [|]); try (eapply vtab_In; exact Hv).
    apply in_concat in Hv. destruct Hv as (l & Hl & Hv). apply in_concat in Hl. destruct Hl as (ll & Hll & Hl).
    apply in_map_iff in Hll. destruct Hll as (ss & <- & _). apply in_map_iff in Hl. destruct Hl as (s & <- & _). eapply vtab_In; exact Hv.
Qed.
