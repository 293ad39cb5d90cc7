(** Two different tables have multilinear extensions that agree at few points of a grid. *)
From Coq Require Import List Arith Lia Bool Ring Field.
From Verif Require Import Field Go Spec LSpec MCircuit SpecCircuit MSumcheck SpecSumcheck MSumPar SpecSumPar MGkr SpecGkr.
Import ListNotations.

Lemma filter_flat_map {A B} (f : B -> bool) (g : A -> list B) l : filter f (flat_map g l) = flat_map (fun a => filter f (g a)) l.
Proof. induction l as [|a l IH]; [reflexivity|]. cbn [flat_map]. rewrite filter_app, IH. reflexivity. Qed.

Lemma flat_map_len {A B} (g : A -> list B) l : length (flat_map g l) = fold_right (fun a n => length (g a) + n) 0 l.
Proof. induction l as [|a l IH]; [reflexivity|]. cbn [flat_map fold_right]. rewrite app_length, IH. reflexivity. Qed.

Lemma sum_two {A} (h : A -> nat) (z : A -> bool) (l : list A) M : (forall a, In a l -> h a <= (if z a then M else 1)) ->
  fold_right (fun a n => h a + n) 0 l <= length (filter z l) * M + length l.
Proof.
  induction l as [|a l IH]; intros H; [apply Nat.le_0_l|]. cbn [fold_right filter length].
  pose proof (H a (or_introl eq_refl)) as Ha. pose proof (IH (fun b Hb => H b (or_intror Hb))) as Hl.
  destruct (z a); cbn [length Nat.mul]; lia.
Qed.

Lemma filter_len {A} (f : A -> bool) l : length (filter f l) <= length l.
Proof. induction l as [|a l IH]; [reflexivity|]. cbn [filter]. destruct (f a); cbn [length]; lia. Qed.

Section L.
  Context {F : Field}.
  Add Field FfieldGrid : (f_theory F).
  Open Scope F_scope.

  Lemma grid_length (S : list F) n : length (grid S n) = (length S ^ n)%nat.
  Proof.
    induction n as [|n IH]; [reflexivity|]. cbn [grid Nat.pow]. rewrite flat_map_len, <- IH. clear IH.
    generalize (grid S n). intros l. induction l as [|x l IHl]; [cbn; lia|]. cbn [fold_right length]. rewrite map_length, IHl. lia.
  Qed.

  Lemma grid_in (S : list F) n x : In x (grid S n) <-> length x = n /\ forall y, In y x -> In y S.
  Proof.
    revert x. induction n as [|n IH]; intros x; cbn [grid].
    - split; [intros [<-|[]]; split; [reflexivity|intros y []]|]. intros [H _]. destruct x; [left; reflexivity|discriminate].
    - rewrite in_flat_map. split.
      + intros (y & Hy & Hx). apply in_map_iff in Hx. destruct Hx as (z & <- & Hz). apply IH in Hy. destruct Hy as [<- Hy].
        split; [reflexivity|]. intros u [<-|Hu]; auto.
      + intros [HL HS]. destruct x as [|z y]; [discriminate|]. exists y. split.
        * apply IH. split; [cbn in HL; lia|]. intros u Hu. apply HS. right. exact Hu.
        * apply in_map_iff. exists z. split; [reflexivity|]. apply HS. left. reflexivity.
  Qed.

  (** At most one zero of a polynomial of degree one. *)
  Lemma one_zero (S : list F) (a b : F) : NoDup S -> b <> 0 -> (length (filter (fun y => feqb (a + y * b) 0) S) <= 1)%nat.
  Proof.
    intros HS Hb. induction S as [|y S IH]; [cbn; lia|]. inversion HS as [|y' S' Hy HS' E]. subst. cbn [filter].
    destruct (feqb_spec F (a + y * b) 0) as [E|E]; [|apply IH; exact HS'].
    assert (E0 : filter (fun y0 => feqb (a + y0 * b) 0) S = []); [|rewrite E0; reflexivity].
    assert (H : forall z, In z S -> feqb (a + z * b) 0 = false).
    { intros z Hz. apply feqb_neq. intros Ez. apply Hy. replace y with z; [exact Hz|].
      apply (f_mul_cancel_l b); [exact Hb|]. transitivity ((a + z * b) - a); [ring|]. rewrite Ez, <- E. ring. }
    clear - H. induction S as [|z S IH]; [reflexivity|]. cbn [filter]. rewrite (H z (or_introl eq_refl)). apply IH. intros u Hu. apply H. right. exact Hu.
  Qed.

  Definition half_diff (t : list F) : list F := map (fun i => nth (length t / 2 + i) t 0 - nth i t 0) (seq 0 (length t / 2)).

  Lemma mle_cons_lin (t : list F) y x : length t = (2 ^ S (length x))%nat ->
    mle t (y :: x) = mle (firstn (2 ^ length x) t) x + y * mle (half_diff t) x.
  Proof.
    intros HL. rewrite mle_cons. unfold mle. rewrite <- suml_scal_l, <- suml_add. apply suml_ext. intros b Hb.
    apply in_cube in Hb. pose proof (bits_val_lt b) as HB. rewrite Hb in HB.
    assert (Hh : (length t / 2 = 2 ^ length x)%nat) by (rewrite HL; cbn [Nat.pow]; rewrite Nat.mul_comm; apply Nat.div_mul; lia).
    rewrite nth_firstn by exact HB. unfold half_diff. rewrite Hh. rewrite nth_map_seq by exact HB. ring.
  Qed.

  (** The number of zeros. *)
  Lemma zeros_bound (S : list F) : NoDup S -> forall n (t : list F), length t = (2 ^ n)%nat -> (exists i, nth i t 0 <> 0) ->
    (length (filter (fun x => feqb (mle t x) 0) (grid S n)) <= n * length S ^ (n - 1))%nat.
  Proof.
    intros HS. induction n as [|n IH]; intros t HL (i & Hi).
    - cbn [grid filter]. rewrite mle_nil. assert (i = 0)%nat as ->.
      { destruct i as [|i]; [reflexivity|]. exfalso. apply Hi. apply nth_overflow. cbn in HL. lia. }
      rewrite (proj2 (feqb_neq _ _) Hi). cbn. lia.
    - cbn [grid]. rewrite filter_flat_map, flat_map_len.
      assert (EQ : forall x, In x (grid S n) -> length (filter (fun x => feqb (mle t x) 0) (map (fun y => y :: x) S)) =
        length (filter (fun y => feqb (mle (firstn (2 ^ n) t) x + y * mle (half_diff t) x) 0) S)).
      { intros x Hx. apply grid_in in Hx. destruct Hx as [Hx _]. clear - Hx HL. induction S as [|y S IH]; [reflexivity|].
        cbn [map filter]. rewrite (mle_cons_lin t y x) by (rewrite Hx; exact HL). rewrite Hx.
        destruct (feqb _ 0); cbn [length]; rewrite IH; reflexivity. }
      assert (Hh : (length t / 2 = 2 ^ n)%nat) by (rewrite HL; cbn [Nat.pow]; rewrite Nat.mul_comm; apply Nat.div_mul; lia).
      assert (L1 : length (firstn (2 ^ n) t) = (2 ^ n)%nat) by (rewrite firstn_length, HL; cbn [Nat.pow]; lia).
      assert (L2 : length (half_diff t) = (2 ^ n)%nat) by (unfold half_diff; rewrite map_length, seq_length; exact Hh).
      replace (Datatypes.S n - 1)%nat with n by lia.
      assert (Hdec : (exists i, nth i (half_diff t) 0 <> 0) \/ (forall i, nth i (half_diff t) 0 = 0)).
      { clear. induction (half_diff t) as [|z l [(j & Hj)|Hn]].
        - right. intros [|i]; reflexivity.
        - left. exists (Datatypes.S j). exact Hj.
        - destruct (f_eq_dec z 0) as [->|Hz]; [right; intros [|i]; [reflexivity|apply Hn]|left; exists 0%nat; exact Hz]. }
      destruct Hdec as [Hd|Hd].
      + specialize (IH (half_diff t) L2 Hd).
        etransitivity; [apply (sum_two _ (fun x => feqb (mle (half_diff t) x) 0) _ (length S))|].
        * intros x Hx. rewrite (EQ x Hx). destruct (feqb_spec F (mle (half_diff t) x) 0) as [E|E].
          -- apply filter_len.
          -- apply one_zero; assumption.
        * rewrite grid_length. cbn [Nat.mul]. destruct n as [|n]; [cbn in *; lia|].
          replace (Datatypes.S n - 1)%nat with n in IH by lia. cbn [Nat.pow] in *. nia.
      + assert (H0 : forall x, length x = n -> mle (half_diff t) x = 0).
        { intros x Hx. unfold mle. apply suml_zero. intros b _. rewrite Hd. ring. }
        assert (Hlo : exists i, nth i (firstn (2 ^ n) t) 0 <> 0).
        { destruct (Nat.lt_ge_cases i (2 ^ n)) as [H|H].
          - exists i. rewrite nth_firstn by exact H. exact Hi.
          - assert (Hi2 : (i < 2 ^ Datatypes.S n)%nat).
            { rewrite <- HL. destruct (Nat.lt_ge_cases i (length t)) as [X|X]; [exact X|]. exfalso. apply Hi. apply nth_overflow. exact X. }
            cbn [Nat.pow] in Hi2. exists (i - 2 ^ n)%nat. rewrite nth_firstn by lia. intros E. apply Hi.
            pose proof (Hd (i - 2 ^ n)%nat) as Hz. unfold half_diff in Hz. rewrite Hh, nth_map_seq in Hz by lia.
            replace (2 ^ n + (i - 2 ^ n))%nat with i in Hz by lia. rewrite E in Hz. apply f_sub_eq in Hz. exact Hz. }
        specialize (IH _ L1 Hlo).
        assert (EQ2 : fold_right (fun x k => length (filter (fun x => feqb (mle t x) 0) (map (fun y => y :: x) S)) + k)%nat 0%nat (grid S n) =
          (length (filter (fun x => feqb (mle (firstn (2 ^ n) t) x) 0) (grid S n)) * length S)%nat).
        { assert (EQ3 : forall x, In x (grid S n) -> length (filter (fun x => feqb (mle t x) 0) (map (fun y => y :: x) S)) =
            if feqb (mle (firstn (2 ^ n) t) x) 0 then length S else 0%nat).
          { intros x Hx. rewrite (EQ x Hx). apply grid_in in Hx. rewrite (H0 x (proj1 Hx)).
            assert (forall y : F, mle (firstn (2 ^ n) t) x + y * 0 = mle (firstn (2 ^ n) t) x) as Hy by (intros; ring).
            clear - Hy. induction S as [|y S IH]; [cbn; destruct (feqb _ 0); reflexivity|]. cbn [filter]. rewrite Hy.
            destruct (feqb _ 0); cbn [length]; rewrite IH; reflexivity. }
          clear - EQ3. induction (grid S n) as [|x l IH]; [reflexivity|]. cbn [fold_right filter]. rewrite (EQ3 x (or_introl eq_refl)).
          rewrite IH by (intros z Hz; apply EQ3; right; exact Hz). destruct (feqb _ 0); cbn [length Nat.mul]; lia. }
        rewrite EQ2. destruct n as [|n]; [cbn in *; lia|]. replace (Datatypes.S n - 1)%nat with n in IH by lia. cbn [Nat.pow]. pose proof (Nat.mul_le_mono_r _ _ (length S) IH) as IH2. set (P := (length S ^ n)%nat) in *. etransitivity; [exact IH2|]. clear. cbn [Nat.mul]. nia.
  Qed.

  Lemma agree_bound (S : list F) n (A B : list F) : NoDup S -> length A = (2 ^ n)%nat -> length B = (2 ^ n)%nat -> A <> B ->
    (length (filter (fun x => feqb (mle A x) (mle B x)) (grid S n)) <= n * length S ^ (n - 1))%nat.
  Proof.
    intros HS LA LB HN. set (D := map (fun i => nth i A 0 - nth i B 0) (seq 0 (2 ^ n))).
    assert (LD : length D = (2 ^ n)%nat) by (unfold D; rewrite map_length, seq_length; reflexivity).
    assert (HD : exists i, nth i D 0 <> 0).
    { assert (H : (exists i, nth i A 0 <> nth i B 0) \/ forall i, nth i A 0 = nth i B 0).
      { clear. revert B. induction A as [|a A IH]; intros B.
        - induction B as [|b B [(j & Hj)|Hn]]; [right; reflexivity|left; exists (Datatypes.S j); destruct j; exact Hj|].
          destruct (f_eq_dec b 0) as [->|Hb]; [right; intros [|i]; [reflexivity|specialize (Hn i); destruct i; exact Hn]|left; exists 0%nat; cbn; congruence].
        - destruct B as [|b B].
          + destruct (IH []) as [(j & Hj)|Hn]; [left; exists (Datatypes.S j); destruct j; exact Hj|].
            destruct (f_eq_dec a 0) as [->|Ha]; [right; intros [|i]; [reflexivity|specialize (Hn i); destruct i; exact Hn]|left; exists 0%nat; cbn; congruence].
          + destruct (IH B) as [(j & Hj)|Hn]; [left; exists (Datatypes.S j); exact Hj|].
            destruct (f_eq_dec a b) as [->|Ha]; [right; intros [|i]; [reflexivity|apply Hn]|left; exists 0%nat; exact Ha]. }
      destruct H as [(i & Hi)|H]; [|exfalso; apply HN; apply (list_ext 0); [congruence|auto]].
      exists i. destruct (Nat.lt_ge_cases i (2 ^ n)) as [Hlt|Hge].
      - unfold D. rewrite nth_map_seq by exact Hlt. intros E. apply Hi. apply f_sub_eq. exact E.
      - exfalso. apply Hi. rewrite !nth_overflow by lia. reflexivity. }
    etransitivity; [|apply (zeros_bound S HS n D LD HD)].
    apply Nat.eq_le_incl. f_equal. apply filter_ext_in. intros x Hx. apply grid_in in Hx. destruct Hx as [Hx _].
    assert (E : mle D x = mle A x - mle B x).
    { transitivity (1 * mle A x + - (1) * mle B x); [|ring]. apply mle_linear. intros j Hj. rewrite Hx in Hj. unfold D. rewrite nth_map_seq by exact Hj. ring. }
    rewrite E. destruct (feqb_spec F (mle A x) (mle B x)) as [->|Hne].
    - symmetry. replace (mle B x - mle B x) with (0 : F) by ring. apply feqb_refl.
    - symmetry. apply feqb_neq. intros E0. apply Hne. apply f_sub_eq. exact E0.
  Qed.
End L.
