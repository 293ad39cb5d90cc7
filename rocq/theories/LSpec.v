(** Lemmas about the mathematical specifications of Spec.v (no model of code here). *)
From Coq Require Import List Arith Lia Bool Ring Field.
From Verif Require Import Field Go Spec.
Import ListNotations.

Lemma to_bits_length n j : length (to_bits n j) = n.
Proof. revert j; induction n as [|n IH]; intros j; simpl; [reflexivity|]. destruct (_ <=? _); simpl; auto. Qed.

Lemma bits_val_to_bits n j : j < 2 ^ n -> bits_val (to_bits n j) = j.
Proof.
  revert j; induction n as [|n IH]; intros j H.
  - simpl in *; lia.
  - cbn [to_bits]. rewrite Nat.pow_succ_r' in H.
    destruct (Nat.leb_spec (2 ^ n) j); cbn [bits_val]; rewrite ?to_bits_length, IH; lia.
Qed.

Lemma bits_val_lt b : bits_val b < 2 ^ length b.
Proof.
  induction b as [|c b IH]; cbn [bits_val length]; [simpl; lia|].
  rewrite Nat.pow_succ_r'. destruct c; lia.
Qed.

Lemma to_bits_bits_val b : to_bits (length b) (bits_val b) = b.
Proof.
  induction b as [|c b IH]; [reflexivity|].
  cbn [length bits_val to_bits]. pose proof (bits_val_lt b).
  destruct c.
  - destruct (Nat.leb_spec (2 ^ length b) (2 ^ length b + bits_val b)); [|lia].
    replace (2 ^ length b + bits_val b - 2 ^ length b) with (bits_val b) by lia. now rewrite IH.
  - destruct (Nat.leb_spec (2 ^ length b) (0 + bits_val b)); [lia|]. simpl. now rewrite IH.
Qed.

Lemma bits_val_inj b1 b2 : length b1 = length b2 -> bits_val b1 = bits_val b2 -> b1 = b2.
Proof.
  intros HL HV. rewrite <- (to_bits_bits_val b1), <- (to_bits_bits_val b2), HL, HV. reflexivity.
Qed.

Lemma bits_val_snoc b c : bits_val (b ++ [c]) = 2 * bits_val b + (if c then 1 else 0).
Proof.
  induction b as [|d b IH]; cbn [app bits_val].
  - destruct c; reflexivity.
  - rewrite IH, app_length. cbn [length]. rewrite Nat.add_1_r, Nat.pow_succ_r'. destruct d; lia.
Qed.

Lemma bits_val_app b1 b2 : bits_val (b1 ++ b2) = bits_val b1 * 2 ^ length b2 + bits_val b2.
Proof.
  induction b1 as [|d b1 IH]; cbn [app bits_val]; [lia|].
  rewrite IH, app_length, Nat.pow_add_r. destruct d; lia.
Qed.

Lemma cube_to_bits n : cube n = map (to_bits n) (seq 0 (2 ^ n)).
Proof.
  induction n as [|n IH]; [reflexivity|].
  cbn [cube]. rewrite Nat.pow_succ_r'.
  replace (2 * 2 ^ n) with (2 ^ n + 2 ^ n) by lia.
  rewrite seq_app, map_app, IH, !map_map. f_equal.
  - apply map_ext_in. intros a Ha. apply in_seq in Ha. cbn [to_bits].
    destruct (Nat.leb_spec (2 ^ n) a); [lia|reflexivity].
  - simpl. apply (list_ext []).
    + now rewrite !map_length, !seq_length.
    + intros i Hi. rewrite map_length, seq_length in Hi.
      rewrite nth_map_seq by assumption.
      rewrite nth_map_lt with (d' := 0) by (rewrite seq_length; assumption).
      rewrite seq_nth by assumption.
      destruct (Nat.leb_spec (2 ^ n) (2 ^ n + i)); [|lia].
      now replace (2 ^ n + i - 2 ^ n) with i by lia.
Qed.

Lemma cube_length n : length (cube n) = 2 ^ n.
Proof. rewrite cube_to_bits, map_length, seq_length. reflexivity. Qed.

Lemma in_cube n b : In b (cube n) <-> length b = n.
Proof.
  rewrite cube_to_bits, in_map_iff. split.
  - intros (j & <- & _). apply to_bits_length.
  - intros <-. exists (bits_val b). split; [apply to_bits_bits_val|].
    apply in_seq. pose proof (bits_val_lt b). lia.
Qed.

Lemma nth_cube n j d : j < 2 ^ n -> nth j (cube n) d = to_bits n j.
Proof. intros H. rewrite cube_to_bits. now apply nth_map_seq. Qed.

Lemma nth_bits_cube b d : nth (bits_val b) (cube (length b)) d = b.
Proof. rewrite nth_cube by apply bits_val_lt. apply to_bits_bits_val. Qed.

Lemma cube_app n m : cube (n + m) = flat_map (fun a => map (app a) (cube m)) (cube n).
Proof.
  induction n as [|n IH]; simpl.
  - rewrite app_nil_r, map_id. reflexivity.
  - rewrite IH, flat_map_app. f_equal.
    + generalize (cube n) as l. intros l. induction l as [|a l IHl]; simpl; [reflexivity|].
      rewrite map_app, IHl, map_map. reflexivity.
    + generalize (cube n) as l. intros l. induction l as [|a l IHl]; simpl; [reflexivity|].
      rewrite map_app, IHl, map_map. reflexivity.
Qed.

Section LSpec.
  Context {F : Field}.
  Add Field FfieldLSpec : (f_theory F).
  Open Scope F_scope.

  Lemma sum_cube n (f : list bool -> F) :
    suml (cube n) f = sumn (2 ^ n) (fun j => f (to_bits n j)).
  Proof. rewrite cube_to_bits, suml_map. reflexivity. Qed.

  Lemma sum_cube_val n (f : nat -> F) :
    suml (cube n) (fun b => f (bits_val b)) = sumn (2 ^ n) f.
  Proof.
    rewrite sum_cube. apply sumn_ext. intros i Hi. rewrite bits_val_to_bits by assumption. reflexivity.
  Qed.

  Lemma sum_cube_app n m (f : list bool -> F) :
    suml (cube (n + m)) f = suml (cube n) (fun a => suml (cube m) (fun b => f (a ++ b))).
  Proof.
    rewrite cube_app, suml_flat_map. apply suml_ext. intros a _. rewrite suml_map. reflexivity.
  Qed.

  Lemma chi_app (b1 b2 : list bool) (x1 x2 : list F) :
    length b1 = length x1 -> chi (b1 ++ b2) (x1 ++ x2) = chi b1 x1 * chi b2 x2.
  Proof.
    revert x1; induction b1 as [|c b1 IH]; intros [|y x1] H; simpl in *; try discriminate; [ring|].
    rewrite IH by lia. ring.
  Qed.

  Lemma chi_snoc (b : list bool) c (x : list F) y :
    length b = length x -> chi (b ++ [c]) (x ++ [y]) = chi b x * (if c then y else 1 - y).
  Proof. intros H. rewrite chi_app by assumption. simpl. ring. Qed.

  Lemma chi_sum (x : list F) : suml (cube (length x)) (fun b => chi b x) = 1.
  Proof.
    induction x as [|y x IH]; simpl; [ring|].
    rewrite suml_app, !suml_map. simpl.
    rewrite !suml_scal_l, IH. ring.
  Qed.

  Lemma chi_bpoint_same b : chi b (bpoint b) = (1 : F).
  Proof. induction b as [|c b IH]; simpl; [reflexivity|]. rewrite IH. destruct c; ring. Qed.

  Lemma chi_bpoint_diff b c : length b = length c -> b <> c -> chi b (bpoint c) = (0 : F).
  Proof.
    revert c; induction b as [|x b IH]; intros [|y c] HL HN; simpl in *; try discriminate; [congruence|].
    destruct (bool_dec x y) as [->|Hxy].
    - rewrite IH; [ring|lia|congruence].
    - destruct x, y; try congruence; ring.
  Qed.

  Lemma chi_eqprod b (x : list F) : length b = length x -> eqprod (bpoint b) x = chi b x.
  Proof.
    revert x; induction b as [|c b IH]; intros [|y x] H; simpl in *; try discriminate; [reflexivity|].
    fold (bpoint (F:=F) b). rewrite IH by lia. destruct c; ring.
  Qed.

  Lemma eqprod_sym (q h : list F) : eqprod q h = eqprod h q.
  Proof. revert h; induction q as [|x q IH]; intros [|y h]; simpl; auto. rewrite IH. ring. Qed.

  Lemma bpoint_length b : length (bpoint (F:=F) b) = length b.
  Proof. apply map_length. Qed.

  (** eq as a multilinear sum *)
  Lemma eqprod_sum (q h : list F) :
    length q = length h ->
    suml (cube (length q)) (fun b => chi b q * chi b h) = eqprod q h.
  Proof.
    revert h; induction q as [|x q IH]; intros [|y h] H; simpl in *; try discriminate; [ring|].
    rewrite suml_app, !suml_map. simpl. rewrite <- (IH h) by lia.
    rewrite <- !suml_scal_l, <- suml_add. apply suml_ext. intros a _. ring.
  Qed.

  (** multilinear extensions *)
  Lemma mle_nil (t : list F) : mle t [] = nth 0 t 0.
  Proof. unfold mle. simpl. ring. Qed.

  Lemma mle_cons (t : list F) y x :
    mle t (y :: x) = suml (cube (length x)) (fun b =>
      ((1 - y) * nth (bits_val b) t 0 + y * nth (2 ^ length x + bits_val b) t 0) * chi b x).
  Proof.
    unfold mle. cbn [length cube]. rewrite suml_app, !suml_map, <- suml_add.
    apply suml_ext. intros b Hb. apply in_cube in Hb. cbn [bits_val chi]. rewrite Hb.
    rewrite Nat.add_0_l. ring.
  Qed.

  Lemma mle_ext (t t' : list F) x :
    (forall i, (i < 2 ^ length x)%nat -> nth i t 0 = nth i t' 0) -> mle t x = mle t' x.
  Proof.
    intros H. apply suml_ext. intros b Hb. apply in_cube in Hb. rewrite H; [reflexivity|].
    rewrite <- Hb. apply bits_val_lt.
  Qed.

  Lemma mle_bpoint (t : list F) b : mle t (bpoint b) = nth (bits_val b) t 0.
  Proof.
    unfold mle. rewrite bpoint_length.
    rewrite sum_cube.
    rewrite (sumn_ext _ _ (fun j => if Nat.eqb j (bits_val b) then nth j t 0 else 0)).
    - apply sumn_delta with (f := fun j => nth j t 0). apply bits_val_lt.
    - intros j Hj. rewrite bits_val_to_bits by assumption.
      destruct (Nat.eqb_spec j (bits_val b)) as [->|Hne].
      + rewrite to_bits_bits_val, chi_bpoint_same. ring.
      + rewrite chi_bpoint_diff; [ring|apply to_bits_length|].
        intros E. apply Hne. rewrite <- (bits_val_to_bits (length b) j Hj), E. reflexivity.
  Qed.

  Lemma mle_linear (t0 t1 t : list F) a0 a1 x :
    (forall i, (i < 2 ^ length x)%nat -> nth i t 0 = a0 * nth i t0 0 + a1 * nth i t1 0) ->
    mle t x = a0 * mle t0 x + a1 * mle t1 x.
  Proof.
    intros H. unfold mle. rewrite <- !suml_scal_l, <- suml_add. apply suml_ext.
    intros b Hb. apply in_cube in Hb. rewrite H; [ring|]. rewrite <- Hb. apply bits_val_lt.
  Qed.

  (** a table given by entry function, at a split point *)
  Lemma mle_app (t x y : list F) :
    mle t (x ++ y) = suml (cube (length x)) (fun a => suml (cube (length y)) (fun b =>
      nth (bits_val a * 2 ^ length y + bits_val b) t 0 * (chi a x * chi b y))).
  Proof.
    unfold mle. rewrite app_length, sum_cube_app.
    apply suml_ext; intros a Ha; apply in_cube in Ha.
    apply suml_ext; intros b Hb; apply in_cube in Hb.
    rewrite bits_val_app, Hb, chi_app by assumption. reflexivity.
  Qed.

  Lemma mle_sumn (t x : list F) :
    mle t x = sumn (2 ^ length x) (fun j => nth j t 0 * chi (to_bits (length x) j) x).
  Proof.
    unfold mle. rewrite sum_cube. apply sumn_ext. intros j Hj.
    rewrite bits_val_to_bits by assumption. reflexivity.
  Qed.

  (** evaluating first in the low variables, then in the high ones *)
  Lemma mle_split_low (t x y : list F) :
    mle t (x ++ y) =
    mle (map (fun u => mle (map (fun s => nth (u * 2 ^ length y + s) t 0) (seq 0 (2 ^ length y))) y)
             (seq 0 (2 ^ length x))) x.
  Proof.
    rewrite mle_app. unfold mle at 1. apply suml_ext; intros a Ha; apply in_cube in Ha.
    rewrite nth_map_seq by (rewrite <- Ha; apply bits_val_lt).
    unfold mle. rewrite <- suml_scal_r. apply suml_ext; intros b Hb; apply in_cube in Hb.
    rewrite nth_map_seq by (rewrite <- Hb; apply bits_val_lt). ring.
  Qed.

  (** evaluating first in the high variables, then in the low ones *)
  Lemma mle_split_high (t x y : list F) :
    mle t (x ++ y) =
    mle (map (fun s => mle (map (fun u => nth (u * 2 ^ length y + s) t 0) (seq 0 (2 ^ length x))) x)
             (seq 0 (2 ^ length y))) y.
  Proof.
    rewrite mle_app, suml_swap. unfold mle at 1. apply suml_ext; intros b Hb; apply in_cube in Hb.
    rewrite nth_map_seq by (rewrite <- Hb; apply bits_val_lt).
    unfold mle. rewrite <- suml_scal_r. apply suml_ext; intros a Ha; apply in_cube in Ha.
    rewrite nth_map_seq by (rewrite <- Ha; apply bits_val_lt). ring.
  Qed.

  (** interleaving *)
  Lemma interleave_length m (chunks : list (list F)) :
    length (interleave m chunks) = (m * length chunks)%nat.
  Proof. unfold interleave. rewrite map_length, seq_length. reflexivity. Qed.

  Lemma interleave_nth m (chunks : list (list F)) u s :
    (u < m)%nat -> (s < length chunks)%nat ->
    nth (u * length chunks + s) (interleave m chunks) 0 = nth u (nth s chunks []) 0.
  Proof.
    intros Hu Hs. unfold interleave. rewrite nth_map_seq by nia.
    rewrite Nat.div_add_l by lia. rewrite Nat.div_small, Nat.add_0_r by lia.
    rewrite (Nat.add_comm (u * _)), Nat.mod_add by lia. rewrite Nat.mod_small by lia. reflexivity.
  Qed.

  Lemma interleave_eq m (chunks : list (list F)) t :
    length t = (m * length chunks)%nat ->
    (forall u s, (u < m)%nat -> (s < length chunks)%nat ->
       nth (u * length chunks + s) t 0 = nth u (nth s chunks []) 0) ->
    t = interleave m chunks.
  Proof.
    intros HL H. apply (list_ext 0).
    - rewrite interleave_length; assumption.
    - intros i Hi. rewrite HL in Hi.
      assert (length chunks <> 0)%nat by (intros E; rewrite E in Hi; lia).
      pose proof (Nat.mod_upper_bound i (length chunks) ltac:(assumption)) as Hm.
      assert (E : i = (i / length chunks * length chunks + i mod length chunks)%nat)
        by (rewrite Nat.mul_comm; apply Nat.div_mod; assumption).
      assert (i / length chunks < m)%nat by (apply Nat.div_lt_upper_bound; lia).
      rewrite E. rewrite H, interleave_nth by assumption. reflexivity.
  Qed.

  (** univariate polynomials *)
  Lemma peval_nil (x : F) : peval [] x = 0.
  Proof. reflexivity. Qed.

  Lemma peval_cons c (p : list F) x : peval (c :: p) x = c + x * peval p x.
  Proof.
    unfold peval. cbn [length]. rewrite sumn_S_l. cbn [nth fpow].
    rewrite <- sumn_scal_l. rewrite (sumn_ext _ _ (fun i => x * (nth i p 0 * fpow x i))) by (intros; ring).
    ring.
  Qed.

  Lemma peval_app (p q : list F) x : peval (p ++ q) x = peval p x + fpow x (length p) * peval q x.
  Proof.
    induction p as [|c p IH]; cbn [app length fpow].
    - rewrite peval_nil. ring.
    - rewrite !peval_cons, IH. ring.
  Qed.

  Lemma peval_map_scal (p : list F) c x : peval (map (fun a => a * c) p) x = peval p x * c.
  Proof.
    induction p as [|a p IH]; cbn [map]; rewrite ?peval_nil, ?peval_cons, ?IH; ring.
  Qed.

  Lemma peval_zeros n (x : F) : peval (repeat 0 n) x = 0.
  Proof. induction n; cbn [repeat]; rewrite ?peval_nil, ?peval_cons, ?IHn; ring. Qed.

  Lemma peval_at_0 (p : list F) : peval p 0 = nth 0 p 0.
  Proof. destruct p as [|c p]; [reflexivity|]. rewrite peval_cons. simpl. ring. Qed.

  (** pointwise combination of coefficient lists of a given length *)
  Definition ptab (n : nat) (p : list F) : list F := map (fun i => nth i p 0) (seq 0 n).

  Lemma peval_tab n (f : nat -> F) x :
    peval (map f (seq 0 n)) x = sumn n (fun i => f i * fpow x i).
  Proof.
    unfold peval. rewrite map_length, seq_length. apply sumn_ext. intros i Hi.
    rewrite nth_map_seq by assumption. reflexivity.
  Qed.

  Lemma peval_ge n (p : list F) x :
    (length p <= n)%nat -> sumn n (fun i => nth i p 0 * fpow x i) = peval p x.
  Proof.
    intros H. replace n with (length p + (n - length p))%nat by lia.
    rewrite sumn_plus. rewrite (sumn_zero (n - length p)).
    - unfold peval. ring.
    - intros i _. rewrite nth_overflow by lia. ring.
  Qed.

  (** Synthetic division: [p = (X - a) * q + p(a)]. *)
  Fixpoint synth (p : list F) (a : F) : list F :=
    match p with
    | [] => []
    | c :: p' => match p' with [] => [] | _ => peval p' a :: synth p' a end
    end.

  Lemma synth_length p a : length (synth p a) = (length p - 1)%nat.
  Proof.
    induction p as [|c p IH]; [reflexivity|]. destruct p as [|d p]; [reflexivity|].
    cbn [synth length] in *. rewrite IH. lia.
  Qed.

  Lemma synth_spec p a x : peval p x = (x - a) * peval (synth p a) x + peval p a.
  Proof.
    induction p as [|c p IH]; [cbn [synth]; rewrite !peval_nil; ring|].
    destruct p as [|d p].
    - cbn [synth]. rewrite !peval_cons, !peval_nil. ring.
    - change (synth (c :: d :: p) a) with (peval (d :: p) a :: synth (d :: p) a).
      rewrite (peval_cons c), (peval_cons c (d :: p) a), (peval_cons (peval (d :: p) a)), IH. ring.
  Qed.

  (** A polynomial with at most [n] coefficients and [n] distinct roots vanishes everywhere. *)
  Lemma poly_roots_zero (xs : list F) (p : list F) :
    NoDup xs -> (length p <= length xs)%nat -> (forall x, In x xs -> peval p x = 0) ->
    forall x, peval p x = 0.
  Proof.
    revert p; induction xs as [|a xs IH]; intros p Hnd HL Hz x.
    - destruct p; [reflexivity|simpl in HL; lia].
    - inversion Hnd as [|? ? Hna Hnd']; subst.
      assert (Ha : peval p a = 0) by (apply Hz; left; reflexivity).
      rewrite (synth_spec p a x), Ha.
      rewrite (IH (synth p a) Hnd'); [ring| |].
      + rewrite synth_length. simpl in HL. lia.
      + intros y Hy. assert (Hy0 : peval p y = 0) by (apply Hz; right; exact Hy).
        rewrite (synth_spec p a y), Ha in Hy0.
        destruct (f_integral (y - a) (peval (synth p a) y)) as [E|E].
        * rewrite <- Hy0. ring.
        * apply f_sub_eq in E. subst. contradiction.
        * exact E.
  Qed.

  (** ... and then its coefficients vanish. *)
  Lemma poly_roots_coeffs (xs : list F) (p : list F) :
    NoDup xs -> (length p <= length xs)%nat -> (forall x, In x xs -> peval p x = 0) ->
    forall i, nth i p 0 = 0.
  Proof.
    revert p; induction xs as [|a xs IH]; intros p Hnd HL Hz i.
    - destruct p; [destruct i; reflexivity|simpl in HL; lia].
    - inversion Hnd as [|? ? Hna Hnd']; subst.
      assert (Ha : peval p a = 0) by (apply Hz; left; reflexivity).
      assert (Hq : forall j, nth j (synth p a) 0 = 0).
      { apply (IH (synth p a) Hnd').
        - rewrite synth_length. simpl in HL. lia.
        - intros y Hy. assert (Hy0 : peval p y = 0) by (apply Hz; right; exact Hy).
          rewrite (synth_spec p a y), Ha in Hy0.
          destruct (f_integral (y - a) (peval (synth p a) y)) as [E|E].
          + rewrite <- Hy0. ring.
          + apply f_sub_eq in E. subst. contradiction.
          + exact E. }
      (* suffixes of p evaluate to zero at a *)
      assert (Hsuf : forall p, peval p a = 0 -> (forall j, nth j (synth p a) 0 = 0) ->
                forall i, nth i p 0 = 0).
      { clear. induction p as [|c p IHp]; intros H0 Hs i; [destruct i; reflexivity|].
        destruct p as [|d p].
        - rewrite peval_cons, peval_nil in H0. destruct i as [|[|i]]; simpl; try reflexivity.
          rewrite <- H0. ring.
        - change (synth (c :: d :: p) a) with (peval (d :: p) a :: synth (d :: p) a) in Hs.
          assert (H1 : peval (d :: p) a = 0) by exact (Hs 0%nat).
          destruct i as [|i].
          + simpl. rewrite peval_cons, H1 in H0. rewrite <- H0. ring.
          + cbn [nth]. apply IHp; [exact H1|]. intros j. exact (Hs (S j)). }
      apply (Hsuf p Ha Hq).
  Qed.

  Definition psub (n : nat) (p q : list F) : list F :=
    map (fun i => nth i p 0 - nth i q 0) (seq 0 n).

  Lemma peval_psub n p q x : (length p <= n)%nat -> (length q <= n)%nat ->
    peval (psub n p q) x = peval p x - peval q x.
  Proof.
    intros Hp Hq. unfold psub. rewrite peval_tab.
    rewrite (sumn_ext _ _ (fun i => nth i p 0 * fpow x i - nth i q 0 * fpow x i)) by (intros; ring).
    rewrite sumn_sub, !peval_ge by assumption. reflexivity.
  Qed.

  Lemma poly_unique (xs p q : list F) :
    NoDup xs -> length p = length q -> (length p <= length xs)%nat ->
    (forall x, In x xs -> peval p x = peval q x) -> p = q.
  Proof.
    intros Hnd Heq HL H. apply (list_ext 0); [exact Heq|].
    intros i Hi. apply f_sub_eq.
    rewrite <- (nth_map_seq (fun i => nth i p 0 - nth i q 0) (length p) i 0 Hi).
    apply (poly_roots_coeffs xs (psub (length p) p q) Hnd).
    - unfold psub. rewrite map_length, seq_length. assumption.
    - intros x Hx. rewrite peval_psub by lia. rewrite H by assumption. ring.
  Qed.

  Lemma poly_unique_eval (xs p q : list F) :
    NoDup xs -> (length p <= length xs)%nat -> (length q <= length xs)%nat ->
    (forall x, In x xs -> peval p x = peval q x) -> forall x, peval p x = peval q x.
  Proof.
    intros Hnd Hp Hq H x. apply f_sub_eq.
    rewrite <- (peval_psub (length xs) p q x Hp Hq).
    apply (poly_roots_zero xs _ Hnd).
    - unfold psub. rewrite map_length, seq_length. lia.
    - intros y Hy. rewrite peval_psub by assumption. rewrite H by assumption. ring.
  Qed.

  (** degree calculus *)
  Lemma pdl_ext d (f g : F -> F) : (forall x, f x = g x) -> poly_deg_le d f -> poly_deg_le d g.
  Proof. intros H (c & HL & HE). exists c. split; [exact HL|]. intros x. rewrite <- H. apply HE. Qed.

  Lemma pdl_of_list n (c : list F) : (length c <= S n)%nat -> poly_deg_le n (peval c).
  Proof.
    intros H. exists (map (fun i => nth i c 0) (seq 0 (S n))). split.
    - rewrite map_length, seq_length. reflexivity.
    - intros x. rewrite peval_tab, peval_ge by assumption. reflexivity.
  Qed.

  Lemma pdl_mono d d' (f : F -> F) : (d <= d')%nat -> poly_deg_le d f -> poly_deg_le d' f.
  Proof.
    intros Hd (c & HL & HE). apply (pdl_ext d' (peval c)).
    - intros x. symmetry. apply HE.
    - apply pdl_of_list. lia.
  Qed.

  Lemma pdl_const d (a : F) : poly_deg_le d (fun _ => a).
  Proof.
    apply (pdl_ext d (peval [a])).
    - intros x. rewrite peval_cons, peval_nil. ring.
    - apply pdl_of_list. simpl. lia.
  Qed.

  Lemma pdl_line (a b : F) : poly_deg_le 1 (fun x => a + b * x).
  Proof.
    apply (pdl_ext 1 (peval [a; b])).
    - intros x. rewrite !peval_cons, peval_nil. ring.
    - apply pdl_of_list. simpl. lia.
  Qed.

  Lemma pdl_add d (f g : F -> F) :
    poly_deg_le d f -> poly_deg_le d g -> poly_deg_le d (fun x => f x + g x).
  Proof.
    intros (c & HL & HE) (c' & HL' & HE').
    exists (map (fun i => nth i c 0 + nth i c' 0) (seq 0 (S d))). split.
    - rewrite map_length, seq_length. reflexivity.
    - intros x. rewrite peval_tab, HE, HE'.
      rewrite (sumn_ext _ _ (fun i => nth i c 0 * fpow x i + nth i c' 0 * fpow x i)) by (intros; ring).
      rewrite sumn_add, !peval_ge by lia. reflexivity.
  Qed.

  Lemma pdl_scal d (f : F -> F) a : poly_deg_le d f -> poly_deg_le d (fun x => a * f x).
  Proof.
    intros (c & HL & HE). exists (map (fun b => b * a) c). split.
    - rewrite map_length. exact HL.
    - intros x. rewrite peval_map_scal, HE. ring.
  Qed.

  Lemma pdl_suml {A} (l : list A) d (f : A -> F -> F) :
    (forall a, In a l -> poly_deg_le d (f a)) -> poly_deg_le d (fun x => suml l (fun a => f a x)).
  Proof.
    induction l as [|a l IH]; intros H; simpl.
    - apply pdl_const.
    - apply pdl_add; [apply H; left; reflexivity|]. apply IH. intros b Hb. apply H. right; exact Hb.
  Qed.

  Lemma pdl_sumn n d (f : nat -> F -> F) :
    (forall i, (i < n)%nat -> poly_deg_le d (f i)) -> poly_deg_le d (fun x => sumn n (fun i => f i x)).
  Proof. intros H. apply pdl_suml. intros i Hi. apply in_seq in Hi. apply H. lia. Qed.

  (** multiply by X *)
  Lemma pdl_mul_x d (f : F -> F) : poly_deg_le d f -> poly_deg_le (S d) (fun x => x * f x).
  Proof.
    intros (c & HL & HE). exists (0 :: c). split; [simpl; lia|].
    intros x. rewrite peval_cons, HE. ring.
  Qed.

  Lemma pdl_mul d d' (f g : F -> F) :
    poly_deg_le d f -> poly_deg_le d' g -> poly_deg_le (d + d') (fun x => f x * g x).
  Proof.
    intros (c & HL & HE) Hg.
    apply (pdl_ext _ (fun x => peval c x * g x)); [intros x; rewrite HE; reflexivity|].
    clear HE f. revert d HL. induction c as [|a c IH]; intros d HL; [discriminate|].
    apply (pdl_ext _ (fun x => a * g x + x * (peval c x * g x))).
    - intros x. rewrite peval_cons. ring.
    - simpl in HL. destruct d as [|d].
      + destruct c; [|discriminate]. apply (pdl_ext _ (fun x => a * g x)).
        * intros x. rewrite peval_nil. ring.
        * simpl. apply pdl_scal. exact Hg.
      + apply pdl_add.
        * apply (pdl_mono d'); [lia|]. apply pdl_scal. exact Hg.
        * apply (pdl_mul_x (d + d') (fun x => peval c x * g x)). apply IH. lia.
  Qed.

  Lemma pdl_pow d (f : F -> F) n : poly_deg_le d f -> poly_deg_le (n * d) (fun x => fpow (f x) n).
  Proof.
    intros Hf. induction n as [|n IH]; simpl; [apply pdl_const|].
    apply (pdl_mul d (n * d) f _ Hf IH).
  Qed.

  Lemma pdl_unique d (f g : F -> F) (xs : list F) :
    poly_deg_le d f -> poly_deg_le d g -> NoDup xs -> (d < length xs)%nat ->
    (forall x, In x xs -> f x = g x) -> forall x, f x = g x.
  Proof.
    intros (c & HL & HE) (c' & HL' & HE') Hnd Hd H x.
    rewrite HE, HE'. apply (poly_unique_eval xs); try assumption; try lia.
    intros y Hy. rewrite <- HE, <- HE'. apply H. exact Hy.
  Qed.

End LSpec.
