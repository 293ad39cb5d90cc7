(** Inverses: the S-box and the permutations in the BN254 scalar field, Cauchy matrices in every field. *)
From Coq Require Import List Arith ZArith Znumtheory Zpow_facts Lia Bool Ring Field.
From Verif Require Import Field Go MCommon Spec LSpec LPoly MCircuit MHash SpecHash LHash FrPrime Fr.
Import ListNotations.

(** ** Seventh roots *)
Definition rootExp : Z := 12507567355336728698426517568718442907741922514523448196398973820900461997495%Z.
Definition root7 (x : Fr) : Fr := mkfr (Zpow_mod (frval x) rootExp frModulus).

Lemma frval_mul (x y : Fr) : frval (x * y)%F = ((frval x * frval y) mod frModulus)%Z.
Proof. reflexivity. Qed.

Lemma frval_pow (x : Fr) n : frval (fpow x n) = ((frval x ^ Z.of_nat n) mod frModulus)%Z.
Proof.
  induction n as [|n IH]; [reflexivity|]. cbn [fpow]. rewrite frval_mul, IH, Zmult_mod_idemp_r.
  rewrite Nat2Z.inj_succ, Z.pow_succ_r by lia. reflexivity.
Qed.

Lemma pow_rootExp x : ((x ^ 7) ^ rootExp mod frModulus = x mod frModulus)%Z.
Proof.
  rewrite <- Z.pow_mul_r by (vm_compute; discriminate).
  assert (Hk : exists k, (7 * rootExp = Z.succ ((frModulus - 1) * k) /\ 0 <= k)%Z)
    by (exists (7 * rootExp / (frModulus - 1))%Z; split; vm_compute; congruence).
  destruct Hk as (k & -> & Hk). rewrite Z.pow_succ_r by (apply Z.mul_nonneg_nonneg; [vm_compute; discriminate|exact Hk]).
  destruct (Z.eq_dec (x mod frModulus) 0) as [E|E].
  - rewrite Z.mul_mod, E by (exact fr_modn0). rewrite Z.mul_0_l. reflexivity.
  - rewrite Z.mul_mod by exact fr_modn0. rewrite pow_mod_mul.
    + change (1 mod frModulus)%Z with 1%Z. rewrite Z.mul_1_r, Z.mod_mod by exact fr_modn0. reflexivity.
    + reflexivity.
    + vm_compute; discriminate.
    + exact Hk.
    + apply fermat_little; [exact frModulus_prime|]. intros D. apply E. apply Z.mod_divide; [exact fr_modn0|exact D].
Qed.

Lemma root7_pow (x : Fr) : root7 (fpow x 7) = x.
Proof.
  apply fr_eq. unfold root7. rewrite frval_mkfr, Zpow_mod_correct by exact fr_modn0. rewrite Z.mod_mod by exact fr_modn0.
  rewrite frval_pow. rewrite <- Zpower_mod by reflexivity. change (Z.of_nat 7) with 7%Z.
  rewrite pow_rootExp. apply Z.mod_small, frval_range.
Qed.

Lemma pow_root7 (x : Fr) : fpow (root7 x) 7 = x.
Proof.
  apply fr_eq. rewrite frval_pow. unfold root7. rewrite frval_mkfr, Zpow_mod_correct by exact fr_modn0.
  rewrite Z.mod_mod by exact fr_modn0. rewrite <- Zpower_mod by reflexivity. change (Z.of_nat 7) with 7%Z.
  rewrite <- Z.pow_mul_r by (vm_compute; discriminate). rewrite Z.mul_comm.
  rewrite Z.pow_mul_r by (vm_compute; discriminate). rewrite pow_rootExp. apply Z.mod_small, frval_range.
Qed.

Lemma SBox_root7 (x : Fr) : SBox (root7 x) = x /\ root7 (SBox x) = x.
Proof. rewrite !SBox_pow. split; [apply pow_root7|apply root7_pow]. Qed.

(** In a field with seventh roots. *)
Section Root.
  Context {F : Field}.
  Add Field FfieldRoot : (f_theory F).
  Open Scope F_scope.
  Variable root : F -> F.
  Hypothesis root_pow : forall x, root (fpow x 7) = x.
  Hypothesis pow_root : forall x, fpow (root x) 7 = x.

  (** ** MiMC *)
  Definition mimc_decipher (cs : list F) (k s : F) : F := fold_left (fun s a => root s - k - a) (rev cs) s.

  Lemma mimc_decipher_cipher cs k : forall s, mimc_decipher cs k (mimc_cipher cs k s) = s.
  Proof.
    induction cs as [|a cs IH] using rev_ind; intros s; [reflexivity|].
    unfold mimc_decipher, mimc_cipher in *. rewrite rev_app_distr, (fold_left_app _ cs). cbn [rev app fold_left].
    rewrite root_pow. match goal with |- fold_left _ _ ?x = _ => replace x with (fold_left (fun s a => fpow (s + k + a) 7) cs s) by ring end. apply IH.
  Qed.

  Lemma mimc_cipher_decipher cs k : forall s, mimc_cipher cs k (mimc_decipher cs k s) = s.
  Proof.
    induction cs as [|a cs IH] using rev_ind; intros s; [reflexivity|].
    unfold mimc_decipher, mimc_cipher in *. rewrite rev_app_distr, (fold_left_app _ cs). cbn [rev app fold_left].
    rewrite IH. match goal with |- fpow ?x 7 = _ => replace x with (root s) by ring end. apply pow_root.
  Qed.

  Lemma mimc_bijection (arks : list F) block : (91 <= length arks)%nat ->
    exists inv : F -> F, forall s, (exists c, MimcPermutation arks s block = Some c /\ inv c = s) /\
      MimcPermutation arks (inv s) block = Some s.
  Proof.
    intros H. exists (mimc_decipher (firstn 91 arks) block). intros s. rewrite !MimcPermutation_ok by exact H.
    rewrite mimc_cipher_decipher. split; [|reflexivity]. eexists. split; [reflexivity|]. apply mimc_decipher_cipher.
  Qed.

  (** ** GMiMC *)
  Definition unrotate (l : list F) : list F := match rev l with [] => [] | x :: l' => x :: rev l' end.
  Lemma unrotate_rotate l : unrotate (rotate l) = l.
  Proof.
    destruct l as [|x l]; [reflexivity|]. unfold unrotate. cbn [rotate]. rewrite rev_app_distr. cbn [rev app].
    rewrite rev_involutive. reflexivity.
  Qed.
  Lemma rotate_unrotate l : rotate (unrotate l) = l.
  Proof.
    unfold unrotate. destruct (rev l) as [|x l'] eqn:E.
    - apply (f_equal (@rev F)) in E. rewrite rev_involutive in E. subst. reflexivity.
    - cbn [rotate]. apply (f_equal (@rev F)) in E. rewrite rev_involutive in E. subst. reflexivity.
  Qed.

  Definition gmimc_unround (key state : list F) (a : F) : list F :=
    match unrotate state with
    | [] => []
    | x :: l => map (fun sk => fst sk - snd sk - a) (combine (root x :: l) key)
    end.

  Lemma combine_sub_add (a : F) : forall s key, length key = length s ->
    map (fun sk => fst sk - snd sk - a) (combine (map (fun sk => fst sk + snd sk + a) (combine s key)) key) = s.
  Proof.
    induction s as [|x s IH]; intros [|y key] H; try discriminate; [reflexivity|]. cbn [combine map fst snd].
    rewrite IH by (injection H as H; exact H). f_equal. ring.
  Qed.
  Lemma combine_add_sub (a : F) : forall s key, length key = length s ->
    map (fun sk => fst sk + snd sk + a) (combine (map (fun sk => fst sk - snd sk - a) (combine s key)) key) = s.
  Proof.
    induction s as [|x s IH]; intros [|y key] H; try discriminate; [reflexivity|]. cbn [combine map fst snd].
    rewrite IH by (injection H as H; exact H). f_equal. ring.
  Qed.

  Lemma unround_round key s a : length key = length s -> gmimc_unround key (gmimc_round key s a) a = s.
  Proof.
    intros H. pose proof (combine_sub_add a s key H) as E. unfold gmimc_round, gmimc_unround.
    destruct (map (fun sk => fst sk + snd sk + a) (combine s key)) as [|x l] eqn:El.
    - destruct s; [reflexivity|]. destruct key; discriminate.
    - rewrite unrotate_rotate, root_pow. exact E.
  Qed.

  Lemma unrotate_length l : length (unrotate l) = length l.
  Proof.
    unfold unrotate. pose proof (rev_length l) as H. destruct (rev l) as [|x l']; [exact H|]. cbn [length] in *. rewrite rev_length. exact H.
  Qed.

  Lemma round_unround key s a : length key = length s -> gmimc_round key (gmimc_unround key s a) a = s.
  Proof.
    intros H. unfold gmimc_round, gmimc_unround. pose proof (unrotate_length s) as HL. pose proof (rotate_unrotate s) as HR.
    destruct (unrotate s) as [|x l]; [destruct s; [destruct key; [reflexivity|discriminate]|discriminate]|].
    rewrite combine_add_sub by (cbn [length] in *; lia). rewrite pow_root. exact HR.
  Qed.

  Lemma unround_length key s a : length key = length s -> length (gmimc_unround key s a) = length s.
  Proof.
    intros H. unfold gmimc_unround. pose proof (unrotate_length s) as HL. destruct (unrotate s) as [|x l]; [exact HL|].
    rewrite map_length, combine_length. cbn [length] in *. lia.
  Qed.

  Definition gmimc_decipher (cs key s : list F) : list F := fold_left (fun s a => gmimc_unround key s a) (rev cs) s.

  Lemma gmimc_decipher_length cs key : forall s, length key = length s -> length (gmimc_decipher cs key s) = length s.
  Proof.
    unfold gmimc_decipher. induction (rev cs) as [|a l IH]; intros s H; [reflexivity|]. cbn [fold_left].
    rewrite IH by (rewrite unround_length; congruence). apply unround_length. exact H.
  Qed.

  Lemma gmimc_decipher_cipher cs key : forall s, length key = length s -> gmimc_decipher cs key (gmimc_cipher cs key s) = s.
  Proof.
    induction cs as [|a cs IH] using rev_ind; intros s H; [reflexivity|].
    unfold gmimc_decipher, gmimc_cipher in *. rewrite rev_app_distr, (fold_left_app _ cs). cbn [rev app fold_left].
    rewrite unround_round by (etransitivity; [exact H|]; symmetry; apply (gmimc_cipher_length key cs s H)). apply IH. exact H.
  Qed.

  Lemma gmimc_cipher_decipher cs key : forall s, length key = length s -> gmimc_cipher cs key (gmimc_decipher cs key s) = s.
  Proof.
    induction cs as [|a cs IH] using rev_ind; intros s H; [reflexivity|].
    unfold gmimc_decipher, gmimc_cipher in *. rewrite rev_app_distr, (fold_left_app _ cs). cbn [rev app fold_left].
    rewrite IH by (rewrite unround_length; congruence). apply round_unround. exact H.
  Qed.

  Lemma gmimc_bijection (arks : list F) n block : (n <= length arks)%nat -> block <> [] ->
    exists inv : list F -> list F, forall s, length s = length block ->
      (exists c, gmimcRounds arks n s block = Some c /\ length c = length block /\ inv c = s) /\
      length (inv s) = length block /\ gmimcRounds arks n (inv s) block = Some s.
  Proof.
    intros Hn Hne. exists (gmimc_decipher (firstn n arks) block). intros s HL.
    assert (Hs : forall l : list F, length l = length block -> l <> []) by (intros [|] E; [destruct block; [congruence|discriminate]|discriminate]).
    split.
    - eexists. split; [apply gmimcRounds_ok; auto|]. split; [rewrite gmimc_cipher_length; auto|].
      apply gmimc_decipher_cipher. auto.
    - assert (Hd : length (gmimc_decipher (firstn n arks) block s) = length block) by (rewrite gmimc_decipher_length; auto).
      split; [exact Hd|]. rewrite gmimcRounds_ok; auto. rewrite gmimc_cipher_decipher; auto.
  Qed.
End Root.

(** ** Cauchy matrices *)
Section Cauchy.
  Context {F : Field}.
  Add Field FfieldCauchy : (f_theory F).
  Open Scope F_scope.

  (** The product of [x - p_l] over [l <> j]. *)
  Definition others (p : list F) (j : nat) (x : F) : F :=
    prodl (filter (fun l => negb (l =? j)%nat) (seq 0 (length p))) (fun l => x - nth l p 0).
  Definition nodal (p : list F) (x : F) : F := prodl (seq 0 (length p)) (fun l => x - nth l p 0).

  Lemma pdl_prodl (l : list nat) (p : list F) : poly_deg_le (length l) (fun x => prodl l (fun i => x - nth i p 0)).
  Proof.
    induction l as [|i l IH]; cbn [prodl length].
    - apply pdl_const.
    - apply (pdl_mul 1 (length l) (fun x => x - nth i p 0)); [|exact IH].
      apply (pdl_ext 1 (fun x => - nth i p 0 + 1 * x)); [intros; ring|]. apply pdl_line.
  Qed.

  Lemma filter_others_length n j : (j < n)%nat -> length (filter (fun l => negb (l =? j)%nat) (seq 0 n)) = (n - 1)%nat.
  Proof.
    intros H. replace n with (j + S (n - S j))%nat by lia. rewrite seq_app. cbn [Nat.add seq]. rewrite filter_app. cbn [filter].
    rewrite Nat.eqb_refl. cbn [negb]. rewrite app_length.
    assert (E : forall a k, (a + k <= j \/ j < a)%nat -> filter (fun l => negb (l =? j)%nat) (seq a k) = seq a k).
    { intros a k. revert a. induction k as [|k IH]; intros a Ha; [reflexivity|]. cbn [seq filter].
      destruct (Nat.eqb_spec a j); [lia|]. cbn [negb]. rewrite IH by lia. reflexivity. }
    rewrite !E by lia. rewrite !seq_length. lia.
  Qed.

  Lemma others_deg p j : (j < length p)%nat -> poly_deg_le (length p - 1) (others p j).
  Proof. intros H. unfold others. rewrite <- (filter_others_length (length p) j H). apply pdl_prodl. Qed.

  Lemma prodl_split (f : nat -> F) n j : (j < n)%nat ->
    prodl (seq 0 n) f = f j * prodl (filter (fun l => negb (l =? j)%nat) (seq 0 n)) f.
  Proof.
    intros H. replace n with (j + S (n - S j))%nat by lia. rewrite seq_app. cbn [Nat.add seq]. rewrite filter_app. cbn [filter].
    rewrite Nat.eqb_refl. cbn [negb]. rewrite !prodl_app. cbn [prodl].
    assert (E : forall a k, (a + k <= j \/ j < a)%nat -> filter (fun l => negb (l =? j)%nat) (seq a k) = seq a k).
    { intros a k. revert a. induction k as [|k IH]; intros a Ha; [reflexivity|]. cbn [seq filter].
      destruct (Nat.eqb_spec a j); [lia|]. cbn [negb]. rewrite IH by lia. reflexivity. }
    rewrite !E by lia. ring.
  Qed.

  Lemma nodal_others p j x : (j < length p)%nat -> nodal p x = (x - nth j p 0) * others p j x.
  Proof. intros H. unfold nodal, others. apply (prodl_split (fun l => x - nth l p 0)). exact H. Qed.

  Lemma others_same p j : NoDup p -> (j < length p)%nat -> others p j (nth j p 0) <> 0.
  Proof.
    intros Hnd Hj. apply prodl_nonzero. intros l Hl. apply filter_In in Hl. destruct Hl as [Hl Hne]. apply in_seq in Hl.
    intros E. apply f_sub_eq in E. apply (proj1 (NoDup_nth p 0) Hnd) in E; [|exact Hj|lia].
    subst. rewrite Nat.eqb_refl in Hne. discriminate.
  Qed.

  Lemma others_other p i j : (i < length p)%nat -> i <> j -> others p j (nth i p 0) = 0.
  Proof.
    intros Hi Hne. apply (prodl_zero _ _ i); [|ring]. apply filter_In. split; [apply in_seq; lia|].
    destruct (Nat.eqb_spec i j); [contradiction|reflexivity].
  Qed.

  (** The combination of the [others] with coefficients [v]. *)
  Definition combi (p v : list F) (x : F) : F := sumn (length p) (fun j => nth j v 0 * others p j x).
  Lemma combi_deg p v : poly_deg_le (length p - 1) (combi p v).
  Proof.
    unfold combi, sumn. apply (pdl_suml (seq 0 (length p)) _ (fun j x => nth j v 0 * others p j x)).
    intros j Hj. apply in_seq in Hj. apply pdl_scal. apply others_deg. lia.
  Qed.
  Lemma combi_at p v j : (j < length p)%nat -> combi p v (nth j p 0) = nth j v 0 * others p j (nth j p 0).
  Proof.
    intros Hj. unfold combi.
    rewrite (sumn_ext _ _ (fun i => if (i =? j)%nat then nth i v 0 * others p i (nth j p 0) else 0)).
    - rewrite sumn_delta by exact Hj. reflexivity.
    - intros i Hi. destruct (Nat.eqb_spec i j) as [->|Hne]; [reflexivity|]. rewrite others_other by auto. ring.
  Qed.

  Variables xs ys : list F.
  Hypothesis Hlen : length ys = length xs.
  Hypothesis Hx : NoDup xs.
  Hypothesis Hy : NoDup ys.
  Hypothesis Hsum : forall i j, (i < length xs)%nat -> (j < length xs)%nat -> nth i xs 0 + nth j ys 0 <> 0.

  Definition nys : list F := map (fun y => - y) ys.
  Lemma nys_length : length nys = length xs.
  Proof. unfold nys. rewrite map_length. exact Hlen. Qed.
  Lemma nys_nth j : (j < length xs)%nat -> nth j nys 0 = - nth j ys 0.
  Proof. intros H. unfold nys. rewrite nth_map_lt with (d' := 0) by congruence. reflexivity. Qed.
  Lemma nys_NoDup : NoDup nys.
  Proof.
    unfold nys. apply NoDup_map_inj; [|exact Hy]. intros a b _ _ E. apply f_sub_eq.
    transitivity (- b - - a); [ring|]. rewrite E. ring.
  Qed.

  Definition cauchy : list (list F) :=
    map (fun i => map (fun j => finv (nth i xs 0 + nth j ys 0)) (seq 0 (length xs))) (seq 0 (length xs)).

  Lemma cauchy_row v i : (i < length xs)%nat ->
    nodal nys (nth i xs 0) * nth i (mat_vec cauchy v) 0 = combi nys v (nth i xs 0).
  Proof.
    intros Hi. unfold mat_vec, cauchy. rewrite map_map. rewrite nth_map_seq by exact Hi. cbv zeta.
    rewrite map_length, seq_length. rewrite <- sumn_scal_l. unfold combi. rewrite nys_length. apply sumn_ext. intros j Hj.
    rewrite nth_map_seq by exact Hj. rewrite (nodal_others nys j) by (rewrite nys_length; exact Hj). rewrite nys_nth by exact Hj.
    cbn [Nat.add]. field. specialize (Hsum i j Hi Hj). exact Hsum.
  Qed.

  Lemma nodal_x i : (i < length xs)%nat -> nodal nys (nth i xs 0) <> 0.
  Proof.
    intros Hi. apply prodl_nonzero. intros j Hj. apply in_seq in Hj. rewrite nys_length in Hj. rewrite nys_nth by lia.
    intros E. apply (Hsum i j Hi); [lia|]. etransitivity; [|exact E]. ring.
  Qed.

  (** The polynomial of degree below [length xs] with the values of [w] times [nodal] at [xs]. *)
  Definition target (w : list F) (x : F) : F :=
    combi xs (map (fun i => nodal nys (nth i xs 0) * nth i w 0 * finv (others xs i (nth i xs 0))) (seq 0 (length xs))) x.
  Lemma target_at w i : (i < length xs)%nat -> target w (nth i xs 0) = nodal nys (nth i xs 0) * nth i w 0.
  Proof.
    intros Hi. unfold target. rewrite combi_at by exact Hi. rewrite nth_map_seq by exact Hi. cbn [Nat.add]. field.
    apply others_same; assumption.
  Qed.

  Definition uncauchy (w : list F) : list F :=
    map (fun j => target w (nth j nys 0) * finv (others nys j (nth j nys 0))) (seq 0 (length xs)).

  Lemma xs_In w (P : F -> Prop) : (forall i, (i < length xs)%nat -> P (nth i w 0)) -> length w = length xs -> forall x, In x w -> P x.
  Proof. intros H HL x Hin. apply (In_nth _ _ 0) in Hin. destruct Hin as (i & Hi & <-). apply H. congruence. Qed.

  Lemma cauchy_length v : length (mat_vec cauchy v) = length xs.
  Proof. unfold mat_vec, cauchy. rewrite !map_length. apply seq_length. Qed.

  Lemma cauchy_uncauchy w : length w = length xs -> mat_vec cauchy (uncauchy w) = w.
  Proof.
    intros HL. apply (list_ext 0); [rewrite cauchy_length; congruence|]. intros i Hi. rewrite cauchy_length in Hi.
    apply (f_mul_cancel_l (nodal nys (nth i xs 0))); [apply nodal_x; exact Hi|].
    rewrite cauchy_row by exact Hi. rewrite <- target_at by exact Hi.
    apply (pdl_unique (length xs - 1) (combi nys (uncauchy w)) (target w) nys).
    - rewrite <- nys_length. apply combi_deg.
    - apply combi_deg.
    - apply nys_NoDup.
    - rewrite nys_length. lia.
    - apply xs_In; [|apply nys_length]. intros j Hj. rewrite combi_at by (rewrite nys_length; exact Hj).
      unfold uncauchy. rewrite nth_map_seq by exact Hj. cbn [Nat.add]. field. apply others_same; [apply nys_NoDup|rewrite nys_length; exact Hj].
  Qed.

  Lemma uncauchy_cauchy v : length v = length xs -> uncauchy (mat_vec cauchy v) = v.
  Proof.
    intros HL. symmetry. unfold uncauchy. apply (map_seq_ext 0); [exact HL|]. intros j Hj.
    assert (E : forall x, target (mat_vec cauchy v) x = combi nys v x).
    { apply (pdl_unique (length xs - 1) (target (mat_vec cauchy v)) (combi nys v) xs).
      - apply combi_deg.
      - rewrite <- nys_length. apply combi_deg.
      - exact Hx.
      - lia.
      - apply xs_In; [|reflexivity]. intros i Hi. rewrite target_at by exact Hi. apply cauchy_row. exact Hi. }
    rewrite E, combi_at by (rewrite nys_length; exact Hj). field. apply others_same; [apply nys_NoDup|rewrite nys_length; exact Hj].
  Qed.
End Cauchy.

(** ** In the BN254 scalar field *)
Lemma mimc_bijection_Fr (arks : list Fr) (block : Fr) : (91 <= length arks)%nat ->
  exists inv : Fr -> Fr, forall s, (exists c, MimcPermutation arks s block = Some c /\ inv c = s) /\
    MimcPermutation arks (inv s) block = Some s.
Proof. exact (mimc_bijection root7 root7_pow pow_root7 arks block). Qed.

Lemma gmimc_bijection_Fr (arks : list Fr) n (block : list Fr) : (n <= length arks)%nat -> block <> [] ->
  exists inv : list Fr -> list Fr, forall s, length s = length block ->
    (exists c, gmimcRounds arks n s block = Some c /\ length c = length block /\ inv c = s) /\
    length (inv s) = length block /\ gmimcRounds arks n (inv s) block = Some s.
Proof. exact (gmimc_bijection root7 root7_pow pow_root7 arks n block). Qed.

Lemma mimc_cipher_invertible (cs : list Fr) (k : Fr) : exists inv : Fr -> Fr, forall s, mimc_cipher cs k (inv s) = s.
Proof. exists (mimc_decipher root7 cs k). exact (mimc_cipher_decipher root7 pow_root7 cs k). Qed.
