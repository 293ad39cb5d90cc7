(** Consequences for the Poseidon and GMiMC hashes. *)
From Coq Require Import List Arith ZArith Lia Bool Ring.
From Verif Require Import Field Go MCommon Spec LPoly MCircuit MHash SpecHash LHash LHash2 LHash3 Fr MArk.
Import ListNotations.

(** The parameters for which the code has enough constants. *)
Definition poseidon_params (t nF nP : nat) : Prop := (0 < t <= 100)%nat /\ (0 < nF)%nat /\ (2 * nF + nP <= 100)%nat.

Definition poseidon_step (s w : Fr) : Fr := fpow (s + w + nth 0 Arks 0)%F 7.

Lemma PoseidonHash_exact t nF nP msg : poseidon_params t nF nP ->
  PoseidonHash Arks xArr yArr t nF nP msg =
  Some (fold_left poseidon_step (map (fun j => nth (j * t) msg 0%F) (seq 0 ((length msg + t - 1) / t))) 0%F).
Proof.
  intros (Ht & HF & HA). apply PoseidonHash_ok; try lia; rewrite ?xArr_length, ?yArr_length, ?Arks_length; try lia.
  apply nth_error_nth'. rewrite Arks_length. lia.
Qed.

Lemma poseidon_ignores t nF nP (msg msg' : list Fr) : poseidon_params t nF nP -> length msg = length msg' ->
  (forall i, (i < length msg)%nat -> i mod t = 0%nat -> nth i msg 0%F = nth i msg' 0%F) ->
  PoseidonHash Arks xArr yArr t nF nP msg = PoseidonHash Arks xArr yArr t nF nP msg'.
Proof.
  intros HP HL HE. rewrite !PoseidonHash_exact by exact HP. rewrite <- HL. f_equal. f_equal. apply map_ext. intros j.
  destruct (le_lt_dec (length msg) (j * t)) as [H|H].
  - rewrite !nth_overflow by lia. reflexivity.
  - apply HE; [exact H|]. apply Nat.mod_mul. destruct HP as [? _]. lia.
Qed.

Section Inj.
  Context {F : Field}.
  Add Field FfieldHash4 : (f_theory F).
  Open Scope F_scope.
  Lemma add_cancel3 (x y w a : F) : x + w + a = y + w + a -> x = y.
  Proof. intros H. transitivity (x + w + a - w - a); [ring|]. rewrite H. ring. Qed.
  Lemma add_cancel3' (s x y a : F) : s + x + a = s + y + a -> x = y.
  Proof. intros H. transitivity (s + x + a - s - a); [ring|]. rewrite H. ring. Qed.
  Lemma preimage_sum (x a : F) : 0 + (x - a) + a = x.
  Proof. ring. Qed.
End Inj.

Lemma pow7_inj (x y : Fr) : fpow x 7 = fpow y 7 -> x = y.
Proof. intros H. rewrite <- (root7_pow x), <- (root7_pow y), H. reflexivity. Qed.

Lemma poseidon_step_inj l : forall s s', s <> s' -> fold_left poseidon_step l s <> fold_left poseidon_step l s'.
Proof.
  induction l as [|w l IH]; intros s s' H; [exact H|]. cbn [fold_left]. apply IH. intros E. apply H.
  unfold poseidon_step in E. apply pow7_inj in E. exact (add_cancel3 _ _ _ _ E).
Qed.

Lemma map_seq_split {A} (f : nat -> A) n i : (i < n)%nat ->
  map f (seq 0 n) = map f (seq 0 i) ++ f i :: map f (seq (S i) (n - S i)).
Proof.
  intros H. replace n with (i + S (n - S i))%nat at 1 by lia. rewrite seq_app, map_app. reflexivity.
Qed.

(** The words at multiples of [t] do count. *)
Lemma poseidon_counts t nF nP (msg : list Fr) i w : poseidon_params t nF nP -> (i * t < length msg)%nat ->
  w <> nth (i * t) msg 0%F ->
  PoseidonHash Arks xArr yArr t nF nP (upd msg (i * t) w) <> PoseidonHash Arks xArr yArr t nF nP msg.
Proof.
  intros HP Hi Hw. rewrite !PoseidonHash_exact, upd_length by exact HP. destruct HP as ([Ht _] & _).
  set (n := ((length msg + t - 1) / t)%nat).
  assert (Hn : (i < n)%nat) by (unfold n; apply Nat.div_le_lower_bound; nia).
  rewrite !(map_seq_split _ n i Hn). rewrite !fold_left_app. cbn [fold_left].
  assert (E : forall j, j <> i -> nth (j * t) (upd msg (i * t) w) 0%F = nth (j * t) msg 0%F) by (intros j Hj; apply nth_upd_other; nia).
  rewrite (map_ext_in _ (fun j => nth (j * t) msg 0%F) (seq 0 i)) by (intros j Hj; apply in_seq in Hj; apply E; lia).
  rewrite (map_ext_in (fun j => nth (j * t) (upd msg (i * t) w) 0%F) (fun j => nth (j * t) msg 0%F) (seq (S i) (n - S i)))
    by (intros j Hj; apply in_seq in Hj; apply E; lia).
  rewrite nth_upd_same by exact Hi. intros H.
  assert (H' : fold_left poseidon_step (map (fun j => nth (j * t) msg 0%F) (seq (S i) (n - S i)))
    (poseidon_step (fold_left poseidon_step (map (fun j => nth (j * t) msg 0%F) (seq 0 i)) 0%F) w) =
    fold_left poseidon_step (map (fun j => nth (j * t) msg 0%F) (seq (S i) (n - S i)))
    (poseidon_step (fold_left poseidon_step (map (fun j => nth (j * t) msg 0%F) (seq 0 i)) 0%F) (nth (i * t) msg 0%F))) by congruence.
  revert H'. apply poseidon_step_inj. unfold poseidon_step at 1 3. intros E'. apply pow7_inj in E'. apply add_cancel3' in E'. contradiction.
Qed.

(** A preimage of everything. *)
Lemma poseidon_preimage t nF nP (h : Fr) : poseidon_params t nF nP ->
  exists x, PoseidonHash Arks xArr yArr t nF nP [x] = Some h.
Proof.
  intros HP. exists (root7 h - nth 0 Arks 0)%F. rewrite PoseidonHash_exact by exact HP. destruct HP as ([Ht _] & _).
  cbn [length]. replace ((1 + t - 1) / t)%nat with 1%nat by (replace (1 + t - 1)%nat with t by lia; symmetry; apply Nat.div_same; lia).
  cbn [seq map fold_left Nat.mul nth]. f_equal. unfold poseidon_step. rewrite preimage_sum. apply pow_root7.
Qed.

Lemma gmimc_padding (arks : list Fr) t n (msg : list Fr) k : (0 < t)%nat -> (0 < length msg mod t)%nat -> (length msg mod t + k <= t)%nat ->
  GMimcHash arks t n (msg ++ repeat 0%F k) = GMimcHash arks t n msg.
Proof. intros. unfold GMimcHash. apply padding_collision; assumption. Qed.

Lemma poseidon_padding (arks xs ys : list Fr) t nF nP (msg : list Fr) k : (0 < t)%nat -> (0 < length msg mod t)%nat -> (length msg mod t + k <= t)%nat ->
  PoseidonHash arks xs ys t nF nP (msg ++ repeat 0%F k) = PoseidonHash arks xs ys t nF nP msg.
Proof. intros. unfold PoseidonHash. destruct (GenerateMDSMatrix xs ys t); [|reflexivity]. apply padding_collision; assumption. Qed.

Lemma GMimcHash_exact (arks : list Fr) t n msg : (0 < t)%nat -> (n <= length arks)%nat ->
  exists s, GMimcHash arks t n msg = Some (nth 0 s 0%F) /\ length s = t /\
    s = fold_left (fun s b => add3 (gmimc_cipher (firstn n arks) b s) s b) (blocks t msg) (repeat 0%F t).
Proof.
  intros Ht Hn. unfold GMimcHash. rewrite hashWith_ok by exact Ht.
  assert (H : forall bs s, length s = t -> (forall b, In b bs -> length b = t) ->
    foldM (GMimcUpdate arks n) bs s = Some (fold_left (fun s b => add3 (gmimc_cipher (firstn n arks) b s) s b) bs s) /\
    length (fold_left (fun s b => add3 (gmimc_cipher (firstn n arks) b s) s b) bs s) = t).
  { induction bs as [|b bs IH]; intros s Hs Hb; [auto|]. cbn [foldM fold_left].
    assert (Lb : length b = t) by (apply Hb; left; reflexivity).
    rewrite GMimcUpdate_ok; [|exact Hn|congruence|intros ->; cbn in Hs; lia].
    apply IH; [|intros b' Hb'; apply Hb; right; exact Hb'].
    unfold add3. rewrite map_length, !combine_length, gmimc_cipher_length by congruence. lia. }
  destruct (H (blocks t msg) (repeat 0%F t)) as [E L].
  - apply repeat_length.
  - intros b Hb. unfold blocks in Hb. apply in_map_iff in Hb. destruct Hb as (j & <- & _). rewrite map_length. apply seq_length.
  - eexists. split; [|split; [exact L|reflexivity]]. rewrite E. rewrite (get_nth _ 0 0%F) by lia. reflexivity.
Qed.

Lemma gmimc_state_words (arks : list Fr) n (block s s' : list Fr) i : (n <= length arks)%nat ->
  length block = length s -> length s' = length s -> (i < length s)%nat ->
  nth ((i + n) mod length s) s 0%F = nth ((i + n) mod length s) s' 0%F ->
  exists c c', gmimcRounds arks n s block = Some c /\ gmimcRounds arks n s' block = Some c' /\ nth i c 0%F = nth i c' 0%F.
Proof.
  intros Hn HB HL Hi HE. eexists. eexists.
  split; [apply gmimcRounds_ok; try assumption; intros ->; cbn in Hi; lia|].
  split; [apply gmimcRounds_ok; [exact Hn|congruence|intros ->; rewrite <- HL in Hi; cbn in Hi; lia]|].
  apply gmimc_no_mixing; auto. rewrite firstn_length. rewrite Nat.min_l by exact Hn. exact HE.
Qed.
