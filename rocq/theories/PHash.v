(** Property theorems for package hash, the MiMC circuit and GKR on it (C37, C38 on MiMC, C40-C45, C55). *)
From Coq Require Import List Arith ZArith Lia Bool.
From Verif Require Import Field Go Trans MCommon Spec MPoly MCircuit SpecCircuit MSumcheck SpecSumcheck MSumPar SpecSumPar MGkr SpecGkr
  FrPrime Fr MArk MHash SpecHash LHash LHash2 LHash3 LHash4 LGkr4 PPoly PCircuit.
Import ListNotations.

(** The constants of the code. *)
Lemma enough_arks : 91 <= length Arks.
Proof. rewrite Arks_length. lia. Qed.

(* ---------------------------------------------------------------- C41 *)
Theorem C41_mimc_update : forall (F : Field) (arks : list F) (state block : F), 91 <= length arks ->
  MimcPermutation arks state block = Some (fold_left (fun s a => fpow (s + block + a) 7) (firstn 91 arks) state)%F /\
  MimcUpdate arks state block = Some (fold_left (fun s a => fpow (s + block + a) 7) (firstn 91 arks) state + state + block)%F.
Proof. exact (fun F arks state block H => conj (MimcPermutation_ok arks H state block) (MimcUpdate_ok arks H state block)). Qed.
Print Assumptions C41_mimc_update.

Theorem C41_mimc_chain : forall (F : Field) (arks : list F) m x, 91 <= length arks ->
  MimcHash arks [] = Some 0%F /\
  exists s s', MimcHash arks m = Some s /\ MimcUpdate arks s x = Some s' /\ MimcHash arks (m ++ [x]) = Some s'.
Proof. exact (fun F arks m x H => conj eq_refl (MimcHash_snoc arks H m x)). Qed.
Print Assumptions C41_mimc_chain.

Theorem C41_mimc_concat : forall (F : Field) (arks : list F) m1 m2, 91 <= length arks ->
  exists s, MimcHash arks m1 = Some s /\ MimcHash arks (m1 ++ m2) = foldM (MimcUpdate arks) m2 s.
Proof. exact (fun F arks m1 m2 H => MimcHash_concat arks H m1 m2). Qed.
Print Assumptions C41_mimc_concat.

(** Too few constants: the code panics. *)
Theorem C41_mimc_panics : forall (F : Field) (arks : list F) (state block : F), length arks < 91 ->
  MimcPermutation arks state block = None.
Proof. exact @MimcPermutation_short. Qed.
Print Assumptions C41_mimc_panics.

Example C41_ex : 91 <= length Arks /\
  val (MimcHash Arks (frs [1]%Z)) = Some 387360263598890029851212927745592246455636185005117299267117760829800716614%Z.
Proof. split; [exact enough_arks|]. vm_compute. reflexivity. Qed.

(* ---------------------------------------------------------------- C42 *)
Theorem C42_mimc_bijection : forall (arks : list Fr) (block : Fr), 91 <= length arks ->
  exists inv : Fr -> Fr, forall s, (exists c, MimcPermutation arks s block = Some c /\ inv c = s) /\
    MimcPermutation arks (inv s) block = Some s.
Proof. exact mimc_bijection_Fr. Qed.
Print Assumptions C42_mimc_bijection.

Theorem C42_sbox : forall x : Fr, SBox (root7 x) = x /\ root7 (SBox x) = x.
Proof. exact SBox_root7. Qed.
Print Assumptions C42_sbox.

Theorem C42_prime : Znumtheory.prime frModulus.
Proof. exact frModulus_prime. Qed.
Print Assumptions C42_prime.

(** Not every power map is a bijection of this field, so the exponent matters: squaring is not injective. *)
Example C42_ex : 91 <= length Arks /\ exists x y : Fr, x <> y /\ fpow x 2 = fpow y 2.
Proof.
  split; [exact enough_arks|]. exists (el 1), (el (-1)). split.
  - intros H. apply (f_equal frval) in H. vm_compute in H. discriminate.
  - apply fr_eq. vm_compute. reflexivity.
Qed.

(* ---------------------------------------------------------------- C43 *)
(** The hash of the code, in closed form: only the words at multiples of [t] are read. *)
Theorem C43_poseidon_exact : forall t nF nP msg, poseidon_params t nF nP ->
  PoseidonHash Arks xArr yArr t nF nP msg =
  Some (fold_left (fun s w => fpow (s + w + nth 0 Arks 0) 7)%F
    (map (fun j => nth (j * t) msg 0%F) (seq 0 ((length msg + t - 1) / t))) 0%F).
Proof. exact PoseidonHash_exact. Qed.
Print Assumptions C43_poseidon_exact.

Theorem C43_ignored_words_refuted : forall t nF nP (msg msg' : list Fr), poseidon_params t nF nP -> length msg = length msg' ->
  (forall i, i < length msg -> i mod t = 0 -> nth i msg 0%F = nth i msg' 0%F) ->
  PoseidonHash Arks xArr yArr t nF nP msg = PoseidonHash Arks xArr yArr t nF nP msg'.
Proof. exact poseidon_ignores. Qed.
Print Assumptions C43_ignored_words_refuted.

Theorem C43_preimage_refuted : forall t nF nP (h : Fr), poseidon_params t nF nP ->
  exists x, PoseidonHash Arks xArr yArr t nF nP [x] = Some h.
Proof. exact poseidon_preimage. Qed.
Print Assumptions C43_preimage_refuted.

(** The words that are read do count: changing one of them changes the hash. *)
Theorem C43_read_words_partial : forall t nF nP (msg : list Fr) i w, poseidon_params t nF nP -> i * t < length msg ->
  w <> nth (i * t) msg 0%F ->
  PoseidonHash Arks xArr yArr t nF nP (upd msg (i * t) w) <> PoseidonHash Arks xArr yArr t nF nP msg.
Proof. exact poseidon_counts. Qed.
Print Assumptions C43_read_words_partial.

(** The three hashers of the code, and a collision. *)
Example C43_ex : poseidon_params 2 8 82 /\ poseidon_params 4 8 83 /\ poseidon_params 8 8 84 /\
  frs [1;2;3;4]%Z <> frs [1;7;3;9]%Z /\
  PoseidonHash Arks xArr yArr 2 8 82 (frs [1;2;3;4]%Z) = PoseidonHash Arks xArr yArr 2 8 82 (frs [1;7;3;9]%Z).
Proof.
  split; [repeat split; lia|]. split; [repeat split; lia|]. split; [repeat split; lia|]. split.
  - intros H. apply (f_equal (map frval)) in H. vm_compute in H. discriminate.
  - apply C43_ignored_words_refuted; [repeat split; lia|reflexivity|].
    intros i Hi. cbn in Hi. destruct i as [|[|[|[|i]]]]; try reflexivity; try discriminate.
Qed.

(* ---------------------------------------------------------------- C44 *)
Theorem C44_poseidon_padding_refuted : forall (arks xs ys : list Fr) t nF nP (msg : list Fr) k,
  0 < t -> 0 < length msg mod t -> length msg mod t + k <= t ->
  PoseidonHash arks xs ys t nF nP (msg ++ repeat 0%F k) = PoseidonHash arks xs ys t nF nP msg.
Proof. exact poseidon_padding. Qed.
Print Assumptions C44_poseidon_padding_refuted.

Theorem C44_gmimc_padding_refuted : forall (arks : list Fr) t n (msg : list Fr) k,
  0 < t -> 0 < length msg mod t -> length msg mod t + k <= t ->
  GMimcHash arks t n (msg ++ repeat 0%F k) = GMimcHash arks t n msg.
Proof. exact gmimc_padding. Qed.
Print Assumptions C44_gmimc_padding_refuted.

Example C44_ex : GMimcHash Arks 4 91 (frs [5]%Z) = GMimcHash Arks 4 91 (frs [5;0;0;0]%Z) /\
  exists h, GMimcHash Arks 4 91 (frs [5]%Z) = Some h.
Proof.
  split.
  - symmetry. apply (C44_gmimc_padding_refuted Arks 4 91 (frs [5]%Z) 3); cbn; lia.
  - destruct (GMimcHash_exact Arks 4 91 (frs [5]%Z)) as (s & E & _); [lia|rewrite Arks_length; lia|]. eexists. exact E.
Qed.

(* ---------------------------------------------------------------- C45 *)
Theorem C45_rotate : forall (F : Field) (state : list F),
  exists r, CircularPermutation state = Some r /\ length r = length state /\
    forall i, i < length state -> nth i r 0%F = nth ((i + 1) mod length state) state 0%F.
Proof. exact @rotate_spec. Qed.
Print Assumptions C45_rotate.

Theorem C45_update : forall (F : Field) (arks : list F) n state block, n <= length arks -> length block = length state -> state <> [] ->
  gmimcRounds arks n state block = Some (gmimc_cipher (firstn n arks) block state) /\
  GMimcUpdate arks n state block = Some (add3 (gmimc_cipher (firstn n arks) block state) state block).
Proof. exact (fun F arks n state block H1 H2 H3 => conj (gmimcRounds_ok arks n block state H1 H2 H3) (GMimcUpdate_ok arks n state block H1 H2 H3)). Qed.
Print Assumptions C45_update.

Theorem C45_bijection : forall (arks : list Fr) n (block : list Fr), n <= length arks -> block <> [] ->
  exists inv : list Fr -> list Fr, forall s, length s = length block ->
    (exists c, gmimcRounds arks n s block = Some c /\ length c = length block /\ inv c = s) /\
    length (inv s) = length block /\ gmimcRounds arks n (inv s) block = Some s.
Proof. exact gmimc_bijection_Fr. Qed.
Print Assumptions C45_bijection.

(** The whole hash. *)
Theorem C45_hash : forall (arks : list Fr) t n msg, 0 < t -> n <= length arks ->
  exists s, GMimcHash arks t n msg = Some (nth 0 s 0%F) /\ length s = t /\
    s = fold_left (fun s b => add3 (gmimc_cipher (firstn n arks) b s) s b) (blocks t msg) (repeat 0%F t).
Proof. exact GMimcHash_exact. Qed.
Print Assumptions C45_hash.

(** The rounds do not mix the state: each word of the result depends on one word of the state only. *)
Theorem C45_no_mixing : forall (arks : list Fr) n (block s s' : list Fr) i, n <= length arks ->
  length block = length s -> length s' = length s -> i < length s ->
  nth ((i + n) mod length s) s 0%F = nth ((i + n) mod length s) s' 0%F ->
  exists c c', gmimcRounds arks n s block = Some c /\ gmimcRounds arks n s' block = Some c' /\ nth i c 0%F = nth i c' 0%F.
Proof. exact gmimc_state_words. Qed.
Print Assumptions C45_no_mixing.

Example C45_ex : 91 <= length Arks /\
  vals (CircularPermutation (frs [1;2;3;4]%Z)) = Some [2;3;4;1]%Z /\
  vals (gmimcRounds (frs [10;20]%Z) 2 (frs [1;2;3]%Z) (frs [0;5;1]%Z)) =
    Some (map (fun z => z mod frModulus)%Z [3 + 1 + 10 + 5 + 20; 11 ^ 7 + 1 + 20; (2 + 5 + 10 + 0 + 20) ^ 7])%Z.
Proof. split; [exact enough_arks|]. split; vm_compute; reflexivity. Qed.

(* ---------------------------------------------------------------- C55 *)
Theorem C55_cauchy : forall t, t <= 100 -> exists mat inv, GenerateMDSMatrix xArr yArr t = Some mat /\
  (forall i j, i < t -> j < t ->
    (nth i xArr 0 + nth j yArr 0 <> 0)%F /\ (nth j (nth i mat []) 0 * (nth i xArr 0 + nth j yArr 0) = 1)%F) /\
  forall v, length v = t ->
    (exists w, MatrixMultiplication mat v = Some w /\ length w = t /\ inv w = v) /\
    (length (inv v) = t /\ MatrixMultiplication mat (inv v) = Some v).
Proof. exact cauchy_invertible. Qed.
Print Assumptions C55_cauchy.

Theorem C55_product : forall (F : Field) (mat : list (list F)) v, (forall row, In row mat -> length row <= length v) ->
  exists w, MatrixMultiplication mat v = Some w /\ length w = length mat /\
    forall i, i < length mat ->
      nth i w 0%F = sumn (length (nth i mat [])) (fun j => nth j (nth i mat []) 0 * nth j v 0)%F.
Proof. exact @matrix_spec. Qed.
Print Assumptions C55_product.

Theorem C55_product_panics : forall (F : Field) (mat : list (list F)) v row, In row mat -> length v < length row ->
  MatrixMultiplication mat v = None.
Proof. exact @MatrixMultiplication_short. Qed.
Print Assumptions C55_product_panics.

Example C55_ex : 8 <= 100 /\ vals (MatrixMultiplication [frs [1;2]%Z; frs [3;4]%Z] (frs [5;6]%Z)) = Some [17; 39]%Z.
Proof. split; [lia|]. vm_compute. reflexivity. Qed.

(* ---------------------------------------------------------------- C40 *)
Theorem C40_mimc_circuit : forall (F : Field) (arks : list F) N inputs, 91 <= length arks ->
  (forall inp, In inp inputs -> length inp = 2 * N) ->
  exists c asg, CreateMimcCircuit arks = Some c /\ Assign c inputs = Some asg /\
    length (nth 91 asg []) = length inputs /\
    forall i, i < length inputs ->
    let inp := nth i inputs [] in
    let out := nth i (nth 91 asg []) [] in
    length out = N /\
    forall h, h < N ->
      let x := nth h inp 0%F in let k := nth (N + h) inp 0%F in
      exists y, MimcPermutation arks (x - k)%F k = Some y /\ nth h out 0%F = (y + k)%F.
Proof. exact @mimc_circuit_ok. Qed.
Print Assumptions C40_mimc_circuit.

(** With [x = state + block] and [k = block] the output [y + k] is the update minus the old state. *)
Theorem C40_update : forall (F : Field) (arks : list F) s b y, 91 <= length arks ->
  MimcPermutation arks (s + b - b)%F b = Some y -> MimcUpdate arks s b = Some (y + b + s)%F.
Proof. exact @mimc_circuit_update. Qed.
Print Assumptions C40_update.

Theorem C40_panics : forall (F : Field) (arks : list F), length arks < 91 -> CreateMimcCircuit arks = None.
Proof. exact @CreateMimcCircuit_short. Qed.
Print Assumptions C40_panics.

Example C40_ex : 91 <= length Arks /\ (forall inp, In inp [frs [1;2;3;4;5;6]%Z; frs [7;8;9;10;11;12]%Z] -> length inp = 2 * 3).
Proof. split; [exact enough_arks|]. intros inp [<-|[<-|[]]]; reflexivity. Qed.

(* ---------------------------------------------------------------- C37 *)
Theorem C37_mimc_complete : forall (ch : list Fr -> Fr) nCore mtProve m k inputs,
  0 < nCore -> follows_machine ch nCore mtProve -> 0 < k -> chunked k m 1 inputs ->
  exists c a pf, CreateMimcCircuit Arks = Some c /\ Assign c inputs = Some a /\ GkrProve ch mtProve c a nCore = Some pf /\
    GkrVerify ch (m + k) c pf inputs (nth 91 a []) = Some true.
Proof. exact mimc_gkr_complete. Qed.
Print Assumptions C37_mimc_complete.

(** The challenges of the code are a total function. *)
Theorem C37_challenge : forall seed, GetChallenge Arks seed = Some (mimc_challenge seed).
Proof. exact mimc_challenge_ok. Qed.
Print Assumptions C37_challenge.

Example C37_ex : exists c a pf, CreateMimcCircuit Arks = Some c /\ Assign c [frs [1;2]%Z; frs [3;4]%Z] = Some a /\
  GkrProve mimc_challenge (mtWhole mimc_challenge) c a 4 = Some pf /\
  GkrVerify mimc_challenge 1 c pf [frs [1;2]%Z; frs [3;4]%Z] (nth 91 a []) = Some true.
Proof.
  apply (C37_mimc_complete mimc_challenge 4 (mtWhole mimc_challenge) 0 1); [lia|apply mtWhole_follows|lia|].
  split; [reflexivity|]. intros t [<-|[<-|[]]]; reflexivity.
Qed.

(* ---------------------------------------------------------------- C38 on MiMC *)
(** Whatever the challenge function, for every list of outputs there is a proof that the verifier of the code accepts with those
    outputs and every list of inputs: a preimage of anything can be "proved". *)
Theorem C38_mimc_forgery_refuted : forall (ch : list Fr -> Fr) m k outputs, 0 < k -> chunked k m 0 outputs ->
  exists c pf, CreateMimcCircuit Arks = Some c /\
    forall inputs, GkrVerify ch (m + k) c pf inputs outputs = Some true.
Proof. exact mimc_forgery. Qed.
Print Assumptions C38_mimc_forgery_refuted.

Example C38_mimc_ex : chunked 1 1 0 [frs [123;456]%Z; frs [0;0]%Z].
Proof. split; [reflexivity|]. intros t [<-|[<-|[]]]; reflexivity. Qed.
