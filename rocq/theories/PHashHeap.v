(** Property theorems about the memory of package hash (C76). *)
From Coq Require Import List Arith Lia Bool ZArith.
From Verif Require Import Field Go FrPrime Fr MArk MHeap SpecHeap SpecHashHeap MHash MHashHeap MInit LInit LHash LHashHeap LHashHeap2 LHashHeap3 PPoly PInit.
Import ListNotations.
Local Open Scope F_scope.

(* ---------------------------------------------------------------- C76 *)
(** Hashing writes no existing cell, not even for a moment ([writable] may exclude them all), and returns the hash of what the
    message and the constants hold. *)
Theorem C76_mimc_hash : forall (F : Field) writable (m : list F) arks input, swf m arks -> swf m input -> new_cells m writable ->
  HMimcHash writable m arks input = match MimcHash (tab m arks) (tab m input) with Some v => Some (m ++ [v], v) | None => None end.
Proof. exact @mimc_hash_mem. Qed.
Print Assumptions C76_mimc_hash.

Theorem C76_gmimc_hash : forall (F : Field) writable (m : list F) arks t nRounds msg, swf m arks -> swf m msg -> new_cells m writable ->
  match GMimcHash (tab m arks) t nRounds (tab m msg) with
  | Some v => exists new, HGMimcHash writable m arks t nRounds msg = Some (m ++ new, v)
  | None => HGMimcHash writable m arks t nRounds msg = None end.
Proof. exact @gmimc_hash_mem. Qed.
Print Assumptions C76_gmimc_hash.

Theorem C76_poseidon_hash : forall (F : Field) writable (m : list F) arks mat t nRoundsF nRoundsP msg, swf m arks ->
  (forall row, In row mat -> swf m row) -> swf m msg -> new_cells m writable ->
  match hashWith (PoseidonUpdate (tab m arks) (map (tab m) mat) nRoundsF nRoundsP) t (tab m msg) with
  | Some v => exists new, HPoseidonHash writable m arks mat t nRoundsF nRoundsP msg = Some (m ++ new, v)
  | None => HPoseidonHash writable m arks mat t nRoundsF nRoundsP msg = None end.
Proof. exact @poseidon_hash_mem. Qed.
Print Assumptions C76_poseidon_hash.

(** newPoseidonHasher makes a new matrix; Hash of that hasher, in any later memory, is PoseidonHash. *)
Theorem C76_poseidon_made : forall (F : Field) writable (m : list F) xs ys t rows, swf m xs -> swf m ys -> new_cells m writable ->
  GenerateMDSMatrix (tab m xs) (tab m ys) t = Some rows ->
  exists new mat, HGenerateMDSMatrix writable m xs ys t = Some (m ++ new, mat) /\
    forall m' arks nRoundsF nRoundsP msg, ext (m ++ new) m' -> swf m' arks -> swf m' msg ->
      match PoseidonHash (tab m' arks) (tab m xs) (tab m ys) t nRoundsF nRoundsP (tab m' msg) with
      | Some v => exists new', HPoseidonHash writable m' arks mat t nRoundsF nRoundsP msg = Some (m' ++ new', v)
      | None => HPoseidonHash writable m' arks mat t nRoundsF nRoundsP msg = None end.
Proof. exact @poseidon_made. Qed.
Print Assumptions C76_poseidon_made.

(** The three update functions write their state and new cells only, and leave in the state what the list models say; the block,
    the constants and the matrix must not overlap the state. *)
Theorem C76_mimc_update : forall (F : Field) writable (m : list F) arks a block, swf m arks -> (a < length m)%nat -> ~ cell arks a -> writable a = true ->
  HMimcUpdate writable m arks a block = match MimcUpdate (tab m arks) (nth a m 0) block with Some v => set m a v | None => None end.
Proof. exact @mimc_update_mem. Qed.
Print Assumptions C76_mimc_update.

Theorem C76_gmimc_update : forall (F : Field) writable (m : list F) arks nRounds state block, swf m arks -> swf m state -> swf m block ->
  apart state arks -> apart state block -> (forall a, cell state a \/ (length m <= a)%nat -> writable a = true) ->
  match GMimcUpdate (tab m arks) nRounds (tab m state) (tab m block) with
  | Some l' => exists m', HGMimcUpdate writable m arks nRounds state block = Some m' /\ only_state m m' state l'
  | None => HGMimcUpdate writable m arks nRounds state block = None end.
Proof. exact @gmimc_update_mem. Qed.
Print Assumptions C76_gmimc_update.

Theorem C76_poseidon_update : forall (F : Field) writable (m : list F) arks mat nRoundsF nRoundsP state block, swf m arks ->
  (forall row, In row mat -> swf m row /\ apart state row) -> swf m state -> swf m block -> apart state arks -> apart state block ->
  (forall a, cell state a \/ (length m <= a)%nat -> writable a = true) ->
  match PoseidonUpdate (tab m arks) (map (tab m) mat) nRoundsF nRoundsP (tab m state) (tab m block) with
  | Some l' => exists m', HPoseidonUpdate writable m arks mat nRoundsF nRoundsP state block = Some m' /\ only_state m m' state l'
  | None => HPoseidonUpdate writable m arks mat nRoundsF nRoundsP state block = None end.
Proof. exact @poseidon_update_mem. Qed.
Print Assumptions C76_poseidon_update.

(** With one slice for state and block, GMimc's UpdateInplace computes something else. *)
Definition ex_arks : Slice := MkSlice 0 (length Arks) (length Arks).
Definition ex_m : list Fr := Arks ++ frs [1; 2; 5; 7; 11]%Z.
Definition ex_state : Slice := MkSlice (length Arks + 0) 2 2.
Definition ex_block : Slice := MkSlice (length Arks + 2) 2 2.
Definition ex_msg : Slice := MkSlice (length Arks + 0) 5 5.
Lemma swf_first (F : Field) (A B : list F) : swf (A ++ B) (MkSlice 0 (length A) (length A)).
Proof. split; simpl; [lia|]. rewrite app_length. lia. Qed.
Lemma swf_second (F : Field) (A B : list F) k n : (k + n <= length B)%nat -> swf (A ++ B) (MkSlice (length A + k) n n).
Proof. intros H. split; simpl; [lia|]. rewrite app_length. lia. Qed.
Lemma ex_arks_swf : swf ex_m ex_arks.
Proof. apply swf_first. Qed.
Lemma ex_state_swf : swf ex_m ex_state.
Proof. apply (swf_second Fr Arks _ 0 2). simpl. lia. Qed.
Lemma ex_block_swf : swf ex_m ex_block.
Proof. apply (swf_second Fr Arks _ 2 2). simpl. lia. Qed.
Lemma ex_msg_swf : swf ex_m ex_msg.
Proof. apply (swf_second Fr Arks _ 0 5). simpl. lia. Qed.
Lemma ex_arks_tab : tab ex_m ex_arks = Arks.
Proof.
  symmetry. apply holds_eq; [apply swf_in, ex_arks_swf|]. now apply (holds_win [] Arks).
Qed.

Theorem C76_shared : exists (m : list Fr) arks state l' m', swf m arks /\ swf m state /\ tab m arks = Arks /\ apart state arks /\
  GMimcUpdate (tab m arks) 91 (tab m state) (tab m state) = Some l' /\
  HGMimcUpdate (fun _ => true) m arks 91 state state = Some m' /\ tab m' state <> l'.
Proof.
  exists ex_m, ex_arks, ex_state. rewrite ex_arks_tab.
  assert (H : match vals (GMimcUpdate Arks 91 (tab ex_m ex_state) (tab ex_m ex_state)),
                    vals (option_map (fun m' => tab m' ex_state) (HGMimcUpdate (fun _ => true) ex_m ex_arks 91 ex_state ex_state)) with
    | Some a, Some b => (if list_eq_dec Z.eq_dec b a then false else true) = true | _, _ => False end) by (vm_compute; reflexivity).
  destruct (GMimcUpdate Arks 91 (tab ex_m ex_state) (tab ex_m ex_state)) as [l'|]; [|contradiction].
  destruct (HGMimcUpdate (fun _ => true) ex_m ex_arks 91 ex_state ex_state) as [m'|]; [|contradiction].
  exists l', m'. split; [exact ex_arks_swf|]. split; [exact ex_state_swf|].
  split; [reflexivity|]. split; [intros a; unfold cell, ex_state, ex_arks; cbn [base slen]; lia|]. split; [reflexivity|]. split; [reflexivity|].
  intros E. cbn [option_map vals] in H. rewrite E in H. destruct (list_eq_dec Z.eq_dec (map frval l') (map frval l')); congruence.
Qed.
Print Assumptions C76_shared.

(** TestHashes, for every message, in a memory that holds the constants and the matrices of init (C68): the seven hashes return,
    each on the message as it was given. *)
Theorem C76_test_hashes : forall writable (m : list Fr) arks mat2 mat4 mat8 inputs c2 c4 c8, swf m arks -> swf m inputs -> new_cells m writable ->
  tab m arks = Arks -> GenerateMDSMatrix xArr yArr 2 = Some c2 -> GenerateMDSMatrix xArr yArr 4 = Some c4 -> GenerateMDSMatrix xArr yArr 8 = Some c8 ->
  (forall row, In row (mat2 ++ mat4 ++ mat8) -> swf m row) -> map (tab m) mat2 = c2 -> map (tab m) mat4 = c4 -> map (tab m) mat8 = c8 ->
  forall v1 v2 v3 v4 v5 v6 v7,
    PoseidonHash Arks xArr yArr 2 8 82 (tab m inputs) = Some v1 -> PoseidonHash Arks xArr yArr 4 8 83 (tab m inputs) = Some v2 ->
    PoseidonHash Arks xArr yArr 8 8 84 (tab m inputs) = Some v3 -> GMimcHash Arks 2 91 (tab m inputs) = Some v4 ->
    GMimcHash Arks 4 91 (tab m inputs) = Some v5 -> GMimcHash Arks 8 91 (tab m inputs) = Some v6 -> MimcHash Arks (tab m inputs) = Some v7 ->
  exists new, HTestHashes writable m arks mat2 mat4 mat8 inputs = Some (m ++ new, [v1; v2; v3; v4; v5; v6; v7]).
Proof. intros writable m arks mat2 mat4 mat8 inputs c2 c4 c8. apply @test_hashes. Qed.
Print Assumptions C76_test_hashes.

(** The memory above with all its cells read-only: the hashes are computed, the state of an update is the only exception. *)
Example C76_ex : swf ex_m ex_arks /\ swf ex_m ex_msg /\ new_cells ex_m (fun a => length ex_m <=? a)%nat /\
  (exists v, HMimcHash (fun a => length ex_m <=? a)%nat ex_m ex_arks ex_msg = Some (ex_m ++ [v], v)) /\
  (exists new v, HGMimcHash (fun a => length ex_m <=? a)%nat ex_m ex_arks 4 91 ex_msg = Some (ex_m ++ new, v)) /\
  swf ex_m ex_state /\ swf ex_m ex_block /\ apart ex_state ex_arks /\ apart ex_state ex_block.
Proof.
  assert (W := ex_msg_swf).
  assert (N : new_cells ex_m (fun a => length ex_m <=? a)%nat) by (intros a Ha; now apply Nat.leb_le).
  assert (H91 : (91 <= length Arks)%nat) by (apply Nat.leb_le; vm_compute; reflexivity).
  split; [exact ex_arks_swf|]. split; [exact W|]. split; [exact N|]. split; [|split; [|split; [|split; [|split]]]].
  - rewrite (C76_mimc_hash _ _ _ _ _ ex_arks_swf W N), ex_arks_tab. rewrite MimcHash_ok by exact H91. eexists. reflexivity.
  - pose proof (C76_gmimc_hash _ _ _ _ 4 91 _ ex_arks_swf W N) as H. rewrite ex_arks_tab in H.
    destruct C68_init as (c2 & c4 & c8 & _ & _ & _ & E). destruct (C68_ready _ (tab ex_m ex_msg) E) as (_ & _ & HG).
    destruct (HG (MkGH 4 91)) as (v & Ev & _); [right; left; reflexivity|]. cbn [gT gRounds] in Ev. rewrite Ev in H. destruct H as (new & H). now exists new, v.
  - exact ex_state_swf.
  - exact ex_block_swf.
  - intros a; unfold cell, ex_state, ex_arks; cbn [base slen]; lia.
  - intros a; unfold cell, ex_state, ex_block; cbn [base slen]; lia.
Qed.
