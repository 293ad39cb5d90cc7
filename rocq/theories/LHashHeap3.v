(** Package hash in memory: the statements of the property theorems. *)
From Coq Require Import List Arith Lia Bool.
From Verif Require Import Field Go MHeap SpecHeap SpecHashHeap MHash MHashHeap LHash LHashHeap LHashHeap2.
Import ListNotations.

Section L.
  Context {F : Field}.
  Open Scope F_scope.
  Variable writable : nat -> bool.
  Notation Mem := (list F).

  Lemma swf_in (m : Mem) s : swf m s -> (base s + slen s <= length m)%nat.
  Proof. intros [H1 H2]. lia. Qed.

  Lemma split_at (m : Mem) s : (base s + slen s <= length m)%nat ->
    exists X Y, m = X ++ tab m s ++ Y /\ length X = base s /\ length (tab m s) = slen s.
  Proof.
    intros H. exists (firstn (base s) m), (skipn (base s + slen s) m).
    assert (Hlen : length (tab m s) = slen s) by (unfold tab; now rewrite map_length, seq_length).
    split; [|split; [rewrite firstn_length; lia|exact Hlen]].
    apply nth_ext with (d := 0) (d' := 0).
    - rewrite !app_length, firstn_length, skipn_length, Hlen. lia.
    - intros i Hi. destruct (Nat.lt_ge_cases i (base s)) as [H1|H1].
      + rewrite app_nth1 by (rewrite firstn_length; lia). now rewrite nth_firstn by exact H1.
      + rewrite app_nth2 by (rewrite firstn_length; lia). rewrite firstn_length. replace (Nat.min _ _) with (base s) by lia.
        destruct (Nat.lt_ge_cases i (base s + slen s)) as [H2|H2].
        * rewrite app_nth1 by (rewrite Hlen; lia). unfold tab. rewrite nth_map_seq by lia. unfold rd. f_equal. lia.
        * rewrite app_nth2 by (rewrite Hlen; lia). rewrite Hlen, nth_skipn. f_equal. lia.
  Qed.

  Lemma apart_sees (X Y l : Mem) s k ks : base s = length X -> slen s = length l -> apart s k -> holds (X ++ l ++ Y) k ks ->
    sees X Y (length l) k ks.
  Proof.
    intros Hb Hs Hap [HL H] l0 Hl0. split; [exact HL|]. intros i. rewrite <- H. unfold hget. destruct (Nat.ltb_spec i (slen k)) as [Hi|]; [|reflexivity].
    assert (Hn : ~ (length X <= base k + i < length X + length l)%nat).
    { intros Hc. apply (Hap (base k + i)%nat); unfold SpecHeap.cell; lia. }
    unfold get. destruct (Nat.lt_ge_cases (base k + i) (length X)) as [H1|H1].
    - now rewrite !nth_error_app1 by exact H1.
    - rewrite !(nth_error_app2 X) by exact H1. rewrite (nth_error_app2 l0), (nth_error_app2 l) by lia. now rewrite Hl0.
  Qed.

  (** [m'] has the new contents [l'] in [s], and every other existing cell as before *)
  Lemma window_only (X Y l l' G : Mem) s : base s = length X -> slen s = length l -> length l' = length l ->
    tab (X ++ l' ++ Y ++ G) s = l' /\ (length (X ++ l ++ Y) <= length (X ++ l' ++ Y ++ G))%nat /\
    (forall a, (a < length (X ++ l ++ Y))%nat -> ~ cell s a -> nth a (X ++ l' ++ Y ++ G) 0 = nth a (X ++ l ++ Y) 0).
  Proof.
    intros Hb Hs Hl. split; [|split].
    - symmetry. apply holds_eq; [rewrite !app_length; lia|]. apply holds_win; congruence.
    - rewrite !app_length. lia.
    - intros a Ha Hc. unfold cell in Hc. destruct (Nat.lt_ge_cases a (length X)) as [H1|H1].
      + now rewrite !app_nth1 by exact H1.
      + rewrite !(app_nth2 X) by exact H1. rewrite (app_nth2 l'), (app_nth2 l) by lia. rewrite Hl, app_nth1; [reflexivity|].
        rewrite !app_length in Ha. lia.
  Qed.

  Lemma gmimc_update_mem (m : Mem) arks nR state block : swf m arks -> swf m state -> swf m block -> apart state arks -> apart state block ->
    (forall a, cell state a \/ (length m <= a)%nat -> writable a = true) ->
    match GMimcUpdate (tab m arks) nR (tab m state) (tab m block) with
    | Some l' => exists m', HGMimcUpdate writable m arks nR state block = Some m' /\ only_state m m' state l'
    | None => HGMimcUpdate writable m arks nR state block = None end.
  Proof.
    intros Wa Ws Wb A1 A2 Hw. destruct (split_at m state (swf_in m state Ws)) as (X & Y & Em & HX & HL).
    set (l := tab m state) in *.
    assert (Ha := holds_tab m arks (swf_in m arks Wa)). assert (Hk := holds_tab m block (swf_in m block Wb)).
    rewrite Em in Ha at 1. rewrite Em in Hk at 1.
    destruct (gmimc_update_ok writable X Y l state arks (tab m arks) nR block (tab m block)) as [E HLen]; try congruence.
    - intros i Hi. apply Hw. left. unfold cell. lia.
    - intros a Hge. apply Hw. right. rewrite Em. exact Hge.
    - apply (apart_sees X Y l state); congruence || assumption.
    - apply (apart_sees X Y l state); congruence || assumption.
    - rewrite <- Em in E. rewrite E. destruct (GMimcUpdate (tab m arks) nR l (tab m block)) as [l'|]; [|reflexivity].
      eexists. split; [reflexivity|]. rewrite Em. apply window_only; [congruence|congruence|now apply HLen].
  Qed.

  Lemma poseidon_update_mem (m : Mem) arks mat nF nP state block : swf m arks -> (forall r, In r mat -> swf m r /\ apart state r) ->
    swf m state -> swf m block -> apart state arks -> apart state block ->
    (forall a, cell state a \/ (length m <= a)%nat -> writable a = true) ->
    match PoseidonUpdate (tab m arks) (map (tab m) mat) nF nP (tab m state) (tab m block) with
    | Some l' => exists m', HPoseidonUpdate writable m arks mat nF nP state block = Some m' /\ only_state m m' state l'
    | None => HPoseidonUpdate writable m arks mat nF nP state block = None end.
  Proof.
    intros Wa WM Ws Wb A1 A2 Hw. destruct (split_at m state (swf_in m state Ws)) as (X & Y & Em & HX & HL).
    set (l := tab m state) in *.
    assert (Ha := holds_tab m arks (swf_in m arks Wa)). assert (Hk := holds_tab m block (swf_in m block Wb)).
    rewrite Em in Ha at 1. rewrite Em in Hk at 1.
    assert (HM : Forall2 (sees X Y (length l)) mat (map (tab m) mat)).
    { clear -WM Em HX HL. induction mat as [|r mat IH]; simpl; constructor.
      - destruct (WM r (or_introl eq_refl)) as [W A]. apply (apart_sees X Y l state); [congruence|congruence|exact A|].
        rewrite <- Em. now apply holds_tab, swf_in.
      - apply IH. intros r' Hr'. apply WM. now right. }
    pose proof (poseidon_update_ok writable X Y l state arks (tab m arks) mat (map (tab m) mat) nF nP block (tab m block)) as E.
    rewrite <- Em in E. destruct (PoseidonUpdate (tab m arks) (map (tab m) mat) nF nP l (tab m block)) as [l'|].
    - destruct E as (HLen & G & E); try congruence.
      + intros i Hi. apply Hw. left. unfold cell. lia.
      + intros a Hge. apply Hw. right. rewrite Em, !app_length. lia.
      + apply (apart_sees X Y l state); congruence || assumption.
      + apply (apart_sees X Y l state); congruence || assumption.
      + eexists. split; [exact E|]. rewrite Em. apply window_only; congruence.
    - apply E; try congruence.
      + intros i Hi. apply Hw. left. unfold cell. lia.
      + intros a Hge. apply Hw. right. rewrite Em, !app_length. lia.
      + apply (apart_sees X Y l state); congruence || assumption.
      + apply (apart_sees X Y l state); congruence || assumption.
  Qed.

  Lemma mimc_update_mem (m : Mem) arks a block : swf m arks -> (a < length m)%nat -> ~ cell arks a -> writable a = true ->
    HMimcUpdate writable m arks a block = (v <- MimcUpdate (tab m arks) (nth a m 0) block ;; set m a v).
  Proof.
    intros Wa Ha Hc Hw. destruct (nth_split m 0 Ha) as (X & Y & Em & HX). set (v := nth a m 0) in *.
    rewrite Em at 1. rewrite <- HX at 1. rewrite (mimc_update_ok writable X Y arks (tab m arks)).
    - destruct (MimcUpdate (tab m arks) v block) as [v'|]; [|reflexivity].
      rewrite set_some by exact Ha. rewrite Em. now rewrite upd_snoc by exact HX.
    - now rewrite HX.
    - intros w. assert (H := holds_tab m arks (swf_in m arks Wa)). rewrite Em in H at 1.
      assert (A : apart (MkSlice a 1 1) arks).
      { intros b Hb Hb'. unfold cell in Hb. simpl in Hb. assert (b = a) by lia. subst b. contradiction. }
      exact (apart_sees X Y [v] (MkSlice a 1 1) arks (tab m arks) (eq_sym HX) eq_refl A H [w] eq_refl).
  Qed.

  Lemma mimc_hash_mem (m : Mem) arks input : swf m arks -> swf m input -> new_cells m writable ->
    HMimcHash writable m arks input = (v <- MimcHash (tab m arks) (tab m input) ;; Some (m ++ [v], v)).
  Proof. intros Wa Wi Hw. apply mimc_hash_ok; try (now apply holds_tab, swf_in). exact Hw. Qed.

  Lemma gmimc_hash_mem (m : Mem) arks t nR msg : swf m arks -> swf m msg -> new_cells m writable ->
    match GMimcHash (tab m arks) t nR (tab m msg) with
    | Some v => exists G, HGMimcHash writable m arks t nR msg = Some (m ++ G, v)
    | None => HGMimcHash writable m arks t nR msg = None end.
  Proof. intros Wa Wm Hw. apply gmimc_hash_ok; try (now apply holds_tab, swf_in); [apply Wm|exact Hw]. Qed.

  Lemma holds_tabs (m : Mem) mat : (forall r, In r mat -> swf m r) -> Forall2 (holds m) mat (map (tab m) mat).
  Proof. induction mat as [|r mat IH]; intros H; simpl; constructor; [apply holds_tab, swf_in, H; now left|apply IH; intros; apply H; now right]. Qed.

  Lemma poseidon_hash_mem (m : Mem) arks mat t nF nP msg : swf m arks -> (forall r, In r mat -> swf m r) -> swf m msg ->
    new_cells m writable ->
    match hashWith (PoseidonUpdate (tab m arks) (map (tab m) mat) nF nP) t (tab m msg) with
    | Some v => exists G, HPoseidonHash writable m arks mat t nF nP msg = Some (m ++ G, v)
    | None => HPoseidonHash writable m arks mat t nF nP msg = None end.
  Proof. intros Wa WM Wm Hw. apply poseidon_hash_ok; try (now apply holds_tab, swf_in); [now apply holds_tabs|apply Wm|exact Hw]. Qed.

  Lemma mds_mem (m : Mem) xs ys t : swf m xs -> swf m ys -> new_cells m writable ->
    match GenerateMDSMatrix (tab m xs) (tab m ys) t with
    | Some rows => exists G mat, HGenerateMDSMatrix writable m xs ys t = Some (m ++ G, mat) /\ map (tab (m ++ G)) mat = rows /\
        (forall r, In r mat -> (length m <= base r)%nat /\ (base r + slen r <= length (m ++ G))%nat)
    | None => HGenerateMDSMatrix writable m xs ys t = None end.
  Proof.
    intros Wx Wy Hw. pose proof (mds_ok writable m xs _ ys _ t (holds_tab m xs (swf_in m xs Wx)) (holds_tab m ys (swf_in m ys Wy)) Hw) as H.
    destruct (GenerateMDSMatrix (tab m xs) (tab m ys) t) as [rows|]; [|exact H].
    destruct H as (mat & E & HM & HB). exists (concat rows), mat. split; [exact E|].
    split; [|exact HB]. clear E. revert HM HB. generalize (m ++ concat rows) as M2. intros M2 HM. induction HM as [|r ks mat' rows' H _ IH]; intros HB; [reflexivity|]. cbn [map]. f_equal.
    - symmetry. apply holds_eq; [|exact H]. now apply HB; left.
    - apply IH. intros r0 Hr0. apply HB. now right.
  Qed.

  (** Hash of a Poseidon hasher made by newPoseidonHasher in an earlier memory *)
  Lemma poseidon_made (m : Mem) xs ys t rows : swf m xs -> swf m ys -> new_cells m writable ->
    GenerateMDSMatrix (tab m xs) (tab m ys) t = Some rows ->
    exists G mat, HGenerateMDSMatrix writable m xs ys t = Some (m ++ G, mat) /\
      forall m' arks nF nP msg, ext (m ++ G) m' -> swf m' arks -> swf m' msg ->
        match PoseidonHash (tab m' arks) (tab m xs) (tab m ys) t nF nP (tab m' msg) with
        | Some v => exists G', HPoseidonHash writable m' arks mat t nF nP msg = Some (m' ++ G', v)
        | None => HPoseidonHash writable m' arks mat t nF nP msg = None end.
  Proof.
    intros Wx Wy Hw E. pose proof (mds_mem m xs ys t Wx Wy Hw) as H. rewrite E in H. destruct H as (G & mat & E1 & E2 & HB).
    exists G, mat. split; [exact E1|]. intros m' arks nF nP msg [Hlen Hext] Wa Wm. unfold PoseidonHash. rewrite E.
    assert (HM : Forall2 (holds m') mat rows).
    { rewrite <- E2. clear E1 E2. induction mat as [|r mat IH]; cbn [map]; constructor.
      - destruct (HB r (or_introl eq_refl)) as [_ H2]. replace (tab (m ++ G) r) with (tab m' r); [apply holds_tab; lia|].
        unfold tab. apply map_ext_in. intros i Hi. apply in_seq in Hi. unfold rd. apply Hext. lia.
      - apply IH. intros r0 Hr0. apply HB. now right. }
    apply poseidon_hash_ok; try (now apply holds_tab, swf_in); [exact HM|apply Wm|].
    intros a Ha. apply Hw. rewrite app_length in Hlen. lia.
  Qed.

  Lemma test_hashes (m : Mem) arks mat2 mat4 mat8 inputs As Xs Ys c2 c4 c8 : swf m arks -> swf m inputs -> new_cells m writable ->
    tab m arks = As -> GenerateMDSMatrix Xs Ys 2 = Some c2 -> GenerateMDSMatrix Xs Ys 4 = Some c4 -> GenerateMDSMatrix Xs Ys 8 = Some c8 ->
    (forall r, In r (mat2 ++ mat4 ++ mat8) -> swf m r) -> map (tab m) mat2 = c2 -> map (tab m) mat4 = c4 -> map (tab m) mat8 = c8 ->
    forall v1 v2 v3 v4 v5 v6 v7, PoseidonHash As Xs Ys 2 8 82 (tab m inputs) = Some v1 -> PoseidonHash As Xs Ys 4 8 83 (tab m inputs) = Some v2 ->
      PoseidonHash As Xs Ys 8 8 84 (tab m inputs) = Some v3 -> GMimcHash As 2 91 (tab m inputs) = Some v4 -> GMimcHash As 4 91 (tab m inputs) = Some v5 ->
      GMimcHash As 8 91 (tab m inputs) = Some v6 -> MimcHash As (tab m inputs) = Some v7 ->
    exists G, HTestHashes writable m arks mat2 mat4 mat8 inputs = Some (m ++ G, [v1; v2; v3; v4; v5; v6; v7]).
  Proof.
    intros Wa Wi Hw EA G2 G4 G8 WM M2 M4 M8 v1 v2 v3 v4 v5 v6 v7 H1 H2 H3 H4 H5 H6 H7.
    assert (Ha := holds_tab m arks (swf_in m arks Wa)). rewrite EA in Ha.
    assert (Hi := holds_tab m inputs (swf_in m inputs Wi)).
    assert (Hab : forall E : Mem, above writable (length (m ++ E))) by (intros E a H; apply Hw; rewrite app_length in H; lia).
    assert (HM : forall mat, (forall r, In r mat -> In r (mat2 ++ mat4 ++ mat8)) -> forall E, Forall2 (holds (m ++ E)) mat (map (tab m) mat)).
    { intros mat Hin E. apply Forall2_holds_app, holds_tabs. intros r Hr. now apply WM, Hin. }
    assert (P : forall mat c t nF nP v E, GenerateMDSMatrix Xs Ys t = Some c -> (forall r, In r mat -> In r (mat2 ++ mat4 ++ mat8)) -> map (tab m) mat = c ->
      PoseidonHash As Xs Ys t nF nP (tab m inputs) = Some v -> exists E', HPoseidonHash writable (m ++ E) arks mat t nF nP inputs = Some (m ++ E', v)).
    { intros mat c t nF nP v E Ec Hin Em Hv. unfold PoseidonHash in Hv. rewrite Ec in Hv.
      pose proof (poseidon_hash_ok writable (m ++ E) arks As mat c t nF nP inputs (tab m inputs) (holds_app _ _ _ _ Ha)) as H.
      rewrite <- Em in H, Hv. specialize (H (HM mat Hin E) (holds_app _ _ _ _ Hi) (proj1 Wi) (Hab E)). rewrite Hv in H.
      destruct H as (E' & ->). exists (E ++ E'). now rewrite app_assoc. }
    assert (Q : forall t nR v E, GMimcHash As t nR (tab m inputs) = Some v -> exists E', HGMimcHash writable (m ++ E) arks t nR inputs = Some (m ++ E', v)).
    { intros t nR v E Hv. pose proof (gmimc_hash_ok writable (m ++ E) arks As t nR inputs _ (holds_app _ _ _ _ Ha) (holds_app _ _ _ _ Hi) (proj1 Wi) (Hab E)) as H.
      rewrite Hv in H. destruct H as (E' & ->). exists (E ++ E'). now rewrite app_assoc. }
    unfold HTestHashes.
    destruct (P mat2 c2 2%nat 8%nat 82%nat v1 [] G2 ltac:(intros; apply in_app_iff; now left) M2 H1) as (E1 & R1). rewrite app_nil_r in R1. rewrite R1.
    destruct (P mat4 c4 4%nat 8%nat 83%nat v2 E1 G4 ltac:(intros; apply in_app_iff; right; apply in_app_iff; now left) M4 H2) as (E2 & ->).
    destruct (P mat8 c8 8%nat 8%nat 84%nat v3 E2 G8 ltac:(intros; apply in_app_iff; right; apply in_app_iff; now right) M8 H3) as (E3 & ->).
    destruct (Q 2%nat 91%nat v4 E3 H4) as (E4 & ->). destruct (Q 4%nat 91%nat v5 E4 H5) as (E5 & ->). destruct (Q 8%nat 91%nat v6 E5 H6) as (E6 & ->).
    rewrite (mimc_hash_ok writable (m ++ E6) arks As inputs _ (holds_app _ _ _ _ Ha) (holds_app _ _ _ _ Hi) (Hab E6)), H7.
    exists (E6 ++ [v7]). now rewrite app_assoc.
  Qed.
End L.
