(** The MiMC circuit and the concrete constants. *)
From Coq Require Import List Arith ZArith Lia Bool Ring.
From Verif Require Import Field Go MCommon Spec MPoly LPoly MCircuit SpecCircuit LCircuit LCircuit2 LCircuit3 MSumcheck SpecSumcheck MSumPar SpecSumPar
  MGkr SpecGkr LGkr5 FrPrime Fr MArk MHash SpecHash LHash LHash2.
Import ListNotations.

Lemma firstn_S_nth {A} (l : list A) k d : (k < length l)%nat -> firstn (S k) l = firstn k l ++ [nth k l d].
Proof.
  revert k. induction l as [|x l IH]; intros [|k] H; cbn [length] in *; try lia; [reflexivity|].
  cbn [firstn nth app]. rewrite <- IH by lia. reflexivity.
Qed.

Section L.
  Context {F : Field}.
  Add Field FfieldHash3 : (f_theory F).
  Open Scope F_scope.

  Lemma sub_0 (x : F) : x - 0 = x.
  Proof. ring. Qed.
  Lemma add_0 (x : F) : x + 0 = x.
  Proof. ring. Qed.

  Definition mimc_mid (a : F) : Layer F := NewLayer [MkWire 1 0 0 (CipherGate a); MkWire 1 0 1 CopyGate].
  Definition mimc_last (a : F) : Layer F := NewLayer [MkWire 1 0 0 (CipherGate a)].
  Definition mimc_layers (cs : list F) (a : F) : list (Layer F) := map mimc_mid cs ++ [mimc_last a].

  Lemma CreateMimcCircuit_ok (arks : list F) : (91 <= length arks)%nat ->
    CreateMimcCircuit arks = Some (mimc_layers (firstn 90 arks) (nth 90 arks 0)).
  Proof.
    intros H. unfold CreateMimcCircuit, mimcWiring. cbv zeta. change (91 - 1)%nat with 90%nat.
    rewrite (mapM_some _ (fun i => [MkWire 1 0 0 (CipherGate (nth i arks 0)); MkWire 1 0 1 CopyGate])).
    - rewrite (get_nth arks 90 0) by lia. f_equal. unfold NewCircuit, mimc_layers. rewrite map_app. cbn [map]. f_equal.
      rewrite map_map. unfold mimc_mid.
      assert (E : firstn 90 arks = map (fun i => nth i arks 0) (seq 0 90)).
      { apply (map_seq_ext 0); [rewrite firstn_length; lia|]. intros i Hi. apply nth_firstn. exact Hi. }
      rewrite E, map_map. reflexivity.
    - intros i Hi. apply in_seq in Hi. rewrite (get_nth arks i 0) by lia. reflexivity.
  Qed.

  Lemma CreateMimcCircuit_short (arks : list F) : (length arks < 91)%nat -> CreateMimcCircuit arks = None.
  Proof.
    intros H. unfold CreateMimcCircuit, mimcWiring. cbv zeta. change (91 - 1)%nat with 90%nat.
    destruct (mapM _ (seq 0 90)) as [l|] eqn:E; [|reflexivity]. rewrite get_none by lia. reflexivity.
  Qed.

  Lemma mimc_layer_cases cs a l : In l (mimc_layers cs a) -> (exists a', l = mimc_mid a') \/ l = mimc_last a.
  Proof.
    unfold mimc_layers. intros H. apply in_app_or in H. destruct H as [H|[<-|[]]]; [|right; reflexivity].
    apply in_map_iff in H. destruct H as (a' & <- & _). left. exists a'. reflexivity.
  Qed.

  Lemma mimc_layer_ok cs a l : In l (mimc_layers cs a) -> layer_ok l.
  Proof.
    intros H. destruct (mimc_layer_cases cs a l H) as [[a' ->]| ->]; (split; [apply NewLayer_wf|]);
      (split; [split; [|intros w Hw; cbn in *; intuition (subst; auto)]|]).
    - repeat constructor; cbn; intuition discriminate.
    - split; [right; discriminate|]. split; [|cbn; lia]. intros g [<-|[<-|[]]]; [apply cipher_ok|apply copy_ok].
    - repeat constructor; cbn; intuition discriminate.
    - split; [right; discriminate|]. split; [|cbn; lia]. intros g [<-|[]]; apply cipher_ok.
  Qed.

  Lemma mimc_fits cs a : fits 1 (mimc_layers cs a).
  Proof. unfold mimc_layers. induction cs as [|x cs IH]; [repeat split|]. split; [reflexivity|exact IH]. Qed.

  Lemma mimc_right cs a N : right_ok N (mimc_layers cs a).
  Proof.
    right. intros l w Hl Hw. destruct (mimc_layer_cases cs a l Hl) as [[a' ->]| ->]; cbn in Hw; intuition (subst; reflexivity).
  Qed.

  Lemma mid_outputs a : lBGOutputs (mimc_mid a) = 1%nat.
  Proof. reflexivity. Qed.
  Lemma last_outputs a : lBGOutputs (mimc_last a) = 0%nat.
  Proof. reflexivity. Qed.

  (** One layer on one instance. *)
  Lemma mid_value a N inp out : layer_table (mimc_mid a) N inp out -> forall h, (h < N)%nat ->
    nth h out 0 = nth (N + h) inp 0 + fpow (nth h inp 0 + a) 7 /\ nth (N + h) out 0 = nth (N + h) inp 0.
  Proof.
    intros (_ & H) h Hh. split.
    - specialize (H 0%nat h ltac:(rewrite ?mid_outputs, ?last_outputs; cbn; lia) Hh). cbn [Nat.mul Nat.add] in H. rewrite H.
      unfold layer_value. cbn [mimc_mid NewLayer Wires filter wO Nat.eqb suml wGate wL wR]. rewrite cipher_eval.
      replace (1 * N + h)%nat with (N + h)%nat by lia. replace (0 * N + h)%nat with h by lia. ring.
    - specialize (H 1%nat h ltac:(rewrite mid_outputs; cbn; lia) Hh). replace (1 * N + h)%nat with (N + h)%nat in H by lia. rewrite H.
      unfold layer_value. cbn [mimc_mid NewLayer Wires filter wO Nat.eqb suml wGate wL wR CopyGate geval].
      replace (1 * N + h)%nat with (N + h)%nat by lia. ring.
  Qed.
  Lemma last_value a N inp out : layer_table (mimc_last a) N inp out -> length out = N /\ forall h, (h < N)%nat ->
    nth h out 0 = nth (N + h) inp 0 + fpow (nth h inp 0 + a) 7.
  Proof.
    intros (HL & H). split; [rewrite last_outputs in HL; cbn in HL; lia|]. intros h Hh.
    specialize (H 0%nat h ltac:(rewrite ?mid_outputs, ?last_outputs; cbn; lia) Hh). cbn [Nat.mul Nat.add] in H. rewrite H.
    unfold layer_value. cbn [mimc_last NewLayer Wires filter wO Nat.eqb suml wGate wL wR]. rewrite cipher_eval.
    replace (1 * N + h)%nat with (N + h)%nat by lia. replace (0 * N + h)%nat with h by lia. ring.
  Qed.

  Lemma shifted_cipher (k : F) cs : forall x, fold_left (fun x a => k + fpow (x + a) 7) cs x = mimc_cipher cs k (x - k) + k.
  Proof.
    induction cs as [|a cs IH]; intros x; cbn [fold_left]; [unfold mimc_cipher; cbn; ring|].
    rewrite IH. unfold mimc_cipher. cbn [fold_left].
    replace (k + fpow (x + a) 7 - k) with (fpow (x + a) 7) by ring. replace (x - k + k + a) with (x + a) by ring. reflexivity.
  Qed.

  Lemma mimc_assignment cs a N : forall inputs asg, assignment_of (mimc_layers cs a) N inputs asg ->
    forall i, (i < length inputs)%nat ->
    let out := nth i (nth (S (length cs)) asg []) [] in
    let inp := nth i inputs [] in
    length out = N /\ forall h, (h < N)%nat ->
      nth h out 0 = mimc_cipher (cs ++ [a]) (nth (N + h) inp 0) (nth h inp 0 - nth (N + h) inp 0) + nth (N + h) inp 0.
  Proof.
    intros inputs asg (HL & H0 & HA) i Hi. cbv zeta.
    assert (Hmid : forall k, (k <= length cs)%nat -> forall h, (h < N)%nat ->
      nth h (nth i (nth k asg []) []) 0 = fold_left (fun x a => nth (N + h) (nth i inputs []) 0 + fpow (x + a) 7) (firstn k cs) (nth h (nth i inputs []) 0) /\
      nth (N + h) (nth i (nth k asg []) []) 0 = nth (N + h) (nth i inputs []) 0).
    { induction k as [|k IH]; intros Hk h Hh; [rewrite H0; auto|].
      destruct (IH ltac:(lia) h Hh) as [E1 E2].
      assert (EL : nth_error (mimc_layers cs a) k = Some (mimc_mid (nth k cs 0))).
      { unfold mimc_layers. rewrite nth_error_app1 by (rewrite map_length; lia).
        apply map_nth_error. apply nth_error_nth'. lia. }
      destruct (HA k _ EL) as [_ HT]. specialize (HT i Hi). destruct (mid_value _ _ _ _ HT h Hh) as [V1 V2].
      rewrite V1, V2, E1, E2. split; [|reflexivity].
      rewrite (firstn_S_nth _ k 0) by lia. rewrite fold_left_app. reflexivity. }
    assert (EL : nth_error (mimc_layers cs a) (length cs) = Some (mimc_last a)).
    { unfold mimc_layers. rewrite nth_error_app2 by (rewrite map_length; lia). rewrite map_length, Nat.sub_diag. reflexivity. }
    destruct (HA _ _ EL) as [_ HT]. specialize (HT i Hi). destruct (last_value _ _ _ _ HT) as [V1 V2].
    split; [exact V1|]. intros h Hh. rewrite V2 by exact Hh. destruct (Hmid (length cs) (le_n _) h Hh) as [-> ->].
    rewrite firstn_all. rewrite <- shifted_cipher. rewrite fold_left_app. reflexivity.
  Qed.

  Lemma firstn_91 (arks : list F) : (91 <= length arks)%nat -> firstn 90 arks ++ [nth 90 arks 0] = firstn 91 arks.
  Proof. intros H. symmetry. apply (firstn_S_nth arks 90 0). lia. Qed.

  Lemma mimc_circuit_ok (arks : list F) N inputs : (91 <= length arks)%nat ->
    (forall inp, In inp inputs -> length inp = (2 * N)%nat) ->
    exists c asg, CreateMimcCircuit arks = Some c /\ Assign c inputs = Some asg /\
      length (nth 91 asg []) = length inputs /\
      forall i, (i < length inputs)%nat ->
      let inp := nth i inputs [] in
      let out := nth i (nth 91 asg []) [] in
      length out = N /\
      forall h, (h < N)%nat ->
        let x := nth h inp 0 in let k := nth (N + h) inp 0 in
        exists y, MimcPermutation arks (x - k) k = Some y /\ nth h out 0 = y + k.
  Proof.
    intros HA HI. eexists. destruct (assign_ok (mimc_layers (firstn 90 arks) (nth 90 arks 0)) 1 N inputs) as (asg & EA & Hasg).
    - intros l Hl. apply (mimc_layer_ok _ _ l Hl).
    - apply mimc_fits.
    - apply mimc_right.
    - exact HI.
    - exists asg. split; [apply CreateMimcCircuit_ok; exact HA|]. split; [exact EA|].
      assert (L90 : length (firstn 90 arks) = 90%nat) by (rewrite firstn_length; lia). split.
      { destruct Hasg as (_ & _ & A3). destruct (A3 90%nat (mimc_last (nth 90 arks 0))) as [A4 _].
        - unfold mimc_layers. rewrite nth_error_app2 by (rewrite map_length; lia). rewrite map_length, L90. reflexivity.
        - exact A4. }
      intros i Hi. pose proof (mimc_assignment _ _ N inputs asg Hasg i Hi) as H. rewrite L90, firstn_91 in H by exact HA. cbv zeta in H |- *.
      destruct H as [H1 H2]. split; [exact H1|]. intros h Hh. eexists. split; [apply MimcPermutation_ok; exact HA|]. apply H2. exact Hh.
  Qed.

  (** With [x = state + block] and [k = block]. *)
  Lemma mimc_circuit_update (arks : list F) s b y : (91 <= length arks)%nat ->
    MimcPermutation arks (s + b - b) b = Some y -> MimcUpdate arks s b = Some (y + b + s).
  Proof.
    intros H. rewrite MimcPermutation_ok, MimcUpdate_ok by exact H. replace (s + b - b) with s by ring.
    intros E. assert (Ey : mimc_cipher (firstn 91 arks) b s = y) by congruence. rewrite <- Ey. f_equal. unfold mimc_compress.
    generalize (mimc_cipher (firstn 91 arks) b s). intros z. ring.
  Qed.
End L.

(** ** Concrete constants *)
Lemma Arks_length : length Arks = 100%nat.
Proof. reflexivity. Qed.
Lemma xArr_length : length xArr = 100%nat.
Proof. reflexivity. Qed.
Lemma yArr_length : length yArr = 100%nat.
Proof. reflexivity. Qed.

Fixpoint distinctb (l : list Z) : bool := match l with [] => true | x :: l' => negb (existsb (Z.eqb x) l') && distinctb l' end.
Lemma distinctb_ok l : distinctb l = true -> NoDup l.
Proof.
  induction l as [|x l IH]; intros H; [constructor|]. cbn in H. apply andb_true_iff in H. destruct H as [H1 H2].
  constructor; [|apply IH; exact H2]. intros Hin. apply negb_true_iff in H1.
  assert (E : existsb (Z.eqb x) l = true) by (apply existsb_exists; exists x; split; [exact Hin|apply Z.eqb_refl]). congruence.
Qed.
Lemma NoDup_frval (l : list Fr) : distinctb (map frval l) = true -> NoDup l.
Proof. intros H. apply distinctb_ok in H. apply NoDup_map_inv in H. exact H. Qed.

Lemma NoDup_firstn {A} n (l : list A) : NoDup l -> NoDup (firstn n l).
Proof.
  revert n. induction l as [|x l IH]; intros [|n] H; cbn [firstn]; try constructor.
  - inversion H as [|? ? H1 H2]. intros Hin. apply H1. rewrite <- (firstn_skipn n l). apply in_or_app. left. exact Hin.
  - apply IH. inversion H. assumption.
Qed.

Lemma xArr_distinct : NoDup xArr.
Proof. apply NoDup_frval. vm_compute. reflexivity. Qed.
Lemma yArr_distinct : NoDup yArr.
Proof. apply NoDup_frval. vm_compute. reflexivity. Qed.

Lemma xy_nonzero : forall x y : Fr, In x xArr -> In y yArr -> (x + y)%F <> 0%F.
Proof.
  assert (H : (let ys := map frval yArr in forallb (fun x => forallb (fun y => negb (Z.eqb (x + y) 0) && negb (Z.eqb (x + y) frModulus)) ys) (map frval xArr)) = true)
    by (vm_compute; reflexivity).
  intros x y Hx Hy E. cbv zeta in H. rewrite forallb_forall in H. specialize (H (frval x) (in_map _ _ _ Hx)).
  rewrite forallb_forall in H. specialize (H (frval y) (in_map _ _ _ Hy)).
  apply (f_equal frval) in E. change (frval (x + y)%F) with ((frval x + frval y) mod frModulus)%Z in E.
  change (frval (0%F : Fr)) with 0%Z in E. apply andb_true_iff in H. destruct H as [H1 H2].
  apply negb_true_iff, Z.eqb_neq in H1. apply negb_true_iff, Z.eqb_neq in H2.
  pose proof (frval_range x). pose proof (frval_range y). apply Z.mod_divide in E; [|exact fr_modn0]. destruct E as (q & Eq).
  assert (frModulus > 0)%Z by reflexivity. assert (q = 0 \/ q = 1)%Z as [-> | ->] by nia; lia.
Qed.

Lemma cauchy_invertible t : (t <= 100)%nat -> exists mat inv, GenerateMDSMatrix xArr yArr t = Some mat /\
  (forall i j, (i < t)%nat -> (j < t)%nat ->
    (nth i xArr 0 + nth j yArr 0 <> 0)%F /\ (nth j (nth i mat []) 0 * (nth i xArr 0 + nth j yArr 0) = 1)%F) /\
  forall v, length v = t ->
    (exists w, MatrixMultiplication mat v = Some w /\ length w = t /\ inv w = v) /\
    (length (inv v) = t /\ MatrixMultiplication mat (inv v) = Some v).
Proof.
  intros Ht. set (xs := firstn t xArr). set (ys := firstn t yArr).
  assert (Lx : length xs = t) by (unfold xs; rewrite firstn_length, xArr_length; lia).
  assert (Ly : length ys = t) by (unfold ys; rewrite firstn_length, yArr_length; lia).
  assert (Hs : forall i j, (i < t)%nat -> (j < t)%nat -> (nth i xArr 0 + nth j yArr 0 <> 0)%F).
  { intros i j Hi Hj. apply xy_nonzero; apply nth_In; [rewrite xArr_length|rewrite yArr_length]; lia. }
  assert (Nx : forall i, (i < t)%nat -> nth i xs 0%F = nth i xArr 0%F) by (intros; apply nth_firstn; assumption).
  assert (Ny : forall i, (i < t)%nat -> nth i ys 0%F = nth i yArr 0%F) by (intros; apply nth_firstn; assumption).
  exists (cauchy xs ys), (uncauchy xs ys).
  assert (EM : GenerateMDSMatrix xArr yArr t = Some (cauchy xs ys)).
  { rewrite GenerateMDSMatrix_ok by (rewrite ?xArr_length, ?yArr_length; lia). f_equal. unfold cauchy. rewrite Lx.
    apply map_ext_in. intros i Hi. apply in_seq in Hi. apply map_ext_in. intros j Hj. apply in_seq in Hj.
    rewrite Nx, Ny by lia. reflexivity. }
  split; [exact EM|]. split.
  { intros i j Hi Hj. split; [apply Hs; assumption|]. unfold cauchy. rewrite Lx.
    rewrite nth_map_seq by exact Hi. rewrite nth_map_seq by exact Hj. cbn [Nat.add]. rewrite Nx, Ny by assumption.
    apply f_mul_inv_l. apply Hs; assumption. }
  assert (HM : forall v : list Fr, length v = t -> MatrixMultiplication (cauchy xs ys) v = Some (mat_vec (cauchy xs ys) v)).
  { intros v Hv. apply MatrixMultiplication_ok. intros row Hr. unfold cauchy in Hr. apply in_map_iff in Hr.
    destruct Hr as (i & <- & _). rewrite map_length, seq_length. lia. }
  assert (HS : forall i j, (i < length xs)%nat -> (j < length xs)%nat -> (nth i xs 0 + nth j ys 0 <> 0)%F).
  { intros i j Hi Hj. rewrite Nx, Ny by lia. apply Hs; lia. }
  assert (Dx : NoDup xs) by (apply NoDup_firstn, xArr_distinct).
  assert (Dy : NoDup ys) by (apply NoDup_firstn, yArr_distinct).
  assert (LL : length ys = length xs) by congruence.
  intros v Hv. split.
  - eexists. split; [apply HM; exact Hv|]. split; [rewrite cauchy_length; exact Lx|].
    apply uncauchy_cauchy; auto; congruence.
  - assert (LU : length (uncauchy xs ys v) = t) by (unfold uncauchy; rewrite map_length, seq_length; exact Lx).
    split; [exact LU|]. rewrite HM by exact LU. f_equal. apply cauchy_uncauchy; auto; congruence.
Qed.

(** ** GKR on the MiMC circuit *)
Lemma mimc_gkr_complete (ch : list Fr -> Fr) nCore mtProve m k inputs :
  (0 < nCore)%nat -> follows_machine ch nCore mtProve -> (0 < k)%nat -> chunked k m 1 inputs ->
  exists c a pf, CreateMimcCircuit Arks = Some c /\ Assign c inputs = Some a /\ GkrProve ch mtProve c a nCore = Some pf /\
    GkrVerify ch (m + k) c pf inputs (nth 91 a []) = Some true.
Proof.
  intros H1 H2 H3 H4. eexists.
  destruct (gkr_complete_assign ch nCore mtProve (mimc_layers (firstn 90 Arks) (nth 90 Arks 0%F)) 1 m k inputs) as (a & pf & E1 & E2 & E3); auto.
  - intros H. apply (f_equal (@length _)) in H. unfold mimc_layers in H. rewrite app_length in H. cbn [length] in H. lia.
  - apply mimc_layer_ok.
  - apply mimc_fits.
  - apply mimc_right.
  - exists a, pf. split; [apply CreateMimcCircuit_ok; rewrite Arks_length; lia|]. split; [exact E1|]. split; [exact E2|].
    unfold mimc_layers in E3 at 2. rewrite app_length, map_length in E3. exact E3.
Qed.

(** The challenge function of the code. *)
Definition mimc_challenge (seed : list Fr) : Fr := fold_left (mimc_compress (firstn 91 Arks)) seed 0%F.
Lemma mimc_challenge_ok seed : GetChallenge Arks seed = Some (mimc_challenge seed).
Proof. unfold GetChallenge. apply MimcHash_ok. rewrite Arks_length. lia. Qed.

(** Every list of outputs has a proof that is accepted with every list of inputs. *)
Lemma mimc_forgery (ch : list Fr -> Fr) m k outputs : (0 < k)%nat -> chunked k m 0 outputs ->
  exists c pf, CreateMimcCircuit Arks = Some c /\
    forall inputs, GkrVerify ch (m + k) c pf inputs outputs = Some true.
Proof.
  intros Hk [HL HC]. exists (mimc_layers (firstn 90 Arks) (nth 90 Arks 0%F)).
  destruct (mimc_cipher_invertible (firstn 91 Arks) 0%F) as (dec & Hdec).
  set (inputs := map (fun out => map dec out ++ repeat (0%F : Fr) (2 ^ m)) outputs).
  assert (HI : chunked k m 1 inputs).
  { unfold inputs. split; [rewrite map_length; exact HL|]. intros t Ht. apply in_map_iff in Ht. destruct Ht as (o & <- & Ho).
    rewrite app_length, map_length, repeat_length. rewrite (HC o Ho). cbn. lia. }
  destruct (assign_ok (mimc_layers (firstn 90 Arks) (nth 90 Arks 0%F)) 1 (2 ^ m) inputs) as (a & EA & Ha).
  { intros l Hl. apply (mimc_layer_ok _ _ l Hl). } { apply mimc_fits. } { apply mimc_right. } { apply HI. }
  assert (HCL : length (mimc_layers (firstn 90 Arks) (nth 90 Arks 0%F)) = 91%nat) by (unfold mimc_layers; rewrite app_length, map_length; reflexivity).
  destruct (any_inputs ch (mimc_layers (firstn 90 Arks) (nth 90 Arks 0%F)) 1 m k inputs a) as (pf & Hpf); auto.
  { rewrite HCL. lia. } { apply mimc_layer_ok. } { apply mimc_fits. }
  exists pf. split; [apply CreateMimcCircuit_ok; rewrite Arks_length; lia|]. intros inputs'. rewrite <- (Hpf inputs'). f_equal.
  rewrite HCL.
  assert (HLo : length (nth 91 a []) = length inputs).
  { destruct Ha as (_ & _ & A3). destruct (A3 90%nat (mimc_last (nth 90 Arks 0%F))) as [A4 _].
    - unfold mimc_layers. rewrite nth_error_app2 by (rewrite map_length, firstn_length, Arks_length; cbn; lia). rewrite map_length, firstn_length, Arks_length. reflexivity.
    - exact A4. }
  apply (list_ext []); [rewrite HLo; unfold inputs; rewrite map_length; reflexivity|].
  intros i Hi.
  assert (Hi' : (i < length inputs)%nat) by (unfold inputs; rewrite map_length; exact Hi).
  pose proof (mimc_assignment _ _ (2 ^ m) inputs a Ha i Hi') as HV. cbv zeta in HV.
  rewrite firstn_91 in HV by (rewrite Arks_length; lia).
  change (S (length (firstn 90 Arks))) with 91%nat in HV.
  destruct HV as [V1 V2].
  assert (Lo : length (nth i outputs []) = (2 ^ m)%nat) by (rewrite (HC _ (nth_In outputs [] Hi)); cbn; lia).
  apply (list_ext 0%F); [congruence|]. intros h Hh. rewrite Lo in Hh. rewrite V2 by exact Hh.
  unfold inputs. rewrite nth_map_lt with (d' := []) by exact Hi.
  rewrite (app_nth1 (map dec (nth i outputs [])) _ 0%F (n := h)) by (rewrite map_length; lia).
  rewrite (app_nth2 (map dec (nth i outputs [])) _ 0%F (n := (2 ^ m + h)%nat)) by (rewrite map_length; lia).
  rewrite map_length, Lo. rewrite nth_repeat_lt by lia.
  rewrite nth_map_lt with (d' := 0%F) by lia.
  set (o := nth h (nth i outputs []) 0%F).
  rewrite sub_0, Hdec, add_0. reflexivity.
Qed.
