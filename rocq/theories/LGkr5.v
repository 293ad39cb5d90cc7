(** GKR in the BN254 scalar field; checks used in the examples. *)
From Coq Require Import List Arith ZArith Znumtheory Zpow_facts Lia Bool Ring.
From Verif Require Import Field Go MCommon Spec MPoly LPoly LPoly2 MCircuit SpecCircuit LCircuit LCircuit2 LCircuit3 MSumcheck SpecSumcheck MSumPar SpecSumPar
  MGkr SpecGkr LGkr2 LGkr3 LGkr4 FrPrime Fr LPoly3.
Import ListNotations.

Section L.
  Context {F : Field}.
  Add Field FfieldGkr5 : (f_theory F).
  Open Scope F_scope.

  (** A pair of wrong claims is saved by at most one challenge. *)
  Lemma lambda_unique (cl cr tl tr x y : F) : (cl, cr) <> (tl, tr) ->
    cr * x + cl = tr * x + tl -> cr * y + cl = tr * y + tl -> x = y.
  Proof.
    intros Hne Hx Hy. destruct (f_eq_dec cr tr) as [->|Hr].
    - exfalso. apply Hne. f_equal. transitivity (tr * x + cl - tr * x); [ring|]. rewrite Hx. ring.
    - apply f_sub_eq. assert (H : (cr - tr) * (x - y) = 0).
      { transitivity ((cr * x + cl) - (cr * y + cl) - ((tr * x + tl) - (tr * y + tl))); [ring|]. rewrite Hx, Hy. ring. }
      apply f_integral in H. destruct H as [H|H]; [|exact H]. exfalso. apply Hr. apply f_sub_eq. exact H.
  Qed.

  Lemma one_layer_sound (ch : list F -> F) m k (l : Layer F) inputs a pf : wf_layer l /\ gates_once l ->
    chunked k m (lBGInputs l) inputs -> assignment_of [l] (2 ^ m) inputs a ->
    forall outputs, (0 < k)%nat -> chunked k m (lBGOutputs l) outputs ->
    GkrVerify ch (m + k) [l] pf inputs outputs = Some true ->
    output_claim (m + k) m l outputs <> output_claim (m + k) m l (nth 1 a []) ->
    exists j, collision_at ch pf [l] m k a j.
  Proof.
    intros Hl Hi Ha outputs Hk Ho HV Hne.
    apply (gkr_sound ch m k (lBGInputs l) [l] inputs a pf) with (outputs := outputs) (llast := l); auto; try discriminate.
    - intros l' [<-|[]]. exact Hl.
    - cbn. auto.
  Qed.

  (** A test for the absence of collisions. *)
  Definition no_collision_test (ch : list F -> F) (pf : Proof F) (c : list (Layer F)) (m k : nat) (a : list (list (list F))) : bool :=
    forallb (fun j => match nth_error c j with
      | None => true
      | Some l =>
        let b := lBGInputs l in
        let V := glued b m (nth j a []) in
        let rounds := (2 * b + (m + k))%nat in
        let proof := nth j (SumcheckProofs pf) [] in
        forallb (fun i => match nth_error proof i with
          | None => true
          | Some p => negb (peval p (ch p) =? cube_sum (run_poly ch pf (length c) (m + k) j l V) (rounds - S i) (map ch (firstn i proof) ++ [ch p]))
          end) (seq 0 rounds) &&
        ((j =? 0)%nat ||
         let cl := nth j (ClaimsLeft pf) 0 in let cr := nth j (ClaimsRight pf) 0 in
         negb (cr * ch [cl; cr] + cl =? mle V (ptR ch pf b j ++ ptP ch pf b j) * ch [cl; cr] + mle V (ptL ch pf b j ++ ptP ch pf b j)))
      end) (seq 0 (length c)).

  Lemma no_collision_ok ch pf c m k a : no_collision_test ch pf c m k a = true -> forall j, ~ collision_at ch pf c m k a j.
  Proof.
    unfold no_collision_test. intros H j (l & Hl & HC). rewrite forallb_forall in H.
    assert (Hj : In j (seq 0 (length c))) by (apply in_seq; split; [lia|]; apply nth_error_Some; congruence).
    specialize (H j Hj). rewrite Hl in H. cbv zeta in H, HC. apply andb_true_iff in H. destruct H as [H1 H2].
    destruct HC as [(i & p & Hi & Hp & _ & He)|(Hj0 & _ & He)].
    - rewrite forallb_forall in H1. specialize (H1 i ltac:(apply in_seq; lia)). rewrite Hp in H1.
      apply negb_true_iff, feqb_neq in H1. contradiction.
    - destruct (Nat.eqb_spec j 0); [lia|]. cbn [orb] in H2. apply negb_true_iff, feqb_neq in H2. contradiction.
  Qed.
End L.

Local Open Scope F_scope.

Lemma Fr_two : (1 + 1 : Fr) <> 0.
Proof. intros H. apply (f_equal frval) in H. revert H. vm_compute. discriminate. Qed.

(** 5 is not a square, so X^2 + X - 1 has no root. *)
Lemma five_not_square (v : Fr) : (v * v)%F <> mkfr 5.
Proof.
  intros E. apply (f_equal frval) in E. change (frval (v * v)) with ((frval v * frval v) mod frModulus)%Z in E.
  change (frval (mkfr 5)) with 5%Z in E.
  assert (H5 : (5 ^ ((frModulus - 1) / 2) mod frModulus)%Z <> 1%Z).
  { rewrite <- Zpow_mod_correct by exact fr_modn0. vm_compute. discriminate. }
  apply H5. rewrite <- E. rewrite <- Zpower_mod by reflexivity. rewrite <- Z.pow_2_r.
  rewrite <- Z.pow_mul_r by (vm_compute; discriminate).
  replace (2 * ((frModulus - 1) / 2))%Z with (frModulus - 1)%Z by (vm_compute; reflexivity).
  apply fermat_little; [exact frModulus_prime|]. intros D. apply Z.mod_divide in D; [|exact fr_modn0].
  rewrite Z.mul_mod, D in E by exact fr_modn0. vm_compute in E. discriminate.
Qed.

Section Golden.
  Context {F : Field}.
  Add Field FfieldGolden : (f_theory F).
  Open Scope F_scope.
  Definition golden : list F := [- (1); 1; 1].
  Lemma golden_sum : peval golden 0 + peval golden 1 = 0.
  Proof. unfold golden, peval, sumn. cbn [length seq suml nth fpow]. ring. Qed.
  Lemma golden_square (x : F) : peval golden x = 0 -> (x + x + 1) * (x + x + 1) = 1 + 1 + 1 + 1 + 1.
  Proof.
    intros H. transitivity ((1 + 1 + 1 + 1) * peval golden x + (1 + 1 + 1 + 1 + 1)).
    { unfold golden, peval, sumn. cbn [length seq suml nth fpow]. ring. }
    rewrite H. ring.
  Qed.
End Golden.

Lemma Fr_escapes (ch : list Fr -> Fr) : escapes_zero ch.
Proof.
  exists golden. split; [discriminate|]. split; [apply golden_sum|]. intros H. apply golden_square in H.
  assert (E : (1 + 1 + 1 + 1 + 1 : Fr) = mkfr 5) by (apply fr_eq; vm_compute; reflexivity).
  exact (five_not_square _ (eq_trans H E)).
Qed.

Lemma gkr_complete_Fr (ch : list Fr -> Fr) nCore mtProve c b m k inputs a :
  (0 < nCore)%nat -> follows_machine ch nCore mtProve -> c <> [] -> (0 < k)%nat ->
  (forall l, In l c -> layer_ok l) -> fits b c -> chunked k m b inputs -> assignment_of c (2 ^ m) inputs a ->
  exists pf, GkrProve ch mtProve c a nCore = Some pf /\
    GkrVerify ch (m + k) c pf inputs (nth (length c) a []) = Some true /\
    GkrVerifyWith ch false (m + k) c pf inputs (nth (length c) a []) = Some true.
Proof.
  intros H1 H2 H3 H4 H5 H6 [H7 H8] H9.
  destruct (gkr_complete ch nCore mtProve (Fr_distinct_le 12 ltac:(lia)) H1 H2 m k c b inputs a H5 H6 H8 H7 H9 H3 H4) as (pf & E & _ & HV).
  exists pf. split; [exact E|]. split; apply HV.
Qed.

Lemma gkr_complete_assign (ch : list Fr -> Fr) nCore mtProve c b m k inputs :
  (0 < nCore)%nat -> follows_machine ch nCore mtProve -> c <> [] -> (0 < k)%nat ->
  (forall l, In l c -> layer_ok l) -> fits b c -> chunked k m b inputs -> right_ok (2 ^ m) c ->
  exists a pf, Assign c inputs = Some a /\ GkrProve ch mtProve c a nCore = Some pf /\
    GkrVerify ch (m + k) c pf inputs (nth (length c) a []) = Some true.
Proof.
  intros H1 H2 H3 H4 H5 H6 H7 H8.
  destruct (assign_ok c b (2 ^ m) inputs) as (a & E & Ha); auto.
  { intros l Hl. apply (H5 l Hl). } { apply H7. }
  destruct (gkr_complete_Fr ch nCore mtProve c b m k inputs a) as (pf & EP & EV & _); auto. exists a, pf. auto.
Qed.

(** Any inputs are accepted with the outputs of any other inputs. *)
Lemma any_inputs (ch : list Fr -> Fr) c b m k inputs a : (2 <= length c)%nat -> (0 < k)%nat ->
  (forall l, In l c -> layer_ok l) -> fits b c -> chunked k m b inputs -> assignment_of c (2 ^ m) inputs a ->
  exists pf, forall inputs', GkrVerify ch (m + k) c pf inputs' (nth (length c) a []) = Some true.
Proof.
  intros H1 H2 H3 H4 H5 H6.
  assert (Hc : c <> []) by (destruct c; [cbn in H1; lia|discriminate]).
  destruct (gkr_complete_Fr ch 1 (mtWhole ch) c b m k inputs a ltac:(lia) (mtWhole_follows ch 1) Hc H2 H3 H4 H5 H6) as (pf & _ & _ & HV).
  destruct (forge_accepted ch (m + k) c pf inputs (nth (length c) a []) H1 HV) as (tot & Hforge).
  destruct (forge_poly ch Fr_two (Fr_escapes ch) tot) as (p & P1 & P2 & P3).
  exists (forge pf (length c - 2) p). intros inputs'. apply Hforge; assumption.
Qed.

(** The outputs of every honest proof can be changed. *)
Lemma honest_two_outputs (ch : list Fr -> Fr) nCore mtProve c b m k inputs a :
  (0 < nCore)%nat -> follows_machine ch nCore mtProve -> c <> [] -> (0 < k)%nat ->
  (forall l, In l c -> layer_ok l) -> fits b c -> chunked k m b inputs -> assignment_of c (2 ^ m) inputs a ->
  exists pf outs', GkrProve ch mtProve c a nCore = Some pf /\ outs' <> nth (length c) a [] /\
    GkrVerify ch (m + k) c pf inputs (nth (length c) a []) = Some true /\
    GkrVerify ch (m + k) c pf inputs outs' = Some true.
Proof.
  intros H1 H2 H3 H4 H5 H6 H7 H8.
  destruct (gkr_complete_Fr ch nCore mtProve c b m k inputs a) as (pf & EP & EV & _); auto.
  destruct (nth_error c (length c - 1)) as [l|] eqn:El; [|apply nth_error_None in El; destruct c; [congruence|cbn in El; lia]].
  assert (Hout : chunked k m (lBGOutputs l) (nth (length c) a [])).
  { destruct H8 as (_ & _ & A3). destruct (A3 _ l El) as [A4 A5].
    replace (S (length c - 1))%nat with (length c) in A4, A5 by (destruct c; [congruence|cbn; lia]).
    destruct H7 as [I1 I2]. split; [congruence|]. intros t Ht. apply (In_nth _ _ []) in Ht. destruct Ht as (i & Hi & <-).
    apply (A5 i). congruence. }
  destruct (two_outputs ch true m k c l pf inputs _ H4 f_1_neq_0 El Hout) as (outs' & _ & Hne & HV').
  exists pf, outs'. split; [exact EP|]. split; [intros E; apply Hne; rewrite E; reflexivity|]. split; [exact EV|].
  etransitivity; [exact HV'|exact EV].
Qed.
