From Coq Require Import List ZArith Ascii String Bool Lia.
From Verif Require Import Field FrPrime Fr Go MCircuit MString SpecString LString MEnv.
Import ListNotations.
Local Open Scope Z_scope.

Lemma isDigit_ok c : isDigit c = true <-> is_digit c.
Proof. unfold isDigit, is_digit. rewrite andb_true_iff, !Nat.leb_le. tauto. Qed.

Lemma isDigits_ok s : forallb isDigit s = true <-> (forall c, In c s -> is_digit c).
Proof. rewrite forallb_forall. split; intros H c Hc; apply isDigit_ok; auto. Qed.

Lemma parse_value s : fold_left (fun n c => n * 10 + (Z.of_nat (nat_of_ascii c) - 48)) s 0 = value s.
Proof.
  unfold value. generalize 0 at 1 2. induction s as [|c s IH]; intros v; [reflexivity|]. cbn [fold_left].
  rewrite IH. f_equal. unfold digit_value. lia.
Qed.

Lemma sign_not_digit : ~ is_digit "-"%char /\ ~ is_digit "+"%char.
Proof. unfold is_digit. cbn. lia. Qed.

Definition parseDigits (neg : bool) (ds : Str) : option Z :=
  match ds with
  | [] => None
  | _ =>
    if forallb isDigit ds then
      let un := fold_left (fun n c => n * 10 + (Z.of_nat (nat_of_ascii c) - 48)) ds 0 in
      if neg then (if un <=? 2 ^ 63 then Some (- un) else None)
      else (if un <? 2 ^ 63 then Some un else None)
    else None
  end.
Lemma Atoi_minus r : Atoi ("-"%char :: r) = parseDigits true r.
Proof. reflexivity. Qed.
Lemma Atoi_plus r : Atoi ("+"%char :: r) = parseDigits false r.
Proof. reflexivity. Qed.
Lemma Atoi_plain s : hd "0"%char s <> "-"%char -> hd "0"%char s <> "+"%char -> Atoi s = parseDigits false s.
Proof.
  intros H1 H2. destruct s as [|c r]; [reflexivity|]. cbn [hd] in H1, H2.
  destruct c as [[] [] [] [] [] [] [] []]; try reflexivity; contradiction.
Qed.

Lemma parse_some neg ds n : parseDigits neg ds = Some n <->
  ds <> [] /\ (forall c, In c ds -> is_digit c) /\ n = (if neg then - value ds else value ds) /\ - 2 ^ 63 <= n < 2 ^ 63.
Proof.
  unfold parseDigits. destruct ds as [|c r]; [split; [discriminate|intros [H _]; congruence]|].
  set (ds := c :: r). assert (Hne : ds <> []) by discriminate. 
  destruct (forallb isDigit ds) eqn:E.
  2:{ split; [discriminate|]. intros (_ & H & _). pose proof (proj2 (isDigits_ok ds) H). congruence. }
  pose proof (proj1 (isDigits_ok ds) E) as E0. clear E. rename E0 into E. pose proof (value_nonneg ds E) as Hv. rewrite parse_value. cbv zeta.
  destruct neg.
  - destruct (Z.leb_spec (value ds) (2 ^ 63)) as [H|H]; split.
    + intros [= <-]. split; [exact Hne|]. split; [exact E|]. split; [reflexivity|lia].
    + intros (_ & _ & -> & _). reflexivity.
    + discriminate.
    + intros (_ & _ & -> & H2). lia.
  - destruct (Z.ltb_spec (value ds) (2 ^ 63)) as [H|H]; split.
    + intros [= <-]. split; [exact Hne|]. split; [exact E|]. split; [reflexivity|lia].
    + intros (_ & _ & -> & _). reflexivity.
    + discriminate.
    + intros (_ & _ & -> & H2). lia.
Qed.

Lemma digits_hd ds : ds <> [] -> (forall c, In c ds -> is_digit c) -> hd "0"%char ds <> "-"%char /\ hd "0"%char ds <> "+"%char.
Proof.
  intros Hne H. destruct ds as [|c r]; [congruence|]. cbn [hd].
  pose proof (H c (or_introl eq_refl)) as Hc. destruct sign_not_digit as [H1 H2].
  split; intros ->; contradiction.
Qed.

Lemma Atoi_exact s n : Atoi s = Some n <-> readable s n /\ - 2 ^ 63 <= n < 2 ^ 63.
Proof.
  split.
  - intros H. destruct (ascii_dec (hd "0"%char s) "-"%char) as [E|E1].
    { destruct s as [|c r]; [discriminate|]. cbn in E. subst c. rewrite Atoi_minus in H. apply parse_some in H.
      destruct H as (H1 & H2 & H3 & H4). split; [|exact H4]. exists r. split; [exact H1|]. split; [exact H2|]. right. split; [reflexivity|exact H3]. }
    destruct (ascii_dec (hd "0"%char s) "+"%char) as [E|E2].
    { destruct s as [|c r]; [discriminate|]. cbn in E. subst c. rewrite Atoi_plus in H. apply parse_some in H.
      destruct H as (H1 & H2 & H3 & H4). split; [|exact H4]. exists r. split; [exact H1|]. split; [exact H2|]. left. split; [right; reflexivity|exact H3]. }
    rewrite Atoi_plain in H by assumption. apply parse_some in H. destruct H as (H1 & H2 & H3 & H4).
    split; [|exact H4]. exists s. split; [exact H1|]. split; [exact H2|]. left. split; [left; reflexivity|exact H3].
  - intros ((ds & H1 & H2 & [[[->| ->] H3]|[-> H3]]) & H4).
    + destruct (digits_hd ds H1 H2). rewrite Atoi_plain by assumption. apply parse_some. auto.
    + rewrite Atoi_plus. apply parse_some. auto.
    + rewrite Atoi_minus. apply parse_some. auto.
Qed.

Lemma signed_readable s n : signed_decimal s n -> readable s n.
Proof.
  intros [[H (H1 & H2 & H3 & _)]|[H (t & -> & H1 & H2 & H3 & _)]].
  - exists s. split; [exact H1|]. split; [exact H2|]. left. auto.
  - exists t. split; [exact H1|]. split; [exact H2|]. right. split; [reflexivity|lia].
Qed.

Lemma readable_fun s n n' : readable s n -> readable s n' -> n = n'.
Proof.
  intros (d & H1 & H2 & H3) (d' & H1' & H2' & H3').
  destruct (digits_hd d H1 H2) as [A B], (digits_hd d' H1' H2') as [A' B'].
  destruct H3 as [[[->| ->] H3]|[-> H3]], H3' as [[[E|E] H3']|[E H3']]; subst; cbn [hd] in *;
    try congruence; try (injection E as <-; reflexivity).
Qed.

Lemma Getenv_int env name : readInt env name (Atoi (Getenv env name)).
Proof.
  intros n. unfold Getenv. destruct (env name) as [s|].
  - rewrite Atoi_exact. split; [intros [H1 H2]; exists s; auto|intros (s' & [= <-] & H); exact H].
  - split; [discriminate|intros (s & [=] & _)].
Qed.

Lemma env_ints env : readInt env bNEnv (GetBN env) /\ readInt env nChunksEnv (GetNChunks env) /\
  readInt env nProcessesEnv (GetNProcesses env).
Proof. split; [|split]; apply Getenv_int. Qed.

Lemma env_decimal env s n : signed_decimal s n -> - 2 ^ 63 <= n < 2 ^ 63 ->
  (env bNEnv = Some s -> GetBN env = Some n) /\ (env nChunksEnv = Some s -> GetNChunks env = Some n) /\
  (env nProcessesEnv = Some s -> GetNProcesses env = Some n).
Proof.
  intros Hs Hn. destruct (env_ints env) as (H1 & H2 & H3).
  split; [|split]; intros E; [apply H1|apply H2|apply H3]; exists s; auto using signed_readable.
Qed.

Lemma env_flags env : (GetProfiled env = true <-> env profileEnv = Some ["1"%char]) /\
  (GetTraced env = true <-> env traceEnv = Some ["1"%char]).
Proof.
  assert (H : forall name, strEqb (Getenv env name) (str "1") = true <-> env name = Some ["1"%char]).
  { intros name. unfold strEqb, Getenv. destruct (env name) as [s|].
    - destruct (list_eq_dec ascii_dec s (str "1")) as [->|N]; split; intros H; try reflexivity; try discriminate.
      injection H as ->. exfalso. apply N. reflexivity.
    - split; intros H; discriminate. }
  split; apply H.
Qed.

Lemma env_names : NoDup [bNEnv; nChunksEnv; profileEnv; traceEnv; nProcessesEnv].
Proof. repeat constructor; cbn; intuition discriminate. Qed.

Lemma id_string_inj other a b :
  (forall n m, other n = other m -> n = m) ->
  (forall n, other n <> str "AddGate" /\ other n <> str "MulGate" /\ other n <> str "CopyGate" /\
             forall x : Fr, other n <> (str "CipherGate-" ++ FrString x)%list) ->
  idString other a = idString other b <-> id_eqb a b = true.
Proof.
  intros Hi Ho.
  assert (HF : forall x y : Fr, FrString x = FrString y -> x = y).
  { intros x y E. apply fr_eq. apply (decimal_value (FrString x)); [apply FrString_ok|rewrite E; apply FrString_ok]. }
  destruct a as [| | |x|n], b as [| | |y|m]; cbn [idString id_eqb];
    try (split; [intros E; exfalso; cbn in E; congruence|discriminate]);
    try (split; reflexivity);
    try (destruct (Ho n) as (O1 & O2 & O3 & O4); split; [intros E; exfalso; first [exact (O1 E)|exact (O2 E)|exact (O3 E)|exact (O4 _ E)]|discriminate]);
    try (destruct (Ho m) as (O1 & O2 & O3 & O4); split; [intros E; exfalso; symmetry in E; first [exact (O1 E)|exact (O2 E)|exact (O3 E)|exact (O4 _ E)]|discriminate]).
  - split.
    + intros E. apply app_inv_head in E. apply HF in E. subst y. apply feqb_refl.
    + intros E. apply feqb_eq in E. subst y. reflexivity.
  - split; [intros E; apply Nat.eqb_eq; exact (Hi _ _ E)|intros E; apply Nat.eqb_eq in E; subst; reflexivity].
Qed.
