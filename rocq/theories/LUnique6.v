(** Right proofs have no collisions; proofs with other claims about the inputs. *)
From Coq Require Import List Arith ZArith Lia Bool Ring Field.
From Verif Require Import Field FrPrime Fr Go MCommon Spec LSpec LCommon MPoly MCircuit SpecCircuit MSumcheck SpecSumcheck MSumPar SpecSumPar MGkr SpecGkr LGkr3
  LSumcheck4 LTests SpecUnique LUnique4.
Import ListNotations.

Section L.
  Context {F : Field}.
  Add Field FfieldLUnique6 : (f_theory F).
  Open Scope F_scope.
  Variable ch : list F -> F.

  Lemma right_no_collision pf (c : list (Layer F)) m k a q qP j : right_layer ch pf c m k a q qP j -> ~ collision_from ch pf c m k a q qP j.
  Proof.
    intros (l & El & sp & Esp & _ & HR & HL & HRt) (l' & El' & HC). rewrite El in El'. injection El' as <-.
    destruct HC as [(i & p & _ & Hp & (t & Ht) & _)|(_ & Hne & _)].
    - rewrite (nth_error_nth _ _ [] Esp) in Hp, Ht. apply Ht. exact (HR i p t Hp).
    - apply Hne. rewrite (nth_error_nth _ _ 0 HL), (nth_error_nth _ _ 0 HRt). reflexivity.
  Qed.

  Lemma collision_from_at (c : list (Layer F)) m k a pf llast j : nth_error c (length c - 1) = Some llast ->
    collision_at ch pf c m k a j -> collision_from ch pf c m k a (count (lBGOutputs llast)) (count (m + k)) j.
  Proof.
    intros Hl (l & El & H). exists l. split; [exact El|]. cbv zeta in *. destruct H as [H|H]; [left|right; exact H].
    unfold run_poly, run_poly_from in *. destruct (S j =? length c)%nat eqn:E; [|exact H].
    apply Nat.eqb_eq in E. replace (length c - 1)%nat with j in Hl by lia. rewrite El in Hl. injection Hl as <-. exact H.
  Qed.

  Lemma first_claims sps x y cl cr x' y' (c : list (Layer F)) m k a j :
    collision_at ch (MkProof sps (x :: cl) (y :: cr)) c m k a j -> collision_at ch (MkProof sps (x' :: cl) (y' :: cr)) c m k a j.
  Proof.
    intros (l & El & H). exists l. split; [exact El|]. cbv zeta in *. destruct H as [H|[H1 H2]]; [left; exact H|right].
    destruct j as [|j]; [inversion H1|]. split; [exact H1|exact H2].
  Qed.

  Lemma one_more (x : F) : x + 1 <> x.
  Proof.
    intros H. apply (F_1_neq_0 (f_theory F)). replace (fone : F) with (x + 1 - x) by ring. rewrite H. ring.
  Qed.

  (** The polynomial 2 - 2 t with any number of zeros after it. *)
  Definition padded (z : nat) : list F := [1 + 1; - (1 + 1)] ++ repeat 0 z.

  Lemma padded_eval z (t : F) : peval (padded z) t = (1 + 1) * (1 - t).
  Proof. unfold padded. cbn [app]. rewrite !peval_cons, peval_zeros. ring. Qed.

  Lemma padded_sum (t : F) : cube_sum (combinator 0 0 [AddGate] [[1]] [1; 0] [1; 1] [1; 1]) 0 [t] = (1 + 1) * (1 - t).
  Proof. unfold cube_sum, combinator. cbn. ring. Qed.

  Lemma padded_accepted z : let p := padded z in
    Verify ch (1 + 1) [p] 1 0 = Some (Accept [ch p] [] [] (combinator 0 0 [AddGate] [[1]] [1; 0] [1; 1] [1; 1] [ch p])) /\
    ~ sumcheck_collision ch (combinator 0 0 [AddGate] [[1]] [1; 0] [1; 1] [1; 1]) 1 [p].
  Proof.
    cbv zeta. split.
    - apply Verify_accept. split; [|repeat split]. cbn [answers]. split; [discriminate|]. rewrite !padded_eval. split; [ring|].
      unfold combinator. cbn. ring.
    - intros (i & c & Hi & Hc & (t & Ht) & _). destruct i as [|i]; [|lia]. injection Hc as <-. apply Ht. cbn [Nat.sub firstn map app].
      rewrite padded_eval, padded_sum. reflexivity.
  Qed.
End L.

Lemma honest_no_collision (ch : list Fr -> Fr) nCore mtProve c b m k inputs a pf :
  (0 < nCore)%nat -> follows_machine ch nCore mtProve ->
  (forall l, In l c -> layer_ok l) -> fits b c -> chunked k m b inputs -> assignment_of c (2 ^ m) inputs a ->
  GkrProve ch mtProve c a nCore = Some pf -> forall j, ~ collision_at ch pf c m k a j.
Proof.
  intros H1 H2 Hl Hf Hin Ha E j Hc.
  destruct (nth_error c (length c - 1)) as [llast|] eqn:Hlast.
  2: { apply nth_error_None in Hlast. destruct Hc as (l & El & _). assert (j < length c)%nat by (apply nth_error_Some; congruence). lia. }
  destruct (honest_right ch nCore mtProve c b m k inputs a llast H1 H2 Hl Hf Hin Ha Hlast) as (pf' & E' & HR).
  rewrite E in E'. apply some_inj in E'. subst pf'. pose proof Hc as (l & El & _).
  assert (Hj : (j < length c)%nat) by (apply nth_error_Some; congruence).
  exact (right_no_collision ch pf c m k a _ _ j (HR j Hj) (collision_from_at ch c m k a pf llast j Hlast Hc)).
Qed.
