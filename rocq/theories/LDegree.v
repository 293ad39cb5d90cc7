(** The declared degrees of the gates are the least ones. *)
From Coq Require Import List Arith Lia Bool Ring Field.
From Verif Require Import Field Go Spec LSpec LPoly2 MCircuit SpecCircuit LCircuit.
Import ListNotations.

Section L.
  Context {F : Field}.
  Add Field FfieldDegree : (f_theory F).
  Open Scope F_scope.

  Lemma power_degree d n : distinct_upto (F:=F) (S d) -> poly_deg_le n (fun t : F => fpow t d) -> (d <= n)%nat.
  Proof.
    intros Hd (c & Lc & Hc). destruct (Nat.le_gt_cases d n) as [H|H]; [exact H|exfalso].
    set (q := repeat (0 : F) d ++ [1]). assert (Lq : length q = S d) by (unfold q; rewrite app_length, repeat_length; cbn; lia).
    assert (Hq : forall x, peval q x = fpow x d).
    { intros x. unfold peval. rewrite Lq. rewrite sumn_S. unfold q. rewrite app_nth2, repeat_length, Nat.sub_diag by (rewrite repeat_length; lia).
      cbn [nth]. rewrite sumn_zero. 2: { intros i Hi. rewrite app_nth1, nth_repeat by (rewrite repeat_length; exact Hi). ring. }
      ring. }
    assert (Hx : NoDup (map (fun i => fnat (F:=F) i) (seq 0 (S d)))).
    { apply NoDup_nth with (d := 0). rewrite map_length, seq_length. intros i j Hi Hj. rewrite !nth_map_seq by assumption. apply Hd; assumption. }
    pose proof (poly_roots_coeffs _ (psub (S d) q c) Hx) as HR.
    unfold psub in HR at 1. rewrite !map_length, !seq_length in HR.
    specialize (HR (le_n _)). assert (HZ : forall i, nth i (psub (S d) q c) 0 = 0).
    { apply HR. intros x _. rewrite peval_psub by lia. rewrite Hq, <- Hc. ring. }
    specialize (HZ d). unfold psub in HZ. rewrite nth_map_seq in HZ by lia. unfold q in HZ.
    rewrite app_nth2, repeat_length, Nat.sub_diag in HZ by (rewrite repeat_length; lia). rewrite (nth_overflow c) in HZ by lia. cbn [nth] in HZ.
    apply (f_1_neq_0 (F:=F)). rewrite <- HZ. ring.
  Qed.

  Ltac by_power d Hd H := apply (power_degree d); [apply (distinct_upto_le 8); [lia|exact Hd]|]; eapply pdl_ext; [|exact H]; intros t; cbn [fpow].

  Theorem library_degs_least (g : Gate F) : distinct_upto (F:=F) 8 -> library_gate g -> degs_least g.
  Proof.
    intros Hd [| | |ark] n; split; [| split | | split | | split | | split]; intros H;
      unfold degHL, degHR, degHPrime; cbn [gdegs AddGate MulGate CopyGate CipherGate fst snd]; try lia.
    - by_power 1%nat Hd (H 0 1 0). cbn. ring.
    - by_power 1%nat Hd (H 0 0 1). cbn. ring.
    - by_power 1%nat Hd (H 0 1 0 0). cbn. ring.
    - by_power 1%nat Hd (H 0 1 1). cbn. ring.
    - by_power 1%nat Hd (H 1 0 1). cbn. ring.
    - by_power 2%nat Hd (H 0 1 0 1). cbn. ring.
    - by_power 1%nat Hd (H 0 1 0). cbn. ring.
    - by_power 1%nat Hd (H 0 1 0 0). cbn. ring.
    - by_power 1%nat Hd (H 0 1 (- ark)). rewrite cipher_eval. cbn [fpow]. ring.
    - by_power 7%nat Hd (H 0 (- ark) 1). rewrite cipher_eval. cbn [fpow]. ring.
    - by_power 7%nat Hd (H 0 0 (- ark) 1). rewrite cipher_eval. cbn [fpow]. ring.
  Qed.
End L.
