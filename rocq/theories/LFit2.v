(** EvalMixed and the native function on a table of six entries (lemma for PFit.v). *)
From Coq Require Import List Arith ZArith Lia Bool.
From Verif Require Import Field Go Spec SpecDomain MPoly LDomain FrPrime Fr MSnark SpecSnark LPoly3 LFit.
Import ListNotations.

Lemma mixed_differs : exists (cs : CS Fr) t qL vL vR cs' w,
  cs_ok cs /\ vars cs (t ++ qL) /\ length t = 6 /\ SEvalMixed t qL qL [] cs = Some ((vL, vR), cs') /\ gates_ok w cs' /\
  EvaluateLeftAndRight (map w t) [] (map w qL) (map w qL) <> Some (w vL, w vR).
Proof.
  set (cs := MkCS (F:=Fr) 9 [] []).
  assert (HO : cs_ok cs) by (split; [cbn; lia|split; constructor]).
  assert (HV : forall l, Forall (fun v => v < 9) l -> vars cs l) by (intros l Hl v Hv; rewrite Forall_forall in Hl; exact (Hl v Hv)).
  assert (V1 : vars cs [1;2;3;4;5;6]) by (apply HV; repeat constructor).
  assert (V2 : vars cs [7;8]) by (apply HV; repeat constructor).
  destruct (SEvalMixed_exact cs [1;2;3;4;5;6] [7;8] [7;8] [] HO V1 V2 V2) as [[[H|H] _]|(_ & _ & vL & vR & cs' & E & HC & _ & HW)];
    [intros v []|cbn in H; lia|cbn in H; lia|].
  destruct HC as (_ & (_ & _ & _ & HX & _) & _).
  destruct (HX (fun v => nth v (map mkfr [1;1;2;3;4;5;6;1;0]%Z) (mkfr 0) : Fr)) as (w & Hag & Hg); [split; [apply fr_eq; vm_compute; reflexivity|constructor]|].
  exists cs, [1;2;3;4;5;6], [7;8], vL, vR, cs', w. split; [exact HO|]. split; [apply HV; repeat constructor|]. split; [reflexivity|].
  split; [exact E|]. split; [exact Hg|].
  assert (Et : map w [1;2;3;4;5;6] = map mkfr [1;2;3;4;5;6]%Z) by (cbn [map]; rewrite <- !Hag by (cbn; lia); reflexivity).
  assert (Eq : map w [7;8] = map mkfr [1;0]%Z) by (cbn [map]; rewrite <- !Hag by (cbn; lia); reflexivity).
  destruct (HW w Hg) as [HL _]. change (length [1; 2; 3; 4; 5; 6] / 2 ^ length [7; 8]) with 1 in HL. change (2 ^ length [7; 8]) with 4 in HL.
  rewrite Et, Eq, EvaluateLeftAndRight_exact. cbn [map seq Nat.mul Nat.add skipn firstn] in HL.
  injection Et as T1 T2 T3 T4 T5 T6. injection Eq as Q1 Q2. cbn [map] in HL. rewrite T1, T2, T3, T4, Q1, Q2 in HL.
  intros H. apply (f_equal (fun o => match o with Some (a, _) => frval a | None => 0%Z end)) in H. cbv beta iota in H. rewrite HL in H.
  vm_compute in H. discriminate.
Qed.
