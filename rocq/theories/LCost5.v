(** The statements of PCost.v in terms of the model without counts. *)
From Coq Require Import List Arith ZArith Lia Bool.
From Verif Require Import Field Go MCommon LCommon Spec MPoly LPoly MCircuit SpecCircuit MSumcheck MGkr MCost SpecCost LCost LCost2 LCost3 LCost4.
Import ListNotations.

Section S.
  Context {F : Field}.

  Lemma erased {A} (m : W A) a : erase m = Some a -> exists c, m = Some (a, c).
  Proof. destruct m as [[b c]|]; [|discriminate]. cbn. intros [= ->]. exists c. reflexivity. Qed.

  Lemma all_priced (gs : list (WGate F)) cs : Forall2 priced gs cs -> forall g, In g gs -> exists c, priced g c.
  Proof. induction 1 as [|a b la lb Hab _ IH]; intros g Hin; [destruct Hin|]. destruct Hin as [<-|Hin]; [exists b; exact Hab|apply IH; exact Hin]. Qed.

  Lemma prove_values gs cs (ch : list F -> F) (p : Prover F) : Forall2 priced gs cs -> sGates p = map wbase gs -> erase (WProve gs ch p) = Prove ch p.
  Proof.
    intros HP Hg. assert (H := all_priced gs cs HP).
    apply er_Prove; [| | |exact Hg]; intros g Hin; destruct (H g Hin) as (c & P1 & P2 & P3 & _); [exact P2|exact P3|intros x y; rewrite P1; reflexivity].
  Qed.

  Lemma left_exact gs cs (p : Prover F) n g a : Forall2 priced gs cs -> sGates p = map wbase gs -> 0 < n -> 0 < g ->
    length (sEq p) = n -> length (sVR p) = g * n -> length (sStatic p) = length gs -> (forall t, In t (sStatic p) -> length t = 2 * (a * g)) ->
    forall ev, GetEvalsOnHL p = Some ev -> WGetEvalsOnHL gs p = Some (ev, round_left (dHL p + 1) n (a * g) (map live (sStatic p)) cs).
  Proof.
    intros HP Hg Hn Hgg He Hr Hs Ht ev E. assert (H := all_priced gs cs HP).
    rewrite <- (er_HL gs) in E; [|intros g' Hin; destruct (H g' Hin) as (c & P1 & P2 & P3 & _); exact P2|exact Hg].
    destruct (erased _ _ E) as [c Ec]. rewrite Ec. destruct (c_HL gs cs HP p n g a Hn Hgg He Hr Hs Ht _ _ Ec) as [_ ->]. reflexivity.
  Qed.

  Lemma right_exact gs cs (p : Prover F) n a : Forall2 priced gs cs -> sGates p = map wbase gs -> 0 < n ->
    length (sEq p) = n -> length (sVR p) = 2 * a * n -> length (sStatic p) = length gs -> (forall t, In t (sStatic p) -> length t = 2 * a) ->
    forall ev, GetEvalsOnHR p = Some ev -> WGetEvalsOnHR gs p = Some (ev, round_right (dHR p + 1) n a (map live (sStatic p)) cs).
  Proof.
    intros HP Hg Hn He Hr Hs Ht ev E. assert (H := all_priced gs cs HP).
    rewrite <- (er_HR gs) in E; [|intros g' Hin; destruct (H g' Hin) as (c & P1 & P2 & P3 & _); exact P3|exact Hg].
    destruct (erased _ _ E) as [c Ec]. rewrite Ec. destruct (c_HR gs cs HP p n a Hn He Hr Hs Ht _ _ Ec) as [_ ->]. reflexivity.
  Qed.

  Lemma prime_exact gs cs (p : Prover F) : Forall2 priced gs cs -> sGates p = map wbase gs -> length (sStatic p) = length gs ->
    forall ev, GetEvalsOnHPrime p = Some ev -> WGetEvalsOnHPrime gs p = Some (ev, round_prime (dHPrime p + 1) (length (sEq p) / 2) cs).
  Proof.
    intros HP Hg Hs ev E. assert (H := all_priced gs cs HP).
    rewrite <- (er_HPrime gs) in E; [|intros g' Hin; destruct (H g' Hin) as (c & P1 & P2 & P3 & _); intros x y; rewrite P1; reflexivity|exact Hg].
    destruct (erased _ _ E) as [c Ec]. rewrite Ec. destruct (c_HPrime gs cs HP p Hs _ _ Ec) as [_ ->]. reflexivity.
  Qed.

  Lemma fold_exact (t : list F) r t' : Fold t r = Some t' -> WFold t r = Some (t', length t / 2).
  Proof.
    intros E. rewrite <- er_Fold in E. destruct (erased _ _ E) as [c Ec]. rewrite Ec. destruct (c_Fold t r _ _ Ec) as [_ ->]. reflexivity.
  Qed.

  Lemma interpolate_exact (v : list F) co : InterpolateOnRange v = Some co -> WInterpolateOnRange v = Some (co, length v * length v).
  Proof.
    intros E. rewrite <- er_InterpolateOnRange in E. destruct (erased _ _ E) as [c Ec]. rewrite Ec. destruct (c_Interp v _ _ Ec) as [_ ->]. reflexivity.
  Qed.

  Lemma prove_work gs cs (ch : list F -> F) (p : Prover F) bG bN out : Forall2 priced gs cs -> sGates p = map wbase gs ->
    length (sEq p) = 2 ^ bN -> length (sVL p) = 2 ^ bG * 2 ^ bN -> length (sVR p) = 2 ^ bG * 2 ^ bN ->
    length (sStatic p) = length gs -> (forall t, In t (sStatic p) -> length t = 2 ^ bG * 2 ^ bG) ->
    Prove ch p = Some out -> exists c, WProve gs ch p = Some (out, c) /\
      c <= work_left (dHL p + 1) bG bN (map support (sStatic p)) cs + work_right (dHR p + 1) bG bN (map support (sStatic p)) cs + work_prime (dHPrime p + 1) bN cs.
  Proof.
    intros HP Hg He Hl Hr Hs Ht E. rewrite <- (prove_values gs cs ch p HP Hg) in E. destruct (erased _ _ E) as [c Ec]. exists c. split; [exact Ec|].
    exact (proj2 (a_Prove gs cs ch p bG bN HP He Hl Hr Hs Ht _ _ Ec)).
  Qed.

  Lemma layer_cost gs cs (ch : list F -> F) (l : Layer F) q tabs vL vR eq bN out : map wbase gs = lGates l -> Forall2 priced gs cs ->
    wf_layer l -> length q = lBGOutputs l -> GetStaticTable l q = Some tabs ->
    length eq = 2 ^ bN -> length vL = 2 ^ (lBGInputs l + bN) -> length vR = 2 ^ (lBGInputs l + bN) ->
    Prove ch (NewSingleThreadedProver vL vR eq (lGates l) tabs) = Some out ->
    exists c, WProve gs ch (NewSingleThreadedProver vL vR eq (lGates l) tabs) = Some (out, c) /\ c <= layer_work l bN cs.
  Proof.
    intros Hg HP Hwf Hq Et He Hl Hr E. rewrite <- (prove_values gs cs) in E; [|exact HP|].
    - destruct (erased _ _ E) as [c Ec]. exists c. split; [exact Ec|]. refine (a_layer gs cs ch l vL vR eq tabs bN out c Hg HP He Hl Hr _ Ec). exact (static_sparse l q tabs Hwf Hq Et).
    - destruct (degrees_max vL vR eq (lGates l) tabs) as (_ & _ & _ & _ & _ & _ & V & _). rewrite V, Hg. reflexivity.
  Qed.

  Lemma layer_cost2 gs cs (ch : list F -> F) (l : Layer F) qL qR sL sR a0 a1 tabs vL vR eq bN out : map wbase gs = lGates l -> Forall2 priced gs cs ->
    wf_layer l -> length qL = lBGOutputs l -> length qR = lBGOutputs l -> GetStaticTable l qL = Some sL -> GetStaticTable l qR = Some sR ->
    combineStatics sL sR a0 a1 = Some tabs ->
    length eq = 2 ^ bN -> length vL = 2 ^ (lBGInputs l + bN) -> length vR = 2 ^ (lBGInputs l + bN) ->
    Prove ch (NewSingleThreadedProver vL vR eq (lGates l) tabs) = Some out ->
    exists c, WProve gs ch (NewSingleThreadedProver vL vR eq (lGates l) tabs) = Some (out, c) /\ c <= layer_work l bN cs.
  Proof.
    intros Hg HP Hwf HqL HqR EL ER Et He Hl Hr E. rewrite <- (prove_values gs cs) in E; [|exact HP|].
    - destruct (erased _ _ E) as [c Ec]. exists c. split; [exact Ec|]. refine (a_layer gs cs ch l vL vR eq tabs bN out c Hg HP He Hl Hr _ Ec).
      exact (combined_sparse l sL sR a0 a1 tabs (static_sparse l qL sL Hwf HqL EL) (static_sparse l qR sR Hwf HqR ER) Et).
    - destruct (degrees_max vL vR eq (lGates l) tabs) as (_ & _ & _ & _ & _ & _ & V & _). rewrite V, Hg. reflexivity.
  Qed.

  Lemma verify_work (ch : list F -> F) claim proof bN bG x : Verify ch claim proof bN bG = Some x ->
    exists c, WVerify ch claim proof bN bG = Some (x, c) /\ c <= list_sum (map (fun p => 3 * (length p - 1)) proof) /\
      (x <> Reject -> c = list_sum (map (fun p => 3 * (length p - 1)) proof)).
  Proof.
    intros E. rewrite <- er_Verify in E. destruct (erased _ _ E) as [c Ec]. exists c. split; [exact Ec|]. exact (c_Verify ch claim proof bN bG x c Ec).
  Qed.

  (* ---------------------------------------------------------------- MiMC *)
  Lemma pow_pos n : 1 <= 2 ^ n.
  Proof. induction n; cbn; lia. Qed.

  Lemma mimc_mid (ark : F) bN : let l := NewLayer [MkWire 1 0 0 (CipherGate ark); MkWire 1 0 1 CopyGate] in
    map wbase [WCipherGate ark; WCopyGate] = lGates l /\ Forall2 priced [WCipherGate ark; WCopyGate] [CipherPrice; CopyPrice] /\
    lBGInputs l = 1 /\ layer_work l bN [CipherPrice; CopyPrice] = 123 * 2 ^ bN + 99 * bN + 69.
  Proof.
    cbv zeta. split; [reflexivity|]. split; [constructor; [apply priced_cipher|constructor; [apply priced_copy|constructor]]|]. split; [reflexivity|].
    set (l := NewLayer _). assert (W1 : map (wires_of l) (lGates l) = [1; 1]).
    { cbn. unfold wires_of. cbn. assert (E : (ark =? ark)%F = true) by (destruct (feqb_spec F ark ark); [reflexivity|contradiction]). rewrite E. reflexivity. }
    unfold layer_work. rewrite W1. change (list_max (map degHL (lGates l))) with 1. change (list_max (map degHR (lGates l))) with 7. change (list_max (map degHPrime (lGates l))) with 7.
    change (lBGInputs l) with 1. clearbody l. unfold work_left, work_right, work_prime. pose proof (pow_pos bN). unfold over. cbn [combine map list_sum fold_right fst snd cEval cVL cVR CipherPrice CopyPrice length].
    change (2 ^ 1) with 2. lia.
  Qed.

  Lemma mimc_last (ark : F) bN : let l := NewLayer [MkWire 1 0 0 (CipherGate ark)] in
    map wbase [WCipherGate ark] = lGates l /\ Forall2 priced [WCipherGate ark] [CipherPrice] /\
    lBGInputs l = 1 /\ layer_work l bN [CipherPrice] = 102 * 2 ^ bN + 90 * bN + 60.
  Proof.
    cbv zeta. split; [reflexivity|]. split; [constructor; [apply priced_cipher|constructor]|]. split; [reflexivity|].
    set (l := NewLayer _). assert (W1 : map (wires_of l) (lGates l) = [1]).
    { cbn. unfold wires_of. cbn. assert (E : (ark =? ark)%F = true) by (destruct (feqb_spec F ark ark); [reflexivity|contradiction]). rewrite E. reflexivity. }
    unfold layer_work. rewrite W1. change (list_max (map degHL (lGates l))) with 1. change (list_max (map degHR (lGates l))) with 7. change (list_max (map degHPrime (lGates l))) with 7.
    change (lBGInputs l) with 1. clearbody l. unfold work_left, work_right, work_prime. pose proof (pow_pos bN). unfold over. cbn [combine map list_sum fold_right fst snd cEval cVL cVR CipherPrice length].
    change (2 ^ 1) with 2. lia.
  Qed.
End S.
