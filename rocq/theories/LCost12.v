(** What the evaluation of a circuit costs (lemmas for PCost4.v). *)
From Coq Require Import List Arith ZArith Lia Bool.
From Verif Require Import Field Fr Go MCommon LCommon MPoly LPoly MCircuit SpecCircuit LCircuit3 MSumcheck MGkr SpecGkr MHash MArk MCost SpecCost MCost4 SpecCost4 LCost LCost2 LCost5 LHash3 LCost7 LCost9 LCost10.
Import ListNotations.

Lemma er_fold_in {A S} (f : S -> A -> W S) g : forall l s, (forall s a, In a l -> erase (f s a) = g s a) -> erase (foldW f l s) = foldM g l s.
Proof.
  induction l as [|a l IH]; intros s H; [reflexivity|]. cbn [foldW foldM]. rewrite er_bind, (H s a (or_introl eq_refl)).
  destruct (g s a) as [s'|]; [|reflexivity]. apply IH. intros s0 b Hb. apply H. right. exact Hb.
Qed.

Section S.
  Context {F : Field}.
  Variable counting : Gate F -> WGate F.
  Variable price : Gate F -> Price.
  Open Scope F_scope.

  Lemma er_eval_chunk (l : Layer F) inps : priced_wires counting price [l] -> erase (Weval_chunk counting l inps) = eval_chunk l inps.
  Proof.
    intros H. unfold Weval_chunk, eval_chunk. cbv zeta. apply er_fold_in. intros s w Hw. destruct (H l w (or_introl eq_refl) Hw) as [Hb [HE _]].
    er1. er1. er1. rewrite HE, Hb. rewrite er_bind. cbn [erase]. er1. apply er_last.
  Qed.

  Lemma er_Assign (c : list (Layer F)) inputs : priced_wires counting price c -> erase (WAssign counting c inputs) = Assign c inputs.
  Proof.
    intros H. unfold WAssign, Assign. cbv zeta. er1. apply er_fold_in. intros s [i l] Hin. cbn [fst snd]. er1. apply er_bind'.
    - unfold WLayerEvaluate, LayerEvaluate. er1. apply er_eval_chunk. intros l' w [<-|[]] Hw. apply (H l w); [exact (in_combine_r _ _ _ _ Hin)|exact Hw].
    - intros nxt. apply er_last.
  Qed.

  Lemma c_eval_chunk (l : Layer F) inps N : priced_wires counting price [l] -> length inps = (2 ^ lBGInputs l * N)%nat ->
    costs (Weval_chunk counting l inps) (fun t => length t = (2 ^ lBGOutputs l * N)%nat) (N * list_sum (map (fun w => cEval (price (wGate w))) (Wires l)))%nat.
  Proof.
    intros H HL. unfold Weval_chunk. cbv zeta. rewrite HL, Nat.mul_comm, Nat.div_mul by (apply Nat.pow_nonzero; lia).
    apply (c_weak _ (fun t => length t = (2 ^ lBGOutputs l * N)%nat) _ (list_sum (map (fun w => N * cEval (price (wGate w)))%nat (Wires l)))).
    - apply c_fold; [|rewrite repeat_length; apply Nat.mul_comm]. intros s w Hw Hs. destruct (H l w (or_introl eq_refl) Hw) as [_ [HE _]].
      apply c_for_const; [|exact Hs]. intros t h _ Ht. c1. c1. apply (c_weak _ (fun t => length t = (2 ^ lBGOutputs l * N)%nat) _ (cEval (price (wGate w)) + 0)%nat); [|lia|auto].
      apply (c_bind _ _ (fun _ => True)); [intros x k E1; rewrite HE in E1; injection E1 as <- <-; split; [exact I|reflexivity]|].
      intros x _. c1. c1. apply c_ret. rewrite (set_len _ _ _ _ E2). exact Ht.
    - induction (Wires l) as [|w ws IH]; cbn [map list_sum fold_right]; [lia|]. unfold list_sum in IH. rewrite IH. lia.
    - auto.
  Qed.

  Lemma c_LayerEvaluate (l : Layer F) m k t : priced_wires counting price [l] -> chunked k m (lBGInputs l) t ->
    costs (WLayerEvaluate counting l t) (chunked k m (lBGOutputs l)) (2 ^ (m + k) * list_sum (map (fun w => cEval (price (wGate w))) (Wires l)))%nat.
  Proof.
    intros H [H1 H2]. unfold WLayerEvaluate. set (P := list_sum (map (fun w => cEval (price (wGate w))) (Wires l))).
    apply (c_weak _ (Forall2 (fun (_ : list F) u => length u = (2 ^ lBGOutputs l * 2 ^ m)%nat) t) _ (list_sum (map (fun _ : list F => 2 ^ m * P) t)%nat)).
    - apply c_map. intros x Hx. apply c_eval_chunk; [exact H|apply H2; exact Hx].
    - rewrite list_sum_const, H1, Nat.pow_add_r. lia.
    - intros u HF. split; [rewrite <- H1; clear - HF; induction HF; cbn; congruence|].
      clear - HF. induction HF as [|x y lx ly Hxy _ IH]; intros v Hv; [destruct Hv|]. destruct Hv as [<-|Hv]; [exact Hxy|apply IH; exact Hv].
  Qed.

  Lemma c_layers m k : forall (c : list (Layer F)) a b s, priced_wires counting price c -> fits b c -> (forall t, get s a = Some t -> chunked k m b t) ->
    costs (foldW (fun assignment il =>
      cur <- get assignment (fst il) ;;
      nxt <~ WLayerEvaluate counting (snd il) cur ;;
      assignment <- set assignment (fst il + 1) nxt ;;
      ret assignment) (combine (seq a (length c)) c) s) (fun _ => True) (2 ^ (m + k) * wires_price price c)%nat.
  Proof.
    induction c as [|l c IH]; intros a b s HP HF HS; cbn [length seq combine foldW].
    - apply (c_weak _ (fun _ => True) _ 0%nat); [apply c_ret; exact I|unfold wires_price; cbn; lia|auto].
    - destruct HF as [Hb HF]. unfold wires_price. cbn [map list_sum fold_right]. rewrite Nat.mul_add_distr_l.
      apply (c_bind _ _ (fun s' => forall t, get s' (S a) = Some t -> chunked k m (lBGOutputs l) t)).
      + cbn [fst snd]. c1. specialize (HS _ E). rewrite <- Hb in HS.
        match goal with |- costs _ _ ?q => apply (c_weak _ (fun s' => forall t, get s' (S a) = Some t -> chunked k m (lBGOutputs l) t) _ (q + 0)%nat); [|lia|auto] end.
        apply (c_bind _ _ (chunked k m (lBGOutputs l))).
        * apply c_LayerEvaluate; [|exact HS]. intros l' w [<-|[]] Hw. apply (HP l w); [left; reflexivity|exact Hw].
        * intros nxt Hn. c1. apply c_ret. intros t Ht. rewrite Nat.add_1_r in E0. unfold set in E0. destruct (Nat.ltb_spec (S a) (length s)) as [Hlt|]; [|discriminate E0].
          apply some_eq in E0. subst a1. rewrite (get_nth _ (S a) []) in Ht by (rewrite upd_length; exact Hlt). rewrite nth_upd_same in Ht by exact Hlt. apply some_eq in Ht. subst t. exact Hn.
      + intros s' Hs'. apply (IH (S a) (lBGOutputs l)); [|exact HF|exact Hs']. intros l' w Hl Hw. apply (HP l' w); [right; exact Hl|exact Hw].
  Qed.

  Lemma assign_count (c : list (Layer F)) b m k inputs a : priced_wires counting price c -> fits b c -> chunked k m b inputs ->
    Assign c inputs = Some a -> WAssign counting c inputs = Some (a, 2 ^ (m + k) * wires_price price c)%nat.
  Proof.
    intros HP HF HI. apply (of_costs _ (fun _ => True)); [|apply er_Assign; exact HP]. unfold WAssign. cbv zeta. c1.
    apply (c_layers m k c 0 b); [exact HP|exact HF|]. intros t Ht. unfold set in E. destruct (Nat.ltb_spec 0 (length (repeat (@nil (list F)) (length c + 1)))) as [Hlt|]; [|discriminate E].
    apply some_eq in E. subst a0. rewrite (get_nth _ 0 []) in Ht by (rewrite upd_length; exact Hlt). rewrite nth_upd_same in Ht by exact Hlt. apply some_eq in Ht. subst t. exact HI.
  Qed.

  Lemma std_wires (c : list (Layer F)) :
    (forall l w, In l c -> In w (Wires l) -> wGate w = AddGate \/ wGate w = MulGate \/ wGate w = CopyGate \/ exists ark, wGate w = CipherGate ark) ->
    priced_wires std_counting std_price c.
  Proof.
    intros H l w Hl Hw. destruct (H l w Hl Hw) as [->|[->|[->|[ark ->]]]]; (split; [reflexivity|]); [apply priced_add|apply priced_mul|apply priced_copy|apply priced_cipher].
  Qed.
End S.

Section M.
  Context {F : Field}.

  Lemma mimc_wires (arks : list F) c : 91 <= length arks -> CreateMimcCircuit arks = Some c ->
    priced_wires std_counting std_price c /\ wires_price std_price c = 364.
  Proof.
    intros HA E. rewrite CreateMimcCircuit_ok in E by exact HA. apply some_eq in E. subst c. split.
    - intros l w Hl Hw. destruct (mimc_layer_cases _ _ l Hl) as [[a ->]| ->].
      + destruct Hw as [<-|[<-|[]]]; (split; [reflexivity|]); [apply priced_cipher|apply priced_copy].
      + destruct Hw as [<-|[]]. split; [reflexivity|apply priced_cipher].
    - unfold wires_price, mimc_layers. rewrite map_app, list_sum_app, map_map. 
      match goal with |- list_sum (map ?f _) + _ = _ => change f with (fun _ : F => 4) end. rewrite list_sum_const, firstn_length_le by lia. reflexivity.
  Qed.

  Lemma mimc_assign (arks : list F) c m k inputs : 91 <= length arks -> CreateMimcCircuit arks = Some c -> chunked k m 1 inputs ->
    exists a, Assign c inputs = Some a /\ WAssign std_counting c inputs = Some (a, 2 ^ (m + k) * 364).
  Proof.
    intros HA E HI. destruct (mimc_wires arks c HA E) as [HP HW]. pose proof E as E'. rewrite CreateMimcCircuit_ok in E' by exact HA. apply some_eq in E'.
    destruct (assign_ok c 1 (2 ^ m) inputs) as (a & Ea & _).
    { intros l Hl. subst c. apply (mimc_layer_ok _ _ l Hl). } { subst c. apply mimc_fits. } { subst c. apply mimc_right. } { apply HI. }
    exists a. split; [exact Ea|]. rewrite <- HW. apply (assign_count std_counting std_price c 1 m k); [exact HP|subst c; apply mimc_fits|exact HI|exact Ea].
  Qed.
End M.
