(** Lemmas about assignments. *)
From Coq Require Import List Arith ZArith Lia Bool Ring Field.
From Verif Require Import Field Go MCommon Spec MPoly LSpec LPoly LPoly3 LHeap MCircuit SpecCircuit LCircuit LCircuit2.
Import ListNotations.

Section Circ3.
  Context {F : Field}.
  Add Field FfieldLCirc3 : (f_theory F).
  Open Scope F_scope.

  Fixpoint assign_rec (c : list (Layer F)) (x : list (list F)) : option (list (list (list F))) :=
    match c with
    | [] => Some [x]
    | l :: c' => y <- LayerEvaluate l x ;; r <- assign_rec c' y ;; Some (x :: r)
    end.

  Lemma Assign_rec (c : list (Layer F)) x : Assign c x = assign_rec c x.
  Proof.
    unfold Assign. rewrite Nat.add_1_r. rewrite set_some by (simpl; lia). cbn [repeat upd].
    assert (H : forall c pre x, foldM (fun (assignment : list (list (list F))) (il : nat * Layer F) =>
        cur <- get assignment (fst il) ;;
        nxt <- LayerEvaluate (snd il) cur ;;
        set assignment (fst il + 1) nxt) (combine (seq (length pre) (length c)) c)
        (pre ++ x :: repeat [] (length c))
      = (r <- assign_rec c x ;; Some (pre ++ r))).
    { clear. induction c as [|l c IH]; intros pre x; [reflexivity|].
      cbn [length seq combine foldM assign_rec fst snd repeat].
      unfold get at 1. rewrite nth_error_app2, Nat.sub_diag by lia. cbn [nth_error].
      destruct (LayerEvaluate l x) as [y|]; [|reflexivity].
      rewrite set_some by (rewrite app_length; simpl; lia).
      replace (upd (pre ++ x :: [] :: repeat [] (length c)) (length pre + 1) y)
        with ((pre ++ [x]) ++ y :: repeat [] (length c)).
      2:{ change (x :: [] :: repeat [] (length c)) with ([x] ++ [] :: repeat [] (length c)).
          rewrite app_assoc. replace (length pre + 1)%nat with (length (pre ++ [x])) by (rewrite app_length; reflexivity).
          rewrite LForkJoin.upd_app_mid. reflexivity. }
      specialize (IH (pre ++ [x]) y). rewrite app_length in IH. cbn [length] in IH.
      rewrite Nat.add_1_r in IH. rewrite IH.
      destruct (assign_rec c y); [|reflexivity]. rewrite <- app_assoc. reflexivity. }
    specialize (H c [] x). cbn [app length] in H. rewrite H.
    destruct (assign_rec c x); reflexivity.
  Qed.

  Lemma assign_ok : forall (c : list (Layer F)) b N inputs,
    (forall l, In l c -> wf_layer l) -> fits b c -> right_ok N c ->
    (forall inp, In inp inputs -> length inp = (2 ^ b * N)%nat) ->
    exists a, Assign c inputs = Some a /\ assignment_of c N inputs a.
  Proof.
    intros c b N inputs Hwf Hf HR HL. rewrite Assign_rec. revert b inputs Hwf Hf HR HL.
    induction c as [|l c IH]; intros b inputs Hwf Hf HR HL.
    - exists [inputs]. split; [reflexivity|]. repeat split; destruct k; discriminate.
    - destruct Hf as [Hb Hf]. cbn [assign_rec].
      destruct (layer_evaluate_ok l N inputs) as (outs & E & HLo & Ho).
      + apply Hwf. left. reflexivity.
      + rewrite Hb. exact HL.
      + destruct HR as [HR|HR]; [left; exact HR|right]. intros w Hw. apply (HR l w); [left; reflexivity|exact Hw].
      + rewrite E. destruct (IH (lBGOutputs l) outs) as (a & Ea & Ha1 & Ha2 & Ha3); auto.
        * intros l' Hl'. apply Hwf. right. exact Hl'.
        * destruct HR as [HR|HR]; [left; exact HR|right]. intros l' w Hl' Hw. apply (HR l' w); [right; exact Hl'|exact Hw].
        * intros inp Hi. apply (In_nth _ _ []) in Hi. destruct Hi as (i & Hi & <-). apply Ho. congruence.
        * rewrite Ea. exists (inputs :: a). split; [reflexivity|]. split; [simpl; lia|]. split; [reflexivity|].
          intros [|k] l' Hl'; cbn [nth_error nth] in *.
          -- injection Hl' as <-. rewrite Ha2. split; [exact HLo|]. exact Ho.
          -- rewrite <- HLo. apply Ha3. exact Hl'.
  Qed.

  Lemma assignment_unique (c : list (Layer F)) N inputs a a' :
    assignment_of c N inputs a -> assignment_of c N inputs a' -> a = a'.
  Proof.
    intros (H1 & H2 & H3) (H4 & H5 & H6). apply (list_ext []); [congruence|].
    intros k. induction k as [|k IH]; intros Hk; [congruence|].
    destruct (nth_error c k) as [l|] eqn:E.
    - destruct (H3 k l E) as [H7 H8]. destruct (H6 k l E) as [H9 H10].
      apply (list_ext []); [congruence|]. intros i Hi. rewrite H7 in Hi.
      eapply layer_table_unique; [apply H8; exact Hi|]. rewrite IH by lia. apply H10. exact Hi.
    - apply nth_error_None in E. lia.
  Qed.

  (** Shape of the intermediate tables. *)
  Lemma assignment_shape (c : list (Layer F)) b N inputs a k :
    fits b c -> (forall inp, In inp inputs -> length inp = (2 ^ b * N)%nat) ->
    assignment_of c N inputs a -> (k <= length c)%nat ->
    length (nth k a []) = length inputs /\
    exists bk, (forall i, (i < length inputs)%nat -> length (nth i (nth k a []) []) = (2 ^ bk * N)%nat) /\
      (forall l, nth_error c k = Some l -> lBGInputs l = bk).
  Proof.
    revert b inputs a k. induction c as [|l c IH]; intros b inputs a k Hf HL Ha Hk.
    - assert (k = 0)%nat by (simpl in Hk; lia). subst. destruct Ha as (H1 & H2 & H3). rewrite H2.
      split; [reflexivity|]. exists b. split; [intros i Hi; apply HL, nth_In; exact Hi|].
      intros l. discriminate.
    - destruct Ha as (H1 & H2 & H3). destruct Hf as [Hb Hf]. destruct k as [|k].
      + rewrite H2. split; [reflexivity|]. exists b.
        split; [intros i Hi; apply HL, nth_In; exact Hi|]. intros l' E. injection E as <-. exact Hb.
      + destruct a as [|a0 a]; [simpl in H1; lia|]. cbn [nth] in H2. subst a0.
        destruct (H3 0%nat l eq_refl) as [H4 H5]. cbn [nth] in H4, H5.
        destruct (IH (lBGOutputs l) (nth 0 a []) a k) as (H6 & bk & H7 & H8).
        * exact Hf.
        * intros inp Hi. apply (In_nth _ _ []) in Hi. destruct Hi as (i & Hi & <-). apply H5. congruence.
        * split; [simpl in H1; lia|]. split; [reflexivity|]. intros j l' Hl'. rewrite H4.
          apply (H3 (S j) l' Hl').
        * simpl in Hk. lia.
        * cbn [nth nth_error]. rewrite H6. split; [exact H4|]. exists bk. split; [|exact H8].
          intros i Hi. apply H7. rewrite H4. exact Hi.
  Qed.

  (** ** Chunking *)
  Lemma chunk_layer_table (l : Layer F) N n s inp out : wf_layer l -> (s < n)%nat ->
    length inp = (2 ^ lBGInputs l * (N * n))%nat ->
    layer_table l (N * n) inp out ->
    layer_table l N (nth s (chunksOf inp n) []) (nth s (chunksOf out n) []).
  Proof.
    intros Hwf Hs HLi [H1 H2]. rewrite !chunksOf_nth by exact Hs.
    assert (Ho : (length out / n = 2 ^ lBGOutputs l * N)%nat).
    { rewrite H1, Nat.mul_assoc. apply Nat.div_mul. lia. }
    assert (Hi : (length inp / n = 2 ^ lBGInputs l * N)%nat).
    { rewrite HLi, Nat.mul_assoc. apply Nat.div_mul. lia. }
    rewrite Ho, Hi. split; [rewrite map_length, seq_length; reflexivity|].
    intros o h Hoo Hh. rewrite nth_map_seq by (apply mul_add_lt; assumption).
    replace (s + (o * N + h) * n)%nat with (o * (N * n) + (h * n + s))%nat by ring.
    rewrite H2; [|assumption|apply mul_add_lt; assumption].
    unfold layer_value. apply suml_ext. intros w Hw. apply filter_In in Hw. destruct Hw as [Hw _].
    destruct (Hwf w Hw) as (W1 & W2 & W3).
    rewrite !nth_map_seq by (apply mul_add_lt; assumption). f_equal; f_equal; ring.
  Qed.

  Lemma assign_chunks (c : list (Layer F)) b N n (inp : list F) :
    (0 < n)%nat -> (forall l, In l c -> wf_layer l) -> fits b c ->
    (forall l w, In l c -> In w (Wires l) -> wR w = 0%nat) ->
    length inp = (2 ^ b * (N * n))%nat ->
    exists a a', Assign c [inp] = Some a /\ Assign c (chunksOf inp n) = Some a' /\
      length a = S (length c) /\ length a' = S (length c) /\
      forall k, (k <= length c)%nat -> exists t, nth k a [] = [t] /\ nth k a' [] = chunksOf t n.
  Proof.
    intros Hn Hwf Hf HR HL.
    destruct (assign_ok c b (N * n) [inp]) as (a & Ea & Ha); auto.
    { right. exact HR. } { intros x [<-|[]]. exact HL. }
    assert (Hcl : forall (t : list F) m, length t = (m * n)%nat -> forall s, (s < n)%nat -> length (nth s (chunksOf t n) []) = m).
    { intros t m Ht s Hs. rewrite chunksOf_nth by exact Hs. rewrite map_length, seq_length, Ht.
      apply Nat.div_mul. lia. }
    destruct (assign_ok c b N (chunksOf inp n)) as (a' & Ea' & Ha'); auto.
    { right. exact HR. }
    { intros x Hx. apply (In_nth _ _ []) in Hx. rewrite chunksOf_length in Hx. destruct Hx as (s & Hs & <-).
      apply Hcl; [|exact Hs]. rewrite HL. ring. }
    exists a, a'. split; [exact Ea|]. split; [exact Ea'|].
    assert (Hsh := fun k => assignment_shape c b (N * n) [inp] a k Hf).
    assert (Hlen : forall x, In x [inp] -> length x = (2 ^ b * (N * n))%nat) by (intros x [<-|[]]; exact HL).
    destruct Ha as (H1 & H2 & H3). split; [exact H1|].
    assert (Htab : forall k, (k <= length c)%nat -> nth k a [] = [nth 0 (nth k a []) []]).
    { intros k Hk. destruct (Hsh k Hlen (conj H1 (conj H2 H3)) Hk) as [H4 _]. cbn [length] in H4.
      destruct (nth k a []) as [|t [|]]; try discriminate. reflexivity. }
    set (aa := map (fun k => chunksOf (nth 0 (nth k a []) []) n) (seq 0 (S (length c)))).
    assert (Haa : assignment_of c N (chunksOf inp n) aa).
    { split; [unfold aa; rewrite map_length, seq_length; reflexivity|]. split.
      - unfold aa. rewrite nth_map_seq by lia. rewrite H2. reflexivity.
      - intros k l Hl. assert (Hk : (k < length c)%nat) by (apply nth_error_Some; congruence).
        unfold aa. rewrite !nth_map_seq by lia. rewrite !chunksOf_length. split; [reflexivity|].
        intros s Hs. destruct (H3 k l Hl) as [_ H5]. specialize (H5 0%nat ltac:(simpl; lia)).
        apply chunk_layer_table; auto.
        + apply Hwf. eapply nth_error_In. exact Hl.
        + destruct (Hsh k Hlen (conj H1 (conj H2 H3)) ltac:(lia)) as [_ (bk & H6 & H7)].
          rewrite (H7 l Hl). apply H6. simpl. lia. }
    rewrite (assignment_unique _ _ _ _ _ Ha' Haa).
    split; [unfold aa; rewrite map_length, seq_length; reflexivity|].
    intros k Hk. exists (nth 0 (nth k a []) []). split; [apply Htab; exact Hk|].
    unfold aa. rewrite nth_map_seq by lia. reflexivity.
  Qed.

  (** ** Property-shaped corollaries *)
  Lemma assign_chunks_prop (c : list (Layer F)) b N n (inp : list F) :
    (0 < n)%nat -> (forall l, In l c -> wf_layer l) -> fits b c ->
    (forall l w, In l c -> In w (Wires l) -> wR w = 0%nat) ->
    length inp = (2 ^ b * (N * n))%nat ->
    exists chunks a a', mapM (fun s => InterleavedChunk inp s n) (seq 0 n) = Some chunks /\
      Assign c [inp] = Some a /\ Assign c chunks = Some a' /\
      length a = S (length c) /\ length a' = S (length c) /\
      forall k, (k <= length c)%nat -> exists t, nth k a [] = [t] /\
        mapM (fun s => InterleavedChunk t s n) (seq 0 n) = Some (nth k a' []).
  Proof.
    intros Hn Hwf Hf HR HL. destruct (assign_chunks c b N n inp Hn Hwf Hf HR HL) as (a & a' & H1 & H2 & H3 & H4 & H5).
    exists (chunksOf inp n), a, a'. rewrite interleaved_chunks_eq by exact Hn.
    split; [reflexivity|]. split; [exact H1|]. split; [exact H2|]. split; [exact H3|]. split; [exact H4|].
    intros k Hk. destruct (H5 k Hk) as (t & Ht & Ht'). exists t. split; [exact Ht|].
    rewrite interleaved_chunks_eq by exact Hn. congruence.
  Qed.

  Lemma layer_panics_never_returns (l : Layer F) (inputs : list (list F)) nCore z :
    LayerEvaluate l inputs = None ->
    Trans.reach (MForkJoin.step (layer_exec l inputs) (per_chunk (length inputs)) nCore false true)
      (MForkJoin.init (per_chunk (length inputs)) nCore false (repeat [] (length inputs))) z ->
    MForkJoin.main z <> MForkJoin.MEnd.
  Proof.
    intros E R.
    assert (H : exists i, (i < length inputs)%nat /\ eval_chunk l (nth i inputs []) = None).
    { clear R. unfold LayerEvaluate in E. induction inputs as [|x xs IH]; [discriminate|].
      cbn [mapM] in E. destruct (eval_chunk l x) eqn:Ex.
      - destruct (mapM (eval_chunk l) xs) eqn:Exs; [discriminate|].
        destruct (IH eq_refl) as (i & Hi & Hn). exists (S i). split; [simpl; lia|exact Hn].
      - exists 0%nat. split; [simpl; lia|exact Ex]. }
    destruct H as (i & Hi & Hn).
    eapply (fj_stuck _ _ _ _ _ i i); [| |exact R].
    - unfold per_chunk. rewrite nth_error_map. rewrite (nth_error_nth' _ 0%nat) by (rewrite seq_length; exact Hi).
      rewrite seq_nth by exact Hi. reflexivity.
    - intros m. unfold layer_exec. rewrite (get_nth inputs i []) by exact Hi. rewrite Hn. reflexivity.
  Qed.
End Circ3.

Section Lib.
  Context {F : Field}.
  Add Field FfieldLCirc4 : (f_theory F).
  Open Scope F_scope.

  Lemma library_gate_ok (g : Gate F) : library_gate g -> gate_ok g.
  Proof. intros [| | |ark]; [apply add_ok|apply mul_ok|apply copy_ok|apply cipher_ok]. Qed.

  Lemma library_gate_short (g : Gate F) (res xs : list F) (y : F) :
    library_gate g -> (length res < length xs)%nat ->
    gmanyVR g res y xs = None /\
    gmanyVL g res xs y = match gid g with IdCopy => Some (firstn (length res) xs) | _ => None end.
  Proof.
    intros [| | |ark] H; cbn [gid AddGate MulGate CopyGate CipherGate].
    - destruct (add_many_short res xs y H); auto.
    - destruct (mul_many_short res xs y H); auto.
    - destruct (copy_many_short res xs y H); auto.
    - destruct (cipher_many_short ark res xs y H); auto.
  Qed.

  Lemma static_table_new (ws : list (Wire F)) (q : list F) : length q = BGOutputs ws ->
    exists tabs, GetStaticTable (NewLayer ws) q = Some tabs /\ length tabs = length (Gates ws) /\
      forall i g, nth_error (Gates ws) i = Some g ->
        exists t, nth_error tabs i = Some t /\ length t = (4 ^ BGInputs ws)%nat /\
          forall a b, (a < 2 ^ BGInputs ws)%nat -> (b < 2 ^ BGInputs ws)%nat ->
            nth (a * 2 ^ BGInputs ws + b) t 0 =
            suml (filter (fun w => id_eqb (gid (wGate w)) (gid g) && (wL w =? a)%nat && (wR w =? b)%nat) ws)
              (fun w => eqprod q (bpoint (to_bits (BGOutputs ws) (wO w)))).
  Proof. exact (static_table_spec (NewLayer ws) q (NewLayer_wf ws)). Qed.

  (** ** Counterexamples *)
  (** rows 0..3, two instances; the wire into row 0 adds rows 0 and 1 *)
  Definition bad_wires : list (Wire F) :=
    [MkWire 0 1 0 AddGate; MkWire 3 0 1 CopyGate].
  Definition bad_input : list F := [0; 0;  0; 0;  1; 1;  0; 0].

  Lemma evaluate_wrong : exists (l : Layer F) (N : nat) (inp out : list F),
    wf_layer l /\ length inp = (2 ^ lBGInputs l * N)%nat /\
    LayerEvaluate l [inp] = Some [out] /\ ~ layer_table l N inp out.
  Proof.
    exists (NewLayer bad_wires), 2%nat, bad_input. eexists.
    split; [apply NewLayer_wf|]. split; [reflexivity|]. split; [reflexivity|].
    intros [_ H]. specialize (H 0%nat 0%nat ltac:(simpl; lia) ltac:(lia)). vm_compute in H.
    change (0 + (0 + 1) = 0 + 0 + 0 :> F) in H. apply (f_1_neq_0 (F:=F)).
    transitivity (0 + (0 + 1) : F); [ring|]. rewrite H. ring.
  Qed.

  Lemma evaluate_panics : exists (l : Layer F) (N : nat) (inp : list F),
    wf_layer l /\ length inp = (2 ^ lBGInputs l * N)%nat /\ LayerEvaluate l [inp] = None.
  Proof.
    exists (NewLayer [MkWire 0 1 0 AddGate]), 2%nat, [1; 1; 1; 1].
    split; [apply NewLayer_wf|]. split; reflexivity.
  Qed.

  Lemma assign_depends_on_chunks :
    exists (c : list (Layer F)) (b n : nat) (inp : list F) chunks a a' t,
      (forall l, In l c -> wf_layer l) /\ fits b c /\ length inp = (2 ^ b * n)%nat /\
      mapM (fun s => InterleavedChunk inp s n) (seq 0 n) = Some chunks /\
      Assign c [inp] = Some a /\ Assign c chunks = Some a' /\
      nth 1 a [] = [t] /\ mapM (fun s => InterleavedChunk t s n) (seq 0 n) <> Some (nth 1 a' []).
  Proof.
    exists [NewLayer bad_wires], 2%nat, 2%nat, bad_input. do 4 eexists.
    split; [intros l [<-|[]]; apply NewLayer_wf|]. split; [split; reflexivity|].
    split; [reflexivity|]. split; [reflexivity|]. split; [reflexivity|]. split; [reflexivity|].
    split; [reflexivity|]. intros H. vm_compute in H. injection H as H _.
    change (0 + (0 + 1) = 0 + (0 + 0) :> F) in H. apply (f_1_neq_0 (F:=F)). transitivity (0 + (0 + 1) : F); [ring|]. rewrite H. ring.
  Qed.

  Lemma gates_not_deduplicated : exists ws : list (Wire F),
    ~ NoDup (map gid (Gates ws)) /\ Gates ws <> first_by_id [] (map wGate ws).
  Proof.
    exists [MkWire 0 0 0 AddGate; MkWire 1 1 1 AddGate]. split.
    - intros H. inversion H as [|? ? Hn _]. apply Hn. left. reflexivity.
    - discriminate.
  Qed.

  Lemma gates_exact (ws : list (Wire F)) :
    Gates ws = map wGate ws /\
    (NoDup (map (fun w => gid (wGate w)) ws) -> Gates ws = first_by_id [] (map wGate ws)).
  Proof.
    split; [apply Gates_all|]. intros H. rewrite Gates_all. symmetry. apply first_by_id_distinct.
    - rewrite map_map. exact H.
    - intros g _ [].
  Qed.

  (** With a repeated ID every static table of that ID counts all its wires. *)
  Lemma static_double_count : exists (ws : list (Wire F)) (q : list F) tabs,
    length q = BGOutputs ws /\ GetStaticTable (NewLayer ws) q = Some tabs /\
    length tabs = 2%nat /\ nth_error tabs 0 = nth_error tabs 1.
  Proof.
    exists [MkWire 0 0 0 AddGate; MkWire 1 1 1 AddGate], [0]. eexists.
    split; [reflexivity|]. split; [reflexivity|]. split; reflexivity.
  Qed.
End Lib.
