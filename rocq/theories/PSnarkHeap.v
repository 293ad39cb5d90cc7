(** C90: the gadgets under snark/ on slices of one memory of variables.  For every memory and all slices of it, with spare
    capacity and overlapping in any way, they add the constraints of the list model (MSnark.v) and change no existing cell. *)
From Coq Require Import List Arith Lia.
From Verif Require Import Field Fr Go MHash MHeap MSnark SpecSnark SpecFit SpecSnarkHeap MSnarkHeap LSnarkHeap MArk LFit2 PHash PSnark.
Import ListNotations.

Theorem C90_eval : forall (F : Field) m table xs (cs : CS F), vwf m table -> vwf m xs ->
  match SEval (vtab m table) (vtab m xs) cs with
  | None => VEval table xs m cs = None
  | Some (v, cs') => exists m', VEval table xs m cs = Some (v, m', cs') /\ vext m m'
  end.
Proof. exact eval_heap. Qed.
Print Assumptions C90_eval.

(** Table and point overlap: wires 1 to 4 are the table, wires 2 and 3 the point. *)
Example C90_eval_ex : vwf [1;2;3;4;0] (MkSlice 0 4 5) /\ vwf [1;2;3;4;0] (MkSlice 1 2 3) /\
  option_map (fun '(v, m, cs) => (v, firstn 5 m, length m, nbWires cs)) (VEval (MkSlice 0 4 5) (MkSlice 1 2 3) [1;2;3;4;0] (MkCS (F:=Fr) 5 [] [])) =
    Some (13, [1;2;3;4;0], 9, 14) /\
  option_map (fun '(v, m, cs) => v) (VEval (MkSlice 0 4 5) (MkSlice 1 3 3) [1;2;3;4;0] (MkCS (F:=Fr) 5 [] [])) = None.
Proof. split; [|split]; [split; cbn; lia..|]. vm_compute. split; reflexivity. Qed.

Theorem C90_eval_mixed : forall (F : Field) m table qL qR qPrime (cs : CS F), vwf m table -> vwf m qL -> vwf m qR -> vwf m qPrime ->
  match SEvalMixed (vtab m table) (vtab m qL) (vtab m qR) (vtab m qPrime) cs with
  | None => VEvalMixed table qL qR qPrime m cs = None
  | Some (v, cs') => exists m', VEvalMixed table qL qR qPrime m cs = Some (v, m', cs') /\ vext m m'
  end.
Proof. exact eval_mixed_heap. Qed.
Print Assumptions C90_eval_mixed.

Example C90_eval_mixed_ex :
  option_map (fun '(v, m, cs) => (v, firstn 5 m, length m, nbWires cs))
    (VEvalMixed (MkSlice 0 4 5) (MkSlice 1 1 3) (MkSlice 2 1 3) (MkSlice 3 1 1) [1;2;3;4;0] (MkCS (F:=Fr) 5 [] [])) =
    Some ((13, 16), [1;2;3;4;0], 15, 17) /\
  option_map (fun '(v, m, cs) => v)
    (VEvalMixed (MkSlice 0 4 5) (MkSlice 1 3 3) (MkSlice 2 1 3) (MkSlice 3 1 1) [1;2;3;4;0] (MkCS (F:=Fr) 5 [] [])) = None.
Proof. vm_compute. split; reflexivity. Qed.

(** Fold, which works in place: the first half of the slice gets the folded table, no other cell changes *)
Theorem C90_fold : forall (F : Field) m table x (cs : CS F), vwf m table ->
  match SFold (vtab m table) x cs with
  | None => VFold table x m cs = None
  | Some (t, cs') => exists m', VFold table x m cs = Some (MkSlice (base table) (slen table / 2) (scap table), m', cs') /\
      vtab m' (MkSlice (base table) (slen table / 2) (scap table)) = t /\ length m' = length m /\
      (forall a, a < base table \/ base table + slen table / 2 <= a -> nth_error m' a = nth_error m a)
  end.
Proof. exact @fold_in_place. Qed.
Print Assumptions C90_fold.

Example C90_fold_ex :
  option_map (fun '(s, m, cs) => (s, m, nbWires cs)) (VFold (MkSlice 1 3 4) 2 [9;1;3;4;8;7] (MkCS (F:=Fr) 10 [] [])) =
    Some (MkSlice 1 1 4, [9;12;3;4;8;7], 13).
Proof. vm_compute. reflexivity. Qed.

(** the verifier of a sumcheck; the three points it returns lie in memory of their own *)
Theorem C90_sumcheck : forall (F : Field) grow (Arks : list F) m polys claim bG (cs : CS F), (forall s, In s polys -> vwf m s) ->
  match SSumcheckAssertValid Arks (map (vtab m) polys) claim bG cs with
  | None => VSumcheckAssertValid grow Arks polys claim bG m cs = None
  | Some (hL, hR, hPrime, c, cs') => exists sL sR sPrime m',
      VSumcheckAssertValid grow Arks polys claim bG m cs = Some (sL, sR, sPrime, c, m', cs') /\ vext m m' /\
      forall s h, In (s, h) [(sL, hL); (sR, hR); (sPrime, hPrime)] -> vwf m' s /\ vtab m' s = h /\ (slen s = 0 \/ length m <= base s)
  end.
Proof. exact sumcheck_heap. Qed.
Print Assumptions C90_sumcheck.

(** One round, whose polynomial is wires 2 and 1; bG is 0, so the challenge is hPrime.  append asks for room for three. *)
Example C90_sumcheck_ex : (forall s, In s [MkSlice 1 2 2] -> vwf [1;2;1] s) /\
  option_map (fun '(hL, hR, hPrime, c, m, cs) => (hL, hR, hPrime, length m, firstn 3 m, (vtab m hPrime, c, nbWires cs)))
    (VSumcheckAssertValid (F:=Fr) (fun _ _ => 3) Arks [MkSlice 1 2 2] 1 0 [1;2;1] (MkCS 3 [] [])) =
    Some (nilSlice, nilSlice, MkSlice 4 1 3, 7, [1;2;1], ([1098], 1105, 1106)).
Proof. split; [intros s [<-|[]]; split; cbn; lia|]. vm_compute. reflexivity. Qed.

Theorem C90_combine : forall (F : Field) grow m (l : SLayer F) q qPrime hL hR hPrime vL vR (cs : CS F),
  (forall s, In s [q; qPrime; hL; hR; hPrime] -> vwf m s) ->
  match SCombine l (vtab m q) (vtab m qPrime) (vtab m hL) (vtab m hR) (vtab m hPrime) vL vR cs with
  | None => VCombine grow l q qPrime hL hR hPrime vL vR m cs = None
  | Some (v, cs') => exists m', VCombine grow l q qPrime hL hR hPrime vL vR m cs = Some (v, m', cs') /\ vext m m'
  end.
Proof. exact combine_heap. Qed.
Print Assumptions C90_combine.

(** hL and hR are the same slice, with room behind it, which holds q and qPrime. *)
Example C90_combine_ex :
  option_map (fun '(v, m, cs) => (v, firstn 4 m, length m, nbWires cs))
    (VCombine (F:=Fr) (fun _ n => 2 * n) (MkSLayer 1 1 1 1 [SCopyGate] [GetCopyTable]) (MkSlice 1 1 3) (MkSlice 2 1 2) (MkSlice 0 1 4) (MkSlice 0 1 4) (MkSlice 3 1 1)
      5 6 [1;2;3;4] (MkCS 7 [] [])) = Some (31, [1;2;3;4], 14, 32).
Proof. vm_compute. reflexivity. Qed.

Theorem C90_combine_lc : forall (F : Field) grow m (l : SLayer F) qL qR qPrime hL hR hPrime lambdaL lambdaR vL vR (cs : CS F),
  (forall s, In s [qL; qR; qPrime; hL; hR; hPrime] -> vwf m s) ->
  match SCombineWithLinearComb l (vtab m qL) (vtab m qR) (vtab m qPrime) (vtab m hL) (vtab m hR) (vtab m hPrime) lambdaL lambdaR vL vR cs with
  | None => VCombineWithLinearComb grow l qL qR qPrime hL hR hPrime lambdaL lambdaR vL vR m cs = None
  | Some (v, cs') => exists m', VCombineWithLinearComb grow l qL qR qPrime hL hR hPrime lambdaL lambdaR vL vR m cs = Some (v, m', cs') /\ vext m m'
  end.
Proof. exact combine_lc_heap. Qed.
Print Assumptions C90_combine_lc.

Example C90_combine_lc_ex :
  option_map (fun '(v, m, cs) => (v, firstn 4 m, length m, nbWires cs))
    (VCombineWithLinearComb (F:=Fr) (fun _ n => 2 * n) (MkSLayer 1 1 1 1 [SCopyGate] [GetCopyTable]) (MkSlice 1 1 3) (MkSlice 1 1 3) (MkSlice 2 1 2) (MkSlice 0 1 4)
      (MkSlice 0 1 4) (MkSlice 3 1 1) 5 6 5 6 [1;2;3;4] (MkCS 7 [] [])) = Some (46, [1;2;3;4], 22, 47).
Proof. vm_compute. reflexivity. Qed.

(** AssertValid of a whole proof *)
Theorem C90_gkr : forall (F : Field) grow (Arks : list F) m sumchecks left right (c : list (SLayer F)) q qPrime vInput vOutput (cs : CS F),
  (forall sc s, In sc sumchecks -> In s sc -> vwf m s) -> (forall s, In s [left; right; q; qPrime; vInput; vOutput] -> vwf m s) ->
  match SGkrAssertValid Arks (MkSProof (map (map (vtab m)) sumchecks) (vtab m left) (vtab m right)) c
          (vtab m q) (vtab m qPrime) (vtab m vInput) (vtab m vOutput) cs with
  | None => VGkrAssertValid grow Arks (MkVProof sumchecks left right) c q qPrime vInput vOutput m cs = None
  | Some (_, cs') => exists m', VGkrAssertValid grow Arks (MkVProof sumchecks left right) c q qPrime vInput vOutput m cs = Some (tt, m', cs') /\ vext m m'
  end.
Proof. exact gkr_heap. Qed.
Print Assumptions C90_gkr.

(** any wires of a proof, two points, inputs and outputs can be laid out in a memory *)
Theorem C90_layout : forall (p : SProof nat) (q qPrime vInput vOutput : list nat), exists m sumchecks left right sq sqPrime sInput sOutput,
  (forall sc s, In sc sumchecks -> In s sc -> vwf m s) /\ (forall s, In s [left; right; sq; sqPrime; sInput; sOutput] -> vwf m s) /\
  p = MkSProof (map (map (vtab m)) sumchecks) (vtab m left) (vtab m right) /\
  q = vtab m sq /\ qPrime = vtab m sqPrime /\ vInput = vtab m sInput /\ vOutput = vtab m sOutput.
Proof. exact layout_heap. Qed.
Print Assumptions C90_layout.

(** For the MiMC circuit: when the verifier can be built from slices of a memory of allocated variables. *)
Theorem C90_builds : forall (F : Field) (arks : list F), 91 <= length arks -> forall grow m sumchecks left right (cs : CS F) sc q qPrime vInput vOutput,
  SCreateMimcCircuit arks = Some sc -> cs_ok cs -> vars cs m ->
  (forall ss s, In ss sumchecks -> In s ss -> vwf m s) -> (forall s, In s [left; right; q; qPrime; vInput; vOutput] -> vwf m s) ->
  (VGkrAssertValid grow arks (MkVProof sumchecks left right) sc q qPrime vInput vOutput m cs <> None <->
   buildable (MkSProof (map (map (vtab m)) sumchecks) (vtab m left) (vtab m right)) (slen q) (slen qPrime) (slen vInput) (slen vOutput)).
Proof. exact builds_heap. Qed.
Print Assumptions C90_builds.

(** Every slice overlaps others: all sum-checks have the same three polynomials, the left claims are the right ones, the
    input is the output and lies among the claims. *)
Example C90_builds_ex :
  let m := [1;2;3;4;5;6] ++ repeat 7 91 in
  let ss := repeat [MkSlice 0 2 97; MkSlice 2 2 2; MkSlice 3 2 4] 91 in
  cs_ok (free 8) /\ vars (free 8) m /\
  (forall sc s, In sc ss -> In s sc -> vwf m s) /\
  (forall s, In s [MkSlice 6 91 91; MkSlice 6 91 91; MkSlice 0 3 6; MkSlice 3 1 9; MkSlice 10 16 20; MkSlice 10 16 20] -> vwf m s) /\
  buildable (MkSProof (map (map (vtab m)) ss) (vtab m (MkSlice 6 91 91)) (vtab m (MkSlice 6 91 91))) 3 1 16 16.
Proof.
  intros m ss.
  assert (L : length m = 97) by (unfold m; rewrite app_length, repeat_length; reflexivity).
  assert (W : forall s, In s [MkSlice 6 91 91; MkSlice 6 91 91; MkSlice 0 3 6; MkSlice 3 1 9; MkSlice 10 16 20; MkSlice 10 16 20] -> vwf m s).
  { intros s H. unfold vwf. rewrite L. repeat (destruct H as [<-|H]; [cbn; lia|]). destruct H. }
  split; [apply free_ok; lia|]. split; [|split; [|split; [exact W|]]].
  - intros v Hv. unfold m in Hv. apply in_app_or in Hv. cbn. destruct Hv as [Hv|Hv]; [repeat (destruct Hv as [<-|Hv]; [lia|]); destruct Hv|]. apply repeat_spec in Hv. lia.
  - intros sc s Hsc Hs. apply repeat_spec in Hsc. subst sc. unfold vwf. rewrite L. repeat (destruct Hs as [<-|Hs]; [cbn; lia|]). destruct Hs.
  - assert (E : map (map (vtab m)) ss = repeat [[1;2];[3;4];[4;5]] 91) by (vm_compute; reflexivity).
    assert (N : forall j, j < 91 -> nth j (repeat [[1;2];[3;4];[4;5]] 91) [] = [[1;2];[3;4];[4;5]]) by (intros j Hj; apply nth_repeat_lt; exact Hj).
    rewrite E. unfold buildable. cbn [sSumchecks sLeft sRight]. rewrite !(vtab_length m) by (apply W; cbn; tauto). rewrite !repeat_length. cbn [slen].
    split; [lia|]. split; [lia|]. split; [lia|]. split; [intros j Hj; rewrite N by lia; intros [H|[H|[H|[]]]]; discriminate|].
    split; [cbn; lia|]. split; [intros j Hj; rewrite !N by lia; lia|]. split; cbn; lia.
Qed.
