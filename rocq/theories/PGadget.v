(** Property theorems for the GKR gadget on circuits other than MiMC's (C92). *)
From Coq Require Import List Arith ZArith Lia Bool.
From Verif Require Import Field Go Spec MPoly LPoly2 MCircuit SpecCircuit MSumcheck SpecSumcheck MSumPar SpecSumPar MGkr SpecGkr MSnark SpecSnark
  MRepair MGadget SpecGadget LCircuit LCircuit2 LTests2 LGadget LGadget2 LGadget3 FrPrime Fr PCircuit.
Import ListNotations.

(* ---------------------------------------------------------------- C92 *)
(** GnarkEval of the four gates of package circuit adds the constraints for what Eval computes. *)
Theorem C92_gnark_eval : forall F : Field,
  gate_gadget (F:=F) GnarkAdd AddGate /\ gate_gadget (F:=F) GnarkMul MulGate /\ gate_gadget (F:=F) GnarkCopy CopyGate /\
  (forall ark : F, gate_gadget (GnarkCipher ark) (CipherGate ark)) /\ (forall ark : F, GnarkCipher ark = SCipherGate ark).
Proof. exact @gnark_gates. Qed.
Print Assumptions C92_gnark_eval.

(** Every circuit of library gates can be handed to the gadget. *)
Theorem C92_describable : forall (F : Field) (c : list (Layer F)),
  (forall l, In l c -> wf_layer l /\ forall g, In g (lGates l) -> library_gate g) -> exists sc, Forall2 describes sc c /\ Forall2 degrees_fit sc c.
Proof. exact @describable_circuit. Qed.
Print Assumptions C92_describable.

(** The number of layers is a constant, 91.  With fewer the gadget panics. *)
Theorem C92_few_layers : forall (F : Field) (arks : list F) p sc qI qPI vIn vOut cs, length sc < 91 ->
  SGkrAssertValid arks p sc qI qPI vIn vOut cs = None.
Proof. exact @too_few_layers. Qed.
Print Assumptions C92_few_layers.

(** With more it takes the first 91 layers, and the first 91 parts of the proof, for the whole. *)
Theorem C92_more_layers : forall (F : Field) (arks : list F) p sc qI qPI vIn vOut cs,
  SGkrAssertValid arks p sc qI qPI vIn vOut cs = SGkrAssertValid arks (first_layers 91 p) (firstn 91 sc) qI qPI vIn vOut cs.
Proof. exact @further_layers. Qed.
Print Assumptions C92_more_layers.

(** On 91 layers the gadget succeeds, and under its gates its assertions amount to acceptance by the native verifier whose
    mismatches are rejections, on two or more chunks at the initial point of the native verifier. *)
Theorem C92_native : forall (F : Field) (arks : list F), 91 <= length arks -> forall sc c b l, Forall2 describes sc c ->
  (forall l, In l c -> wf_layer l) -> fits b c -> length c = 91 -> nth_error c 90 = Some l ->
  forall bN p (cs : CS F) qI qPI vIn vOut, gadget_vars sc b l bN p cs qI qPI vIn vOut ->
  exists cs', SGkrAssertValid arks p sc qI qPI vIn vOut cs = Some (tt, cs') /\ cs_ok cs' /\ grows cs cs' /\
    forall m k inputs outputs w, bN = m + k -> 0 < k -> chunked k m b inputs -> chunked k m (lBGOutputs l) outputs ->
      gates_ok w cs' -> map w qI = count (lBGOutputs l) -> map w qPI = count bN -> map w vIn = glued b m inputs -> map w vOut = glued (lBGOutputs l) m outputs ->
      (asserts_ok w cs' <-> asserts_ok w cs /\ GkrVerifyWith (challenge arks) false bN c (read_proof w p) inputs outputs = Some true).
Proof. exact @any_native. Qed.
Print Assumptions C92_native.

(** At any initial point and on any chunks, they amount to acceptance by the repaired verifier. *)
Theorem C92_repaired : forall (F : Field) (arks : list F), 91 <= length arks -> forall sc c b l, Forall2 describes sc c ->
  (forall l, In l c -> wf_layer l) -> fits b c -> length c = 91 -> nth_error c 90 = Some l ->
  forall bN p (cs : CS F) qI qPI vIn vOut, Forall2 degrees_fit sc c -> gadget_vars sc b l bN p cs qI qPI vIn vOut ->
  exists cs', SGkrAssertValid arks p sc qI qPI vIn vOut cs = Some (tt, cs') /\ cs_ok cs' /\ grows cs cs' /\
    forall m k inputs outputs w, bN = m + k -> chunked k m b inputs -> chunked k m (lBGOutputs l) outputs ->
      gates_ok w cs' -> map w vIn = glued b m inputs -> map w vOut = glued (lBGOutputs l) m outputs ->
      (asserts_ok w cs' <-> asserts_ok w cs /\ RGkrVerify (challenge arks) (map w qPI) (map w qI) bN c (read_proof w p) inputs outputs = Some true).
Proof. exact @any_repaired. Qed.
Print Assumptions C92_repaired.

(** Soundness: outputs of a satisfied witness agree with the circuit's at the initial point, or a challenge hits a root. *)
Theorem C92_sound : forall (F : Field) (arks : list F) sc c b l bN p (cs : CS F) qI qPI vIn vOut, 91 <= length arks ->
  Forall2 describes sc c -> (forall l, In l c -> wf_layer l /\ gates_once l) -> fits b c -> length c = 91 -> nth_error c 90 = Some l ->
  gadget_vars sc b l bN p cs qI qPI vIn vOut ->
  exists cs', SGkrAssertValid arks p sc qI qPI vIn vOut cs = Some (tt, cs') /\
    forall w, satisfied w cs' ->
    exists a, RAssign c [map w vIn] = Some a /\ assignment_of c (2 ^ bN) [map w vIn] a /\
      (mle (map w vOut) (map w (qI ++ qPI)) = mle (nth 0 (nth 91 a []) []) (map w (qI ++ qPI)) \/
       exists j, collision_from (challenge arks) (read_proof w p) c bN 0 a (map w qI) (map w qPI) j).
Proof. exact @any_sound. Qed.
Print Assumptions C92_sound.

(** Completeness: the honest native proof fits the allocated variables and satisfies the gadget. *)
Theorem C92_complete : forall (F : Field) (arks : list F) sc c b l nCore mtProve m k inputs a, 91 <= length arks ->
  Forall2 describes sc c -> Forall2 degrees_fit sc c -> (forall l, In l c -> layer_ok l) -> fits b c -> length c = 91 -> nth_error c 90 = Some l ->
  distinct_upto (F:=F) 12 -> 0 < nCore -> follows_machine (challenge arks) nCore mtProve ->
  chunked k m b inputs -> assignment_of c (2 ^ m) inputs a ->
  exists pf sp,
    GkrProve (challenge arks) mtProve c a nCore = Some pf /\ SAssign (SAllocateProof (m + k) sc) pf = Some sp /\
    forall p (cs : CS F) qI qPI vIn vOut w, gadget_vars sc b l (m + k) p cs qI qPI vIn vOut -> satisfied w cs ->
      map (map (map (fun v => Some (w v)))) (sSumchecks p) = sSumchecks sp ->
      map (fun v => Some (w v)) (sLeft p) = sLeft sp -> map (fun v => Some (w v)) (sRight p) = sRight sp ->
      map w vIn = glued b m inputs -> map w vOut = glued (lBGOutputs l) m (nth 91 a []) ->
      map w qI = count (lBGOutputs l) -> map w qPI = count (m + k) ->
      exists cs' w', SGkrAssertValid arks p sc qI qPI vIn vOut cs = Some (tt, cs') /\ agree_below (nbWires cs) w w' /\ satisfied w' cs'.
Proof. exact @any_complete. Qed.
Print Assumptions C92_complete.

(** 91 layers of a sum and a product meet the hypotheses, with variables for four copies. *)
Example C92_hypotheses : exists sc,
  let l := NewLayer [MkWire 0 1 0 AddGate; MkWire 0 1 1 MulGate] in
  let c := repeat l 91 in
  Forall2 (describes (F:=Fr)) sc c /\ Forall2 degrees_fit sc c /\ (forall l, In l c -> layer_ok l) /\ fits 1 c /\ length c = 91 /\ nth_error c 90 = Some l /\
  exists p cs qI qPI vIn vOut, gadget_vars sc 1 l 2 p cs qI qPI vIn vOut /\ length vIn = 8 /\ length vOut = 8.
Proof.
  destruct (describable_circuit (F:=Fr) (repeat (NewLayer [MkWire 0 1 0 AddGate; MkWire 0 1 1 MulGate]) 91)) as (sc & D & G).
  { intros l Hl. apply repeat_spec in Hl. subst l. split; [apply NewLayer_wf|]. intros g [<-|[<-|[]]]; constructor. }
  exists sc. cbv zeta. split; [exact D|]. split; [exact G|]. split; [intros l Hl; apply repeat_spec in Hl; subst l; apply addmul_ok|].
  split; [generalize 91; intros n; induction n; [exact I|split; [reflexivity|assumption]]|]. split; [apply repeat_length|]. split; [apply nth_error_repeat; lia|].
  do 6 eexists. split; [apply some_vars|]. rewrite !repeat_length. split; reflexivity.
Qed.

(** So a satisfied gadget says nothing of the layers after the 91st: 91 layers that copy and one that doubles, input 1, output
    1 claimed and 2 computed. *)
Theorem C92_extra_refuted : forall (F : Field) (arks : list F), 91 <= length arks ->
  exists sc cs' w a,
    let c := repeat (NewLayer [MkWire 0 0 0 CopyGate]) 91 ++ [NewLayer [MkWire 0 0 0 AddGate]] in
    let p := MkSProof (repeat [] 92) (repeat 1 92) (repeat 1 92) in
    let cs := MkCS 2 [] [] in
    Forall2 describes sc c /\ Forall2 degrees_fit sc c /\ (forall l, In l c -> wf_layer l) /\ fits 0 c /\
    gadget_vars sc 0 (NewLayer [MkWire 0 0 0 AddGate]) 0 p cs [] [] [1] [1] /\
    SGkrAssertValid arks p sc [] [] [1] [1] cs = Some (tt, cs') /\ satisfied w cs' /\
    w 1 = fone /\ Assign c [[fone]] = Some a /\ nth 92 a [] = [[fadd fone fone]] /\ fadd fone fone <> (fone : F).
Proof. exact @ignored_layer. Qed.
Print Assumptions C92_extra_refuted.
