(** Property theorems: the verdict of the GKR verifier on every proof object (C82), inputs and outputs (C85). *)
From Coq Require Import List Arith ZArith Lia Bool.
From Verif Require Import Field Go MCommon Spec MPoly MCircuit SpecCircuit LCircuit MSumcheck SpecSumcheck MGkr SpecGkr SpecVerdict
  LVerdict FrPrime Fr PPoly PCircuit PGkr.
Import ListNotations.

(* ---------------------------------------------------------------- C82 *)
(** The code: [Some true], [Some false] and panic, each exactly. *)
Theorem C82_code : forall (F : Field) (ch : list F -> F) m k b (c : list (Layer F)) l pf inputs outputs,
  0 < k -> (forall l, In l c -> wf_layer l) -> fits b c -> nth_error c (length c - 1) = Some l ->
  chunked k m b inputs -> chunked k m (lBGOutputs l) outputs ->
  let out := output_claim (m + k) m l outputs in
  let V := glued b m inputs in
  (GkrVerify ch (m + k) c pf inputs outputs = Some true <-> accepts ch c (m + k) pf out b V \/ early ch c (m + k) pf out) /\
  (GkrVerify ch (m + k) c pf inputs outputs = Some false <-> refuses ch c (m + k) pf out b V) /\
  (GkrVerify ch (m + k) c pf inputs outputs = None <-> panics ch c (m + k) pf out b).
Proof. exact @code_verdict. Qed.
Print Assumptions C82_code.

(** With [return false] at gkr/verifier.go:99. *)
Theorem C82_variant : forall (F : Field) (ch : list F -> F) m k b (c : list (Layer F)) l pf inputs outputs,
  0 < k -> (forall l, In l c -> wf_layer l) -> fits b c -> nth_error c (length c - 1) = Some l ->
  chunked k m b inputs -> chunked k m (lBGOutputs l) outputs ->
  let out := output_claim (m + k) m l outputs in
  let V := glued b m inputs in
  (GkrVerifyWith ch false (m + k) c pf inputs outputs = Some true <-> accepts ch c (m + k) pf out b V) /\
  (GkrVerifyWith ch false (m + k) c pf inputs outputs = Some false <-> refuses ch c (m + k) pf out b V \/ early ch c (m + k) pf out) /\
  (GkrVerifyWith ch false (m + k) c pf inputs outputs = None <-> panics ch c (m + k) pf out b).
Proof. exact @variant_verdict. Qed.
Print Assumptions C82_variant.

(** Two layers that square, inputs 2 and 3, all challenges 10.  The outputs are 16 and 81. *)
Definition tens (s : list Fr) : Fr := el 10.
Definition top_poly : list Fr := frs [0;16;40;25]%Z.
Definition bottom_poly : list Fr := frs [-396;440;737;209]%Z.
Definition square_outputs : list (list Fr) := [frs [16]%Z; frs [81]%Z].
Definition verdict (bottom : list (list Fr)) (cls crs : list Fr) : option bool :=
  GkrVerify tens 1 square_circuit (MkProof [bottom; [top_poly]] cls crs) square_inputs square_outputs.

Example C82_ex_hypotheses :
  0 < 1 /\ (forall l, In l square_circuit -> wf_layer l) /\ fits 0 square_circuit /\
  nth_error square_circuit (length square_circuit - 1) = Some (NewLayer [MkWire 0 0 0 MulGate]) /\
  chunked 1 0 0 square_inputs /\ chunked 1 0 (lBGOutputs (NewLayer [MkWire 0 0 0 (MulGate (F:=Fr))])) square_outputs.
Proof.
  split; [lia|]. split.
  { intros l [<-|[<-|[]]]; intros w [<-|[]]; cbn; lia. }
  split; [repeat split|]. split; [reflexivity|].
  split; (split; [reflexivity|]); intros t [<-|[<-|[]]]; reflexivity.
Qed.

(** In order: an honest proof; a wrong last value below the top (accepted by the code, not by the variant); claims that do
    not fit the top polynomial; a bottom polynomial that does not add up; claims 16 and 9 in place of 12 and 12, which have the
    same product but are not the values of the inputs; an empty polynomial; no polynomial; a missing claim; one round too many,
    in order otherwise. *)
Example C82_ex :
  verdict [bottom_poly] (frs [12;54]%Z) (frs [12;54]%Z) = Some true /\
  verdict [frs [297]%Z] (frs [0;54]%Z) (frs [0;54]%Z) = Some true /\
  GkrVerifyWith tens false 1 square_circuit (MkProof [[frs [297]%Z]; [top_poly]] (frs [0;54]%Z) (frs [0;54]%Z)) square_inputs square_outputs
    = Some false /\
  verdict [bottom_poly] (frs [12;55]%Z) (frs [12;54]%Z) = Some false /\
  verdict [frs [1]%Z] (frs [12;54]%Z) (frs [12;54]%Z) = Some false /\
  verdict [bottom_poly] (frs [16;54]%Z) (frs [9;54]%Z) = Some false /\
  verdict [[]] (frs [12;54]%Z) (frs [12;54]%Z) = None /\
  verdict [] (frs [12;54]%Z) (frs [12;54]%Z) = None /\
  verdict [bottom_poly] (frs [12;54]%Z) (frs [12]%Z) = None /\
  verdict [bottom_poly; frs [143352]%Z] (frs [8;54]%Z) (frs [9;54]%Z) = None.
Proof. vm_compute. repeat split. Qed.

(* ---------------------------------------------------------------- C85 *)
(** Inputs and outputs of any shape, any number of variables.  Without a value of the outputs at the initial point it panics; *)
Theorem C85_no_claim : forall (F : Field) (ch : list F -> F) bN (c : list (Layer F)) l pf inputs outputs,
  nth_error c (length c - 1) = Some l -> forall mm,
  (forall out, ~ chunk_value outputs (count (lBGOutputs l) ++ count bN) out) ->
  GkrVerifyWith ch mm bN c pf inputs outputs = None.
Proof. exact @no_output_claim. Qed.
Print Assumptions C85_no_claim.

(** with one, the verdicts are these. *)
Theorem C85_code : forall (F : Field) (ch : list F -> F) bN b (c : list (Layer F)) l pf inputs outputs,
  (forall l, In l c -> wf_layer l) -> fits b c -> nth_error c (length c - 1) = Some l ->
  forall out, chunk_value outputs (count (lBGOutputs l) ++ count bN) out ->
  (GkrVerify ch bN c pf inputs outputs = Some true <-> accepts_any ch c bN pf out b inputs \/ early ch c bN pf out) /\
  (GkrVerify ch bN c pf inputs outputs = Some false <-> refuses_any ch c bN pf out b inputs) /\
  (GkrVerify ch bN c pf inputs outputs = None <-> panics_any ch c bN pf out b inputs).
Proof. exact @any_code. Qed.
Print Assumptions C85_code.

Theorem C85_variant : forall (F : Field) (ch : list F -> F) bN b (c : list (Layer F)) l pf inputs outputs,
  (forall l, In l c -> wf_layer l) -> fits b c -> nth_error c (length c - 1) = Some l ->
  forall out, chunk_value outputs (count (lBGOutputs l) ++ count bN) out ->
  (GkrVerifyWith ch false bN c pf inputs outputs = Some true <-> accepts_any ch c bN pf out b inputs) /\
  (GkrVerifyWith ch false bN c pf inputs outputs = Some false <-> refuses_any ch c bN pf out b inputs \/ early ch c bN pf out) /\
  (GkrVerifyWith ch false bN c pf inputs outputs = None <-> panics_any ch c bN pf out b inputs).
Proof. exact @any_variant. Qed.
Print Assumptions C85_variant.

(** The proof of C82_ex.  Chunks with one entry too many are accepted, whatever it is; a third chunk, or a chunk longer than
    the other, makes the verifier panic. *)
Definition verdict_on (inputs outputs : list (list Fr)) : option bool :=
  GkrVerify tens 1 square_circuit (MkProof [[bottom_poly]; [top_poly]] (frs [12;54]%Z) (frs [12;54]%Z)) inputs outputs.
Example C85_ex :
  verdict_on [frs [2;7]%Z; frs [3;8]%Z] [frs [16;9]%Z; frs [81;0]%Z] = Some true /\
  verdict_on [frs [2]%Z; frs [4]%Z] square_outputs = Some false /\
  verdict_on square_inputs [frs [16]%Z; frs [81;0]%Z] = None /\
  verdict_on [frs [2]%Z; frs [3]%Z; frs [5]%Z] square_outputs = None.
Proof. vm_compute. repeat split. Qed.

Example C85_ex_hypotheses : chunk_value [frs [16;9]%Z; frs [81;0]%Z] (count 0 ++ count 1) (el 81) /\
  forall out, ~ chunk_value [frs [16]%Z; frs [81;0]%Z] (count 0 ++ count 1) out.
Proof.
  split.
  - exists [], (count 1), 2. split; [reflexivity|]. split; [discriminate|]. split; [reflexivity|].
    split; [intros t [<-|[<-|[]]]; reflexivity|]. split; [cbn; lia|]. apply fr_eq. vm_compute. reflexivity.
  - intros out (x & y & L & _ & _ & _ & He & _). pose proof (He _ (or_introl eq_refl)) as H1. pose proof (He _ (or_intror (or_introl eq_refl))) as H2.
    cbn in H1, H2. lia.
Qed.
