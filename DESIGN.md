# Formal model of gkr-mimc in Rocq (Coq 8.16.1)

## 1. Approach

* The Go code is transcribed, function by function, into small total Gallina
  functions. Every definition cites the file and lines it models.
* A Go panic (index out of range, explicit `panic`, division by zero) is the
  value `None` of an `option` result. Loops are folds over index lists in the
  option monad, with the same index expressions as the source.
* Field elements are elements of a field record `Field` (carrier, operations,
  decidable equality, field laws). The record is instantiated with the integers
  modulo the BN254 scalar modulus, whose primality is proved inside Coq
  (Pocklington). Headline theorems are stated for that instance.
* The hash that derives challenges is the real MiMC with the real constants in
  the instantiated theorems; protocol lemmas hold for an arbitrary function.
* Goroutines, channels, wait groups and semaphores are modelled as a labelled
  state machine (small steps, any enabled step may fire); theorems quantify over
  every reachable state / every execution.
* Slices are lists where aliasing is irrelevant; a separate heap model (memory
  cells, slices = offset/length/capacity) covers the aliasing properties.
* Specifications (multilinear extension as a sum over bit strings, sums over
  index ranges, polynomial evaluation as sum c_i x^i, ...) are in separate
  `Spec*.v` files that do not mention the model.

## 2. Layout

Property theorems are in `P*.v` (nothing else but examples), closed by `exact lemma`
with `Print Assumptions` beneath. Lemmas are in `L*.v`, specifications in `Spec*.v`,
models in `M*.v`.

| file | content |
|---|---|
| Field.v | field record, sums, iterated injection of nat |
| Fr.v, FrPrime.v | BN254 scalar field, primality |
| Go.v | option monad, indexing, in-place update, loops |
| Trans.v | transition systems: reachability, "every execution ends in" |
| Spec.v | mathematical specifications |
| MCommon.v, MEnv.v, MString.v, MSem.v, MAux.v | package common |
| MPoly.v | package polynomial, values |
| MHeap.v | package polynomial, memory cells and slices |
| MForkJoin.v | goroutines of polynomial and circuit: wait group and semaphore |
| MCircuit.v | package circuit |
| MSumcheck.v | package sumcheck, single-threaded prover and verifier |
| MCost.v | the same once more, and the gates of circuit/gates.go, Fold, EvaluatePolynomial and InterpolateOnRange, with the number of calls of Mul and Square; additions, copies and the hash are not counted, and the Lagrange tables are taken as computed at start-up |
| MCost2.v | the GKR verifier once more (gkr/verifier.go) with Evaluate, EvaluateChunked, EvaluateMixedChunked, EvalEq, EvaluateCombinator, GetStaticTable, the sum-check verifier and MimcHash, with the number of calls of Mul and Square; the additions that fill the static tables and SetUint64 of the first point are not counted |
| MCost3.v | what the GKR prover computes before the sum-check of a layer (gkr/prover.go:55-121) once more: GetFoldedEqTable, GetChunkedEqTable, LinearCombinationOfBookKeepingTables and the two functions that collect the tables, with the number of calls of Mul |
| MCost4.v | Assign (circuit/circuit.go:37-47) and Evaluate (circuit/layers.go:68-102) once more, with the number of multiplications of the gates |
| MCost5.v | RunForChunk's rounds and the main goroutine's rounds (sumcheck/par.go:96-181, 260-285) once more, with the number of multiplications |
| MSumPar.v | sumcheck/par.go: goroutines, channels, semaphore |
| MSumHeap.v | the sum-check provers on memory cells; read and write sets of the goroutines |
| MTesting.v | sumcheck/testing.go |
| MGkr.v, MGkrHeap.v | package gkr, values and memory |
| MVerHeap.v | the two native verifiers on memory cells, any growth policy of `append` |
| MHashHeap.v | package hash on memory cells, with a set of writable addresses |
| MHash.v, MArk.v, MInit.v | package hash, its constants, its start-up; common/challenge.go; examples/mimc.go |
| MSnark.v | the packages under snark/, building rank-1 constraint systems |
| MSnarkHeap.v | the gadgets under snark/ on memory cells holding variables, any growth policy of `append` |
| MGadget.v | GnarkEval of the gates in circuit/gates.go on a constraint system |
| MFront.v | the gadgets under snark/ on linear expressions, for any frontend that keeps values |
| MGnarkTests.v, MTests.v | the tests of the packages under snark/, and of the others |
| MBench.v | the benchmark with several provers: goroutines and wait groups |
| MRepair.v | NOT the code: the models of six functions with one small edit each (C79) |
| MFiat.v | NOT the code: the verifier of MRepair.v with challenges derived from the whole transcript (C80) |
| MInt.v | sizes, chunks, equality tables, layers again, with 64-bit ints |
| MInt2.v | snark/ allocation, EvalMixed, assignment of chunks, sumcheck.Verify, initial point, with 64-bit ints |

## 3. Per-property plan

| id | model | proof |
|---|---|---|
| C01 | Fold as in-place loop over a list | loop invariant |
| C02, C03 | Evaluate = copy + folds | induction on the point, against the sum over bit strings |
| C04, C05 | eq table loop | loop invariant over outer index; product formula |
| C06-C09 | chunked tables | induction on chunk bits against interleaving |
| C10-C12 | Horner, Lagrange matrices | Horner sum; root counting for uniqueness |
| C13 | in-place loops, goroutines per chunk range | state machine, disjoint index sets |
| C14 | in-place loop | loop invariant |
| C15, C16 | Z arithmetic with Go truncated division | lia / log2 lemmas |
| C17 | token counter state machine | inductive invariant |
| C18-C20 | gate record with the interface methods | ring identities; polynomial closure lemmas |
| C21-C24 | wires, layers | list induction; C22 and C24 expected to be refuted in general and proved under an explicit guard |
| C25 | fork/join state machine | schedule independence by invariant |
| C26 | Assign | induction on layers |
| C27, C28 | the accumulate loops with nested arrays | generic accumulation lemma, degree calculus |
| C29 | Prove / Verify | induction on rounds |
| C30, C31 | Prove with goroutines, channels, semaphore | inductive invariant + progress + decreasing measure, then algebra of interleaved tables |
| C32-C34 | Verify | induction; C34 refuted by witness |
| C35 | panics of the verifiers | refuted by witness; exact no-panic guard proved |
| C36, C37 | gkr Prove / Verify | composition of C23, C24, C29, C30 |
| C38 | gkr Verify | refuted (early `return true`), conditional version proved |
| C39 | gkr Verify | refuted for every proof: the initial point is constant and starts with 1 |
| C40-C42 | MiMC | induction on rounds; Fermat + Bezout |
| C43, C44 | Poseidon, GMiMC | refuted: the state slice is rebound in Update; zero padding |
| C45 | GMiMC | list rotation; inverse function |
| C46-C52 | snark gadgets as evaluation over values plus a list of asserted equalities | equality with native model |
| C53, C54 | heap model | frame lemmas |
| C55 | constants | computation + linear algebra |
| C56 | decimal printing | injectivity of decimal printing |
| C57 | both verifiers | the constraints of the gadget unfolded layer by layer against `accepted` |
| C58, C59 | gadget | counting of roots over grids; degree calculus of the allocated shape |
| C60 | provers built by gkr/prover.go | algebra of static tables, eq table and layer values |
| C61 | MSumPar with read and write sets | inductive invariant: ownership of cells |
| C62 | sumcheck/testing.go | interleaving of the chunks, C29, C30 |
| C63, C64 | env.go, ID() | decimal notation, injectivity |
| C65 | verifiers on memory cells | frame lemmas, arbitrary capacities |
| C66 | the verifiers, every challenge function | refuted: all-zero round polynomials; the hashes of 3 and 9 zeros computed in Coq |
| C67 | interactive provers | union bound over fibres of challenge vectors |
| C68 | init() and the block loops | computation; measure; loop shown to repeat its state |
| C69 | defer stack, random source | case analysis; loop invariants |
| C70, C71 | the tests, sizes and random values as parameters | C04-C09, C29, C36, C37, C60 |
| C72 | goroutines and three wait groups | inductive invariant, decreasing measure; runs constructed for the race |
| C73 | two's complement ints, bounded allocation | each operation shown not to wrap, or its panic traced; counterexamples |
| C74 | the same tests with any functions in place of those under test | inversion of each test; honest runs replayed with a verifier that checks nothing |
| C75 | the gadgets of snark/, counting gates | Hoare-style cost rules for the gadget monad; induction in N for the thresholds |
| C76 | package hash with pointers and slices into one memory, and a set of writable addresses | window simulation: each in-place function does to its window what the list model does to the list |
| C77 | GkrProve and the sum-check provers as in C36 | the prover reduced to one without chunks; lengths of the interpolated polynomials |
| C78 | the native prover and verifier (the latter with and without its early `return true`), the gadget | soundness induction keeping all round polynomials; the prover's polynomials computed; interpolation is unique |
| C79 | MRepair.v: the code with six edits | the verdict of the changed verifier characterised; completeness, soundness and uniqueness again, at any point and for one chunk |
| C80 | MFiat.v: the verifier of C79 on a list of challenges; adversaries and a random oracle in SpecFiat.v | every query has at most d answers that turn something wrong into something right; the verifier's queries are added to the adversary's and sequences of answers are counted |
| C81 | MPoly.v on all sizes; slots in SpecDomain.v | halving by induction on the coordinates; inversion of the recombination level by level |
| C82 | MGkr.v and MSumcheck.v; the checks of one layer in SpecVerdict.v | one step of the loop computed in each of four cases; induction from the top layer |
| C83 | MSumPar.v, MForkJoin.v; `ends`, `fails`, the rounds of a chunk in SpecEnds.v | simulation by a machine whose values are erased; messages counted; a machine that carries on after main's failures; a measure |
| C84 | MGkr.v, MSumcheck.v; the listed gates of a wire and "in line" in SpecHonest.v | the claims the prover leaves at each layer, for any table contents; which layer's sum-check fails |
| C85 | MGkr.v; as C82, with the values of C81 | the proof of C82, which follows from it |
| C86 | MSnark.v: the compiled test circuit of C51, C52 | the honest proof at any point (C79); a multilinear polynomial without zero is constant |
| C87 | MSnark.v; what fits in SpecFit.v | gadgets that fail do so for every constraint system; the value lemmas of C46-C49 without their size conditions |
| C88 | MCircuit.v; what is read and the layer evaluated in SpecLayers.v | the proof of C23, C24 without well-formedness; a layer with right rows multiplied by N |
| C89 | MInt2.v; what can be allocated in SpecInt2.v | as for C73; the loop in which an overflow ends traced case by case |
| C90 | MSnarkHeap.v; values of a slice and unchanged memory in SpecSnarkHeap.v | a relation between runs on memory and on lists, closed under sequence and loops |
| C91 | MCircuit.v, MGkr.v; the two tables of a layer and the claims of a run in SpecRun.v | C87, C88 and C39 joined layer by layer: what Assign computes, what Prove claims, what Verify accepts |
| C92 | MSnark.v (AssertValid), GnarkEval of the gates in MGadget.v; degrees, variables of the gadget in SpecGadget.v | table gadgets from the wiring as constants; the bound `nLayers` unfolded; C65's lemmas without MiMC's layers; acceptance of C79 |
| C93 | the gadgets of MSnark.v on linear expressions (MFront.v), the frontend a parameter; `same_gadget` in SpecFront.v | simulation: a map from the wires of the folded system to those of the other, kept by every gadget |
| C94 | MSumcheck.v, MGkr.v; the messages `asked` in SpecAsk.v | two runs side by side; the entries of the proof that the prover's loop has written stay as they are |
| C95 | MCost.v (MSumcheck.v with a count of multiplications); gate prices, supports and formulas in SpecCost.v | the counts dropped give the model back; partial correctness with a cost for every loop; a fold does not enlarge the support |
| C96 | MCost2.v (the verifier of MGkr.v and what it calls, with a count of multiplications, hashes included); formulas in SpecCost2.v | the counts dropped give the model back; a cost for every function; induction on the layers; C36 and C77 for the honest run |
| C97 | MCost3.v (the tables of a layer, with a count of multiplications); formulas in SpecCost3.v | the counts dropped give the model back; an invariant on which chunks are filled for GetChunkedEqTable; the tables exist on an assignment by C36's lemmas |
| C98 | MCost4.v (Assign and Evaluate, with a count of multiplications); formula in SpecCost4.v | the counts dropped give the model back; induction on the layers with the shape of the chunks |
| C99 | MCost5.v (RunForChunk and the main goroutine, with a count of multiplications); formulas in SpecCost5.v | the counts dropped give the model back; bound per round, summed over the three loops; the sum compared with C95's |

## 4. Trusted base

* Coq 8.16.1: the kernel, including its `vm_compute` conversion (used in the
  primality proof of the modulus, the constants, the hashes of C66 and in
  examples). `coqchk` rechecks everything without the virtual machine.
* Axioms: none. `Print Assumptions` says "Closed under the global context" for
  every theorem of every `P*.v` file. (`coqchk -o` also lists
  `Coq.ssr.ssrunder.Under_rel.*`: parameters of a module type of Coq's own
  standard library, loaded with `ring`/`field`/`lia`; no theorem depends on them.)
* No functor, module type, `Declare Module`, axiom, section-less variable, unset
  check, plugin or admitted proof.
* The reading of the Go source, i.e. that the model is what the code does. Points
  where the model is more than a transcription:
  * **Field elements** (gurvy `fr.Element`): a field with decidable equality, each
    element with one representation. Montgomery form, limbs and assembly are not
    modelled. `SetUint64`, `SetString`, `String` have their documented meaning,
    and `Inverse` of 0 is 0.
  * **Integers**: `int` is unbounded where sizes are concerned. MInt and
    MInt2 model the functions that multiply, add or shift sizes with 64-bit ints,
    and C73 and C89 say when the two agree; elsewhere indices are bounded by the length of a slice.
    MCommon uses Z with Go's truncated division, MEnv and `PrettyStringFr` model
    the 64-bit bounds where the code depends on them.
  * **Panics** are `None`. Which panic, and the text of the message, is not
    modelled. Running out of memory or stack is not modelled.
  * **Slices** are lists where the code cannot alias them; aliasing is covered by
    the memory models (MHeap, MSumHeap, MGkrHeap, MVerHeap, MHashHeap,
    MSnarkHeap) and the theorems C13, C53, C54, C61, C65, C76, C90 that tie them to the list models. The capacity that
    `append` gives to a grown slice is arbitrary.
  * **Goroutines** interleave in steps (channel operation, semaphore operation,
    wait-group operation, one computation between two of them; for the loops of
    MForkJoin one step per iteration). The Go memory model is respected because
    the systems are shown free of data races (C61), but for the benchmark of C72. Unfairness is not
    an issue: the theorems say that every execution, however scheduled, ends.
  * **Channels**: buffered and unbuffered channels of the language definition,
    including close and receive from a closed channel.
  * **gnark 0.3.6**: `cs.Add/Sub/Mul/Constant/AssertIsEqual` are modelled as
    appending constraints on numbered wires; a witness satisfies the system when
    it satisfies every gate constraint and assertion. C93 replaces wires by linear
    expressions and leaves their rewriting and the recognition of constants open:
    for every frontend that keeps values the constraints are equivalent, and C75's
    count of calls of Mul bounds their number. That gnark is such a frontend is
    trusted, as are its wire numbering, compiler and Groth16.
  * **Maps**: only the empty `map[string]Gate` in `Gates`, which is never written.
  * **os.Getenv, strconv.Atoi, fmt**: their documented contracts.
  * **pkg/profile, runtime/trace, testing.B** (C69): calls that may return, panic
    or end the process.
  * **crypto/rand** (C69): an arbitrary sequence of elements.
  * **GetChallenge** is an arbitrary function in the protocol theorems, and the
    MiMC hash with the code's constants in C37, C48, C49, C66.

## 5. Coverage

All functions of the non-test files of /repo have a definition in the model
(file-level map below; each definition cites file and lines). What is left out of
them is listed in section 4 and here:

* circuit/gates.go: all gates, `ID`, `Eval`, `GnarkEval`, `EvalManyVL`,
  `EvalManyVR`, `Degrees`; gates defined by users of the package are covered where
  a theorem quantifies over `Gate`.
* circuit/layers.go, circuit/circuit.go: all (values and goroutines).
* common: chunks, math, semaphore, challenge, env, printing (`PrettyStringFr`,
  `FrSliceToString`, `IntSliceToString`, `UintSliceToString`, `Uint64ToFr`),
  profiling, random arrays. The text of panics is not modelled.
* polynomial: all functions, including `String` and the package `init`.
* sumcheck: all functions (`prover.go`, `evals.go`, `par.go`, `verifier.go`,
  `testing.go`).
* gkr: all functions. hash: all functions and constants.
* snark/polynomial, snark/hash, snark/sumcheck, snark/gkr: all functions.
  `NewMultilinearByValues`, `NewUnivariate`, `NewVerifier`, `NewBookKeepingTable`
  and `NewCipherGate` only wrap their argument and are the identity here.
* examples/mimc.go: all.
* Test files: the circuits and witnesses of snark/*_test.go (C51, C70),
  sumcheck/testing.go and TestMultiThreaded (C62), and the tests of polynomial,
  sumcheck, gkr, examples and common/math_test.go (C71) and TestHashes (C76) are modelled. The
  MiMC benchmarks are, up to the proof they compute (C71, C72); the timers of
  testing.B are not.

## 6. Results

546 theorems for 99 properties; every one "Closed under the global context".
MANIFEST.json lists them. A claim marked `partial` there is false of the code in
the generality stated; each has a theorem `..._refuted` with the counterexample,
and what does hold is proved beside it. Defects of the code found:

1. circuit/layers.go:91 reads row `R*N*N+h` instead of `R*N+h` (C24, C26).
2. circuit/layers.go:130-139 `Gates` never records an ID, so gates are not
   deduplicated, and honest proofs of layers with a repeated gate are rejected
   (C22, C36).
3. gkr/verifier.go:99 returns true when the check of an intermediate layer fails
   (C38): any outputs can be proved.
4. The initial point is the constant (1, 2, 3, ...), which ignores half of the
   rows and of the instances (C39).
5. A single chunk makes the verifier panic (C07, C08, C36).
6. The sum-check verifier checks neither degrees nor the number of rounds, and
   malformed proofs make it panic (C34, C35).
7. Poseidon's Update rebinds its state: only the first round has an effect (C43).
8. Poseidon and GMiMC pad with zeros: trivial collisions (C44). GMiMC's rounds do
   not mix the words (C45).
9. Each challenge is the hash of one round polynomial only: wrong MiMC statements
   have accepted proofs also in the snark version, with the code's own hash (C66).
   With challenges bound to the transcript the protocol is sound (C67).
10. A semaphore of 0 tokens blocks for ever, chunk ranges for 0 cores panic (C15, C17).
11. The sum-check provers overwrite the tables given to them (C54).
12. A hasher that is not initialised loops for ever (C68).
13. snark/polynomial/eq_test.go:38 loops over the tests instead of the elements of
    a test: right for square sizes only (C70).
14. TestGKR and TestMultiBGs pass only because each chunk holds one instance: with
    two, the indexing of layers.go:91 makes Assign panic (C71). Where it does not panic
    the honest run can be rejected (C91).
15. The goroutines of the multi-process benchmark all write _mimcProof without
    synchronisation; with more goroutines than cores it blocks for ever (C72).
16. ProfileTrace does not stop the trace when profile.Start ends the process (C69).
17. Wire indices are not checked: a negative one is entered in the static table as
    another wire, and with 2^32 instances the index of line 91 wraps around (C73).
18. No native test runs a verifier on a wrong proof: one that accepts all passes
    them all (C74).
19. Proofs are malleable: entries after those of the layers are ignored and zeros
    can be appended to the polynomials (C78).
20. Entries of the inputs and outputs that the folding does not reach are ignored:
    longer chunks have the same verdict (C85).
21. The initial point of the GKR test circuit is a variable like any other: outputs
    of which one is right have a witness (C86).
22. AssignFromChunkedBKT does not notice missing values: it leaves variables
    unassigned, unlike Assign, which panics (C87).
23. AllocateMultilinear returns a table without entries for 64 variables or more,
    where `1 << nVars` is 0 (C89).
24. snark/gkr/proof.go:14 fixes the number of layers to that of MiMC: AssertValid
    panics on circuits with fewer, and on longer ones ignores the layers after the
    91st, so that wrong outputs are accepted (C92).

Six small edits (MRepair.v) remove defects 1 to 6 of package gkr and 19: C79.
Deriving the challenges from the whole transcript (MFiat.v) removes C66: C80.

seeded/LOG.jsonl records the wrong programs the theorems were tested against.
How to read it:

* `first_failing_lemmas` is what Coq reported: the lemmas whose scripts failed in
  the build of the wrong program.
* `theorems_failed` is computed from it: the theorems that depend on one of those
  lemmas. It is not a separate refutation of each theorem by the wrong program.
* A rejection shows that a script no longer goes through. Some edits change no
  behaviour and are rejected only because a script is brittle; where that was
  noticed a note says so, but rejected edits were not all reviewed for it.
* `undecided`: the build did not finish in 25 minutes.
* For the edits made by hand `claim` was chosen before the build. For the edits
  made by a generator it is read off `theorems_failed` after the build, so it does
  not predict anything; a survivor then has an empty claim.
* Edits that are not well typed are not listed: they are no wrong programs.
