#!/usr/bin/env python3
# Writes ../properties.jsonl. One entry per semantic property of gkr-mimc.
import json, os
P = []
def p(id, title, statement, quantifier, why, anchors):
    P.append(dict(id=id, title=title, statement=statement, quantifier=quantifier, why_tests_cant=why, anchors=anchors))

p("C01","Folding a table fixes its first variable",
  "BookKeepingTable.Fold(r) on a table of 2m entries leaves a table of m entries whose i-th entry is (1-r)*old[i] + r*old[i+m]; folding tables of 2^n entries by n challenges always leaves exactly one entry and never panics.",
  "every table of even length and every field element r",
  "tests fold one 4-entry table at one point; the claim is about every length and every r",
  ["polynomial/book_keeping.go:Fold","polynomial/book_keeping.go:middleIndex"])
p("C02","Evaluate is the multilinear extension",
  "For a table of 2^n values, Evaluate(x1..xn) returns sum over all bit strings b of table[b] * prod_i (b_i ? x_i : 1-x_i) with x1 the most significant bit; at a 0/1 point it returns the table entry with that index. It panics when given more than n coordinates.",
  "every n, every table of 2^n field elements, every point",
  "the value is a polynomial identity over a 254-bit field; tests only sample points",
  ["polynomial/book_keeping.go:Evaluate","polynomial/book_keeping.go:DeepCopy"])
p("C03","EvaluateLeftAndRight evaluates at two points sharing a suffix",
  "EvaluateLeftAndRight(h', hL, hR) returns the multilinear extension of the table at (hL,h') and at (hR,h').",
  "every table of 2^(|hL|+|h'|) entries with |hL|=|hR| and all points",
  "polynomial identity over all tables and points",
  ["polynomial/book_keeping.go:EvaluateLeftAndRight"])
p("C04","Folded eq table",
  "GetFoldedEqTable(q1..qn) has 2^n entries and its entry at index b is prod_i (b_i ? q_i : 1-q_i); the entries always sum to 1.",
  "every n and every q",
  "the only test uses one 4-variable point",
  ["polynomial/eq.go:GetFoldedEqTable"])
p("C05","EvalEq agrees with the eq table",
  "EvalEq(q,h) = prod_i (q_i h_i + (1-q_i)(1-h_i)); it equals GetFoldedEqTable(q) evaluated at h, is symmetric, is 1 on equal 0/1 points and 0 on different 0/1 points. It panics if h is shorter than q.",
  "all q, h",
  "polynomial identity over all points and all n",
  ["polynomial/eq.go:EvalEq","polynomial/eq.go:GetFoldedEqTable"])
p("C06","Chunked eq table is the interleaved split of the eq table",
  "For nChunks = 2^k <= 2^n, GetChunkedEqTable(q, nChunks, nCore)[s].Table[u] = GetFoldedEqTable(q).Table[u*nChunks+s], for every number of cores and every goroutine schedule of the table arithmetic it uses; it panics when nChunks is larger than 2^n or is not a power of two.",
  "all q, all power-of-two chunk counts, all nCore >= 1",
  "tests compare a handful of entries for three shapes",
  ["polynomial/eq.go:GetChunkedEqTable"])
p("C07","Chunked evaluation equals plain evaluation",
  "EvaluateChunked(chunks, q) equals Evaluate(q) on the table obtained by interleaving the chunks, for every power-of-two number of chunks, including one.",
  "all k>=0, all 2^k chunks of 2^m entries, all points",
  "tests use 2, 16 and 32 chunks; the one-chunk case is never run natively",
  ["polynomial/chunked.go:EvaluateChunked","polynomial/chunked.go:chunkedEvalRecombine"])
p("C08","Chunked two-point evaluation equals plain two-point evaluation",
  "EvaluateMixedChunked(chunks, h', hL, hR) equals EvaluateLeftAndRight(h', hL, hR) on the interleaved table; it panics if there are more chunks than 2^|h'|.",
  "all power-of-two chunk counts, tables and points",
  "polynomial identity over all tables and points",
  ["polynomial/chunked.go:EvaluateMixedChunked"])
p("C09","Interleaved chunks partition a table",
  "InterleavedChunk(s, nChunk) for s = 0..nChunk-1 distributes every entry of the table to exactly one chunk: entry u*nChunk+s goes to position u of chunk s, and evaluating the chunks with EvaluateChunked gives the evaluation of the original table.",
  "every table and every chunk count dividing its length",
  "must hold for every length and every chunk count",
  ["polynomial/book_keeping.go:InterleavedChunk","polynomial/chunked.go:EvaluateChunked"])
p("C10","EvaluatePolynomial",
  "EvaluatePolynomial(c0..cd, x) = sum_i c_i x^i for every non-empty coefficient list and panics on the empty list.",
  "all coefficient lists and points", "identity over all degrees and points",
  ["polynomial/lagrange.go:EvaluatePolynomial"])
p("C11","Interpolation is exact and unique",
  "InterpolateOnRange(v0..v(n-1)), for n <= 12, returns n coefficients of a polynomial taking value v_i at i; conversely, if the v_i are the values of a polynomial with at most n coefficients then exactly those coefficients come back. LagrangeCoefficient(n)[l] is 1 at l and 0 at the other points of 0..n-1.",
  "all value vectors of every supported length; Lagrange bases of every size below the characteristic",
  "one test looks at one basis polynomial of one size",
  ["polynomial/lagrange.go:InterpolateOnRange","polynomial/lagrange.go:LagrangeCoefficient","polynomial/lagrange.go:GetLagrangePolynomial"])
p("C12","Interpolation domain limit",
  "InterpolateOnRange panics for every vector of more than 12 values, and never for a vector of at most 12 values.",
  "all value vectors", "ranges over every length",
  ["polynomial/lagrange.go:maxDomainSize","polynomial/lagrange.go:GetLagrangePolynomial"])
p("C13","Table arithmetic is pointwise for every schedule",
  "After dst.Add/Sub(left,right) or dst.Mul(lambda,x) the table of dst has the length of the operand and holds the pointwise sum/difference/product of the operands' values at call time, whatever dst held before, also when dst is one of the operands, for every nCore >= 1 and every interleaving of the goroutines, none of which can block forever. Add and Sub panic when the operand lengths differ.",
  "all tables, all nCore >= 1, all goroutine interleavings",
  "schedules cannot be enumerated by a unit test; parallel path starts above 4096 entries and is not tested",
  ["polynomial/book_keeping.go:Add","polynomial/book_keeping.go:Sub","polynomial/book_keeping.go:Mul"])
p("C14","Linear combination of tables",
  "LinearCombinationOfBookKeepingTables(t0,t1,a0,a1) returns the table a0*t0[i]+a1*t1[i]; its evaluation at any point is a0*Evaluate(t0)+a1*Evaluate(t1). It overwrites both argument tables (t0 becomes a0*t0, t1 becomes the result).",
  "all equal-length tables, scalars and points", "linear identity over all inputs; the overwrite is not tested",
  ["polynomial/book_keeping.go:LinearCombinationOfBookKeepingTables"])
p("C15","Chunk ranges partition the index interval",
  "IntoChunkRanges(nCore,N) returns non-empty consecutive ranges, the first starting at 0, each starting where the previous one ended, the last ending at N; all but the last have the common size max(4096, N/nCore); nothing is returned for N = 0 and nCore = 0 panics.",
  "all nCore and all N >= 0", "arithmetic claim over all pairs of integers; function is untested",
  ["common/chunks.go:IntoChunkRanges"])
p("C16","Integer logarithms",
  "For a >= 1, 2^Log2Floor(a) <= a < 2^(Log2Floor(a)+1) and Log2Ceil(a) is the least k with a <= 2^k.",
  "all positive int values", "test covers 1..9",
  ["common/math.go:Log2Floor","common/math.go:Log2Ceil"])
p("C17","Semaphore bounds concurrency",
  "In every interleaving of goroutines that each call Acquire before and Release after their critical section, at most n goroutines are between Acquire and Release of a NewSemaphore(n), Release never blocks, and for n >= 1 some goroutine can always make progress.",
  "all numbers of goroutines and all interleavings", "interleavings are unbounded; there is no test",
  ["common/semaphore.go:NewSemaphore","common/semaphore.go:Acquire","common/semaphore.go:Release","common/semaphore.go:Close"])
p("C18","Batched gate evaluation equals one-by-one evaluation",
  "For AddGate, MulGate, CopyGate and CipherGate, EvalManyVL and EvalManyVR write, for every index, exactly the value Eval gives at that index and the in-circuit GnarkEval computes the same function of the values; AddGate is vL+vR, MulGate vL*vR, CopyGate vL, CipherGate vL+(vR+ark)^7.",
  "all gates of the library and all vectors", "identity over all field elements and vector lengths",
  ["circuit/gates.go:AddGate","circuit/gates.go:MulGate","circuit/gates.go:CopyGate","circuit/gates.go:CipherGate"])
p("C19","Declared gate degrees are true upper bounds",
  "For each gate of the library, t -> Eval(a+bt, c) is a polynomial of degree at most degHL, t -> Eval(a, c+dt) of degree at most degHR, and t -> Eval(a+bt, c+dt) of degree at most degHPrime, as returned by Degrees().",
  "all gates of the library and all lines", "statement about polynomials, not values",
  ["circuit/gates.go:Degrees"])
p("C20","Combinator",
  "EvaluateCombinator(vL,vR,eq,gates,statics) = eq * sum_i statics_i * gate_i(vL,vR); it panics when there are fewer statics than gates.",
  "all gate lists and values","identity over all inputs",["circuit/gates.go:EvaluateCombinator"])
p("C21","Layer sizes are inferred tightly",
  "NewLayer gives BGInputs (BGOutputs) equal to the least b such that every wire's L and R (O) index is below 2^b.",
  "all wire lists","ranges over all wirings",["circuit/layers.go:BGInputs","circuit/layers.go:BGOutputs","circuit/layers.go:NewLayer"])
p("C22","Gate list of a layer is deduplicated",
  "Gates(wires) lists each distinct gate ID exactly once, in order of first occurrence.",
  "all wire lists","tests never use a layer with two wires of the same gate",["circuit/layers.go:Gates"])
p("C23","Static tables encode the wiring",
  "GetStaticTable(q)[i] is a table of 4^BGInputs entries whose entry (l,r) is the sum, over the wires of gate i going from (l,r), of eq(q, O) where O is the output index of the wire.",
  "all layers, all gates of the layer, all q of length BGOutputs","polynomial identity over all wirings and q",["circuit/layers.go:GetStaticTable"])
p("C24","Layer evaluation applies the wiring to every instance",
  "Layer.Evaluate maps each chunk, seen as GInputs rows of N instances, to GOutputs rows where row O of instance h is the sum over the wires into O of gate(row L of h, row R of h).",
  "all layers and all inputs of the right shape","tests use N = 1 or R = 0 only",["circuit/layers.go:Evaluate"])
p("C25","Layer evaluation does not depend on scheduling",
  "Layer.Evaluate, and the deep copy of a layer made by LayerAsBKTWithCopy, return the same value for every nCore >= 1 and every interleaving of the per-chunk goroutines; they never deadlock and never use the semaphore after closing it.",
  "all inputs, nCore >= 1, all interleavings","interleavings cannot be enumerated by a test",["circuit/layers.go:Evaluate","circuit/circuit.go:LayerAsBKTWithCopy"])
p("C26","Assignment commutes with chunking",
  "Circuit.Assign returns the inputs followed by the successive layer values; splitting the inputs into interleaved chunks and assigning gives the interleaved chunks of the unsplit assignment, so results do not depend on the chunk count.",
  "all circuits, inputs and chunk counts","ranges over every chunking",["circuit/circuit.go:Assign"])
p("C27","GetClaim is the full sum",
  "SingleThreadedProver.GetClaim returns sum over h', hL, hR of eq(h') * sum_i static_i(hL,hR) * gate_i(vL(hL,h'), vR(hR,h')); skipping zero static entries does not change it.",
  "all table shapes and values, all gates","identity over all tables",["sumcheck/evals.go:GetClaim"])
p("C28","Round evaluations are the partial sums",
  "GetEvalsOnHL/HR/HPrime return, for t = 0..degree, the sum of the combinator over the remaining boolean variables with the current variable set to t; the polynomial interpolated from them agrees with that partial sum at every field element, not only at the sampled ones.",
  "all table shapes, gates with truthful degrees, every field element t","polynomial identity at every point of a 254-bit field",["sumcheck/evals.go:GetEvalsOnHL","sumcheck/evals.go:GetEvalsOnHR","sumcheck/evals.go:GetEvalsOnHPrime"])
p("C29","Sumcheck completeness",
  "For every well-formed prover, the proof made by Prove is accepted by Verifier.Verify for the claim GetClaim; prover and verifier derive the same qL, qR, qPrime; the final claims are the multilinear extensions of the tables at those points; and the verifier's final claim is eq * sum_i static_i * gate_i(vL,vR) of them.",
  "all bN, bG, tables, gates with truthful degrees at most 10, every challenge function","two fixed examples in tests",["sumcheck/prover.go:Prove","sumcheck/verifier.go:Verify"])
p("C30","Multi-threaded prover equals single-threaded prover under every schedule",
  "MultiThreadedProver.Prove(nCore) returns exactly what SingleThreadedProver.Prove returns on the interleaved tables, for every number of chunks and cores >= 1 and every interleaving; it cannot deadlock, send on or close a closed channel, and every execution terminates.",
  "all chunk counts, cores and interleavings of goroutines, channels and semaphore","schedules are unbounded; the test runs a few with nCore = 1",["sumcheck/par.go:Prove","sumcheck/par.go:RunForChunk","sumcheck/par.go:ConsumeAccumulate","sumcheck/par.go:ConsumeMergeProvers","sumcheck/par.go:Broadcast"])
p("C31","Multi-threaded GetClaim",
  "MultiThreadedProver.GetClaim(nCore) equals the single-threaded GetClaim on the interleaved tables for every nCore >= 1 and every arrival order of the chunks' results.",
  "all chunk counts, cores and arrival orders","arrival orders cannot be enumerated",["sumcheck/par.go:GetClaim","sumcheck/par.go:GetClaimForChunk"])
p("C32","What sumcheck verification checks",
  "Verify(claim, proof, bN, bG) accepts exactly when p_0(0)+p_0(1) = claim and p_(i+1)(0)+p_(i+1)(1) = p_i(r_i) for every round, where r_i is the challenge of p_i; then it returns the challenges split as qL, qR, qPrime and the final claim p_last(r_last).",
  "all claims and proofs with non-empty polynomials and at least 2bG rounds","equivalence over all proofs",["sumcheck/verifier.go:Verify"])
p("C33","Sumcheck soundness up to challenge collisions",
  "If Verify accepts a claim that is not the true sum, and the returned final claim is the true value of the combinator at the returned point, then in some round the submitted polynomial differs from the true round polynomial but takes the same value at the challenge derived from it.",
  "all claims, tables, proofs and challenge functions","negative claim over all adversarial proofs",["sumcheck/verifier.go:Verify"])
p("C34","Sumcheck verification bounds the degree of round polynomials",
  "Verify rejects a proof in which some round polynomial has more coefficients than the degree of the sumcheck allows.",
  "all proofs","tests only verify honest proofs",["sumcheck/verifier.go:Verify"])
p("C35","Verification never crashes on malformed proofs",
  "For every proof object, however malformed, the sumcheck and GKR verifiers return a boolean and do not panic.",
  "all proof objects","tests only verify honest proofs",["sumcheck/verifier.go:Verify","gkr/verifier.go:Verify"])
p("C36","GKR completeness",
  "For every circuit and inputs, the proof produced by NewProver(c, c.Assign(inputs)).Prove(nCore) is accepted by NewVerifier(bN, c).Verify with those inputs and the assigned outputs.",
  "all circuits whose layers fit together, all inputs, all power-of-two chunk counts, all nCore","tests run three fixed circuits",["gkr/prover.go:Prove","gkr/verifier.go:Verify"])
p("C37","GKR completeness for the MiMC circuit",
  "For the 91-round MiMC circuit, every batch size 2^bN, every power-of-two number of chunks from 2 to 2^bN, and all inputs, the honest proof is accepted with the assigned outputs.",
  "all bN >= 1, all chunkings, all inputs","one random batch of size 8 in tests",["examples/mimc.go:CreateMimcCircuit","gkr/prover.go:Prove","gkr/verifier.go:Verify"])
p("C38","GKR soundness up to challenge collisions",
  "If GKR Verify accepts, then the value of the claimed outputs' multilinear extension at the initial point is that of the circuit's true outputs, unless some sumcheck round polynomial or random linear combination in the proof collides with the true one at its derived challenge.",
  "all circuits, proofs, inputs and outputs","negative claim over all adversarial proofs",["gkr/verifier.go:Verify"])
p("C39","GKR verification binds the outputs",
  "Two different claimed output batches cannot both be accepted with the same proof and inputs.",
  "all proofs, inputs and output batches","tests never submit wrong outputs",["gkr/verifier.go:Verify","gkr/prover.go:GetInitialQPrimeAndQ"])
p("C40","MiMC circuit computes MiMC",
  "For every instance of the batch, assigning the MiMC circuit with inputs (x, k) outputs perm_k(x - k) + k where perm is hash.MimcPermutationInPlace; with x = state + block and k = block this is MimcUpdate minus the old state.",
  "all inputs, batch sizes and chunkings","random sampling of one entry in tests",["examples/mimc.go:CreateMimcCircuit","hash/mimc.go:MimcPermutationInPlace"])
p("C41","MiMC hash chains its blocks",
  "MimcHash of a concatenation continues from the hash state of the prefix, MimcHash of the empty slice is 0, and for each block the update is state + block + E_block(state) where E is 91 rounds of x -> (x + block + ark_i)^7.",
  "all messages","identity over all message lengths",["hash/mimc.go:MimcHash","hash/mimc.go:MimcUpdateInplace"])
p("C42","MiMC permutation is a permutation",
  "For every block, MimcPermutationInPlace is a bijection of the field on the state: the S-box x^7 is invertible modulo the BN254 scalar modulus, which is prime.",
  "all blocks and states","the field has 2^254 elements",["hash/mimc.go:MimcPermutationInPlace","hash/poseidon.go:SBoxInplace"])
p("C43","Poseidon hash depends on the whole message",
  "Changing any word of the message can change PoseidonHasher.Hash: no word position is ignored.",
  "all message positions","tests only check that hashing does not crash",["hash/poseidon.go:Hash","hash/poseidon.go:Update"])
p("C44","Padding does not create collisions",
  "Messages of different lengths do not collide by padding: Hash(m) differs from Hash(m followed by a zero word), for Poseidon and GMiMC.",
  "all messages","tests only check that hashing does not crash",["hash/poseidon.go:Hash","hash/gmimc.go:Hash"])
p("C45","GMiMC round structure",
  "InPlaceCircularPermutation rotates the state one position to the left; UpdateInplace computes state + block + (nRounds of add-key-and-constant, S-box on the first word, rotate) and is, for a fixed block and without the feed-forward, a bijection of the state.",
  "all states, blocks and round counts","state space is unbounded",["hash/gmimc.go:UpdateInplace","hash/gmimc.go:InPlaceCircularPermutation"])
p("C46","In-circuit multilinear evaluation equals native evaluation",
  "MultilinearByValues.Eval and EvalMixed in a constraint system yield the values BookKeepingTable.Evaluate and EvaluateLeftAndRight yield natively, and add no assertion.",
  "all tables and points","identity over all inputs",["snark/polynomial/multilinear.go:Eval","snark/polynomial/multilinear.go:EvalMixed","snark/polynomial/multilinear.go:Fold"])
p("C47","In-circuit univariate and eq gadgets equal native ones",
  "Univariate.Eval equals EvaluatePolynomial, ZeroAndOne equals p(0)+p(1), EqEval equals EvalEq.",
  "all polynomials and points","identity over all inputs",["snark/polynomial/univariate.go:Eval","snark/polynomial/univariate.go:ZeroAndOne","snark/polynomial/eq.go:EqEval"])
p("C48","In-circuit MiMC equals native MiMC",
  "The MimcHash gadget computes hash.MimcHash of the values of its variables.",
  "all message lengths and values","test covers one message",["snark/hash/mimc.go:MimcHash","hash/mimc.go:MimcHash"])
p("C49","In-circuit sumcheck verification equals native verification",
  "The constraints added by sumcheck Proof.AssertValid are satisfied exactly when the native Verify accepts the same claim and proof, and then the returned challenges and last claim have the native values.",
  "all claims and proofs","equivalence over all proofs",["snark/sumcheck/sumcheck.go:AssertValid","sumcheck/verifier.go:Verify"])
p("C50","In-circuit MiMC description equals the native MiMC circuit",
  "The static tables and gates of the in-circuit MiMC description are, at every q, those GetStaticTable and Gates give for the native MiMC circuit, and the allocated proof has exactly the shape of a native proof.",
  "all layers, all q, all bN","identity over all q; shapes over all bN",["snark/gkr/mimc.go:CreateMimcCircuit","snark/gkr/proof.go:AllocateProof","examples/mimc.go:CreateMimcCircuit"])
p("C51","Honest native proofs satisfy the GKR gadget",
  "For every batch of inputs the proof of the native prover, assigned with the inputs and outputs, satisfies all constraints of the GKR AssertValid gadget when the initial point is the native one.",
  "all bN, chunkings and inputs","one batch of 4 in tests",["snark/gkr/proof.go:AssertValid","snark/gkr/proof.go:Assign"])
p("C52","GKR gadget soundness up to challenge collisions",
  "If the constraints of the GKR gadget are satisfied, the claimed outputs' multilinear extension at the initial point is that of the true MiMC outputs, unless a sumcheck round polynomial or linear combination of claims collides with the true one at its derived challenge.",
  "all witnesses","negative claim over all adversarial witnesses",["snark/gkr/proof.go:AssertValid"])
p("C53","Table operations touch only their own memory",
  "Evaluate, EvaluateLeftAndRight, DeepCopy, FunctionEvals and EvaluateChunked leave every existing slice unchanged; Fold changes only the cells of its own table, but does overwrite both halves of the shared backing array.",
  "all memory states and aliasing patterns","aliasing patterns are not tested",["polynomial/book_keeping.go","polynomial/chunked.go"])
p("C54","Proving leaves the assignment unchanged",
  "gkr Prove does not modify the assignment: proving twice from the same prover gives the same proof. In contrast the sumcheck provers overwrite the tables they were given.",
  "all memory states","tests never prove twice",["gkr/prover.go:Prove","circuit/circuit.go:LayerAsBKTWithCopy","sumcheck/prover.go:Prove"])
p("C55","Cauchy matrices are well defined",
  "GenerateMDSMatrix(t) has entries 1/(x_i+y_j) with x_i+y_j non-zero for the generated constants, so MatrixMultiplication by it is invertible for the sizes 2, 4 and 8 used.",
  "all state vectors","invertibility ranges over all vectors",["hash/poseidon.go:GenerateMDSMatrix","hash/poseidon.go:MatrixMultiplication"])
p("C56","Pretty printing is faithful",
  "PrettyStringFr(x) is a decimal representation of x or of minus x with a minus sign, whichever is shorter, and different elements print differently.",
  "all field elements","the field has 2^254 elements",["common/common.go:PrettyStringFr"])
with open(os.path.join(os.path.dirname(__file__),"..","properties.jsonl"),"w") as f:
    for e in P: f.write(json.dumps(e)+"\n")
print(len(P))
