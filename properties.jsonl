{"id": "C01", "title": "Folding a table fixes its first variable", "statement": "BookKeepingTable.Fold(r) on a table of 2m entries leaves a table of m entries whose i-th entry is (1-r)*old[i] + r*old[i+m]; folding tables of 2^n entries by n challenges always leaves exactly one entry and never panics.", "quantifier": "every table of even length and every field element r", "why_tests_cant": "tests fold one 4-entry table at one point; the claim is about every length and every r", "anchors": ["polynomial/book_keeping.go:Fold", "polynomial/book_keeping.go:middleIndex"]}
{"id": "C02", "title": "Evaluate is the multilinear extension", "statement": "For a table of 2^n values, Evaluate(x1..xn) returns sum over all bit strings b of table[b] * prod_i (b_i ? x_i : 1-x_i) with x1 the most significant bit; at a 0/1 point it returns the table entry with that index. It panics when given more than n coordinates.", "quantifier": "every n, every table of 2^n field elements, every point", "why_tests_cant": "the value is a polynomial identity over a 254-bit field; tests only sample points", "anchors": ["polynomial/book_keeping.go:Evaluate", "polynomial/book_keeping.go:DeepCopy"]}
{"id": "C03", "title": "EvaluateLeftAndRight evaluates at two points sharing a suffix", "statement": "EvaluateLeftAndRight(h', hL, hR) returns the multilinear extension of the table at (hL,h') and at (hR,h').", "quantifier": "every table of 2^(|hL|+|h'|) entries with |hL|=|hR| and all points", "why_tests_cant": "polynomial identity over all tables and points", "anchors": ["polynomial/book_keeping.go:EvaluateLeftAndRight"]}
{"id": "C04", "title": "Folded eq table", "statement": "GetFoldedEqTable(q1..qn) has 2^n entries and its entry at index b is prod_i (b_i ? q_i : 1-q_i); the entries always sum to 1.", "quantifier": "every n and every q", "why_tests_cant": "the only test uses one 4-variable point", "anchors": ["polynomial/eq.go:GetFoldedEqTable"]}
{"id": "C05", "title": "EvalEq agrees with the eq table", "statement": "EvalEq(q,h) = prod_i (q_i h_i + (1-q_i)(1-h_i)); it equals GetFoldedEqTable(q) evaluated at h, is symmetric, is 1 on equal 0/1 points and 0 on different 0/1 points. It panics if h is shorter than q.", "quantifier": "all q, h", "why_tests_cant": "polynomial identity over all points and all n", "anchors": ["polynomial/eq.go:EvalEq", "polynomial/eq.go:GetFoldedEqTable"]}
{"id": "C06", "title": "Chunked eq table is the interleaved split of the eq table", "statement": "For nChunks = 2^k <= 2^n, GetChunkedEqTable(q, nChunks, nCore)[s].Table[u] = GetFoldedEqTable(q).Table[u*nChunks+s], for every number of cores and every goroutine schedule of the table arithmetic it uses; it panics when nChunks is larger than 2^n or is not a power of two.", "quantifier": "all q, all power-of-two chunk counts, all nCore >= 1", "why_tests_cant": "tests compare a handful of entries for three shapes", "anchors": ["polynomial/eq.go:GetChunkedEqTable"]}
{"id": "C07", "title": "Chunked evaluation equals plain evaluation", "statement": "EvaluateChunked(chunks, q) equals Evaluate(q) on the table obtained by interleaving the chunks, for every power-of-two number of chunks, including one.", "quantifier": "all k>=0, all 2^k chunks of 2^m entries, all points", "why_tests_cant": "tests use 2, 16 and 32 chunks; the one-chunk case is never run natively", "anchors": ["polynomial/chunked.go:EvaluateChunked", "polynomial/chunked.go:chunkedEvalRecombine"]}
{"id": "C08", "title": "Chunked two-point evaluation equals plain two-point evaluation", "statement": "EvaluateMixedChunked(chunks, h', hL, hR) equals EvaluateLeftAndRight(h', hL, hR) on the interleaved table; it panics if there are more chunks than 2^|h'|.", "quantifier": "all power-of-two chunk counts, tables and points", "why_tests_cant": "polynomial identity over all tables and points", "anchors": ["polynomial/chunked.go:EvaluateMixedChunked"]}
{"id": "C09", "title": "Interleaved chunks partition a table", "statement": "InterleavedChunk(s, nChunk) for s = 0..nChunk-1 distributes every entry of the table to exactly one chunk: entry u*nChunk+s goes to position u of chunk s, and evaluating the chunks with EvaluateChunked gives the evaluation of the original table.", "quantifier": "every table and every chunk count dividing its length", "why_tests_cant": "must hold for every length and every chunk count", "anchors": ["polynomial/book_keeping.go:InterleavedChunk", "polynomial/chunked.go:EvaluateChunked"]}
{"id": "C10", "title": "EvaluatePolynomial", "statement": "EvaluatePolynomial(c0..cd, x) = sum_i c_i x^i for every non-empty coefficient list and panics on the empty list.", "quantifier": "all coefficient lists and points", "why_tests_cant": "identity over all degrees and points", "anchors": ["polynomial/lagrange.go:EvaluatePolynomial"]}
{"id": "C11", "title": "Interpolation is exact and unique", "statement": "InterpolateOnRange(v0..v(n-1)), for n <= 12, returns n coefficients of a polynomial taking value v_i at i; conversely, if the v_i are the values of a polynomial with at most n coefficients then exactly those coefficients come back. LagrangeCoefficient(n)[l] is 1 at l and 0 at the other points of 0..n-1.", "quantifier": "all value vectors of every supported length; Lagrange bases of every size below the characteristic", "why_tests_cant": "one test looks at one basis polynomial of one size", "anchors": ["polynomial/lagrange.go:InterpolateOnRange", "polynomial/lagrange.go:LagrangeCoefficient", "polynomial/lagrange.go:GetLagrangePolynomial"]}
{"id": "C12", "title": "Interpolation domain limit", "statement": "InterpolateOnRange panics for every vector of more than 12 values, and never for a vector of at most 12 values.", "quantifier": "all value vectors", "why_tests_cant": "ranges over every length", "anchors": ["polynomial/lagrange.go:maxDomainSize", "polynomial/lagrange.go:GetLagrangePolynomial"]}
{"id": "C13", "title": "Table arithmetic is pointwise for every schedule", "statement": "After dst.Add/Sub(left,right) or dst.Mul(lambda,x) the table of dst has the length of the operand and holds the pointwise sum/difference/product of the operands' values at call time, whatever dst held before, also when dst is one of the operands, for every nCore >= 1 and every interleaving of the goroutines, none of which can block forever. Add and Sub panic when the operand lengths differ.", "quantifier": "all tables, all nCore >= 1, all goroutine interleavings", "why_tests_cant": "schedules cannot be enumerated by a unit test; parallel path starts above 4096 entries and is not tested", "anchors": ["polynomial/book_keeping.go:Add", "polynomial/book_keeping.go:Sub", "polynomial/book_keeping.go:Mul"]}
{"id": "C14", "title": "Linear combination of tables", "statement": "LinearCombinationOfBookKeepingTables(t0,t1,a0,a1) returns the table a0*t0[i]+a1*t1[i]; its evaluation at any point is a0*Evaluate(t0)+a1*Evaluate(t1). It overwrites both argument tables (t0 becomes a0*t0, t1 becomes the result).", "quantifier": "all equal-length tables, scalars and points", "why_tests_cant": "linear identity over all inputs; the overwrite is not tested", "anchors": ["polynomial/book_keeping.go:LinearCombinationOfBookKeepingTables"]}
{"id": "C15", "title": "Chunk ranges partition the index interval", "statement": "IntoChunkRanges(nCore,N) returns non-empty consecutive ranges, the first starting at 0, each starting where the previous one ended, the last ending at N; all but the last have the common size max(4096, N/nCore); nothing is returned for N = 0 and nCore = 0 panics.", "quantifier": "all nCore and all N >= 0", "why_tests_cant": "arithmetic claim over all pairs of integers; function is untested", "anchors": ["common/chunks.go:IntoChunkRanges"]}
{"id": "C16", "title": "Integer logarithms", "statement": "For a >= 1, 2^Log2Floor(a) <= a < 2^(Log2Floor(a)+1) and Log2Ceil(a) is the least k with a <= 2^k.", "quantifier": "all positive int values", "why_tests_cant": "test covers 1..9", "anchors": ["common/math.go:Log2Floor", "common/math.go:Log2Ceil"]}
{"id": "C17", "title": "Semaphore bounds concurrency", "statement": "In every interleaving of goroutines that each call Acquire before and Release after their critical section, at most n goroutines are between Acquire and Release of a NewSemaphore(n), Release never blocks, and for n >= 1 some goroutine can always make progress.", "quantifier": "all numbers of goroutines and all interleavings", "why_tests_cant": "interleavings are unbounded; there is no test", "anchors": ["common/semaphore.go:NewSemaphore", "common/semaphore.go:Acquire", "common/semaphore.go:Release", "common/semaphore.go:Close"]}
{"id": "C18", "title": "Batched gate evaluation equals one-by-one evaluation", "statement": "For AddGate, MulGate, CopyGate and CipherGate, EvalManyVL and EvalManyVR write, for every index, exactly the value Eval gives at that index and the in-circuit GnarkEval computes the same function of the values; AddGate is vL+vR, MulGate vL*vR, CopyGate vL, CipherGate vL+(vR+ark)^7.", "quantifier": "all gates of the library and all vectors", "why_tests_cant": "identity over all field elements and vector lengths", "anchors": ["circuit/gates.go:AddGate", "circuit/gates.go:MulGate", "circuit/gates.go:CopyGate", "circuit/gates.go:CipherGate"]}
{"id": "C19", "title": "Declared gate degrees are true upper bounds", "statement": "For each gate of the library, t -> Eval(a+bt, c) is a polynomial of degree at most degHL, t -> Eval(a, c+dt) of degree at most degHR, and t -> Eval(a+bt, c+dt) of degree at most degHPrime, as returned by Degrees(). They are the least degrees that do, in fields with at least 8 distinct multiples of 1.", "quantifier": "all gates of the library and all lines", "why_tests_cant": "statement about polynomials, not values", "anchors": ["circuit/gates.go:Degrees"]}
{"id": "C20", "title": "Combinator", "statement": "EvaluateCombinator(vL,vR,eq,gates,statics) = eq * sum_i statics_i * gate_i(vL,vR); it panics when there are fewer statics than gates.", "quantifier": "all gate lists and values", "why_tests_cant": "identity over all inputs", "anchors": ["circuit/gates.go:EvaluateCombinator"]}
{"id": "C21", "title": "Layer sizes are inferred tightly", "statement": "NewLayer gives BGInputs (BGOutputs) equal to the least b such that every wire's L and R (O) index is below 2^b.", "quantifier": "all wire lists", "why_tests_cant": "ranges over all wirings", "anchors": ["circuit/layers.go:BGInputs", "circuit/layers.go:BGOutputs", "circuit/layers.go:NewLayer"]}
{"id": "C22", "title": "Gate list of a layer is deduplicated", "statement": "Gates(wires) lists each distinct gate ID exactly once, in order of first occurrence.", "quantifier": "all wire lists", "why_tests_cant": "tests never use a layer with two wires of the same gate", "anchors": ["circuit/layers.go:Gates"]}
{"id": "C23", "title": "Static tables encode the wiring", "statement": "GetStaticTable(q)[i] is a table of 4^BGInputs entries whose entry (l,r) is the sum, over the wires of gate i going from (l,r), of eq(q, O) where O is the output index of the wire.", "quantifier": "all layers, all gates of the layer, all q of length BGOutputs", "why_tests_cant": "polynomial identity over all wirings and q", "anchors": ["circuit/layers.go:GetStaticTable"]}
{"id": "C24", "title": "Layer evaluation applies the wiring to every instance", "statement": "Layer.Evaluate maps each chunk, seen as GInputs rows of N instances, to GOutputs rows where row O of instance h is the sum over the wires into O of gate(row L of h, row R of h).", "quantifier": "all layers and all inputs of the right shape", "why_tests_cant": "tests use N = 1 or R = 0 only", "anchors": ["circuit/layers.go:Evaluate"]}
{"id": "C25", "title": "Layer evaluation does not depend on scheduling", "statement": "Layer.Evaluate, and the deep copy of a layer made by LayerAsBKTWithCopy, return the same value for every nCore >= 1 and every interleaving of the per-chunk goroutines; they never deadlock and never use the semaphore after closing it.", "quantifier": "all inputs, nCore >= 1, all interleavings", "why_tests_cant": "interleavings cannot be enumerated by a test", "anchors": ["circuit/layers.go:Evaluate", "circuit/circuit.go:LayerAsBKTWithCopy"]}
{"id": "C26", "title": "Assignment commutes with chunking", "statement": "Circuit.Assign returns the inputs followed by the successive layer values; splitting the inputs into interleaved chunks and assigning gives the interleaved chunks of the unsplit assignment, so results do not depend on the chunk count.", "quantifier": "all circuits, inputs and chunk counts", "why_tests_cant": "ranges over every chunking", "anchors": ["circuit/circuit.go:Assign"]}
{"id": "C27", "title": "GetClaim is the full sum", "statement": "SingleThreadedProver.GetClaim returns sum over h', hL, hR of eq(h') * sum_i static_i(hL,hR) * gate_i(vL(hL,h'), vR(hR,h')); skipping zero static entries does not change it.", "quantifier": "all table shapes and values, all gates", "why_tests_cant": "identity over all tables", "anchors": ["sumcheck/evals.go:GetClaim"]}
{"id": "C28", "title": "Round evaluations are the partial sums", "statement": "GetEvalsOnHL/HR/HPrime return, for t = 0..degree, the sum of the combinator over the remaining boolean variables with the current variable set to t; the polynomial interpolated from them agrees with that partial sum at every field element, not only at the sampled ones.", "quantifier": "all table shapes, gates with truthful degrees, every field element t", "why_tests_cant": "polynomial identity at every point of a 254-bit field", "anchors": ["sumcheck/evals.go:GetEvalsOnHL", "sumcheck/evals.go:GetEvalsOnHR", "sumcheck/evals.go:GetEvalsOnHPrime"]}
{"id": "C29", "title": "Sumcheck completeness", "statement": "For every well-formed prover, the proof made by Prove is accepted by Verifier.Verify for the claim GetClaim; prover and verifier derive the same qL, qR, qPrime; the final claims are the multilinear extensions of the tables at those points; and the verifier's final claim is eq * sum_i static_i * gate_i(vL,vR) of them.", "quantifier": "all bN, bG, tables, gates with truthful degrees at most 10, every challenge function", "why_tests_cant": "two fixed examples in tests", "anchors": ["sumcheck/prover.go:Prove", "sumcheck/verifier.go:Verify"]}
{"id": "C30", "title": "Multi-threaded prover equals single-threaded prover under every schedule", "statement": "MultiThreadedProver.Prove(nCore) returns exactly what SingleThreadedProver.Prove returns on the interleaved tables, for every number of chunks and cores >= 1 and every interleaving; it cannot deadlock, send on or close a closed channel, and every execution terminates.", "quantifier": "all chunk counts, cores and interleavings of goroutines, channels and semaphore", "why_tests_cant": "schedules are unbounded; the test runs a few with nCore = 1", "anchors": ["sumcheck/par.go:Prove", "sumcheck/par.go:RunForChunk", "sumcheck/par.go:ConsumeAccumulate", "sumcheck/par.go:ConsumeMergeProvers", "sumcheck/par.go:Broadcast"]}
{"id": "C31", "title": "Multi-threaded GetClaim", "statement": "MultiThreadedProver.GetClaim(nCore) equals the single-threaded GetClaim on the interleaved tables for every nCore >= 1 and every arrival order of the chunks' results.", "quantifier": "all chunk counts, cores and arrival orders", "why_tests_cant": "arrival orders cannot be enumerated", "anchors": ["sumcheck/par.go:GetClaim", "sumcheck/par.go:GetClaimForChunk"]}
{"id": "C32", "title": "What sumcheck verification checks", "statement": "Verify(claim, proof, bN, bG) accepts exactly when p_0(0)+p_0(1) = claim and p_(i+1)(0)+p_(i+1)(1) = p_i(r_i) for every round, where r_i is the challenge of p_i; then it returns the challenges split as qL, qR, qPrime and the final claim p_last(r_last).", "quantifier": "all claims and proofs with non-empty polynomials and at least 2bG rounds", "why_tests_cant": "equivalence over all proofs", "anchors": ["sumcheck/verifier.go:Verify"]}
{"id": "C33", "title": "Sumcheck soundness up to challenge collisions", "statement": "If Verify accepts a claim that is not the true sum, and the returned final claim is the true value of the combinator at the returned point, then in some round the submitted polynomial differs from the true round polynomial but takes the same value at the challenge derived from it.", "quantifier": "all claims, tables, proofs and challenge functions", "why_tests_cant": "negative claim over all adversarial proofs", "anchors": ["sumcheck/verifier.go:Verify"]}
{"id": "C34", "title": "Sumcheck verification bounds the degree of round polynomials", "statement": "Verify rejects a proof in which some round polynomial has more coefficients than the degree of the sumcheck allows.", "quantifier": "all proofs", "why_tests_cant": "tests only verify honest proofs", "anchors": ["sumcheck/verifier.go:Verify"]}
{"id": "C35", "title": "Verification never crashes on malformed proofs", "statement": "For every proof object, however malformed, the sumcheck and GKR verifiers return a boolean and do not panic.", "quantifier": "all proof objects", "why_tests_cant": "tests only verify honest proofs", "anchors": ["sumcheck/verifier.go:Verify", "gkr/verifier.go:Verify"]}
{"id": "C36", "title": "GKR completeness", "statement": "For every circuit and inputs, the proof produced by NewProver(c, c.Assign(inputs)).Prove(nCore) is accepted by NewVerifier(bN, c).Verify with those inputs and the assigned outputs.", "quantifier": "all circuits whose layers fit together, all inputs, all power-of-two chunk counts, all nCore", "why_tests_cant": "tests run three fixed circuits", "anchors": ["gkr/prover.go:Prove", "gkr/verifier.go:Verify"]}
{"id": "C37", "title": "GKR completeness for the MiMC circuit", "statement": "For the 91-round MiMC circuit, every batch size 2^bN, every power-of-two number of chunks from 2 to 2^bN, and all inputs, the honest proof is accepted with the assigned outputs.", "quantifier": "all bN >= 1, all chunkings, all inputs", "why_tests_cant": "one random batch of size 8 in tests", "anchors": ["examples/mimc.go:CreateMimcCircuit", "gkr/prover.go:Prove", "gkr/verifier.go:Verify"]}
{"id": "C38", "title": "GKR soundness up to challenge collisions", "statement": "If GKR Verify accepts, then the value of the claimed outputs' multilinear extension at the initial point is that of the circuit's true outputs, unless some sumcheck round polynomial or random linear combination in the proof collides with the true one at its derived challenge.", "quantifier": "all circuits, proofs, inputs and outputs", "why_tests_cant": "negative claim over all adversarial proofs", "anchors": ["gkr/verifier.go:Verify"]}
{"id": "C39", "title": "GKR verification binds the outputs", "statement": "Two different claimed output batches cannot both be accepted with the same proof and inputs.", "quantifier": "all proofs, inputs and output batches", "why_tests_cant": "tests never submit wrong outputs", "anchors": ["gkr/verifier.go:Verify", "gkr/prover.go:GetInitialQPrimeAndQ"]}
{"id": "C40", "title": "MiMC circuit computes MiMC", "statement": "For every instance of the batch, assigning the MiMC circuit with inputs (x, k) outputs perm_k(x - k) + k where perm is hash.MimcPermutationInPlace; with x = state + block and k = block this is MimcUpdate minus the old state.", "quantifier": "all inputs, batch sizes and chunkings", "why_tests_cant": "random sampling of one entry in tests", "anchors": ["examples/mimc.go:CreateMimcCircuit", "hash/mimc.go:MimcPermutationInPlace"]}
{"id": "C41", "title": "MiMC hash chains its blocks", "statement": "MimcHash of a concatenation continues from the hash state of the prefix, MimcHash of the empty slice is 0, and for each block the update is state + block + E_block(state) where E is 91 rounds of x -> (x + block + ark_i)^7.", "quantifier": "all messages", "why_tests_cant": "identity over all message lengths", "anchors": ["hash/mimc.go:MimcHash", "hash/mimc.go:MimcUpdateInplace"]}
{"id": "C42", "title": "MiMC permutation is a permutation", "statement": "For every block, MimcPermutationInPlace is a bijection of the field on the state: the S-box x^7 is invertible modulo the BN254 scalar modulus, which is prime.", "quantifier": "all blocks and states", "why_tests_cant": "the field has 2^254 elements", "anchors": ["hash/mimc.go:MimcPermutationInPlace", "hash/poseidon.go:SBoxInplace"]}
{"id": "C43", "title": "Poseidon hash depends on the whole message", "statement": "Changing any word of the message can change PoseidonHasher.Hash: no word position is ignored.", "quantifier": "all message positions", "why_tests_cant": "tests only check that hashing does not crash", "anchors": ["hash/poseidon.go:Hash", "hash/poseidon.go:Update"]}
{"id": "C44", "title": "Padding does not create collisions", "statement": "Messages of different lengths do not collide by padding: Hash(m) differs from Hash(m followed by a zero word), for Poseidon and GMiMC.", "quantifier": "all messages", "why_tests_cant": "tests only check that hashing does not crash", "anchors": ["hash/poseidon.go:Hash", "hash/gmimc.go:Hash"]}
{"id": "C45", "title": "GMiMC round structure", "statement": "InPlaceCircularPermutation rotates the state one position to the left; UpdateInplace computes state + block + (nRounds of add-key-and-constant, S-box on the first word, rotate) and is, for a fixed block and without the feed-forward, a bijection of the state.", "quantifier": "all states, blocks and round counts", "why_tests_cant": "state space is unbounded", "anchors": ["hash/gmimc.go:UpdateInplace", "hash/gmimc.go:InPlaceCircularPermutation"]}
{"id": "C46", "title": "In-circuit multilinear evaluation equals native evaluation", "statement": "MultilinearByValues.Eval and EvalMixed in a constraint system yield the values BookKeepingTable.Evaluate and EvaluateLeftAndRight yield natively, and add no assertion.", "quantifier": "all tables and points", "why_tests_cant": "identity over all inputs", "anchors": ["snark/polynomial/multilinear.go:Eval", "snark/polynomial/multilinear.go:EvalMixed", "snark/polynomial/multilinear.go:Fold"]}
{"id": "C47", "title": "In-circuit univariate and eq gadgets equal native ones", "statement": "Univariate.Eval equals EvaluatePolynomial, ZeroAndOne equals p(0)+p(1), EqEval equals EvalEq.", "quantifier": "all polynomials and points", "why_tests_cant": "identity over all inputs", "anchors": ["snark/polynomial/univariate.go:Eval", "snark/polynomial/univariate.go:ZeroAndOne", "snark/polynomial/eq.go:EqEval"]}
{"id": "C48", "title": "In-circuit MiMC equals native MiMC", "statement": "The MimcHash gadget computes hash.MimcHash of the values of its variables.", "quantifier": "all message lengths and values", "why_tests_cant": "test covers one message", "anchors": ["snark/hash/mimc.go:MimcHash", "hash/mimc.go:MimcHash"]}
{"id": "C49", "title": "In-circuit sumcheck verification equals native verification", "statement": "The constraints added by sumcheck Proof.AssertValid are satisfied exactly when the native Verify accepts the same claim and proof, and then the returned challenges and last claim have the native values.", "quantifier": "all claims and proofs", "why_tests_cant": "equivalence over all proofs", "anchors": ["snark/sumcheck/sumcheck.go:AssertValid", "sumcheck/verifier.go:Verify"]}
{"id": "C50", "title": "In-circuit MiMC description equals the native MiMC circuit", "statement": "The static tables and gates of the in-circuit MiMC description are, at every q, those GetStaticTable and Gates give for the native MiMC circuit, and the allocated proof has exactly the shape of a native proof.", "quantifier": "all layers, all q, all bN", "why_tests_cant": "identity over all q; shapes over all bN", "anchors": ["snark/gkr/mimc.go:CreateMimcCircuit", "snark/gkr/proof.go:AllocateProof", "examples/mimc.go:CreateMimcCircuit"]}
{"id": "C51", "title": "Honest native proofs satisfy the GKR gadget", "statement": "For every batch of inputs the proof of the native prover, assigned with the inputs and outputs, satisfies all constraints of the GKR AssertValid gadget when the initial point is the native one.", "quantifier": "all bN, chunkings and inputs", "why_tests_cant": "one batch of 4 in tests", "anchors": ["snark/gkr/proof.go:AssertValid", "snark/gkr/proof.go:Assign"]}
{"id": "C52", "title": "GKR gadget soundness up to challenge collisions", "statement": "If the constraints of the GKR gadget are satisfied, the claimed outputs' multilinear extension at the initial point is that of the true MiMC outputs, unless a sumcheck round polynomial or linear combination of claims collides with the true one at its derived challenge.", "quantifier": "all witnesses", "why_tests_cant": "negative claim over all adversarial witnesses", "anchors": ["snark/gkr/proof.go:AssertValid"]}
{"id": "C53", "title": "Table operations touch only their own memory", "statement": "Evaluate, EvaluateLeftAndRight, DeepCopy, FunctionEvals and EvaluateChunked leave every existing slice unchanged; Fold changes only the cells of its own table, but does overwrite both halves of the shared backing array.", "quantifier": "all memory states and aliasing patterns", "why_tests_cant": "aliasing patterns are not tested", "anchors": ["polynomial/book_keeping.go", "polynomial/chunked.go"]}
{"id": "C54", "title": "Proving leaves the assignment unchanged", "statement": "gkr Prove does not modify the assignment: proving twice from the same prover gives the same proof. In contrast the sumcheck provers overwrite the tables they were given.", "quantifier": "all memory states", "why_tests_cant": "tests never prove twice", "anchors": ["gkr/prover.go:Prove", "circuit/circuit.go:LayerAsBKTWithCopy", "sumcheck/prover.go:Prove"]}
{"id": "C55", "title": "Cauchy matrices are well defined", "statement": "GenerateMDSMatrix(t) has entries 1/(x_i+y_j) with x_i+y_j non-zero for the generated constants, so MatrixMultiplication by it is invertible for the sizes 2, 4 and 8 used.", "quantifier": "all state vectors", "why_tests_cant": "invertibility ranges over all vectors", "anchors": ["hash/poseidon.go:GenerateMDSMatrix", "hash/poseidon.go:MatrixMultiplication"]}
{"id": "C56", "title": "Pretty printing is faithful", "statement": "PrettyStringFr(x) is a decimal representation of x or of minus x with a minus sign, whichever is shorter, and different elements print differently.", "quantifier": "all field elements", "why_tests_cant": "the field has 2^254 elements", "anchors": ["common/common.go:PrettyStringFr"]}
{"id": "C57", "title": "The GKR gadget and the repaired native verifier agree", "statement": "With the native initial point, the constraints of the GKR AssertValid gadget are satisfied exactly when the native Verify without its early return accepts the same proof, inputs and outputs.", "quantifier": "all bN, chunkings, proofs, inputs, outputs and witnesses", "why_tests_cant": "equivalence over all proofs; the native verifier of the code accepts more", "anchors": ["snark/gkr/proof.go:AssertValid", "gkr/verifier.go:Verify"]}
{"id": "C58", "title": "Few initial points accept wrong outputs", "statement": "If the outputs given to the GKR gadget differ from the MiMC outputs of the inputs, then among the s^bN initial points with coordinates in a set of s values, at most bN*s^(bN-1) admit a satisfying witness without a challenge collision.", "quantifier": "all inputs, wrong outputs, finite coordinate sets and witnesses", "why_tests_cant": "counts over all points and witnesses", "anchors": ["snark/gkr/proof.go:AssertValid"]}
{"id": "C59", "title": "Few challenges per round are bad in the gadget", "statement": "The allocated proof shape bounds every round polynomial, so at each round of each layer a polynomial that differs from the true one agrees with it for at most eight values of the challenge.", "quantifier": "all witnesses, layers, rounds and earlier challenges", "why_tests_cant": "counts over all field elements and adversarial polynomials", "anchors": ["snark/gkr/proof.go:AllocateProof", "snark/sumcheck/sumcheck.go:AllocateProof"]}
{"id": "C60", "title": "Each layer's sum-check claim is the right value of the layer above", "statement": "For a true assignment, the prover built for the last layer claims the multilinear extension of the outputs at (q,q'), and the prover built for an intermediate layer claims lambdaL*V(qL,q')+lambdaR*V(qR,q') for the layer's outputs V; the multi-threaded GetClaim returns this value under every schedule.", "quantifier": "all fields, circuits without repeated gate IDs, chunkings, core counts, points, lambdas and schedules", "why_tests_cant": "quantifies over all points, circuits and interleavings", "anchors": ["gkr/prover.go:InitialRoundSumcheckProver", "gkr/prover.go:IntermediateRoundsSumcheckProver", "sumcheck/par.go:GetClaim"]}
{"id": "C61", "title": "The multi-threaded sum-check prover has no data race", "statement": "In no reachable state of MultiThreadedProver.Prove are two goroutines about to access the same memory cell with one of them writing, provided the tables it was given do not overlap; the read and write sets used are exact in the sense that a step changes no other cell and depends on no other cell.", "quantifier": "all tables, chunk counts, core counts, rounds, schedules and reachable states", "why_tests_cant": "the race detector sees only the schedules that were run", "anchors": ["sumcheck/par.go:Prove", "sumcheck/par.go:RunForChunk", "sumcheck/par.go:ConsumeMergeProvers"]}
{"id": "C62", "title": "The test provers agree on every size and schedule", "statement": "InitializeMultiThreadedProver(bN, 2^c) and InitializeProverForTests(bN) hold the same values for every c <= bN (any other number of chunks panics); their claims and proofs are equal under every schedule and the proof is accepted, i.e. TestMultiThreaded holds for every size, number of chunks and number of cores, not only bN = 8 with 4 chunks.", "quantifier": "all sizes, numbers of chunks and cores, challenge functions and schedules", "why_tests_cant": "the test runs one size, one chunking and the schedules that happen", "anchors": ["sumcheck/testing.go:InitializeMultiThreadedProver", "sumcheck/testing.go:InitializeProverForTests", "sumcheck/par_test.go:TestMultiThreaded"]}
{"id": "C63", "title": "Environment settings are read faithfully", "statement": "GetBN, GetNChunks and GetNProcesses return n exactly when their variable is set to a decimal notation of n that fits in 64 bits and panic otherwise; GetProfiled and GetTraced are true exactly when their variable is \"1\"; no two settings share a variable.", "quantifier": "all environments", "why_tests_cant": "strings are unbounded; there is no test", "anchors": ["common/env.go:GetBN", "common/env.go:GetNChunks", "common/env.go:GetNProcesses", "common/env.go:GetProfiled", "common/env.go:GetTraced"]}
{"id": "C64", "title": "Gate identifiers identify gates", "statement": "The strings returned by ID() of two gates of package circuit are equal exactly when the gates are of the same kind and, for cipher gates, have the same ark.", "quantifier": "all pairs of gates, all arks", "why_tests_cant": "quantifies over all pairs of field elements", "anchors": ["circuit/gates.go:ID"]}
{"id": "C65", "title": "Verification is read-only, whatever append does", "statement": "sumcheck.Verify and gkr.Verify change no memory cell that existed before the call (proof, inputs, outputs), and their answer is that of the value-level verifier, for every capacity the runtime may give to slices grown by append, so whether or not append(nextQL, nextQR...) writes in place; the points returned by sumcheck.Verify lie in new memory and appending to qL touches neither qR nor qPrime.", "quantifier": "all memories, proofs, inputs, outputs (also overlapping), circuits, challenge functions and capacity policies", "why_tests_cant": "the runtime's growth policy is an implementation detail; a test sees one of them, and no test looks for writes", "anchors": ["sumcheck/verifier.go:Verify", "gkr/verifier.go:Verify", "gkr/verifier.go:evaluateStaticTables", "gkr/verifier.go:evaluateStaticTablesLinCombs"]}
{"id": "C66", "title": "A wrong statement has no proof under every hash function", "statement": "For every wrong statement (circuit, inputs, outputs whose claim at the initial point is not that of the true outputs) some challenge function makes every proof rejected: acceptance of a wrong statement must come from the hash, not from the protocol. It holds if each challenge depends on the transcript so far; here each challenge is the hash of one round polynomial only.", "quantifier": "all statements, challenge functions and proofs", "why_tests_cant": "a test uses honest proofs, and at most a few damaged ones, under one hash function; a forged proof must be constructed", "anchors": ["common/challenge.go:GetChallenge", "sumcheck/verifier.go:Verify", "sumcheck/prover.go:Prove", "gkr/verifier.go:Verify", "snark/sumcheck/sumcheck.go:AssertValid", "snark/gkr/proof.go:AssertValid"]}
{"id": "C67", "title": "With challenges chosen after the messages, few challenge vectors accept a wrong statement", "statement": "Take any prover that chooses each round polynomial and each pair of claims knowing only the challenges before it, with the right number of rounds and the right degrees. Of the |S|^N challenge vectors over a set S, at most D * |S|^(N-1) make the verifier accept a wrong claim, where D is the sum of the round degrees plus one for each pair of claims combined: for sumcheck.Verify (last value right), for gkr.Verify on circuits of one layer, for gkr.Verify with the early return removed on all circuits, with D = 1000 + 728 bN for the MiMC circuit.", "quantifier": "all fields, circuits, tables, claims, prover strategies, sets of challenges and challenge functions that give these challenges on the messages sent", "why_tests_cant": "no test can enumerate adaptive provers; the bound is about all of them and about the fraction of challenges of a 254-bit field", "anchors": ["sumcheck/verifier.go:Verify", "gkr/verifier.go:Verify", "common/challenge.go:GetChallenge", "examples/mimc.go:CreateMimcCircuit"]}
{"id": "C68", "title": "Start-up of package hash leaves the six hashers ready", "statement": "init() runs without a panic and sets the round constants and the six Poseidon and GMiMC hashers to the intended parameters. After it, the block loop of Hash ends on every message with the value of the hash specification. initPoseidon run before initArk panics. A hasher left at its zero value loops for ever on every message that is not empty, and panics on the empty one.", "quantifier": "all messages, hashers and reachable states of the block loop", "why_tests_cant": "tests run after init, on a few messages; a loop that never ends cannot be observed by running it", "anchors": ["hash/hash.go:init", "hash/ark.go:initArk", "hash/poseidon.go:initPoseidon", "hash/poseidon.go:newPoseidonHasher", "hash/poseidon.go:Hash", "hash/gmimc.go:initGMimc", "hash/gmimc.go:Hash"]}
{"id": "C69", "title": "ProfileTrace stops what it starts; the random arrays use each draw once", "statement": "ProfileTrace calls fn once if the set-up succeeds and never otherwise. Whatever call returns or panics, unless the process ends, everything started is stopped exactly once, in the opposite order, and no panic is swallowed. RandomFrArray and RandomFrDoubleSlice return the next draws of the source in order, each used once. NewMultiThreadedProver keeps its arguments and computes the degrees that every sub-prover computes again.", "quantifier": "all outcomes (return, panic, exit) of every call, both flags, all random sources and sizes, all gates and tables", "why_tests_cant": "no test makes os.Create, trace.Start or the benchmarked function fail, and random arrays have no expected value", "anchors": ["common/profiling.go:ProfileTrace", "common/common.go:RandomFrArray", "common/common.go:RandomFrDoubleSlice", "sumcheck/par.go:NewMultiThreadedProver"]}
{"id": "C70", "title": "The test circuits of package snark check what the native functions compute", "statement": "Each test circuit (eq, MiMC hash, multilinear, univariate, sumcheck) compiles for every size and is solved by exactly the values for which the native function returns the expected ones. The hash, multilinear and sumcheck tests pass for every size and all inputs. TestEq passes when the number of tests equals the number of elements of a test; with fewer tests Assign leaves variables without a value and the test fails on right values, with more tests Assign panics.", "quantifier": "all sizes, all fields, all input vectors, every assignment of the wires", "why_tests_cant": "the tests run at one size (5 by 5, 4 variables, degree 3, bN = 4) on honest values; they never show that wrong values are refused, and the square size hides the wrong loop range of TestEqCircuit.Assign", "anchors": ["snark/polynomial/eq_test.go:Assign", "snark/polynomial/eq_test.go:Define", "snark/polynomial/multilinear_test.go:Define", "snark/polynomial/univariate_test.go:Define", "snark/hash/mimc_test.go:Define", "snark/hash/mimc_test.go:Assign", "snark/sumcheck/sumcheck_test.go:Define", "snark/sumcheck/sumcheck_test.go:TestSumcheckCircuit"]}
{"id": "C71", "title": "The tests of the native packages pass for every size and value they could have been given, or panic", "statement": "The tests of polynomial, sumcheck, gkr, examples and common, with their fixed sizes and random values made parameters, pass for all values at all sizes of the right shape: linear combination, fold, function evaluation, chunked tables, folded eq table, Lagrange coefficients, sumcheck, GKR, multi-output GKR, MiMC. Outside these sizes they panic: TestFold below four entries, TestChunked with one chunk or too few common coordinates, TestLagrangeCoefficients above domain 12, TestGKR and TestMultiBGs with more than one instance per chunk or with a single chunk, TestMimc with a single chunk. The proof computed by the MiMC benchmark, which is never verified in Go, is accepted.", "quantifier": "all sizes, all values, all challenge functions, all schedules of the provers", "why_tests_cant": "each test runs at one or three sizes on one draw of random values; the sizes are those at which the indexing of layers.go:91 happens to be right", "anchors": ["polynomial/book_keeping_test.go:TestFold", "polynomial/chunk_test.go:TestChunked", "polynomial/eq_test.go:TestGetFoldedEqTable", "polynomial/lagrange_test.go:TestLagrangeCoefficients", "sumcheck/prover_test.go:TestSumcheck", "sumcheck/prover_test.go:TestGetEvals", "gkr/gkr_test.go:TestGKR", "gkr/gkr_test.go:TestMultiBGs", "examples/mimc_test.go:TestMimc", "examples/mimc_test.go:benchmarkMIMCCircuit", "common/math_test.go:TestLog2"]}
{"id": "C72", "title": "The benchmark with several provers: barrier, termination, and a data race on its result", "statement": "With its three wait groups the multi-process MiMC benchmark never lets a goroutine prove before all provers are built and main has signalled; when all calls return, every schedule ends with all goroutines finished and no wait group negative, and the proof left in _mimcProof is one the verifier accepts. All goroutines can be about to write _mimcProof at once, and any of the proofs may stay. With fewer cores or fewer chunks than goroutines the benchmark never proves anything; a negative number of goroutines panics.", "quantifier": "all schedules, all numbers of goroutines, cores and chunks, all random inputs, all challenge functions", "why_tests_cant": "it is a benchmark, run by hand on one machine; the schedule, and so the proof that stays, is different in each run, and nothing reads it", "anchors": ["examples/mimc_test.go:benchmarkMIMCGKRProverMultiProcess", "examples/mimc_test.go:_mimcProof", "examples/mimc_test.go:randomInputs"]}
{"id": "C73", "title": "Go's 64-bit ints: where the sizes, tables and evaluations agree with unbounded integers, and where they wrap", "statement": "With Go's 64-bit two's complement ints (negative values included) and allocation bounded by the address space, Log2Floor and Log2Ceil agree with unbounded integers for every int, IntoChunkRanges for every core count and every N up to 2^62, InterleavedChunk for all arguments (negative ones give a panic or an empty chunk), and GetFoldedEqTable, GetChunkedEqTable, NewLayer and GetStaticTable either panic or give the unbounded result; Layer.Evaluate gives it while R*N*N+N stays within 2^63. Beyond these bounds the code goes wrong without a panic: a chunk range ending before it begins, a layer with output 2^63-1 declared to have two outputs, and, with 2^32 instances, row 0 read in place of row 1. A negative wire index makes Evaluate panic unless the product wraps, and GetStaticTable enters it as another wire.", "quantifier": "all ints, all table sizes, all wires of any sign, all gates, every field, every allocation bound up to 2^62", "why_tests_cant": "no test can allocate tables near the bounds, and the tests use no negative index", "anchors": ["common/math.go:Log2Floor", "common/math.go:Log2Ceil", "common/chunks.go:IntoChunkRanges", "polynomial/eq.go:GetFoldedEqTable", "polynomial/eq.go:GetChunkedEqTable", "polynomial/book_keeping.go:InterleavedChunk", "circuit/layers.go:NewLayer", "circuit/layers.go:GetStaticTable", "circuit/layers.go:Evaluate"]}
{"id": "C74", "title": "What the tests of the native packages notice, and what they do not", "statement": "Run with any functions in place of those under test: TestFold and TestFuncEval pass exactly when the first two entries of one result are the expected ones; TestChunked passes only if five entries and all drawn evaluations agree between the chunked table and the one in one piece, and passes for every table of the right length in place of eq; TestSumcheck passes exactly when the verifier accepts with the prover's challenges and the claims are the evaluations of the tables; TestGetEvals exactly when one claim and nine sums have the expected values; TestGKR and TestMultiBGs exactly when the assignment is the expected one and the proof is accepted; TestMimc only if hash, layer values, the claims of three provers and the verifier agree. A verifier that checks nothing passes all of them: TestSumcheck with one that omits every round check (which accepts wrong claims), TestMimc, TestBenchmarkSetup and the GKR tests with one that always accepts.", "quantifier": "all functions in place of those under test, all sizes, tables, inputs, challenge functions and random values", "why_tests_cant": "a test does not say which wrong programs it lets pass", "anchors": ["polynomial/book_keeping_test.go:TestFold", "polynomial/book_keeping_test.go:TestFuncEval", "polynomial/chunk_test.go:TestChunked", "sumcheck/prover_test.go:TestSumcheck", "sumcheck/prover_test.go:TestGetEvals", "sumcheck/prover_test.go:TestBenchmarkSetup", "gkr/gkr_test.go:TestGKR", "gkr/gkr_test.go:TestMultiBGs", "examples/mimc_test.go:TestMimc"]}
{"id": "C75", "title": "Size of the GKR gadget: three multiplications for each hash, and from how many hashes on it pays", "statement": "The gadget for 2^bN MiMC hashes calls Mul exactly 3*2^bN + 299208*bN + 466268 times and makes 91*bN + 275 assertions, over 3*2^bN + 820*bN + 1274 variables; hashing the messages in the constraint system calls Mul 364 times for each block. So the gadget is the smaller one exactly from bN = 14 on, and takes less than four multiplications for each hash exactly from bN = 23 on. Each piece has its own count: 2^n - 1 for a table of 2^n entries, 3 for each coordinate of eq, one for each coefficient of a polynomial, 365 for each coefficient in a sum-check.", "quantifier": "all sizes bN, all round constants, every field, all constraint systems the gadget is added to, all variables but the constant one", "why_tests_cant": "the README promises 3 constraints for each hash; the benchmark prints the number for one size, and the linear part dominates all sizes that are tested", "anchors": ["README.md", "snark/gkr/proof.go:AssertValid", "snark/gkr/circuit.go:Combine", "snark/gkr/circuit.go:CombineWithLinearComb", "snark/sumcheck/sumcheck.go:AssertValid", "snark/polynomial/multilinear.go:Eval", "snark/polynomial/multilinear.go:EvalMixed", "snark/polynomial/eq.go:EqEval", "snark/polynomial/univariate.go:Eval", "snark/hash/mimc.go:MimcHash", "snark/gkr/mimc_test.go:AllocateGKRMimcTestCircuit"]}
{"id": "C76", "title": "Hashing reads its arguments and writes only memory of its own", "statement": "MimcHash, GetChallenge and the Hash methods of the Poseidon and GMiMC hashers never write a cell of memory that existed before the call, not even for a moment, whatever slices of it the message and the constants are, and return the hash of what these hold; so the message, the hashers and the constants can be shared between calls and goroutines. The three update functions write the state they are given and new cells only, and leave in the state what the list model says - for Poseidon, the first round only, because the local variable is rebound. The matrix of newPoseidonHasher is new memory and serves every later call. State and block must not overlap: GMiMC's update with the same slice twice computes something else. TestHashes passes for every message.", "quantifier": "all memories, all slices in them, overlapping or not unless stated, all messages, all constants, widths and numbers of rounds, every field", "why_tests_cant": "TestHashes only calls the hashers and compares nothing; no test hashes from overlapping slices or looks at the message afterwards", "anchors": ["hash/mimc.go:MimcHash", "hash/mimc.go:MimcUpdateInplace", "hash/mimc.go:MimcPermutationInPlace", "hash/gmimc.go:Hash", "hash/gmimc.go:UpdateInplace", "hash/gmimc.go:InPlaceCircularPermutation", "hash/poseidon.go:Hash", "hash/poseidon.go:Update", "hash/poseidon.go:MatrixMultiplication", "hash/poseidon.go:GenerateMDSMatrix", "hash/poseidon.go:AddArkAndKeysInplace", "hash/poseidon.go:SBoxInplace", "hash/hash_test.go:TestHashes", "common/challenge.go:GetChallenge"]}
{"id": "C77", "title": "Size of the native proofs, and their independence of chunks and threads", "statement": "The prover's proof holds two claims per layer and, for each round, one coefficient more than the degree bound of that round's variable: a number of field elements linear in the number of variables. For the MiMC circuit these are 91 * (14 + 9 * bN) elements for 2^bN hashes, which is less than the 3 * 2^bN elements of inputs and outputs exactly from bN = 12 on. The same inputs give the same proof, element by element, however they are cut into chunks, whatever the number of threads and in whatever order the threads answer.", "quantifier": "all circuits whose layers are well formed, all inputs, all cuts into a power of two of chunks, all positive thread counts, all schedules, all challenge functions, all sizes", "why_tests_cant": "the tests run one chunking per size and never compare two proofs or measure one", "anchors": ["gkr/prover.go:Prove", "gkr/prover.go:NewProver", "sumcheck/par.go:Prove", "sumcheck/prover.go:Prove", "examples/mimc.go:CreateMimcCircuit"]}
{"id": "C78", "title": "Which proofs are accepted: the prover's and, collisions aside, no other", "statement": "Let the early `return true` of gkr/verifier.go:99 be removed. A proof that is accepted and in which no challenge collides is right everywhere: each polynomial is the partial sum it stands for and each claim is the value of its layer at the challenges. The prover's proof is right and has no collision. So with the prover's lengths there is one such proof for given inputs, the prover's; likewise for the sum-check by itself, and in the constraint system the values of the inputs and of the initial point determine those of the whole proof. False without these conditions: the code as it is accepts a proof with a wrong claim about the inputs although no challenge collides; entries after those of the layers are ignored, and zeros can be appended to the polynomials, so proofs are malleable.", "quantifier": "all circuits whose layers are well formed, all inputs, chunkings, thread counts and schedules, all proofs, all challenge functions; uniqueness over the scalar field of BN254", "why_tests_cant": "the tests verify honest proofs only and never try a second proof for the same inputs", "anchors": ["gkr/verifier.go:Verify", "gkr/prover.go:Prove", "sumcheck/verifier.go:Verify", "sumcheck/prover.go:Prove", "sumcheck/par.go:Prove", "snark/gkr/proof.go:AssertValid", "snark/sumcheck/sumcheck.go:AssertValid"]}
{"id": "C79", "title": "Six small edits make the false properties of the circuit, the prover and the verifier true", "statement": "Change six places: record the ID in Gates (circuit/layers.go:135); read inps[wRN+h] (line 91); return inp[0] in chunkedEvalRecombine (polynomial/chunked.go:39); return false at gkr/verifier.go:99; let the caller choose the initial point; check the lengths of the proof before verifying. Then the gate lists are deduplicated (C22), layers and assignments are computed as specified for all wirings (C24, C26), chunked evaluation works for one chunk too (C07, C08), every honest proof of every wiring of library gates is accepted (C36), the GKR verifier never panics and turns down other lengths (C34, C35), an accepted proof shows the value of the outputs at the point unless a challenge collides (C38), wrong outputs pass without a collision at few points only (C39), and proofs are not malleable (C78). Where the code was right the changed code gives the same circuits, assignments, proofs and verdicts. C66 (challenges are hashes of one polynomial only) is not repaired by these edits; see C67.", "quantifier": "all wirings, inputs, chunk counts, points, thread counts, schedules, proofs and challenge functions", "why_tests_cant": "the changed program is not in the repository; a test of it would see finitely many circuits and schedules", "anchors": ["circuit/layers.go:Gates", "circuit/layers.go:Evaluate", "polynomial/chunked.go:chunkedEvalRecombine", "gkr/verifier.go:Verify", "gkr/prover.go:Prove"]}
{"id": "C80", "title": "With challenges derived from the whole transcript no adversary gets a wrong statement accepted, except with small probability", "statement": "Keep the repaired verifier of C79 and derive every challenge, those of the initial point included, from the inputs, the outputs, all the messages so far and the challenges before it. On the challenges of the code this is the verifier of C79. If the hash function is a random oracle, an adversary that asks Q queries, each depending on the answers before, and then gives inputs, outputs and a proof, gets wrong outputs accepted for at most the fraction (Q + N) d / |S| of all sequences of answers from a set S, where N is the number of challenges and d bounds the degrees of the rounds; for the MiMC circuit 8 (Q + 272 + 92 bN) / |S|. And for every hash function whatsoever the true outputs of every circuit have an accepted proof. So this edit removes C66, which every hash function of single messages has.", "quantifier": "all fields, circuits whose layers can be proved, adversaries, numbers of queries, finite sets of answers and (for completeness) all hash functions and inputs", "why_tests_cant": "a bound on all adversaries and all answer sequences; tests run one prover with one hash function", "anchors": ["gkr/verifier.go:Verify", "sumcheck/verifier.go:Verify", "gkr/prover.go:Prove", "common/challenge.go:GetChallenge"]}
{"id": "C81", "title": "Exact domains of the table functions on arbitrary sizes", "statement": "For tables of any length and any arguments: Evaluate panics exactly if the table has fewer than 2^n entries for n coordinates, and otherwise returns the interpolation of the entries found by halving the table (rounded down) once per coordinate; missing coordinates of a power-of-two table are read as zero. EvaluateLeftAndRight likewise, with the longer of its two left parts. InterleavedChunk panics exactly if there are no chunks or its last index is out of range. EvaluateChunked and EvaluateMixedChunked succeed exactly if the chunks have equal lengths, their number is a power of two other than one that the coordinates allow, and the chunks have entries enough. GetChunkedEqTable succeeds exactly if the number of chunks is such a power of two (and there is a core when it is not one). LinearCombination, Add, Sub, Mul and EvalEq succeed exactly under stated conditions on the lengths, and their values are given.", "quantifier": "all fields, tables, coordinates, numbers of chunks and cores", "why_tests_cant": "the tests of the repository use power-of-two tables with matching coordinates only; the conditions range over all lengths", "anchors": ["polynomial/book_keeping.go:Evaluate", "polynomial/book_keeping.go:InterleavedChunk", "polynomial/book_keeping.go:LinearCombinationOfBookKeepingTables", "polynomial/chunked.go:EvaluateChunked", "polynomial/chunked.go:EvaluateMixedChunked", "polynomial/eq.go:GetChunkedEqTable"]}
{"id": "C82", "title": "The verdict of the GKR verifier on every proof object", "statement": "For well-formed circuits and tables of the right shape and every proof object whatsoever, the verifier accepts exactly if (1) every layer passes (its round polynomials answer its claim, there are enough of them, both claims about its inputs are there, and the last value is the one these claims give to the polynomial of the layer), there is no round too many and the claims about the inputs are right, or (2) the layers pass from the top down to one, not the top layer, whose last value is not that of its claims. It returns false exactly if the last value of the top layer does not fit, or some polynomial does not add up after rounds that are in order, or everything passes but the claims about the inputs are wrong. It panics exactly if the first layer from the top that does not pass has no proof, an empty polynomial, too few rounds or a missing claim, or if everything passes with rounds to spare. With return false at gkr/verifier.go:99 case (2) moves from acceptance to rejection and nothing else changes.", "quantifier": "all fields, challenge functions, circuits, inputs, outputs and proof objects", "why_tests_cant": "tests run the verifier on honest proofs; the set of all proof objects is infinite", "anchors": ["gkr/verifier.go:Verify", "gkr/verifier.go:evaluateStaticTables", "gkr/verifier.go:evaluateStaticTablesLinCombs", "sumcheck/verifier.go:Verify"]}
{"id": "C83", "title": "When the concurrent parts return, panic or hang", "statement": "On any tables for which the multi-threaded prover starts its goroutines, every execution is finite. It returns only if every chunk's sub-prover runs as many rounds as main. If those that run do and there is a core, it never hangs: it returns with all goroutines ended and all tokens released, or panics; a chunk without tables makes every execution panic. A chunk with another number of rounds, or no core, means that no execution returns, and there are tables of unequal chunks on which it deadlocks. On tables of the right shape over the scalar field both provers return exactly if the number of chunks is a power of two and the degrees of the gates are at most 10 in the variables that have rounds; otherwise every execution of the multi-threaded prover ends with a panic. GetClaim returns the sum of the chunks' claims if all of them exist and otherwise every execution panics. The goroutines of Layer.Evaluate and of the table functions never hang when there is a core, whatever their bodies do, and panic in every execution when the sequential evaluation does.", "quantifier": "all fields, tables, gates, challenge functions, numbers of chunks and cores, and all schedules", "why_tests_cant": "absence of deadlock and necessity of a panic range over all schedules; the tests run a few on well-formed tables", "anchors": ["sumcheck/par.go:Prove", "sumcheck/par.go:RunForChunk", "sumcheck/par.go:GetClaim", "sumcheck/prover.go:Prove", "circuit/layers.go:Evaluate"]}
{"id": "C84", "title": "The prover and the verifier on any assignment", "statement": "On tables of the right sizes, whatever their contents, and layers on which the sum-check can be started, the gkr prover over the scalar field returns a proof exactly if the degrees of all layers are at most 10 in the variables that have rounds, and panics otherwise. When it returns and there are at least two chunks, the verifier, given that proof with the prover's inputs and any outputs of the right sizes, never panics; it accepts exactly if for every layer the claim about the table above it equals the same claim about the table computed from the one below it, in which each wire is given the sum of the gates listed with its ID, and it rejects otherwise; line 99 of the verifier makes no difference. For the layers of the code each wire therefore counts as many times as there are wires with its gate. With gates listed once every true assignment is accepted. A layer of two or more wires of one gate is accepted only if its claim is zero.", "quantifier": "all circuits, assignments, outputs, challenge functions, numbers of chunks, instances and cores, over the scalar field", "why_tests_cant": "ranges over false assignments and over circuits that no test builds; the tests only prove true assignments of circuits with distinct gates", "anchors": ["gkr/prover.go:Prove", "gkr/verifier.go:Verify", "circuit/layers.go:NewLayer", "circuit/layers.go:Gates", "sumcheck/prover.go:Prove"]}
{"id": "C85", "title": "The verdict of the GKR verifier on inputs and outputs of any shape", "statement": "For circuits whose layers fit together, with any lists of gates, any numbers of variables, inputs, outputs and proof objects of any shape: the verifier panics if the outputs have no value at the initial point (chunks of unequal lengths, a number of chunks that is not a power of two or is one or too large, too few entries). Otherwise its verdict is that of C82, where the claims about the inputs are compared with the values that the table functions give to the inputs at the challenges, and where it panics exactly if, all layers passing, there are no such values. Entries that the folding never reaches are ignored.", "quantifier": "all fields, challenge functions, circuits that fit, inputs, outputs, proof objects and numbers of variables", "why_tests_cant": "the tests give the verifier the tables of the assignment; chunks of other sizes are infinitely many", "anchors": ["gkr/verifier.go:Verify", "polynomial/chunked.go:EvaluateChunked", "polynomial/chunked.go:EvaluateMixedChunked", "sumcheck/verifier.go:Verify"]}
{"id": "C86", "title": "The initial point of the GKR test circuit is not tied to anything", "statement": "The circuit of snark/gkr/mimc_test.go has its initial point as a variable that no constraint fixes. At every initial point and for every inputs and outputs, if the outputs have the right value at the point then the circuit has a witness with them in which no challenge collides. Two tables agree at some point unless they differ by one and the same non-zero constant at every index. Hence the circuit has a witness without collision for exactly the outputs that do not differ from the right ones by such a constant; one right output is enough, and the circuit binds its outputs if and only if it has one instance.", "quantifier": "all round constants, numbers of instances, inputs, outputs and initial points", "why_tests_cant": "the test solves the circuit with right outputs and the point of the native prover; it tries no other", "anchors": ["snark/gkr/mimc_test.go:AllocateGKRMimcTestCircuit", "snark/gkr/mimc_test.go:Define", "snark/gkr/proof.go:AssertValid"]}
{"id": "C87", "title": "The gadgets under snark/ on all sizes", "statement": "EvalMixed cuts the table in 2^len(qL) pieces of equal length, ignores the rest, and panics exactly if there are more right than left coordinates or a piece has fewer than 2^len(qPrime) entries; its values are those of the pieces at qPrime, interpolated at qL and qR. That is the native function on tables of a power of two entries with as many left as right coordinates, and another function on a table of six entries. AssignFromChunkedBKT panics exactly if some value has no place in the table, and otherwise leaves the variables for which there is no value unassigned, without a panic. Proof.Assign panics exactly if the first entries of the proof do not have the allocated shape, ignores further entries, and cannot be done twice. The verifier of the MiMC circuit can be built exactly if there are 91 sum-checks and claims, no polynomial is empty, the numbers of rounds do not decrease towards the inputs and suffice for the initial point, and the tables are large enough; the first part of the initial point may have any length.", "quantifier": "all fields, round constants, constraint systems, sizes of tables, points, proofs and variables", "why_tests_cant": "the tests use the allocated sizes only; the other sizes are infinitely many", "anchors": ["snark/polynomial/multilinear.go:EvalMixed", "snark/polynomial/multilinear.go:AssignFromChunkedBKT", "snark/gkr/proof.go:Assign", "snark/gkr/proof.go:AssertValid", "snark/sumcheck/sumcheck.go:Assign", "snark/sumcheck/sumcheck.go:AssertValid", "snark/gkr/circuit.go:Combine"]}
{"id": "C88", "title": "Layers and circuits on all sizes", "statement": "Layer.Evaluate, on any layer and any chunks, panics exactly if a chunk lacks an entry that is read; otherwise it evaluates on each chunk of N instances the layer in which every wire has N times its right row. On chunks of the right size it returns exactly if these rows exist, R*N < 2^BGInputs; if no two wires have the same output, its results are right for all inputs exactly if moreover N = 1 or every wire has its right operand in row 0 or a gate that ignores it (of the gates of the library, CopyGate only). Circuit.Assign returns or panics according to the sizes of the chunks alone, and the assignment is that of the circuit with the multiplied rows. GetStaticTable, on any layer and any point, panics exactly if a wire of a listed gate has no place in the tables; otherwise it fixes the first coordinates of the place of each wire to the point, whatever the length of the point, and gives empty tables for points with too many coordinates.", "quantifier": "all fields, gates, layers (well-formed or not), circuits (fitting or not), chunks of any and of unequal lengths, points of any length", "why_tests_cant": "the tests use well-formed layers with one instance per chunk or right operands in row 0 only", "anchors": ["circuit/layers.go:Evaluate", "circuit/layers.go:GetStaticTable", "circuit/circuit.go:Assign"]}
{"id": "C89", "title": "64-bit arithmetic under snark/ and in the verifiers", "statement": "With Go's 64-bit ints, negative ones included: AllocateUnivariate returns exactly for degrees from -1 whose coefficients can be allocated; AllocateProof of a sumcheck and of the GKR gadget return exactly if bN and bG are not negative, the rounds and the polynomials of the phases that have rounds can be allocated, whatever wraps around, and allocate then the shape of the unbounded model; AllocateMultilinear is right if 2^nVars entries can be allocated, panics for negative and moderately large nVars, but returns a table without entries for nVars >= 64; AssignFromChunkedBKT and EvalMixed agree with the unbounded model; sumcheck.Verify and AssertValid agree with it for bG >= 0 and for a negative bG panic, unless Verify rejects a round before; GetInitialQPrimeAndQ returns exactly for sizes that can be allocated.", "quantifier": "all 64-bit ints, all bounds on allocation up to 2^62, all fields, tables, proofs and constraint systems", "why_tests_cant": "the tests use small non-negative sizes", "anchors": ["snark/polynomial/multilinear.go:AllocateMultilinear", "snark/polynomial/multilinear.go:EvalMixed", "snark/polynomial/multilinear.go:AssignFromChunkedBKT", "snark/polynomial/univariate.go:AllocateUnivariate", "snark/sumcheck/sumcheck.go:AllocateProof", "snark/gkr/proof.go:AllocateProof", "sumcheck/verifier.go:Verify", "gkr/prover.go:GetInitialQPrimeAndQ"]}
{"id": "C90", "title": "The gadgets under snark/ on memory", "statement": "On slices of one memory of variables, which may overlap in any way and have spare capacity, with any growth policy of append: Eval, EvalMixed, the verifier of a sumcheck, Combine, CombineWithLinearComb and AssertValid of a whole proof add exactly the constraints, and return the wires, that the same functions on separate lists do, panic exactly when those do, and change no cell that existed before; the points returned by the verifier of a sumcheck lie in memory of their own. Fold works in place: it overwrites the first half of its slice with the folded table and changes nothing else. For the MiMC circuit AssertValid can be built from slices of allocated variables exactly when their lengths fit, however they overlap.", "quantifier": "all fields, memories, slices within them, growth policies of append, layers, constraint systems", "why_tests_cant": "the tests allocate each table and point on its own, and a write to a shared array would show only for some layouts and capacities", "anchors": ["snark/polynomial/multilinear.go:DeepCopy", "snark/polynomial/multilinear.go:Fold", "snark/polynomial/multilinear.go:Eval", "snark/polynomial/multilinear.go:EvalMixed", "snark/sumcheck/sumcheck.go:AssertValid", "snark/gkr/circuit.go:Combine", "snark/gkr/circuit.go:CombineWithLinearComb", "snark/gkr/proof.go:AssertValid"]}
{"id": "C91", "title": "Whole runs: assign, prove, verify", "statement": "For a circuit built by NewCircuit from gates of the library, on two or more chunks of 2^m instances: Assign panics exactly if a right row times 2^m is no row of the layer below; otherwise Prove returns a proof, and Verify, given the assigned inputs and outputs, returns a verdict, which is acceptance exactly if, layer by layer at the points of the transcript, the tables computed with multiplied right rows have the same extension as the tables in which each wire counts once for each wire of its gate. Runs are accepted for every input and hash function if no layer repeats a gate and chunks have one instance or right operands lie in row 0 or are unused. For circuits of one layer the verdict does not depend on the hash function, and an honest run of such a circuit without repeated gates is rejected with every hash function.", "quantifier": "all wirings of library gates, numbers and sizes of chunks, inputs, hash functions, core counts, and all multi-threaded provers that follow the machine", "why_tests_cant": "the tests run single circuits with right operands in row 0", "anchors": ["gkr/prover.go:Prove", "gkr/verifier.go:Verify", "circuit/circuit.go:Assign", "circuit/circuit.go:NewCircuit"]}
{"id": "C92", "title": "The GKR gadget on circuits other than MiMC's", "statement": "GnarkEval of each gate of package circuit adds constraints for what Eval computes, and every circuit of these gates can be handed to the GKR gadget. The gadget is written for 91 layers: with fewer it panics, and with more it takes the first 91 layers and proof parts for the whole, so that a witness with outputs the circuit does not compute satisfies it. On any well-formed circuit of 91 layers its assertions amount, for every witness of its gates, to acceptance by the native verifier whose mismatches are rejections (two or more chunks, the native initial point) and to acceptance by the repaired verifier (any chunks, any initial point); it is complete for honest proofs of layers without repeated gates, and a satisfied witness has outputs that agree with the circuit's at the initial point unless a challenge hits a root.", "quantifier": "all circuits, gates, constants, constraint systems, witnesses, proofs, points, inputs and outputs", "why_tests_cant": "the tests run the gadget on MiMC with one witness", "anchors": ["snark/gkr/proof.go:AssertValid", "snark/gkr/proof.go:nLayers", "circuit/gates.go:GnarkEval", "snark/gkr/circuit.go:Combine"]}
{"id": "C93", "title": "The gadgets as a frontend with linear expressions and constant folding builds them", "statement": "Let the frontend represent variables by linear expressions in wires, allocate a wire and a constraint only for a product of two expressions that it does not recognise as constants, and rewrite expressions in any way that keeps their values and mentions no new wires. Then every gadget under snark/ panics exactly when it does on wires, its new wires are determined, its results have the same values, and its assertions amount to the same, for every witness of the variables; so a witness extends to the one system iff it extends to the other, and for the GKR gadget acceptance by the native verifier, soundness and completeness carry over. It has the same number of assertions and at most as many other constraints as multiplications were counted, and exactly as many if no constant is recognised: 3*2^bN + 299208*bN + 466268 for 2^bN hashes.", "quantifier": "all frontends that keep values, constants, constraint systems, variables, witnesses, proofs, points, inputs and outputs", "why_tests_cant": "the tests solve one circuit with one version of one frontend, for one witness", "anchors": ["snark/gkr/proof.go:AssertValid", "snark/sumcheck/sumcheck.go:AssertValid", "snark/polynomial/multilinear.go:Eval", "snark/polynomial/eq.go:EqEval", "snark/hash/mimc.go:MimcHash"]}
{"id": "C94", "title": "What is hashed: the challenges of a run", "statement": "The verdict of the GKR verifier (or its panic) depends on the challenge function only at the round polynomials of the proof's sum-checks, one polynomial at a time, and at the pairs of claims of the layers above the first: any two challenge functions that agree there give the same result, for every proof object, circuit, inputs and outputs. In particular neither the statement nor earlier messages are hashed. The prover, single- or multi-threaded, on any assignment of the right sizes, depends on it only at the messages of the proof that it returns, the same ones. In the sum-check every message matters: an answer at which the polynomial takes another value makes the verifier reject or end in another claim. An honest run hashes sum(2*bG + bN) + nLayers - 1 messages: 91*(2 + bN) + 90 for MiMC.", "quantifier": "all challenge functions, proofs, circuits, assignments, inputs and outputs, numbers of threads and schedules", "why_tests_cant": "the tests run one hash function, on honest proofs of a few circuits; which messages a verdict depends on is a statement about all functions", "anchors": ["gkr/verifier.go:Verify", "gkr/prover.go:Prove", "sumcheck/verifier.go:Verify", "sumcheck/prover.go:Prove", "sumcheck/par.go:Prove", "common/challenge.go:GetChallenge"]}
{"id": "C95", "title": "The work of the sum-check: field multiplications", "statement": "Counting every Mul and Square of the single-threaded sum-check prover and of the verifier, with the gates' own: a counting copy of the code returns the same values and panics in the same cases. A fold of a table of m entries costs m/2, an interpolation of e values e*e. A round on hL costs n times the sum over the gates of (lines of the static table that are not zero at both ends) times (one EvalManyVL on e points, plus e), plus e per line of each table; similarly on hR; a round on h' costs e*(Eval + 1) per gate and pair of instances plus e per gate; exactly. All rounds together stay below a bound linear in the number of instances whose factor is the number of non-zero entries of the static tables, which for the tables of a layer is at most its number of wires: 123*2^bN + 99*bN + 69 for each layer of the MiMC circuit but the last, 102*2^bN + 90*bN + 60 for that. The verifier makes exactly 3*(len-1) multiplications per round polynomial when it accepts, at most as many otherwise.", "quantifier": "all fields, gates with a price, tables of the right sizes, static tables, challenge functions, layers, proofs, claims", "why_tests_cant": "a prover that evaluates the zero lines too, or folds twice, returns the same proof; no test of values sees it, and benchmarks time a few sizes", "anchors": ["sumcheck/evals.go:GetEvalsOnHL", "sumcheck/evals.go:GetEvalsOnHR", "sumcheck/evals.go:GetEvalsOnHPrime", "sumcheck/prover.go:Prove", "sumcheck/verifier.go:Verify", "polynomial/book_keeping.go:Fold", "polynomial/lagrange.go:InterpolateOnRange", "circuit/gates.go:EvalManyVL", "circuit/gates.go:EvalManyVR"]}
{"id": "C96", "title": "The work of the GKR verifier", "statement": "Counting every Mul and Square of the GKR verifier, with the hashes of its challenges: a counting copy of the code returns the same verdicts and panics in the same cases. MimcHash costs 364 per word. On any proof with the right number of round polynomials and tables of 2^k chunks of 2^m instances the verifier makes at most, and on a proof that passes every check exactly: 2^(o+bN)-1 for the outputs; 2^(b+bN)+2^(b+m)-2 for the inputs; per layer 3*(len-1)+h*len for each round polynomial, 2*bN for eq, the sum of Eval+1 over the gates plus 1, and 2^(o+2i)-1 per gate for the static tables, the latter twice plus 2 in all layers but the last, which also combine two claims with 2*h+1. An honest run on the MiMC circuit takes exactly 3*2^bN + 2*2^m + 2366*bN + 6336 + 364*(819*bN+1272), which is less than computing the 2^bN permutations again if and only if bN is at least 14.", "quantifier": "all fields, circuits with priced gates, proofs of the right number of rounds, inputs, outputs, challenge functions; for the last part all inputs and numbers of chunks, under every schedule of the prover", "why_tests_cant": "a verifier that folds a table twice or evaluates a polynomial once too often gives the same verdicts; succinctness is a statement about all sizes and benchmarks time a few", "anchors": ["gkr/verifier.go:Verify", "gkr/verifier.go:evaluateStaticTables", "gkr/verifier.go:evaluateStaticTablesLinCombs", "polynomial/chunked.go:EvaluateChunked", "polynomial/chunked.go:EvaluateMixedChunked", "polynomial/book_keeping.go:Evaluate", "polynomial/eq.go:EvalEq", "circuit/gates.go:EvaluateCombinator", "hash/mimc.go:MimcHash", "sumcheck/verifier.go:Verify"]}
{"id": "C97", "title": "The work of preparing a layer for its sum-check", "statement": "Counting every Mul of what the GKR prover computes before the sum-check of a layer: a counting copy of the code returns the same tables and panics in the same cases. The table of eq for bN coordinates takes exactly 2^bN - 1 multiplications, made whole or in any number 2^k of chunks on any number of cores. The wiring tables of a layer at a point take (number of gates)*(2^(o+2i) - 2^(2i)), the combination of two tables two per entry. On an assignment made by the circuit the tables of the last layer take exactly the first two together, those of a layer below 2^bN - 1, twice the wiring and 2*2^(2i) per gate. On the MiMC circuit these are 2^bN - 1 and 2^bN + 31, together with the sum-check of one thread at most 103*2^bN + 90*bN + 59 and 124*2^bN + 99*bN + 100. For all 91 layers that is, from 2^13 instances on, less than 31 times the permutations of all instances.", "quantifier": "all fields, circuits, assignments in 2^k chunks of 2^m instances, points and numbers of cores", "why_tests_cant": "a table of eq that multiplies once more per entry, or once more per chunk, has the same entries; benchmarks time a few sizes and would not tell how the work depends on the number of chunks", "anchors": ["polynomial/eq.go:GetFoldedEqTable", "polynomial/eq.go:GetChunkedEqTable", "polynomial/book_keeping.go:LinearCombinationOfBookKeepingTables", "circuit/layers.go:GetStaticTable", "gkr/prover.go:GetBookKeepingTablesForInitialRound", "gkr/prover.go:GetBookKeepingTablesForIntermediateRound", "gkr/prover.go:InitialRoundSumcheckProver", "gkr/prover.go:IntermediateRoundsSumcheckProver"]}
{"id": "C98", "title": "The work of evaluating a circuit", "statement": "Counting every Mul of Circuit.Assign and of the gates it evaluates: a counting copy of the code returns the same assignments and panics in the same cases. When the inputs are 2^k chunks of 2^m instances, Assign makes exactly 2^(m+k) times the sum over all wires of all layers of the price of one Eval of the gate, independently of k and m for a given sum. On the MiMC circuit this is 364 per instance, exactly what the permutation itself costs, so that evaluating the circuit with all intermediate layers is no dearer than hashing.", "quantifier": "all fields, circuits with priced gates whose layers fit, inputs of the right shape, numbers of chunks", "why_tests_cant": "an evaluation that computes a gate twice per instance gives the same assignment; the benchmarks only time one circuit at a few sizes", "anchors": ["circuit/circuit.go:Assign", "circuit/layers.go:Evaluate", "circuit/gates.go:Eval", "examples/mimc.go:CreateMimcCircuit"]}
{"id": "C99", "title": "The work of the multi-threaded sum-check", "statement": "Counting every Mul of the multi-threaded prover: counting copies of RunForChunk's rounds, of the main goroutine's rounds and of its last rounds return the same and panic in the same cases. On any challenges, hence in any schedule, a sub-prover with 2^m instances makes at most the evaluations and folds of the single-threaded prover on its own tables; the main goroutine makes exactly e^2 multiplications per round, e the number of evaluations, and the single-threaded h' rounds on the merged tables. Altogether 2^k sub-provers are bounded by the single-threaded bound plus 2^k - 1 times the work on a copy of the static tables, a term that does not grow with the number of instances except for one product per gate, evaluation and round of h'.", "quantifier": "all fields, priced gates, chunk tables of matching sizes, challenges, numbers of chunks", "why_tests_cant": "results are the same however often a sub-prover evaluates a line; benchmarks mix the count with scheduling", "anchors": ["sumcheck/par.go:RunForChunk", "sumcheck/par.go:Prove", "sumcheck/par.go:ConsumeMergeProvers", "sumcheck/prover.go:FoldHL"]}
