{
 "C07": [
  "partial",
  "False of the code for a single chunk (EvaluateChunked always panics there, theorem _one_refuted); proved for 2^k chunks, k>=1. C81 says when it panics on chunks of any sizes."
 ],
 "C08": [
  "partial",
  "False of the code for a single chunk (always panics); proved for 2^k chunks, k>=1. C81 says when it panics on chunks of any sizes."
 ],
 "C22": [
  "partial",
  "False of the code: the map of known IDs is never written, so Gates returns one gate per wire (C22_dedup_refuted, C22_exact). The intended list is returned when no two wires share an ID."
 ],
 "C24": [
  "partial",
  "False of the code: layers.go:91 reads inps[w.R*N*N+h] (C24_evaluate_refuted: wrong value; C24_evaluate_panics_refuted: index out of range). Proved with one instance per chunk or all right operands in row 0; C24_exact says what is computed otherwise. C88_right says exactly when it holds."
 ],
 "C26": [
  "partial",
  "False of the code for the same reason as C24 (C26_chunks_refuted: the result depends on the chunk count). Proved for circuits whose right operands are in row 0 (as in the MiMC circuit); the first half also for one instance per chunk. C88_assign_scaled says which assignment is computed instead."
 ],
 "C34": [
  "partial",
  "False of the code: Verify checks neither the degree nor the number of the round polynomials (C34_degree_refuted, C34_rounds_refuted)."
 ],
 "C35": [
  "partial",
  "False of the code: the verifiers panic on malformed proofs (theorems _refuted). C32_panic characterises exactly when sum-check Verify panics; C35_sumcheck_partial and C35_gkr_partial give sufficient conditions under which there is a verdict. C82 and C85 give the verdict or panic of the GKR verifier on every proof object, with inputs and outputs of any shape."
 ],
 "C36": [
  "partial",
  "False of the code for a single chunk (the verifier panics, C36_one_chunk_refuted) and for layers in which two wires share a gate (the honest proof is rejected, C36_same_gate_refuted). Proved for all circuits without these, all inputs, all schedules of the multi-threaded prover; with Assign also under the hypothesis of C26. C84 says exactly which honest proofs are accepted, with any lists of gates and any assignment."
 ],
 "C38": [
  "partial",
  "False of the code for circuits of two or more layers: verifier.go:99 returns true on a failed check (C38_any_inputs_refuted, C38_no_collision_refuted). Proved for one-layer circuits and, for all circuits, for the verifier with that line repaired (C38_repaired_sound). On the MiMC circuit every list of outputs can be proved, with any inputs and whatever the challenge function (C38_mimc_forgery_refuted)."
 ],
 "C39": [
  "partial",
  "False of the code: the initial point is the constant (1,2,3,...), and its first coordinates 1 make the verifier ignore the first half of the rows and instances (C39_ignored, C39_binding_refuted; C39_exact: the outputs accepted with a given accepted proof are exactly those with the same claim at that point)."
 ],
 "C37": [
  "proved",
  "For every challenge function, hence for the code's (C37_challenge)."
 ],
 "C43": [
  "partial",
  "False of the code: poseidon.go rebinds the local variable state after the first matrix multiplication, so only the first round reaches the caller's state and only the words at multiples of t are read (C43_poseidon_exact, C43_ignored_words_refuted, C43_preimage_refuted). C43_read_words_partial: changing one of the words that are read does change the hash."
 ],
 "C44": [
  "partial",
  "False of the code: appending zero words within the last block never changes the hash (both theorems _refuted)."
 ],
 "C66": [
  "partial",
  "False of the code. C66_every_hash_refuted: one wrong statement with an accepted proof under every challenge function. C66_mimc_refuted: the MiMC circuit, all sizes from 4 instances, every hash that separates three zeros from nine zeros; the forged proof has the shape of an honest one. C66_gadget_refuted: the compiled test circuit accepts wrong outputs at every initial point, or the MiMC hash collides. C66_zero_polynomials is the general construction. C66_zeros computes that the constants of the code separate them, so C66_code_refuted and C66_code_gadget_refuted hold of the code with its own hash, without a condition."
 ],
 "C96": [
  "proved",
  "Counts calls of Mul and Square, the hashes included; additions, copies and allocations are not counted. C96_mimc needs at least two chunks, as C36 does."
 ],
 "C97": [
  "proved",
  "Counts calls of Mul; additions, subtractions, copies and allocations are not counted. The sum-check of the last part is the single-threaded one of C95; the multi-threaded prover is not counted."
 ],
 "C98": [
  "proved",
  "Counts calls of Mul and Square; additions, copies and allocations are not counted. The goroutines of Evaluate run one after the other here; C25 shows that their order does not matter."
 ],
 "C99": [
  "proved",
  "The count of a sub-prover is for any list of challenges of the right length, on which it returns (C99_returns); that in every schedule all sub-provers get their challenges is C30. The additions of ConsumeAccumulate and GetClaim are not counted."
 ]
}