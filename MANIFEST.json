{
 "claims": [
  {
   "property": "C01",
   "status": "proved",
   "theorems": [
    "C01_fold",
    "C01_fold_all",
    "C01_fold_never_panics"
   ],
   "note": ""
  },
  {
   "property": "C02",
   "status": "proved",
   "theorems": [
    "C02_evaluate",
    "C02_evaluate_boolean",
    "C02_evaluate_too_many"
   ],
   "note": ""
  },
  {
   "property": "C03",
   "status": "proved",
   "theorems": [
    "C03_evaluate_left_right"
   ],
   "note": ""
  },
  {
   "property": "C04",
   "status": "proved",
   "theorems": [
    "C04_eq_table"
   ],
   "note": ""
  },
  {
   "property": "C05",
   "status": "proved",
   "theorems": [
    "C05_eval_eq",
    "C05_eval_eq_boolean",
    "C05_eval_eq_longer",
    "C05_eval_eq_panics"
   ],
   "note": ""
  },
  {
   "property": "C06",
   "status": "proved",
   "theorems": [
    "C06_chunked_eq_table",
    "C06_chunked_eq_table_panics"
   ],
   "note": ""
  },
  {
   "property": "C07",
   "status": "partial",
   "theorems": [
    "C07_evaluate_chunked_partial",
    "C07_evaluate_chunked_one_refuted"
   ],
   "note": "False of the code for a single chunk (EvaluateChunked always panics there, theorem _one_refuted); proved for 2^k chunks, k>=1. C81 says when it panics on chunks of any sizes."
  },
  {
   "property": "C08",
   "status": "partial",
   "theorems": [
    "C08_evaluate_mixed_chunked_partial",
    "C08_evaluate_mixed_chunked_panics",
    "C08_evaluate_mixed_chunked_one_refuted"
   ],
   "note": "False of the code for a single chunk (always panics); proved for 2^k chunks, k>=1. C81 says when it panics on chunks of any sizes."
  },
  {
   "property": "C09",
   "status": "proved",
   "theorems": [
    "C09_interleaved_chunk",
    "C09_interleaved_chunks_rebuild",
    "C09_chunked_evaluation",
    "C09_zero_chunks_panics"
   ],
   "note": ""
  },
  {
   "property": "C10",
   "status": "proved",
   "theorems": [
    "C10_evaluate_polynomial"
   ],
   "note": ""
  },
  {
   "property": "C11",
   "status": "proved",
   "theorems": [
    "C11_interpolation_exact",
    "C11_interpolation_unique",
    "C11_lagrange_basis"
   ],
   "note": ""
  },
  {
   "property": "C12",
   "status": "proved",
   "theorems": [
    "C12_interpolation_limit"
   ],
   "note": ""
  },
  {
   "property": "C13",
   "status": "proved",
   "theorems": [
    "C13_add",
    "C13_sub",
    "C13_mul",
    "C13_panics",
    "C13_list_versions"
   ],
   "note": ""
  },
  {
   "property": "C14",
   "status": "proved",
   "theorems": [
    "C14_memory",
    "C14_memory_same",
    "C14_memory_panics",
    "C14_linear_combination",
    "C14_linear_combination_eval",
    "C14_linear_combination_panics"
   ],
   "note": ""
  },
  {
   "property": "C15",
   "status": "proved",
   "theorems": [
    "C15_chunk_ranges",
    "C15_chunk_ranges_nonpos",
    "C15_chunk_ranges_empty"
   ],
   "note": ""
  },
  {
   "property": "C16",
   "status": "proved",
   "theorems": [
    "C16_log2_floor",
    "C16_log2_ceil"
   ],
   "note": ""
  },
  {
   "property": "C17",
   "status": "proved",
   "theorems": [
    "C17_bounded",
    "C17_progress",
    "C17_new_semaphore",
    "C17_zero_blocks",
    "C17_close"
   ],
   "note": ""
  },
  {
   "property": "C18",
   "status": "proved",
   "theorems": [
    "C18_batched",
    "C18_functions",
    "C18_short"
   ],
   "note": ""
  },
  {
   "property": "C19",
   "status": "proved",
   "theorems": [
    "C19_degrees",
    "C19_least"
   ],
   "note": ""
  },
  {
   "property": "C20",
   "status": "proved",
   "theorems": [
    "C20_combinator",
    "C20_panics"
   ],
   "note": ""
  },
  {
   "property": "C21",
   "status": "proved",
   "theorems": [
    "C21_inputs",
    "C21_outputs"
   ],
   "note": ""
  },
  {
   "property": "C22",
   "status": "partial",
   "theorems": [
    "C22_dedup_refuted",
    "C22_exact",
    "C22_intended",
    "C22_double_count"
   ],
   "note": "False of the code: the map of known IDs is never written, so Gates returns one gate per wire (C22_dedup_refuted, C22_exact). The intended list is returned when no two wires share an ID."
  },
  {
   "property": "C23",
   "status": "proved",
   "theorems": [
    "C23_static_tables",
    "C23_new_layer_wf"
   ],
   "note": ""
  },
  {
   "property": "C24",
   "status": "partial",
   "theorems": [
    "C24_evaluate_refuted",
    "C24_evaluate_panics_refuted",
    "C24_evaluate_partial",
    "C24_exact"
   ],
   "note": "False of the code: layers.go:91 reads inps[w.R*N*N+h] (C24_evaluate_refuted: wrong value; C24_evaluate_panics_refuted: index out of range). Proved with one instance per chunk or all right operands in row 0; C24_exact says what is computed otherwise. C88_right says exactly when it holds."
  },
  {
   "property": "C25",
   "status": "proved",
   "theorems": [
    "C25_evaluate",
    "C25_copy",
    "C25_panic",
    "C25_zero_cores"
   ],
   "note": ""
  },
  {
   "property": "C26",
   "status": "partial",
   "theorems": [
    "C26_assign_partial",
    "C26_unique",
    "C26_chunks_partial",
    "C26_chunks_refuted"
   ],
   "note": "False of the code for the same reason as C24 (C26_chunks_refuted: the result depends on the chunk count). Proved for circuits whose right operands are in row 0 (as in the MiMC circuit); the first half also for one instance per chunk. C88_assign_scaled says which assignment is computed instead."
  },
  {
   "property": "C27",
   "status": "proved",
   "theorems": [
    "C27_getclaim",
    "C27_cube"
   ],
   "note": ""
  },
  {
   "property": "C28",
   "status": "proved",
   "theorems": [
    "C28_evals",
    "C28_hL_everywhere",
    "C28_hR_everywhere",
    "C28_hPrime_everywhere"
   ],
   "note": ""
  },
  {
   "property": "C29",
   "status": "proved",
   "theorems": [
    "C29_complete",
    "C29_degree_limit"
   ],
   "note": ""
  },
  {
   "property": "C30",
   "status": "proved",
   "theorems": [
    "C30_same_result",
    "C30_total",
    "C30_no_core"
   ],
   "note": ""
  },
  {
   "property": "C31",
   "status": "proved",
   "theorems": [
    "C31_getclaim",
    "C31_no_core"
   ],
   "note": ""
  },
  {
   "property": "C32",
   "status": "proved",
   "theorems": [
    "C32_accept",
    "C32_reject",
    "C32_panic"
   ],
   "note": ""
  },
  {
   "property": "C33",
   "status": "proved",
   "theorems": [
    "C33_sound",
    "C33_few_collisions"
   ],
   "note": ""
  },
  {
   "property": "C34",
   "status": "partial",
   "theorems": [
    "C34_degree_refuted",
    "C34_rounds_refuted"
   ],
   "note": "False of the code: Verify checks neither the degree nor the number of the round polynomials (C34_degree_refuted, C34_rounds_refuted)."
  },
  {
   "property": "C35",
   "status": "partial",
   "theorems": [
    "C35_gkr_refuted",
    "C35_gkr_partial",
    "C35_sumcheck_empty_refuted",
    "C35_sumcheck_short_refuted",
    "C35_sumcheck_partial"
   ],
   "note": "False of the code: the verifiers panic on malformed proofs (theorems _refuted). C32_panic characterises exactly when sum-check Verify panics; C35_sumcheck_partial and C35_gkr_partial give sufficient conditions under which there is a verdict. C82 and C85 give the verdict or panic of the GKR verifier on every proof object, with inputs and outputs of any shape."
  },
  {
   "property": "C36",
   "status": "partial",
   "theorems": [
    "C36_complete_partial",
    "C36_from_assignment_partial",
    "C36_follows",
    "C36_one_chunk_refuted",
    "C36_same_gate_refuted"
   ],
   "note": "False of the code for a single chunk (the verifier panics, C36_one_chunk_refuted) and for layers in which two wires share a gate (the honest proof is rejected, C36_same_gate_refuted). Proved for all circuits without these, all inputs, all schedules of the multi-threaded prover; with Assign also under the hypothesis of C26. C84 says exactly which honest proofs are accepted, with any lists of gates and any assignment."
  },
  {
   "property": "C37",
   "status": "proved",
   "theorems": [
    "C37_mimc_complete",
    "C37_challenge"
   ],
   "note": "For every challenge function, hence for the code's (C37_challenge)."
  },
  {
   "property": "C38",
   "status": "partial",
   "theorems": [
    "C38_repaired_sound",
    "C38_one_layer_partial",
    "C38_code_vs_repaired",
    "C38_lambda_unique",
    "C38_any_inputs_refuted",
    "C38_no_collision_refuted",
    "C38_mimc_forgery_refuted"
   ],
   "note": "False of the code for circuits of two or more layers: verifier.go:99 returns true on a failed check (C38_any_inputs_refuted, C38_no_collision_refuted). Proved for one-layer circuits and, for all circuits, for the verifier with that line repaired (C38_repaired_sound). On the MiMC circuit every list of outputs can be proved, with any inputs and whatever the challenge function (C38_mimc_forgery_refuted)."
  },
  {
   "property": "C39",
   "status": "partial",
   "theorems": [
    "C39_ignored",
    "C39_binding_refuted",
    "C39_exact"
   ],
   "note": "False of the code: the initial point is the constant (1,2,3,...), and its first coordinates 1 make the verifier ignore the first half of the rows and instances (C39_ignored, C39_binding_refuted; C39_exact: the outputs accepted with a given accepted proof are exactly those with the same claim at that point)."
  },
  {
   "property": "C40",
   "status": "proved",
   "theorems": [
    "C40_mimc_circuit",
    "C40_update",
    "C40_panics"
   ],
   "note": ""
  },
  {
   "property": "C41",
   "status": "proved",
   "theorems": [
    "C41_mimc_update",
    "C41_mimc_chain",
    "C41_mimc_concat",
    "C41_mimc_panics"
   ],
   "note": ""
  },
  {
   "property": "C42",
   "status": "proved",
   "theorems": [
    "C42_mimc_bijection",
    "C42_sbox",
    "C42_prime"
   ],
   "note": ""
  },
  {
   "property": "C43",
   "status": "partial",
   "theorems": [
    "C43_poseidon_exact",
    "C43_ignored_words_refuted",
    "C43_preimage_refuted",
    "C43_read_words_partial"
   ],
   "note": "False of the code: poseidon.go rebinds the local variable state after the first matrix multiplication, so only the first round reaches the caller's state and only the words at multiples of t are read (C43_poseidon_exact, C43_ignored_words_refuted, C43_preimage_refuted). C43_read_words_partial: changing one of the words that are read does change the hash."
  },
  {
   "property": "C44",
   "status": "partial",
   "theorems": [
    "C44_poseidon_padding_refuted",
    "C44_gmimc_padding_refuted"
   ],
   "note": "False of the code: appending zero words within the last block never changes the hash (both theorems _refuted)."
  },
  {
   "property": "C45",
   "status": "proved",
   "theorems": [
    "C45_rotate",
    "C45_update",
    "C45_bijection",
    "C45_hash",
    "C45_no_mixing"
   ],
   "note": ""
  },
  {
   "property": "C46",
   "status": "proved",
   "theorems": [
    "C46_eval",
    "C46_eval_mixed"
   ],
   "note": ""
  },
  {
   "property": "C47",
   "status": "proved",
   "theorems": [
    "C47_univariate",
    "C47_zero_and_one",
    "C47_zero_and_one_panics",
    "C47_eq"
   ],
   "note": ""
  },
  {
   "property": "C48",
   "status": "proved",
   "theorems": [
    "C48_mimc",
    "C48_challenge"
   ],
   "note": ""
  },
  {
   "property": "C49",
   "status": "proved",
   "theorems": [
    "C49_sumcheck",
    "C49_panics"
   ],
   "note": ""
  },
  {
   "property": "C50",
   "status": "proved",
   "theorems": [
    "C50_description",
    "C50_panics",
    "C50_assign",
    "C50_assign_shape",
    "C50_assign_table",
    "C50_assign_multilinear"
   ],
   "note": ""
  },
  {
   "property": "C51",
   "status": "proved",
   "theorems": [
    "C51_gadget",
    "C51_test_circuit"
   ],
   "note": ""
  },
  {
   "property": "C52",
   "status": "proved",
   "theorems": [
    "C52_gadget",
    "C52_test_circuit",
    "C52_test_circuit_variables"
   ],
   "note": ""
  },
  {
   "property": "C53",
   "status": "proved",
   "theorems": [
    "C53_fold",
    "C53_deep_copy",
    "C53_function_evals",
    "C53_evaluate",
    "C53_evaluate_left_right",
    "C53_evaluate_chunked",
    "C53_evaluate_mixed_chunked"
   ],
   "note": ""
  },
  {
   "property": "C54",
   "status": "proved",
   "theorems": [
    "C54_gkr_unchanged",
    "C54_mt",
    "C54_single",
    "C54_follows",
    "C54_sumcheck_overwrites",
    "C54_two_copies"
   ],
   "note": ""
  },
  {
   "property": "C55",
   "status": "proved",
   "theorems": [
    "C55_cauchy",
    "C55_product",
    "C55_product_panics"
   ],
   "note": ""
  },
  {
   "property": "C56",
   "status": "proved",
   "theorems": [
    "C56_pretty",
    "C56_shorter",
    "C56_injective",
    "C56_unique",
    "C56_slices",
    "C56_uint64"
   ],
   "note": ""
  },
  {
   "property": "C57",
   "status": "proved",
   "theorems": [
    "C57_gadget_vs_native"
   ],
   "note": ""
  },
  {
   "property": "C58",
   "status": "proved",
   "theorems": [
    "C58_agreement",
    "C58_grid",
    "C58_few_points"
   ],
   "note": ""
  },
  {
   "property": "C59",
   "status": "proved",
   "theorems": [
    "C59_few_challenges",
    "C59_layer"
   ],
   "note": ""
  },
  {
   "property": "C60",
   "status": "proved",
   "theorems": [
    "C60_initial",
    "C60_intermediate"
   ],
   "note": ""
  },
  {
   "property": "C61",
   "status": "proved",
   "theorems": [
    "C61_race_free",
    "C61_writes",
    "C61_reads",
    "C61_shared_table",
    "C61_sub",
    "C61_mul",
    "C61_layer",
    "C61_copy",
    "C61_layer_writes",
    "C61_copy_writes"
   ],
   "note": ""
  },
  {
   "property": "C62",
   "status": "proved",
   "theorems": [
    "C62_same_values",
    "C62_panics",
    "C62_test_multi_threaded",
    "C62_claim"
   ],
   "note": ""
  },
  {
   "property": "C63",
   "status": "proved",
   "theorems": [
    "C63_ints",
    "C63_decimal",
    "C63_unambiguous",
    "C63_flags",
    "C63_names"
   ],
   "note": ""
  },
  {
   "property": "C64",
   "status": "proved",
   "theorems": [
    "C64_id_strings"
   ],
   "note": ""
  },
  {
   "property": "C65",
   "status": "proved",
   "theorems": [
    "C65_gkr",
    "C65_sumcheck",
    "C65_layout"
   ],
   "note": ""
  },
  {
   "property": "C66",
   "status": "partial",
   "theorems": [
    "C66_zero_polynomials",
    "C66_every_hash_refuted",
    "C66_mimc_refuted",
    "C66_gadget_refuted",
    "C66_zeros",
    "C66_code_refuted",
    "C66_code_gadget_refuted"
   ],
   "note": "False of the code. C66_every_hash_refuted: one wrong statement with an accepted proof under every challenge function. C66_mimc_refuted: the MiMC circuit, all sizes from 4 instances, every hash that separates three zeros from nine zeros; the forged proof has the shape of an honest one. C66_gadget_refuted: the compiled test circuit accepts wrong outputs at every initial point, or the MiMC hash collides. C66_zero_polynomials is the general construction. C66_zeros computes that the constants of the code separate them, so C66_code_refuted and C66_code_gadget_refuted hold of the code with its own hash, without a condition."
  },
  {
   "property": "C67",
   "status": "proved",
   "theorems": [
    "C67_sumcheck",
    "C67_gkr",
    "C67_one_layer",
    "C67_mimc"
   ],
   "note": ""
  },
  {
   "property": "C68",
   "status": "proved",
   "theorems": [
    "C68_init",
    "C68_ready",
    "C68_order",
    "C68_zero_value"
   ],
   "note": ""
  },
  {
   "property": "C69",
   "status": "proved",
   "theorems": [
    "C69_profile",
    "C69_stops",
    "C69_fn",
    "C69_returns",
    "C69_leak",
    "C69_random",
    "C69_prover"
   ],
   "note": ""
  },
  {
   "property": "C70",
   "status": "proved",
   "theorems": [
    "C70_eq_circuit",
    "C70_eq_square",
    "C70_eq_rectangular",
    "C70_eq_panics",
    "C70_hash_circuit",
    "C70_hash_test",
    "C70_multilinear_circuit",
    "C70_multilinear_test",
    "C70_univariate_circuit",
    "C70_sumcheck_circuit",
    "C70_sumcheck_test"
   ],
   "note": ""
  },
  {
   "property": "C71",
   "status": "proved",
   "theorems": [
    "C71_linear_combination",
    "C71_fold",
    "C71_fold_short",
    "C71_func_eval",
    "C71_chunked",
    "C71_chunked_mixed_panics",
    "C71_chunked_one_panics",
    "C71_folded_eq_table",
    "C71_lagrange",
    "C71_lagrange_panics",
    "C71_sumcheck",
    "C71_get_evals",
    "C71_benchmark_setup",
    "C71_log2",
    "C71_gkr",
    "C71_multi_bgs",
    "C71_gkr_panics",
    "C71_gkr_one_chunk_panics",
    "C71_mimc",
    "C71_mimc_one_chunk_panics",
    "C71_follows_claim",
    "C71_random_inputs",
    "C71_benchmark_proof"
   ],
   "note": ""
  },
  {
   "property": "C72",
   "status": "proved",
   "theorems": [
    "C72_ends",
    "C72_signal_first",
    "C72_all_ready",
    "C72_panics",
    "C72_panics_iff",
    "C72_setup_stuck",
    "C72_prove_stuck",
    "C72_race",
    "C72_any",
    "C72_negative",
    "C72_mimc",
    "C72_few_cores",
    "C72_few_chunks"
   ],
   "note": ""
  },
  {
   "property": "C73",
   "status": "proved",
   "theorems": [
    "C73_log2",
    "C73_chunks",
    "C73_chunks_refuted",
    "C73_eq_table",
    "C73_chunked_eq_table",
    "C73_interleaved",
    "C73_interleaved_negative",
    "C73_sizes",
    "C73_sizes_refuted",
    "C73_new_layer",
    "C73_static_tables",
    "C73_evaluate",
    "C73_evaluate_refuted",
    "C73_negative",
    "C73_negative_refuted",
    "C73_alias"
   ],
   "note": ""
  },
  {
   "property": "C74",
   "status": "proved",
   "theorems": [
    "C74_fold",
    "C74_func_eval",
    "C74_chunked",
    "C74_chunked_blind",
    "C74_sumcheck",
    "C74_sumcheck_blind",
    "C74_replay_unsound",
    "C74_get_evals",
    "C74_gkr",
    "C74_gkr_blind",
    "C74_mimc",
    "C74_mimc_blind",
    "C74_benchmark",
    "C74_benchmark_blind",
    "C74_log2"
   ],
   "note": ""
  },
  {
   "property": "C75",
   "status": "proved",
   "theorems": [
    "C75_eval",
    "C75_eval_mixed",
    "C75_eq_eval",
    "C75_univariate",
    "C75_hash",
    "C75_sumcheck",
    "C75_gadget",
    "C75_test_circuit",
    "C75_direct",
    "C75_threshold",
    "C75_four"
   ],
   "note": ""
  },
  {
   "property": "C76",
   "status": "proved",
   "theorems": [
    "C76_mimc_hash",
    "C76_gmimc_hash",
    "C76_poseidon_hash",
    "C76_poseidon_made",
    "C76_mimc_update",
    "C76_gmimc_update",
    "C76_poseidon_update",
    "C76_shared",
    "C76_test_hashes"
   ],
   "note": ""
  },
  {
   "property": "C77",
   "status": "proved",
   "theorems": [
    "C77_size",
    "C77_same",
    "C77_mimc_size",
    "C77_mimc_same",
    "C77_smaller"
   ],
   "note": ""
  },
  {
   "property": "C78",
   "status": "proved",
   "theorems": [
    "C78_right",
    "C78_honest",
    "C78_honest_no_collision",
    "C78_only_proof",
    "C78_padding_refuted",
    "C78_code_refuted",
    "C78_sumcheck",
    "C78_lengths_refuted",
    "C78_snark"
   ],
   "note": ""
  },
  {
   "property": "C79",
   "status": "proved",
   "theorems": [
    "C79_gates",
    "C79_layers",
    "C79_evaluate",
    "C79_concurrent",
    "C79_assign",
    "C79_assign_chunks",
    "C79_chunked",
    "C79_mixed",
    "C79_complete",
    "C79_complete_any",
    "C79_total",
    "C79_sound",
    "C79_binding",
    "C79_unique",
    "C79_same_proof",
    "C79_agree_circuit",
    "C79_agree_assign",
    "C79_agree_prove",
    "C79_agree_verify"
   ],
   "note": ""
  },
  {
   "property": "C80",
   "status": "proved",
   "theorems": [
    "C80_code",
    "C80_sound",
    "C80_mimc",
    "C80_numbers",
    "C80_complete",
    "C80_mimc_complete"
   ],
   "note": ""
  },
  {
   "property": "C81",
   "status": "proved",
   "theorems": [
    "C81_evaluate",
    "C81_missing_coordinates",
    "C81_slots",
    "C81_left_right",
    "C81_interleaved_chunk",
    "C81_evaluate_chunked",
    "C81_evaluate_mixed_chunked",
    "C81_chunked_eq_table",
    "C81_linear_combination",
    "C81_add",
    "C81_sub",
    "C81_mul",
    "C81_eval_eq"
   ],
   "note": ""
  },
  {
   "property": "C82",
   "status": "proved",
   "theorems": [
    "C82_code",
    "C82_variant"
   ],
   "note": ""
  },
  {
   "property": "C83",
   "status": "proved",
   "theorems": [
    "C83_must",
    "C83_finite",
    "C83_returns",
    "C83_no_hang",
    "C83_missing",
    "C83_unequal",
    "C83_no_core",
    "C83_exact",
    "C83_single",
    "C83_claim",
    "C83_claim_panics",
    "C83_fork_join",
    "C83_layer",
    "C83_hangs"
   ],
   "note": ""
  },
  {
   "property": "C84",
   "status": "proved",
   "theorems": [
    "C84_prover",
    "C84_follows",
    "C84_verdict",
    "C84_counted",
    "C84_once",
    "C84_library",
    "C84_complete",
    "C84_one_gate"
   ],
   "note": ""
  },
  {
   "property": "C85",
   "status": "proved",
   "theorems": [
    "C85_no_claim",
    "C85_code",
    "C85_variant"
   ],
   "note": ""
  },
  {
   "property": "C86",
   "status": "proved",
   "theorems": [
    "C86_agree",
    "C86_any_point",
    "C86_exact",
    "C86_one_right",
    "C86_binds"
   ],
   "note": ""
  },
  {
   "property": "C87",
   "status": "proved",
   "theorems": [
    "C87_eval_mixed",
    "C87_eval_mixed_native",
    "C87_eval_mixed_refuted",
    "C87_assign_table",
    "C87_assign_complete",
    "C87_assign_proof",
    "C87_assign_once",
    "C87_builds"
   ],
   "note": ""
  },
  {
   "property": "C88",
   "status": "proved",
   "theorems": [
    "C88_evaluate",
    "C88_evaluate_values",
    "C88_shape",
    "C88_right",
    "C88_library",
    "C88_assign",
    "C88_assign_steps",
    "C88_assign_shape",
    "C88_assign_scaled",
    "C88_static",
    "C88_static_entries",
    "C88_static_long"
   ],
   "note": ""
  },
  {
   "property": "C89",
   "status": "proved",
   "theorems": [
    "C89_multilinear",
    "C89_multilinear_refuted",
    "C89_univariate",
    "C89_sumcheck",
    "C89_proof",
    "C89_assign_chunked",
    "C89_eval_mixed",
    "C89_verify",
    "C89_assert",
    "C89_initial"
   ],
   "note": ""
  },
  {
   "property": "C90",
   "status": "proved",
   "theorems": [
    "C90_eval",
    "C90_eval_mixed",
    "C90_fold",
    "C90_sumcheck",
    "C90_combine",
    "C90_combine_lc",
    "C90_gkr",
    "C90_layout",
    "C90_builds"
   ],
   "note": ""
  },
  {
   "property": "C91",
   "status": "proved",
   "theorems": [
    "C91_run",
    "C91_accepts",
    "C91_one_layer",
    "C91_complete_refuted"
   ],
   "note": ""
  },
  {
   "property": "C92",
   "status": "proved",
   "theorems": [
    "C92_gnark_eval",
    "C92_describable",
    "C92_few_layers",
    "C92_more_layers",
    "C92_native",
    "C92_repaired",
    "C92_sound",
    "C92_complete",
    "C92_extra_refuted"
   ],
   "note": ""
  },
  {
   "property": "C93",
   "status": "proved",
   "theorems": [
    "C93_satisfiable",
    "C93_eval",
    "C93_eval_mixed",
    "C93_eq",
    "C93_univariate",
    "C93_zero_and_one",
    "C93_hash",
    "C93_sumcheck",
    "C93_circuit",
    "C93_gadget",
    "C93_native",
    "C93_sound",
    "C93_complete",
    "C93_size",
    "C93_frontends"
   ],
   "note": ""
  },
  {
   "property": "C94",
   "status": "proved",
   "theorems": [
    "C94_sumcheck_verifier",
    "C94_sumcheck_matters",
    "C94_sumcheck_prover",
    "C94_sumcheck_threads",
    "C94_verifier",
    "C94_prover",
    "C94_count",
    "C94_honest_count",
    "C94_mimc_count"
   ],
   "note": ""
  },
  {
   "property": "C95",
   "status": "proved",
   "theorems": [
    "C95_prover_values",
    "C95_verifier_values",
    "C95_add",
    "C95_mul",
    "C95_copy",
    "C95_cipher",
    "C95_fold",
    "C95_interpolate",
    "C95_round_left",
    "C95_round_right",
    "C95_round_prime",
    "C95_prove",
    "C95_layer",
    "C95_layer_two",
    "C95_mimc",
    "C95_mimc_last",
    "C95_verify"
   ],
   "note": ""
  },
  {
   "property": "C96",
   "status": "proved",
   "theorems": [
    "C96_values",
    "C96_hash",
    "C96_permutation",
    "C96_bound",
    "C96_exact",
    "C96_mimc_gates",
    "C96_mimc_sum",
    "C96_mimc",
    "C96_cheaper",
    "C96_dearer"
   ],
   "note": "Counts calls of Mul and Square, the hashes included; additions, copies and allocations are not counted. C96_mimc needs at least two chunks, as C36 does."
  },
  {
   "property": "C97",
   "status": "proved",
   "theorems": [
    "C97_first_values",
    "C97_inner_values",
    "C97_eq_values",
    "C97_eq_table",
    "C97_eq_chunks",
    "C97_wiring",
    "C97_combination",
    "C97_first",
    "C97_inner",
    "C97_mimc",
    "C97_overhead"
   ],
   "note": "Counts calls of Mul; additions, subtractions, copies and allocations are not counted. The sum-check of the last part is the single-threaded one of C95; the multi-threaded prover is not counted."
  },
  {
   "property": "C98",
   "status": "proved",
   "theorems": [
    "C98_values",
    "C98_exact",
    "C98_standard",
    "C98_mimc_wires",
    "C98_mimc"
   ],
   "note": "Counts calls of Mul and Square; additions, copies and allocations are not counted. The goroutines of Evaluate run one after the other here; C25 shows that their order does not matter."
  },
  {
   "property": "C99",
   "status": "proved",
   "theorems": [
    "C99_evals",
    "C99_folds",
    "C99_values",
    "C99_sub_prover",
    "C99_returns",
    "C99_main_round",
    "C99_merged",
    "C99_sent",
    "C99_together",
    "C99_overhead"
   ],
   "note": "The count of a sub-prover is for any list of challenges of the right length, on which it returns (C99_returns); that in every schedule all sub-provers get their challenges is C30. The additions of ConsumeAccumulate and GetClaim are not counted."
  }
 ]
}