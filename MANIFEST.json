{
 "claims": [
  {
   "property": "C01",
   "status": "proved",
   "theorems": [
    "C01_context_empty",
    "C01_context_one",
    "C01_context_compose",
    "C01_context_state_nonneg"
   ],
   "note": "generic over any NextState; base-class ContextState"
  },
  {
   "property": "C02",
   "status": "proved",
   "theorems": [
    "C02_top_k",
    "C02_top_all",
    "C02_errors_exactly",
    "C02_k_equal_n_refuted",
    "C02_sort_exists"
   ],
   "note": "for any sort meeting the std::sort contract; k = n is rejected by the code, shown by the refutation"
  },
  {
   "property": "C03",
   "status": "proved",
   "theorems": [
    "C03_softmax_distribution",
    "C03_softmax_empty_refuted"
   ],
   "note": "real-number arithmetic; empty input is undefined behaviour in the code"
  },
  {
   "property": "C04",
   "status": "proved",
   "theorems": [
    "C04_scores_are_a_distribution",
    "C04_invalid_state_is_start"
   ],
   "note": ""
  },
  {
   "property": "C05",
   "status": "proved",
   "theorems": [
    "C05_scores_are_relative_frequencies"
   ],
   "note": ""
  },
  {
   "property": "C06",
   "status": "proved",
   "theorems": [
    "C06_symbol_score_agrees"
   ],
   "note": ""
  },
  {
   "property": "C07",
   "status": "proved",
   "theorems": [
    "C07_states_are_positions"
   ],
   "note": ""
  },
  {
   "property": "C08",
   "status": "partial",
   "theorems": [
    "C08_accepted_models_are_well_formed",
    "C08_load_is_memory_safe_partial",
    "C08_too_many_rows_refuted",
    "C08_empty_vocab_refuted",
    "C08_non_numeric_vocab_refuted"
   ],
   "note": "the full memory-safety claim is false of the code (three refutations); proved outside those inputs"
  },
  {
   "property": "C09",
   "status": "partial",
   "theorems": [
    "C09_no_overflow",
    "C09_overflow_refuted"
   ],
   "note": "false without a bound on the number of observations, proved under that bound"
  },
  {
   "property": "C10",
   "status": "proved",
   "theorems": [
    "C10_state_pool_is_bounded",
    "C10_returned_states_are_live",
    "C10_empty_context_refuted"
   ],
   "note": "any component models, any history of calls; an empty context is echoed unchecked (refutation)"
  },
  {
   "property": "C11",
   "status": "proved",
   "theorems": [
    "C11_states_are_contexts",
    "C11_next_extends_the_context",
    "C11_component_states",
    "C11_symbol_of_any_state"
   ],
   "note": "while the pool is not full"
  },
  {
   "property": "C12",
   "status": "partial",
   "theorems": [
    "C12_symbol_survives_recycling",
    "C12_components_survive_recycling_partial",
    "C12_self_loop_refuted",
    "C12_update_after_recycling_refuted"
   ],
   "note": "the symbol always survives; component states survive except for a state recycled by its own continuation, where the claim is false of the code (two refutations)"
  },
  {
   "property": "C13",
   "status": "proved",
   "theorems": [
    "C13_mixture",
    "C13_context_mixture",
    "C13_key_order"
   ],
   "note": "exact arithmetic in any ordered field; costs modelled as probabilities"
  },
  {
   "property": "C14",
   "status": "proved",
   "theorems": [
    "C14_static_weights",
    "C14_no_mixing"
   ],
   "note": ""
  },
  {
   "property": "C15",
   "status": "proved",
   "theorems": [
    "C15_bayes_rule"
   ],
   "note": "for components whose answers are repeatable, while the pool is not full"
  },
  {
   "property": "C16",
   "status": "partial",
   "theorems": [
    "C16_weights_defined_partial",
    "C16_defined_weights_refuted"
   ],
   "note": "false of the code when every model gives a recent symbol probability 0 (refutation); proved otherwise"
  },
  {
   "property": "C17",
   "status": "partial",
   "theorems": [
    "C17_memory_safe_partial",
    "C17_initialize_total",
    "C17_invalid_state_refuted",
    "C17_negative_symbol_refuted"
   ],
   "note": "false of the code for learning calls with Bayesian mixing (two refutations); proved for every other call and under the guard; C61_calls_answered gives the same for hubs with PPM, n-gram and word components"
  },
  {
   "property": "C18",
   "status": "proved",
   "theorems": [
    "C18_update_reaches_components",
    "C18_invalid_state_teaches_nobody",
    "C18_states_survive_learning"
   ],
   "note": "while the pool is not full (see C12_update_after_recycling_refuted for a full one)"
  },
  {
   "property": "C19",
   "status": "proved",
   "theorems": [
    "C19_files",
    "C19_models",
    "C19_default",
    "C19_errors",
    "C19_outcome",
    "C19_settings"
   ],
   "note": ""
  },
  {
   "property": "C20",
   "status": "proved",
   "theorems": [
    "C20_scores_are_a_distribution",
    "C20_blank_vocabulary_refuted",
    "C20_empty_text_refuted"
   ],
   "note": "exact arithmetic; inputs with at least one symbol; sfst::NGramCounter through its contract, which reference_counter_meets_contract shows can be met; degenerate files are shown to be undefined behaviour"
  },
  {
   "property": "C21",
   "status": "proved",
   "theorems": [
    "C21_refines_reference",
    "C21_scores_follow_the_formula"
   ],
   "note": "refinement to a reference machine without automaton or cache"
  },
  {
   "property": "C22",
   "status": "proved",
   "theorems": [
    "C22_totals_are_consistent"
   ],
   "note": ""
  },
  {
   "property": "C23",
   "status": "proved",
   "theorems": [
    "C23_update_exclusion",
    "seen_spec"
   ],
   "note": "one symbol with any positive count; sequences of symbols through C21_refines_reference"
  },
  {
   "property": "C24",
   "status": "proved",
   "theorems": [
    "C24_static_model_never_changes"
   ],
   "note": ""
  },
  {
   "property": "C25",
   "status": "proved",
   "theorems": [
    "C25_cache_is_transparent"
   ],
   "note": "also across different cache sizes"
  },
  {
   "property": "C26",
   "status": "proved",
   "theorems": [
    "C26_cache_is_bounded",
    "C26_cache_size_refuted"
   ],
   "note": "the refutation shows how given sizes are replaced or truncated to int"
  },
  {
   "property": "C27",
   "status": "proved",
   "theorems": [
    "C27_calls_succeed",
    "C27_order_is_bounded",
    "C27_unknown_state_refuted"
   ],
   "note": "state numbers the model does not have are undefined behaviour (refutation)"
  },
  {
   "property": "C28",
   "status": "proved",
   "theorems": [
    "C28_next_state_is_longest_suffix"
   ],
   "note": ""
  },
  {
   "property": "C29",
   "status": "proved",
   "theorems": [
    "C29_parameters_in_range",
    "C29_cache_size"
   ],
   "note": "exact arithmetic: NaN options are not modelled"
  },
  {
   "property": "C30",
   "status": "proved",
   "theorems": [
    "C30_score_is_backoff_product",
    "C30_score_is_determined",
    "C30_state_minus_one_refuted"
   ],
   "note": "for models accepted by the sfst checks (external, contract [checks_model], an executable instance is given); the state -1 that the other calls accept is not understood by SymLMScore (refutation)"
  },
  {
   "property": "C31",
   "status": "proved",
   "theorems": [
    "C31_scores_are_a_distribution"
   ],
   "note": "probabilities equal SymLMScore and sum to one, from local normalization"
  },
  {
   "property": "C32",
   "status": "partial",
   "theorems": [
    "C32_unknown_is_unk",
    "C32_without_unk",
    "C32_unknown_without_unk_refuted"
   ],
   "note": "proved with <unk> in the symbol table; without it the claim is false of the code (the label -1 means the back-off arc to the matcher): refutation and exact behaviour"
  },
  {
   "property": "C33",
   "status": "proved",
   "theorems": [
    "C33_next_state",
    "C33_next_state_is_determined",
    "C33_walks_stay_in_the_model",
    "C33_static",
    "C33_component_is_repeatable"
   ],
   "note": ""
  },
  {
   "property": "C34",
   "status": "proved",
   "theorems": [
    "C34_prefix_ranges"
   ],
   "note": "over sessions: models read from storage with sensible symbol tables (word_file_ok: distinct dense labels, non-empty words without spaces, <unk> last if present), any history of calls"
  },
  {
   "property": "C35",
   "status": "proved",
   "theorems": [
    "C35_states_are_places",
    "C35_next_state",
    "C35_typing_is_determined",
    "C35_context_walk"
   ],
   "note": "states are in bijection with places (n-gram context, letters typed), which follow the independent relation [types]"
  },
  {
   "property": "C36",
   "status": "partial",
   "theorems": [
    "C36_predictions",
    "C36_total_is_determined",
    "C36_symbol_score",
    "C36_unknown_word",
    "C36_zero_mass_refuted"
   ],
   "note": "proved whenever the words that can follow have non-zero total mass; when they have none the scores are NaN (refutation)"
  },
  {
   "property": "C37",
   "status": "partial",
   "theorems": [
    "C37_lexicographic",
    "C37_unk_not_last_refuted"
   ],
   "note": "proved when <unk> is absent or the last symbol; otherwise false of the code (line 121 writes the wrong vector): refuted"
  },
  {
   "property": "C38",
   "status": "proved",
   "theorems": [
    "C38_cache_bounded",
    "C38_cache_transparent"
   ],
   "note": ""
  },
  {
   "property": "C39",
   "status": "partial",
   "theorems": [
    "C39_state_used_partial",
    "C39_states_confused_refuted"
   ],
   "note": "holds for states that fit 32 bits; the int64 states of the protocol are truncated to int, so states 2^32 apart are confused (refuted)"
  },
  {
   "property": "C40",
   "status": "partial",
   "theorems": [
    "C40_made_same_reply_partial",
    "C40_made_queries_keep_scores_partial",
    "C40_made_repeated_query_partial",
    "C40_queries_keep_scores_partial",
    "C40_repeated_query_partial",
    "C40_recycling_refuted",
    "C40_stale_history_refuted"
   ],
   "note": "proved while no state is recycled, between updates, for every hub a configuration of well-made models describes (all four kinds, any mixture; the C40_made theorems), and for any component models whose answers queries do not change; refuted for a full pool, and for updates after queries with a Bayesian mixture"
  },
  {
   "property": "C41",
   "status": "proved",
   "theorems": [
    "C41_each_call_once",
    "C41_one_waiting",
    "C41_pending_counts_calls",
    "C41_responsive",
    "C41_idle_means_answered",
    "C41_work_bounded"
   ],
   "note": "for any number of threads and any schedule, under the contract of the gRPC completion queue written out in ServerModel.v"
  },
  {
   "property": "C42",
   "status": "partial",
   "theorems": [
    "C42_returned_means_answered",
    "C42_graceful_partial",
    "C42_end_partial",
    "C42_early_shutdown_refuted",
    "C42_wait_for_pending_refuted"
   ],
   "note": "holds if Shutdown is called after ProcessRequests requested its first calls; an earlier Shutdown makes ProcessRequests use a queue that is shut down (refuted); the wait for pending calls at line 305 does not wait (refuted), what waits is gRPC itself"
  },
  {
   "property": "C43",
   "status": "partial",
   "theorems": [
    "C43_server_tls",
    "C43_server_insecure_iff",
    "C43_client_tls",
    "C43_client_insecure_iff",
    "C43_server_flags",
    "C43_server_flags_config",
    "C43_client_flags",
    "C43_server_tls_without_section_refuted",
    "C43_client_tls_without_section_refuted",
    "C43_server_flags_authority",
    "C43_client_flags_complete",
    "C43_client_flags_config",
    "C43_both_ends_agree",
    "C43_configured_target_dropped_refuted",
    "C43_server_key_flag_ignored_refuted"
   ],
   "note": "holds when the configuration has a TLS section; TLS requested without one gives insecure credentials on both sides (refuted), and the TLS flags of the server program are ignored unless the configuration text selects TLS (refuted)"
  },
  {
   "property": "C44",
   "status": "proved",
   "theorems": [
    "C44_interval",
    "C44_intervals_cover",
    "C44_corners",
    "C44_in_bounds",
    "C44_no_impossible_choice",
    "C44_selects",
    "C44_unnormalized_refuted"
   ],
   "note": "for exact probabilities; when the reply does not sum to one the last entry takes the difference"
  },
  {
   "property": "C45",
   "status": "proved",
   "theorems": [
    "C45_terminates",
    "C45_generates",
    "C45_rank",
    "C45_opening_fails",
    "C45_length_refuted",
    "C45_uninitialized_refuted"
   ],
   "note": "the limit counts bytes and may be overshot by the last symbol"
  },
  {
   "property": "C46",
   "status": "partial",
   "theorems": [
    "C46_k_best",
    "C46_errors",
    "C46_too_many_refuted"
   ],
   "note": "holds for k up to the number of symbols offered; a larger k reads out of bounds (refuted)"
  },
  {
   "property": "C47",
   "status": "partial",
   "theorems": [
    "C47_mean",
    "C47_symbols",
    "C47_errors",
    "C47_finite",
    "C47_empty_text_refuted"
   ],
   "note": "over the real numbers; finite for every text with a line, NaN (0/0) for an empty file (refuted)"
  },
  {
   "property": "C48",
   "status": "partial",
   "theorems": [
    "C48_library_defaults",
    "C48_client_address",
    "C48_client_timeout",
    "C48_server_settings",
    "C48_defaults_idempotent",
    "C48_config_timeout_refuted"
   ],
   "note": "the library keeps the configured timeout; the command line program discards it (refuted)"
  },
  {
   "property": "C49",
   "status": "partial",
   "theorems": [
    "C49_codepoints",
    "C49_errors",
    "C49_distinct_partial",
    "C49_collision_refuted",
    "C49_transducer",
    "C49_transducer_errors",
    "C49_transducer_refuted"
   ],
   "note": "labels stay distinct when the control-character labels handed out to kept symbols are free; otherwise two symbols can get one label (refuted)"
  },
  {
   "property": "C50",
   "status": "proved",
   "theorems": [
    "C50_training_counts",
    "taught_ok"
   ],
   "note": "the n-gram counter is external: proved for every counter that meets counter_contract (PpmRef.v); reference_counter_meets_contract shows the contract can be met"
  },
  {
   "property": "C51",
   "status": "proved",
   "theorems": [
    "C51_file_is_readable",
    "C51_write_then_read"
   ],
   "note": "the file is the automaton itself; serialisation by OpenFst and float rounding are outside the model"
  },
  {
   "property": "C52",
   "status": "partial",
   "theorems": [
    "C52_word_model",
    "C52_context_starts_at_start_refuted"
   ],
   "note": "holds for the word n-gram model, false for the character n-gram model (refuted)"
  },
  {
   "property": "C53",
   "status": "partial",
   "theorems": [
    "C53_unknown_until_space",
    "C53_astray_partial",
    "C53_unknown_first_letter_refuted"
   ],
   "note": "holds when a word goes astray after its first letter; a first letter that begins no word is silently dropped (refuted)"
  },
  {
   "property": "C54",
   "status": "partial",
   "theorems": [
    "C54_states_usable_partial",
    "C54_state_minus_one_refuted"
   ],
   "note": "holds for all states handed out since the model was read; false for the states NextState makes from -1"
  },
  {
   "property": "C55",
   "status": "partial",
   "theorems": [
    "C55_scores_of_unknown_state_partial",
    "C55_update_of_unknown_state_partial",
    "C55_unknown_state_accepted_refuted",
    "C55_update_accepted_refuted",
    "C55_update_out_of_bounds_refuted"
   ],
   "note": "holds for queries without context and for updates far enough outside without a Bayesian mixture; otherwise refuted (accepted, or out-of-bounds access)"
  },
  {
   "property": "C56",
   "status": "partial",
   "theorems": [
    "C56_invalid_update_accepted_refuted"
   ],
   "note": "false of the code: refuted"
  },
  {
   "property": "C57",
   "status": "proved",
   "theorems": [
    "C57_made_update_reply",
    "C57_update_reply"
   ],
   "note": "while the pool is not full, for characters (non-negative symbols); for hubs of well-made models of all four kinds, and for any components whose answers queries do not change"
  },
  {
   "property": "C58",
   "status": "proved",
   "theorems": [
    "C58_one_at_a_time",
    "C58_exclusive",
    "C58_hub_server"
   ],
   "note": ""
  },
  {
   "property": "C59",
   "status": "partial",
   "theorems": [
    "C59_init",
    "C59_run",
    "C59_shutdown",
    "C59_no_crash_partial",
    "C59_run_twice_refuted",
    "C59_run_after_failed_start_refuted",
    "C59_retry_refused_refuted"
   ],
   "note": "holds for clients that Run once after a successful Init; a second Run terminates the program, Run after a failed start is undefined, and a failed start blocks a later Init (refuted)"
  },
  {
   "property": "C60",
   "status": "proved",
   "theorems": [
    "C60_sum",
    "C60_product",
    "C60_quotient",
    "C60_order",
    "C60_difference",
    "C60_safe_difference",
    "C60_log",
    "C60_softmax",
    "C60_weights",
    "C60_bayesian_weights",
    "C60_mix",
    "C60_extract",
    "C60_ppm"
   ],
   "note": "over exact real numbers: rounding and Kahan compensation are not modelled; costs of minus infinity excluded"
  },
  {
   "property": "C61",
   "status": "proved",
   "theorems": [
    "C61_calls_answered",
    "C61_requests_answered",
    "C61_server_answers",
    "C61_default"
   ],
   "note": "all four model kinds, mixed freely; well_made (FactoryProps2.v) states what properly made files are; the requirement on learning with Bayesian mixing is necessary (C17_invalid_state_refuted, C17_negative_symbol_refuted)"
  },
  {
   "property": "C62",
   "status": "proved",
   "theorems": [
    "C62_first_model",
    "C62_static_mixture",
    "C62_bayes_mixture"
   ],
   "note": "queries only, below the limit on cached states (C40 shows that pool recycling breaks it) and with non-negative symbols; stands_for and answers_for (ServerFresh.v) are the vocabulary"
  },
  {
   "property": "C63",
   "status": "proved",
   "theorems": [
    "C63_first_model",
    "C63_static_mixture",
    "C63_bayes_mixture",
    "C63_server"
   ],
   "note": "exact arithmetic; the learnt counts have to fit the counters, and with a Bayesian history learning requests have to be about existing states (as in C61)"
  },
  {
   "property": "C64",
   "status": "proved",
   "theorems": [
    "C64_string_scores",
    "C64_defined",
    "C64_chain_rule",
    "C64_symbols",
    "C64_scoring_learns"
   ],
   "note": "probabilities instead of negative logarithms; the string is a list of code points"
  },
  {
   "property": "C65",
   "status": "partial",
   "theorems": [
    "C65_scores_given",
    "C65_next_state_given",
    "C65_update_accepted_partial",
    "C65_conversation_partial",
    "C65_refused_but_learned_refuted"
   ],
   "note": "GetLMScores/GetNextState for all histories; updates while the pool has room. With a full pool the code can refuse an update for a live state although the models have learned it (C65_refused_but_learned_refuted)."
  },
  {
   "property": "C66",
   "status": "partial",
   "theorems": [
    "C66_k_best",
    "C66_rand_gen_partial",
    "C66_bits_partial",
    "C66_rand_gen_shared_partial",
    "C66_bits_shared_partial",
    "C66_unknown_word_refuted",
    "C66_small_pool_refuted"
   ],
   "note": "k-best for every history; generation and bits per character while the pool has room for the characters. Refuted outside: a word model alone answers an unknown word with an empty list and the client fails; with a full pool a state can be made its own successor and a later update is refused, so generation fails (C66_small_pool_refuted)."
  },
  {
   "property": "C67",
   "status": "proved",
   "theorems": [
    "C67_symbols",
    "C67_exactly",
    "C67_same_symbols"
   ],
   "note": "Word models list only what can follow (C67_words_offer_less)."
  },
  {
   "property": "C68",
   "status": "proved",
   "theorems": [
    "C68_correctly_rounded",
    "C68_close_and_ordered",
    "C68_always_finite",
    "C68_symbol_score_agrees",
    "C68_same_outcomes",
    "C68_probability_above_one_refuted"
   ],
   "note": "the bound 2^53 is needed: beyond it the normalizer loses addends and a probability can exceed one (C68_probability_above_one_refuted). The final -std::log of SymLMScore is not modelled in floating point."
  },
  {
   "property": "C69",
   "status": "proved",
   "theorems": [
    "C69_written_counts_load",
    "C69_round_trip",
    "C69_disorder_refused",
    "C69_wrong_shape_refused"
   ],
   "note": "too many rows are not refused but written out of bounds (C08_too_many_rows_refuted). TextSpec.v says what is written, with the standard library's decimal notation; std::getline, absl::StrSplit and std::stol are modelled in TextModel.v."
  },
  {
   "property": "C70",
   "status": "partial",
   "theorems": [
    "C70_server",
    "C70_exit_code",
    "C70_bad_request",
    "C70_unreachable",
    "C70_connect",
    "C70_k_best",
    "C70_k_best_too_many_refuted",
    "C70_rand_gen_partial",
    "C70_bits_partial",
    "C70_bits_unreachable",
    "C70_utf8_k_best",
    "C70_utf8_rand_gen_partial",
    "C70_utf8_bits_partial"
   ],
   "note": "k best is proved in full for k up to the number of symbols offered (more is an out-of-bounds read: C70_k_best_too_many_refuted); random generation and bits per character need room in the state pool (without it they can fail: C66_small_pool_refuted); a corpus without lines prints 0/0 (C47_empty_text_refuted). The TLS handshake, flag parsing and the protobuf text format are parameters."
  },
  {
   "property": "C71",
   "status": "partial",
   "theorems": [
    "C71_round_trip",
    "C71_injective",
    "C71_split",
    "C71_single",
    "C71_lines",
    "C71_bits_partial",
    "C71_rand_gen_partial",
    "C71_bigram_line_end_refuted"
   ],
   "note": "nisaba::utf8 is external: the functions are RFC 3629 on well-formed text, and an assumption on ill-formed text. The end-to-end theorems need room in the state pool (see C66) and symbols that are characters. The last sentence fails for bigram models: each end of line counts as unknown (C71_bigram_line_end_refuted), since they offer it as the character 0 and the client looks up the empty string."
  },
  {
   "property": "C72",
   "status": "partial",
   "theorems": [
    "C72_exit",
    "C72_language",
    "C72_idempotent",
    "C72_program",
    "C72_clash_refuted"
   ],
   "note": "The language is kept when the labels leave room (tidy: no symbol is the character 0; kept labels that have to move find free control characters). Without that the program exits with 0 and writes a transducer that accepts something else (C72_clash_refuted). OpenFst (Read, Write, Relabel, ArcSort) is as documented; UTF-8 as in C71."
  },
  {
   "property": "C73",
   "status": "partial",
   "theorems": [
    "C73_interval",
    "C73_share",
    "C73_total",
    "C73_corners",
    "C73_agrees",
    "C73_positive",
    "C73_zero_probability_drawn_refuted"
   ],
   "note": "All but the last sentence is proved. A symbol of probability 0 is picked when it is the last one and rounding leaves the running total below the threshold, even if the probabilities sum to exactly 1 (C73_zero_probability_drawn_refuted); C73_positive says this and the threshold 0 are the only cases."
  },
  {
   "property": "C74",
   "status": "partial",
   "theorems": [
    "C74_log_error",
    "C74_count",
    "C74_bounded",
    "C74_stuck",
    "C74_saturates_refuted"
   ],
   "note": "The error bounds are proved for all n. The last part is false of the code: no count grows beyond exp 15 (3.27 million), since one more observation changes the weight by less than half a unit in its last place (C74_bounded, C74_stuck, C74_saturates_refuted). The model is one counter; that learning n times increments the counter of the symbol n times is PpmModel (C23)."
  },
  {
   "property": "C75",
   "status": "proved",
   "theorems": [
    "C75_softmax",
    "C75_weights",
    "C75_bayesian_weights",
    "C75_history",
    "C75_mixture",
    "C75_normalization",
    "C75_hub",
    "C75_sum",
    "C75_doubles",
    "C75_in_numbers"
   ],
   "note": "The bounds are for probabilities and weights that are 0 or at least exp(-L), with 4L + 1 <= B; for doubles B = 600 and u = 2^-43. Smaller probabilities (which may underflow) are outside the statement. The Kahan compensation of SoftmaxRenormalize is not in the rounded model. C75_doubles takes correctly rounded functions; for a libm with larger errors C75_mixture applies with a larger u."
  },
  {
   "property": "C76",
   "status": "proved",
   "theorems": [
    "C76_range",
    "C76_end_of_string",
    "C76_exact",
    "C76_same_as_model",
    "C76_same_as_model_without_back_off",
    "C76_next_characters",
    "C76_boundary",
    "C76_doubles",
    "C76_in_numbers",
    "C76_answer",
    "C76_answer_in_numbers",
    "C76_lost_refuted",
    "C76_not_a_number_refuted"
   ],
   "note": "C76_lost_refuted and C76_not_a_number_refuted refute the stronger reading (relative accuracy for every word) with correctly rounded doubles. The path of back-off states is a list of levels: the cache of FillWeightVector is left out (C53 covers it). C76_answer covers whole answers through the softmax at all three places (inside a word, at its end where it is split into space and end of string, at its start with the end-of-string cost)."
  },
  {
   "property": "C77",
   "status": "proved",
   "theorems": [
    "C77_path",
    "C77_probabilities",
    "C77_exact_distribution",
    "C77_same_as_model",
    "C77_reference",
    "C77_answers",
    "C77_counters",
    "C77_doubles",
    "C77_in_numbers"
   ],
   "note": "C77_answers compares with ExtractLMScores of the model of C20-C29 in exact arithmetic over the reals. The cache, which stores the vector of each state, is left out of the rounded computation (C24 covers it in exact arithmetic), and a state after which nothing was counted takes the vector of its back-off state, so that the path has no such state. The error of the stored counts is that of C74 (C77_counters)."
  },
  {
   "property": "C78",
   "status": "proved",
   "theorems": [
    "C78_scores",
    "C78_answers",
    "C78_orders",
    "C78_exact",
    "C78_floats",
    "C78_in_numbers"
   ],
   "note": "The exact model is that of C30-C33, here over the reals. C78_answers does not ask the weights to be normalised."
  },
  {
   "property": "C79",
   "status": "proved",
   "theorems": [
    "C79_mixture",
    "C79_hub",
    "C79_bayesian_weights",
    "C79_character_model",
    "C79_from_costs",
    "C79_in_numbers",
    "C75_mixture_wide",
    "C79_bigram_model",
    "C79_word_model",
    "C79_word_model_answer"
   ],
   "note": "C79_hub links the exact reply of the hub model (C13) with what the models answer. C79_character_model, C79_from_costs, C79_bigram_model and C79_word_model give the hypotheses for character n-gram models (from C78), PPM models (from C77_answers), bigram models (from C68) and the answers of word models inside a word (from C76); C79_word_model_answer for their answers at any place, at word and text ends too."
  },
  {
   "property": "C80",
   "status": "proved",
   "theorems": [
    "C80_kraft",
    "C80_bits_per_character",
    "C80_server",
    "C80_one_symbol_more_refuted"
   ],
   "note": "Over the real numbers, as C47. C80_server takes the conditions of C66_bits_partial (room in the state pool) for each of the texts. The bound on the alphabet is sharp: over all 143859 Unicode characters and the end of the line the values add up to more than one (C80_one_symbol_more_refuted), since kNumCodepoints does not count the end of the line."
  }
 ]
}